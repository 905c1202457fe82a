(** Octree cells: each axis is a bisection walk of its own; accuracy and drift. *)
From Coq Require Import ZArith Reals Lia Lra.
From Flocq Require Import Relative Core IEEE754.BinarySingleNaN IEEE754.Binary IEEE754.Bits.
From Verif Require Import Base BaseFacts Floats SpecFloat FloatFacts SpecEnc Near32Facts BinaryIO NumFacts WalkFacts QuantFacts.
From Verif Require Import Recording RecordingFacts EncPosition EncFloat OctFacts DriftFacts.
Local Open Scope R_scope.

Definition is_axis (a : vec -> f64) (m : N) : Prop :=
  (a = vx /\ m = 2%N) \/ (a = vy /\ m = 4%N) \/ (a = vz /\ m = 1%N).
Definition axis_bits (m : N) (cells : list N) : list bool := map (fun x => N.land x m =? 0)%N cells.
Definition ax_c (mn mx : f64) : f64 := fdiv (fadd mn mx) f2.
Definition ax_i (mn mx : f64) : f64 := fdiv (fsub mx mn) f4.

Lemma oct_dec_axis : forall a m, is_axis a m -> forall mn mx cells,
  a (oct_dec mn mx cells) = walk_dec (axis_bits m cells) (ax_c (a mn) (a mx)) (ax_i (a mn) (a mx)).
Proof.
  assert (L : forall a m, is_axis a m -> forall cells c ix iy iz,
    a (oct_dec_loop cells c ix iy iz) = walk_dec (axis_bits m cells) (a c) (a (mkVec ix iy iz))).
  { intros a m Ha. induction cells as [|x cells IH]; intros c ix iy iz; [reflexivity|].
    cbn [oct_dec_loop axis_bits map walk_dec]. rewrite IH.
    destruct Ha as [(-> & ->)|[(-> & ->)|(-> & ->)]]; reflexivity. }
  intros a m Ha mn mx cells. unfold oct_dec. rewrite (L a m Ha).
  destruct Ha as [(-> & ->)|[(-> & ->)|(-> & ->)]]; reflexivity.
Qed.
Lemma oct_enc_axis : forall a m, is_axis a m -> forall k v mn mx,
  axis_bits m (oct_enc k v mn mx) = walk_enc k (a v) (ax_c (a mn) (a mx)) (ax_i (a mn) (a mx)).
Proof.
  assert (L : forall a m, is_axis a m -> forall k v c ix iy iz,
    axis_bits m (oct_enc_loop k v c ix iy iz) = walk_enc k (a v) (a c) (a (mkVec ix iy iz))).
  { intros a m Ha. induction k as [|k IH]; intros v c ix iy iz; [reflexivity|].
    cbn [oct_enc_loop axis_bits map walk_enc]. fold (axis_bits m).
    match goal with |- _ :: map ?f ?l = _ => change (map f l) with (axis_bits m l) end.
    rewrite IH. destruct Ha as [(-> & ->)|[(-> & ->)|(-> & ->)]]; cbn [vx vy vz];
      destruct (flt (vx v) (vx c)), (flt (vy v) (vy c)), (flt (vz v) (vz c)); reflexivity. }
  intros a m Ha k v mn mx. unfold oct_enc. rewrite (L a m Ha).
  destruct Ha as [(-> & ->)|[(-> & ->)|(-> & ->)]]; reflexivity.
Qed.

(** ** Accuracy on one axis *)
Lemma ax_state : forall mn mx e, fin64 mn = true -> fin64 mx = true -> val64 mn <= val64 mx ->
  (-1021 <= e <= 1021)%Z -> Rabs (val64 mn) <= bp e -> Rabs (val64 mx) <= bp e ->
  Gfin (ax_c mn mx) /\ Gfin (ax_i mn mx) /\
  Rabs (val64 (ax_c mn mx) - (val64 mn + val64 mx) / 2) <= 2 * bp (e - 53) /\
  Rabs (val64 (ax_i mn mx) - (val64 mx - val64 mn) / 4) <= 2 * (bp (e - 53) / 2).
Proof.
  intros mn mx e Fn Fx Hle He Bn Bx. bp_is (e + 2)%Z e 2%Z. pose proof (bp_pos e) as P.
  apply Rabs_le_inv in Bn, Bx.
  destruct (fadd_err mn mx (e + 2) Fn Fx ltac:(lia)) as (Fa & Ea); [apply Rabs_def1; lra|].
  destruct (fsub_err mx mn (e + 2) Fx Fn ltac:(lia)) as (Fs & Es); [apply Rabs_def1; lra|].
  destruct (fhalf_err _ Fa) as (Fh & Eh). destruct (fquarter_err _ Fs) as (Fq & Eq).
  assert (S : bp (-1075) <= bp (e - 53) / 2) by (rewrite <- bp_P; apply bpow_le; lia).
  replace (e + 2 - 54)%Z with (e - 53 + 1)%Z in * by lia. rewrite bp_S in *.
  unfold ax_c, ax_i. apply Rabs_le_inv in Ea, Es, Eh, Eq. conjs; auto; apply Rabs_le; lra.
Qed.
Lemma ax_room : forall n e mn mx, INR n + 1 < bp 51 -> mn <= mx -> Rabs mn <= bp e -> Rabs mx <= bp e ->
  Rabs ((mn + mx) / 2) + 2 * ((mx - mn) / 4) + 2 * bp (e - 53) + INR n * (bp (e - 53) + 2 * (bp (e - 53) / 2)) < bp (e + 1).
Proof.
  intros n e mn mx Hn Hle Bn Bx. apply Rabs_le_inv in Bn, Bx.
  assert (Rabs ((mn + mx) / 2) <= bp e - (mx - mn) / 2) by (apply Rabs_le; lra).
  assert (Q : (INR n + 1) * bp (e - 52) < bp e).
  { replace e with (51 + (e - 51))%Z at 2 by lia. rewrite bpow_plus.
    apply Rmult_le_0_lt_compat; auto; try apply bpow_ge_0.
    - pose proof (pos_INR n). lra.
    - apply bpow_lt. lia. }
  replace (e - 52)%Z with (e - 53 + 1)%Z in Q by lia. rewrite !bp_S in *. lra.
Qed.
Lemma ax_dec_err : forall l mn mx e, fin64 mn = true -> fin64 mx = true -> val64 mn <= val64 mx ->
  (-1021 <= e <= 1021)%Z -> Rabs (val64 mn) <= bp e -> Rabs (val64 mx) <= bp e -> INR (length l) + 1 < bp 51 ->
  fin64 (walk_dec l (ax_c mn mx) (ax_i mn mx)) = true /\
  Rabs (val64 (walk_dec l (ax_c mn mx) (ax_i mn mx)) - (val64 mn + (val64 mx - val64 mn) * frac l)) <= walk_err (length l) e.
Proof.
  intros l mn mx e Fn Fx Hle He Bn Bx Hn.
  destruct (ax_state mn mx e Fn Fx Hle He Bn Bx) as (G1 & G2 & E1 & E2). pose proof (bp_pos (e - 53)) as U.
  assert (He' : (-1021 <= e <= 1022)%Z) by lia.
  destruct (walk_dec_spec (bp (e - 53)) (bp (e - 53) / 2) (bp (e + 1)) Gfin (fun _ => Gfin)
    ltac:(lra) ltac:(lra) (gen_add e He') (gen_sub e He') (gen_half e He') l _ _ _ _
    (2 * bp (e - 53)) G1 G2 E1 E2) as (G & E).
  - lra.
  - now apply ax_room.
  - split; [exact G|]. unfold walk_err. replace (e - 52)%Z with (e - 53 + 1)%Z by lia. rewrite bp_S.
    replace (val64 mn + (val64 mx - val64 mn) * frac l) with
      ((val64 mn + val64 mx) / 2 - 2 * ((val64 mx - val64 mn) / 4) + 4 * ((val64 mx - val64 mn) / 4) * frac l) by field.
    lra.
Qed.
Lemma ax_enc_err : forall n v mn mx e d, fin64 mn = true -> fin64 mx = true -> val64 mn <= val64 mx ->
  (-1021 <= e <= 1021)%Z -> Rabs (val64 mn) <= bp e -> Rabs (val64 mx) <= bp e -> INR n + 1 < bp 51 ->
  fin64 v = true -> walk_err n e <= d -> val64 mn - d <= val64 v <= val64 mx + d ->
  Rabs (val64 v - (val64 mn + (val64 mx - val64 mn) * frac (walk_enc n v (ax_c mn mx) (ax_i mn mx))))
    <= (val64 mx - val64 mn) * half_pow (S n) + d.
Proof.
  intros n v mn mx e d Fn Fx Hle He Bn Bx Hn Fv Hd Hv.
  destruct (ax_state mn mx e Fn Fx Hle He Bn Bx) as (G1 & G2 & E1 & E2). pose proof (bp_pos (e - 53)) as U.
  assert (He' : (-1021 <= e <= 1022)%Z) by lia.
  unfold walk_err in Hd. replace (e - 52)%Z with (e - 53 + 1)%Z in Hd by lia. rewrite bp_S in Hd.
  pose proof (walk_enc_spec (bp (e - 53)) (bp (e - 53) / 2) (bp (e + 1)) Gfin (fun _ => Gfin)
    ltac:(lra) ltac:(lra) (gen_add e He') (gen_sub e He') (gen_half e He') n v _ _ _ _
    (2 * bp (e - 53)) d _ G1 G2 (fun _ H => H) (xval_finite _ Fv) E1 E2 ltac:(lra)
    (ax_room n e _ _ Hn Hle Bn Bx) ltac:(lra) ltac:(lra)) as E.
  cbn [half_pow].
  match goal with |- Rabs (_ - (_ + _ * ?f)) <= _ =>
    replace (val64 mn + (val64 mx - val64 mn) * f) with
      ((val64 mn + val64 mx) / 2 - 2 * ((val64 mx - val64 mn) / 4) + 4 * ((val64 mx - val64 mn) / 4) * f) by field end.
  lra.
Qed.
Theorem oct_axis_accuracy : forall a m, is_axis a m -> forall k v mn mx e d,
  fin64 (a mn) = true -> fin64 (a mx) = true -> val64 (a mn) <= val64 (a mx) ->
  (-1021 <= e <= 1021)%Z -> Rabs (val64 (a mn)) <= bp e -> Rabs (val64 (a mx)) <= bp e -> INR k + 1 < bp 51 ->
  fin64 (a v) = true -> walk_err k e <= d -> val64 (a mn) - d <= val64 (a v) <= val64 (a mx) + d ->
  fin64 (a (oct_dec mn mx (oct_enc k v mn mx))) = true /\
  Rabs (val64 (a (oct_dec mn mx (oct_enc k v mn mx))) - val64 (a v)) <=
    (val64 (a mx) - val64 (a mn)) * half_pow (S k) + d + walk_err k e.
Proof.
  intros a m Ha k v mn mx e d Fn Fx Hle He Bn Bx Hn Fv Hd Hv.
  rewrite (oct_dec_axis a m Ha), (oct_enc_axis a m Ha).
  pose proof (ax_enc_err k (a v) _ _ e d Fn Fx Hle He Bn Bx Hn Fv Hd Hv) as E1.
  set (l := walk_enc k (a v) (ax_c (a mn) (a mx)) (ax_i (a mn) (a mx))) in *.
  assert (L : length l = k) by apply walk_enc_len.
  destruct (ax_dec_err l _ _ e Fn Fx Hle He Bn Bx) as (F & E2); [now rewrite L|]. rewrite L in E2.
  split; [exact F|]. apply Rabs_le_inv in E1, E2. apply Rabs_le. lra.
Qed.

(** ** Drift of octree-coded positions, one axis at a time *)
Fixpoint diffs (p : f64) (l : list f64) : list f64 :=
  match l with [] => [] | t :: l' => fsub t p :: diffs t l' end.
Lemma step_range_axis : forall a m, is_axis a m -> forall l p mn mx,
  (a (fst (step_range p l mn mx)), a (snd (step_range p l mn mx))) = val_range (diffs (a p) (map a l)) (a mn) (a mx).
Proof.
  intros a m Ha. induction l as [|t l IH]; intros p mn mx; [reflexivity|].
  cbn [step_range map diffs val_range]. cbv zeta. rewrite IH.
  destruct Ha as [(-> & ->)|[(-> & ->)|(-> & ->)]]; reflexivity.
Qed.
Lemma oct_path_axis : forall a m, is_axis a m -> forall k mn mx mn' mx' l q r,
  map a (oct_path mn' mx' r (oct_cells k mn mx q l)) =
  dpath (list bool) (fun v => walk_enc k v (ax_c (a mn) (a mx)) (ax_i (a mn) (a mx)))
    (fun b => walk_dec b (ax_c (a mn) (a mx)) (ax_i (a mn) (a mx)))
    (fun b => walk_dec b (ax_c (a mn') (a mx')) (ax_i (a mn') (a mx'))) (map a l) (a q) (a r).
Proof.
  intros a m Ha k mn mx mn' mx'. induction l as [|t l IH]; intros q r; [reflexivity|].
  cbn [oct_cells oct_path map dpath]. cbv zeta. rewrite IH.
  assert (V : forall x y, a (vadd x y) = fadd (a x) (a y)).
  { intros. destruct Ha as [(-> & ->)|[(-> & ->)|(-> & ->)]]; reflexivity. }
  assert (V' : forall x y, a (vsub x y) = fsub (a x) (a y)).
  { intros. destruct Ha as [(-> & ->)|[(-> & ->)|(-> & ->)]]; reflexivity. }
  rewrite !V, !(oct_dec_axis a m Ha), !(oct_enc_axis a m Ha), !V'. reflexivity.
Qed.
Lemma diffs_spec : forall l p e L H, fin64 p = true -> Rabs (val64 p) <= bp e -> (-1021 <= e <= 1000)%Z ->
  Forall (fun t => fin64 t = true /\ Rabs (val64 t) <= bp e) l -> gaps_in L H p l ->
  Forall (fun d => fin64 d = true /\ L - bp (e - 52) <= val64 d <= H + bp (e - 52)) (diffs p l) /\
  forall mn mx, (forall d, In d (diffs p l) -> mn <= val64 d <= mx) -> steps_in mn mx (bp (e - 52)) (val64 p) l.
Proof.
  induction l as [|t l IH]; intros p e L H Fp Bp He Hl Hg; cbn [diffs steps_in]; [split; [constructor | auto]|].
  inversion Hl as [|? ? (Ft & Bt) Hl']; subst. destruct Hg as (Hg & Hg').
  assert (Bd : Rabs (val64 t - val64 p) < bp (e + 2)).
  { eapply Rle_lt_trans; [apply Rabs_triang|]. rewrite Rabs_Ropp. bp_is (e + 2)%Z e 2%Z. pose proof (bp_pos e). lra. }
  destruct (fsub_err t p (e + 2) Ft Fp ltac:(lia) Bd) as (Fd & Ed).
  replace (e + 2 - 54)%Z with (e - 52)%Z in Ed by lia. apply Rabs_le_inv in Ed.
  destruct (IH t e L H Ft Bt He Hl' Hg') as (I1 & I2). split.
  - constructor; [split; [assumption | lra] | exact I1].
  - intros mn mx Hin. pose proof (Hin _ (or_introl eq_refl)). split; [lra|]. apply I2. intros d Hd. apply Hin. now right.
Qed.
Lemma convex : forall a b f c, 0 <= f <= 1 -> Rabs a <= c -> Rabs b <= c -> Rabs (a * (1 - f) + b * f) <= c.
Proof.
  intros a b f c Hf Ha Hb. eapply Rle_trans; [apply Rabs_triang|].
  rewrite !Rabs_mult, (Rabs_pos_eq f), (Rabs_pos_eq (1 - f)) by lra.
  assert (Rabs a * (1 - f) <= c * (1 - f)) by (apply Rmult_le_compat_r; lra).
  assert (Rabs b * f <= c * f) by (apply Rmult_le_compat_r; lra). lra.
Qed.

Theorem oct_drift : forall a m, is_axis a m -> forall k p0 rest e L H G, rest <> [] -> (k <= 16)%nat -> (-100 <= e <= 126)%Z ->
  Forall (fun p => fin64 (a p) = true /\ Rabs (val64 (a p)) <= bp e) (p0 :: rest) ->
  gaps_in L H (a p0) (map a rest) -> Rabs L <= G -> Rabs H <= G -> INR (length rest) * G <= bp e -> INR (length rest) <= bp 40 ->
  forall j p, nth_error (p0 :: rest) j = Some p ->
  exists p', nth_error (oct_values k (p0 :: rest)) j = Some p' /\ fin64 (a p') = true /\
    Rabs (val64 (a p') - val64 (a p)) <=
      bp (e - 25) + INR j * ((H - L) * half_pow (S k) + G / 16777216 + bp (e - 44)).
Proof.
  intros a m Ha k p0 rest e L H G Hne Hk He Hall Hg HL HH HD Hn j p Hj.
  inversion Hall as [|? ? (F0 & B0) Hl]; subst.
  assert (N1 : 1 <= INR (length rest)).
  { change 1 with (INR 1). apply le_INR. destruct rest; [easy|]. cbn. lia. }
  assert (G0 : 0 <= G) by (pose proof (Rabs_pos L); lra).
  assert (Ge : G <= bp e). { eapply Rle_trans; [|exact HD]. rewrite <- (Rmult_1_l G) at 1. now apply Rmult_le_compat_r. }
  assert (Hl' : Forall (fun t => fin64 t = true /\ Rabs (val64 t) <= bp e) (map a rest)).
  { apply Forall_map. exact Hl. }
  destruct (diffs_spec (map a rest) (a p0) e L H F0 B0 ltac:(lia) Hl' Hg) as (D1 & D2).
  destruct (val_range_finite (diffs (a p0) (map a rest))) as (mn & mx & Er & In1 & In2 & Fn & Fm & Hr).
  { destruct rest; [easy | discriminate]. }
  { eapply Forall_impl; [|exact D1]. cbn. tauto. }
  rewrite Forall_forall in D1. destruct (D1 _ In1) as (_ & R1). destruct (D1 _ In2) as (_ & R2).
  pose proof (Hr _ In2) as Hle. destruct Hle as (Hle & _).
  specialize (D2 _ _ Hr).
  assert (EV : oct_values k (p0 :: rest) = let (n, x) := step_range p0 rest vec_pinf vec_minf in
    vmap near32 p0 :: oct_path (vmap near32 n) (vmap near32 x) (vmap near32 p0) (oct_cells k n x p0 rest)).
  { destruct rest; [easy | reflexivity]. }
  pose proof (step_range_axis a m Ha rest p0 vec_pinf vec_minf) as SR.
  assert (A1 : a vec_pinf = fpinf) by (destruct Ha as [(-> & ->)|[(-> & ->)|(-> & ->)]]; reflexivity).
  assert (A2 : a vec_minf = fminf) by (destruct Ha as [(-> & ->)|[(-> & ->)|(-> & ->)]]; reflexivity).
  assert (A3 : forall v, a (vmap near32 v) = near32 (a v)) by (intro; destruct Ha as [(-> & ->)|[(-> & ->)|(-> & ->)]]; reflexivity).
  rewrite A1, A2, Er in SR. destruct (step_range p0 rest vec_pinf vec_minf) as [vn vm]. cbn [fst snd] in SR.
  injection SR as SR1 SR2. rewrite EV. clear EV.
  destruct (near32_err (a p0) e F0 B0) as (_ & Fr & _ & _ & Er0 & Br); [lia|].
  bp_is (e - 25)%Z (e - 52)%Z 27%Z. bp_is (e - 44)%Z (e - 52)%Z 8%Z. bp_is e (e - 52)%Z 52%Z.
  bp_is (e + 1)%Z (e - 52)%Z 53%Z. bp_is (e + 3)%Z (e - 52)%Z 55%Z. bp_is (e - 51)%Z (e - 52)%Z 1%Z.
  pose proof (bp_pos (e - 52)) as P.
  pose proof (Rabs_le_inv _ _ HL) as HL'. pose proof (Rabs_le_inv _ _ HH) as HH'.
  assert (Bn' : Rabs (val64 mn) <= G + bp (e - 52)) by (apply Rabs_le; lra).
  assert (Bm' : Rabs (val64 mx) <= G + bp (e - 52)) by (apply Rabs_le; lra).
  assert (Bn : Rabs (val64 mn) <= bp (e + 1)) by lra.
  assert (Bm : Rabs (val64 mx) <= bp (e + 1)) by lra.
  destruct (near32_err mx (e + 1) Fm Bm) as (_ & Fx & _ & Rx & _ & Bx); [lia|].
  destruct (near32_err mn (e + 1) Fn Bn) as (_ & Fy & _ & Ry & _ & By); [lia|].
  assert (Hle' : val64 (near32 mn) <= val64 (near32 mx)).
  { rewrite Rx, Ry. apply round_le; auto with typeclass_instances. }
  pose proof (rnd32_rel (val64 mx)) as Relx. rewrite <- Rx in Relx.
  pose proof (rnd32_rel (val64 mn)) as Rely. rewrite <- Ry in Rely.
  change (bp (-24)) with (/ 16777216) in Relx, Rely.
  assert (T150 : bp (-150) <= 4 * bp (e - 52)).
  { change 4 with (bp 2). rewrite <- bpow_plus. apply bpow_le. lia. }
  assert (Relx' : Rabs (val64 (near32 mx) - val64 mx) <= G / 16777216 + 4.5 * bp (e - 52)) by lra.
  assert (Rely' : Rabs (val64 (near32 mn) - val64 mn) <= G / 16777216 + 4.5 * bp (e - 52)) by lra.
  clear Relx Rely.
  destruct j as [|j]; cbn [nth_error] in *.
  { injection Hj as <-. exists (vmap near32 p0). rewrite !A3. conjs; auto. cbn [INR]. lra. }
  pose proof (oct_path_axis a m Ha k vn vm (vmap near32 vn) (vmap near32 vm) rest p0 (vmap near32 p0)) as OP.
  rewrite !A3, SR1, SR2 in OP.
  set (enc := fun v => walk_enc k v (ax_c mn mx) (ax_i mn mx)) in *.
  set (dec := fun b => walk_dec b (ax_c mn mx) (ax_i mn mx)) in *.
  set (dec' := fun b => walk_dec b (ax_c (near32 mn) (near32 mx)) (ax_i (near32 mn) (near32 mx))) in *.
  assert (Lk : forall v, length (enc v) = k) by (intro; apply walk_enc_len).
  assert (Nk : 0 <= INR k <= 16).
  { split; [apply pos_INR|]. apply le_INR in Hk. rewrite (INR_IZR_INZ 16) in Hk. exact Hk. }
  assert (W : walk_err k (e + 1) <= 34 * bp (e - 52)).
  { unfold walk_err. replace (e + 1 - 52)%Z with (e - 51)%Z by lia. replace (bp (e - 51)) with (2 * bp (e - 52)) by lra.
    replace ((INR k + 1) * (2 * bp (e - 52))) with ((2 * (INR k + 1)) * bp (e - 52)) by ring.
    apply Rmult_le_compat_r; lra. }
  assert (K51 : INR k + 1 < bp 51) by (change (bp 51) with 2251799813685248; lra).
  assert (Hdec : forall v d, fin64 v = true -> 34 * bp (e - 52) <= d -> val64 mn - d <= val64 v <= val64 mx + d ->
    Rabs (val64 (dec (enc v)) - val64 v) <= (val64 mx - val64 mn) * half_pow (S k) + d + 34 * bp (e - 52)).
  { intros v d Fv Hd Hv.
    pose proof (ax_enc_err k v mn mx (e + 1) d Fn Fm Hle ltac:(lia) Bn Bm K51 Fv ltac:(lra) Hv) as E1.
    destruct (ax_dec_err (enc v) mn mx (e + 1) Fn Fm Hle ltac:(lia) Bn Bm) as (_ & E2); [now rewrite Lk|].
    fold (enc v) in E1. fold (dec (enc v)) in E2. rewrite Lk in E2. apply Rabs_le_inv in E1, E2. apply Rabs_le. lra. }
  assert (Hfin : forall v, fin64 v = true ->
    fin64 (dec (enc v)) = true /\ fin64 (dec' (enc v)) = true /\
    Rabs (val64 (dec (enc v))) <= G + G / 16777216 + 64 * bp (e - 52) /\
    Rabs (val64 (dec' (enc v))) <= G + G / 16777216 + 64 * bp (e - 52) /\
    Rabs (val64 (dec' (enc v)) - val64 (dec (enc v))) <= G / 16777216 + 73 * bp (e - 52)).
  { intros v _.
    destruct (ax_dec_err (enc v) mn mx (e + 1) Fn Fm Hle ltac:(lia) Bn Bm) as (X1 & X2); [now rewrite Lk|].
    destruct (ax_dec_err (enc v) (near32 mn) (near32 mx) (e + 1) Fy Fx Hle' ltac:(lia) By Bx) as (X4 & X5); [now rewrite Lk|].
    fold (dec (enc v)) in X1, X2. fold (dec' (enc v)) in X4, X5. rewrite Lk in X2, X5.
    pose proof (frac_range (enc v)) as Rf. pose proof (half_pow_pos (S (length (enc v)))) as Hp.
    set (f := frac (enc v)) in *.
    pose proof (convex _ _ f _ ltac:(lra) Bn' Bm') as C1.
    pose proof (convex _ _ f _ ltac:(lra) Rely' Relx') as C2.
    apply Rabs_le_inv in X2, X5, C1, C2.
    conjs; auto; apply Rabs_le; lra. }
  destruct (drift (list bool) enc dec dec' (val64 mn) (val64 mx) ((val64 mx - val64 mn) * half_pow (S k)) (34 * bp (e - 52))
    (G / 16777216 + 73 * bp (e - 52)) (G + G / 16777216 + 64 * bp (e - 52)) (bp (e - 52)) (e + 2)
    ltac:(lra) ltac:(lra) ltac:(lra) ltac:(lia) Hdec Hfin
    (map a rest) (a p0) (near32 (a p0)) (val64 (a p0)) 0 (bp (e - 25)) (bp e) (bp e) F0 Fr Hl' D2) with (j := j) (t := a p)
    as (t' & E1 & E2 & E3); auto.
  - unfold Rminus. rewrite Rplus_opp_r, Rabs_R0. lra.
  - rewrite map_length. replace (e + 2 - 53)%Z with (e - 51)%Z by lia. replace (e + 2 + 1)%Z with (e + 3)%Z by lia.
    assert (Q : INR (length rest) * (66 * bp (e - 52)) <= bp 40 * (66 * bp (e - 52))) by (apply Rmult_le_compat_r; lra).
    change (bp 40) with 1099511627776 in Q.
    replace (INR (length rest) * (G + G / 16777216 + 64 * bp (e - 52) + bp (e - 51))) with
      (INR (length rest) * G + INR (length rest) * G / 16777216 + INR (length rest) * (66 * bp (e - 52)))
      by (replace (bp (e - 51)) with (2 * bp (e - 52)) by lra; lra).
    lra.
  - lra.
  - rewrite nth_error_map, Hj. reflexivity.
  - rewrite <- OP, nth_error_map in E1.
    destruct (nth_error (oct_path (vmap near32 vn) (vmap near32 vm) (vmap near32 p0) (oct_cells k vn vm p0 rest)) j) as [p'|] eqn:E4;
      [|discriminate]. injection E1 as E1.
    exists p'. rewrite E1. conjs; auto. eapply Rle_trans; [exact E3|]. unfold rate.
    replace (e + 2 - 53)%Z with (e - 51)%Z by lia. rewrite Rplus_0_l. apply Rplus_le_compat_l.
    apply Rmult_le_compat_l; [apply pos_INR|].
    assert (HP : 0 < half_pow (S k) <= / 2).
    { split; [apply half_pow_pos|]. rewrite half_pow_bp. change (/ 2) with (bp (-1)). apply bpow_le. lia. }
    assert ((val64 mx - val64 mn) * half_pow (S k) <= (H - L + 2 * bp (e - 52)) * half_pow (S k)) by (apply Rmult_le_compat_r; lra).
    assert (2 * bp (e - 52) * half_pow (S k) <= 2 * bp (e - 52) * / 2) by (apply Rmult_le_compat_l; lra).
    lra.
Qed.
