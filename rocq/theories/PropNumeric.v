(** Properties C11, C12, C14, C16 and C41: accuracy of the quantised encodings.
    [fin64] says that a float is finite, [val64] is its real value and
    [bpow radix2 e] is two to the [e]. *)
From Coq Require Import ZArith Reals Lia Lra Sorted.
From Flocq Require Import Core IEEE754.BinarySingleNaN IEEE754.Binary IEEE754.Bits.
From Verif Require Import Base BaseFacts IO Spec IOFacts Floats SpecFloat FloatFacts ByteFacts BinaryIO BinaryIOFacts.
From Verif Require Import Recording SpecRec RecordingFacts Encoding SpecEnc Near32Facts.
From Verif Require Import EncPosition EncEuler EncFloat EncNumFacts OctFacts EncLawful StreamFacts TimeIO TimeFacts.
From Verif Require Import NumFacts WalkFacts QuantFacts DriftFacts OctWalkFacts PropStreams.
Local Open Scope R_scope.

Definition bounded (e : Z) (x : f64) : Prop := fin64 x = true /\ Rabs (val64 x) <= bpow radix2 e.
Definition axes : list (vec -> f64) := [vx; vy; vz].

Lemma nth_error_combine : forall {A B} (l : list A) (m : list B) i, length l = length m ->
  nth_error (combine l m) i =
  match nth_error l i, nth_error m i with Some a, Some b => Some (a, b) | _, _ => None end.
Proof.
  intros A B. induction l as [|a l IH]; intros [|b m] [|i] H; try discriminate; try reflexivity.
  cbn. apply IH. now injection H.
Qed.

(** ** C11 *)
Definition angle_ok (a : f64) : Prop := fin64 a = true /\ 0 <= val64 a < 360.
Definition angle_near (a a' : f64) : Prop :=
  fin64 a' = true /\ Rabs (val64 a' - val64 a) <= 360 / 2 ^ 17 /\ 0 < val64 a' < 360.
Definition euler16_input (c : coll) (l : list (f64 * vec)) : Prop :=
  c_body c = BEuler l /\ (2 <= length l)%nat /\
  Forall (fun x => Forall (fun a => angle_ok (a (snd x))) axes) l.

Theorem C11_euler16 : forall cs, Forall (fun c => exists l, euler16_input c l) cs ->
  exists h ss, e_encode (euler_encoder 2) cs = Ok (h, ss, None) /\ length ss = length cs /\
  forall i c s l, nth_error cs i = Some c -> nth_error ss i = Some s -> c_body c = BEuler l ->
    (lenN s <= 2 ^ 44)%N ->
    exists l', decodes (euler_encoder 2) h s c (mkColl (c_name c) (BEuler l')) /\
      Forall2 (fun x x' => fst x' = fst x /\ Forall (fun a => angle_near (a (snd x)) (a (snd x'))) axes) l l' /\
      e_encode (euler_encoder 2) [mkColl (c_name c) (BEuler l')] = Ok (h, [s], None).
Proof.
  intros cs Hcs.
  destruct (euler_lawful 2 ltac:(lia) cs) as (h & ss & E & L & D).
  { eapply Forall_impl; [|exact Hcs]. intros [n b] (l & Hb & _). cbn in Hb. subst. split; [exact I | reflexivity]. }
  assert (Eh : h = [] /\ map_res (euler_encode1 2) cs = Ok ss).
  { cbn [e_encode euler_encoder] in E. unfold euler_encode in E. apply bind_ok in E as (x & E1 & E).
    apply ok_inj in E. injection E as <- <-. auto. }
  destruct Eh as (-> & Es).
  exists [], ss. split; [exact E|]. split; [exact L|]. intros i c s l Hc Hs Hb Hl.
  rewrite Forall_forall in Hcs. destruct (Hcs c (nth_error_In _ _ Hc)) as (l0 & Hb0 & H2 & Hang).
  rewrite Hb in Hb0. injection Hb0 as <-.
  exists (map (fun x => (fst x, vmap angle16 (snd x))) l).
  assert (Ev : euler_values 2 (map snd l) = map (vmap angle16) (map snd l)).
  { destruct l as [|x [|y l]]; cbn in H2; try lia. reflexivity. }
  split; [|split].
  - unfold decodes. rewrite (D ltac:(discriminate) i c s Hc Hs Hl (c_times c) eq_refl). do 2 f_equal. f_equal.
    unfold euler_post, c_times. rewrite Hb, Ev. do 2 f_equal. apply combine_map.
  - clear -Hang. induction Hang as [|x l Hx Hang IH]; cbn [map]; constructor; auto. cbn [fst snd]. split; [reflexivity|].
    unfold axes in *. inversion Hx as [|? ? (F1 & R1) Hx1]; subst. inversion Hx1 as [|? ? (F2 & R2) Hx2]; subst.
    inversion Hx2 as [|? ? (F3 & R3) _]; subst. cbn [vmap vx vy vz] in *.
    pose proof (angle16_ok _ F1 R1) as (A1 & A2 & A3 & _). pose proof (angle16_ok _ F2 R2) as (B1 & B2 & B3 & _).
    pose proof (angle16_ok _ F3 R3) as (D1 & D2 & D3 & _). replace 131072 with (2 ^ 17) in * by lra.
    repeat (apply Forall_cons || apply Forall_nil); unfold angle_near; cbn [vmap vx vy vz]; auto.
  - assert (Hs' : euler_encode1 2 c = Ok s).
    { clear -Es Hc Hs. revert cs ss Es Hc Hs. induction i as [|i IH]; intros [|c0 cs] ss Es Hc Hs; try discriminate;
        cbn [map_res] in Es; apply bind_ok in Es as (y & E1 & Es); apply bind_ok in Es as (ys & E2 & Es);
        apply ok_inj in Es; subst; cbn [nth_error] in *.
      - injection Hc as <-. injection Hs as <-. exact E1.
      - eapply IH; eauto. }
    cbn [e_encode euler_encoder]. unfold euler_encode. cbn [map_res].
    assert (E2 : euler_encode1 2 (mkColl (c_name c) (BEuler (map (fun x => (fst x, vmap angle16 (snd x))) l))) = Ok s).
    { rewrite <- Hs'. unfold euler_encode1, euler_caps. rewrite Hb. cbn [c_body]. do 2 f_equal.
      unfold encode_raw16.
      assert (Eq : flat_map enc16v (map snd (map (fun x => (fst x, vmap angle16 (snd x))) l)) = flat_map enc16v (map snd l)).
      { clear -Hang. induction Hang as [|x l Hx Hang IH]; [reflexivity|]. cbn [map flat_map]. rewrite IH. f_equal.
        unfold axes in *. inversion Hx as [|? ? (F1 & R1) Hx1]; subst. inversion Hx1 as [|? ? (F2 & R2) Hx2]; subst.
        inversion Hx2 as [|? ? (F3 & R3) _]; subst. unfold enc16v. cbn [snd vmap vx vy vz].
        destruct (angle16_ok _ F1 R1) as (_ & _ & _ & ->). destruct (angle16_ok _ F2 R2) as (_ & _ & _ & ->).
        now destruct (angle16_ok _ F3 R3) as (_ & _ & _ & ->). }
      destruct l as [|x [|y l]]; cbn in H2; try lia. exact Eq. }
    rewrite E2. reflexivity.
Qed.
Print Assumptions C11_euler16.

Definition fz (z : Z) : f64 := f64_of_Z z.
Ltac fz_ok := unfold fz; match goal with |- context [f64_of_Z ?z] =>
  destruct (val_f64_of_Z z ltac:(lia)) as (?F & ?E); rewrite ?F, ?E; clear F E end.
Definition sample_eulers : list (f64 * vec) :=
  [(fz 0, mkVec (fz 0) (fz 359) (fz 90)); (fz 1, mkVec (fz 180) (fz 1) (fz 45)); (fz 2, mkVec (fz 7) (fz 7) (fz 7))].
Example C11_example :
  euler16_input (mkColl [] (BEuler sample_eulers)) sample_eulers /\
  exists h s, e_encode (euler_encoder 2) [mkColl [] (BEuler sample_eulers)] = Ok (h, [s], None) /\
    lenN s = 19%N.
Proof.
  split.
  - split; [reflexivity|]. split; [cbn; lia|]. unfold sample_eulers, axes.
    repeat (apply Forall_cons || apply Forall_nil); cbn [snd vx vy vz]; split; fz_ok; try reflexivity; lra.
  - eexists. eexists. split; [vm_compute; reflexivity | reflexivity].
Qed.

(** The lone capture is stored as three float32s instead; and an angle outside
    [0,360) can come back a full turn away. *)
Theorem C11_wraps_refuted : ~ (forall a, fin64 a = true -> Rabs (val64 (angle16 a) - val64 a) <= 360 / 2 ^ 17).
Proof.
  intro H. specialize (H (fz 360) (proj1 (val_f64_of_Z 360 ltac:(lia)))).
  destruct (val_f64_of_Z 360 ltac:(lia)) as (_ & E). unfold fz in H. rewrite E in H.
  assert (B : bits_of_b64 (angle16 (f64_of_Z 360)) = bits_of_b64 (B754_finite 53 1024 false 6333186975989760 (-61) eq_refl))
    by (vm_compute; reflexivity).
  apply C09_float_is_its_bits in B. rewrite B in H. unfold B2R, F2R in H. cbn [Fnum Fexp cond_Zopp] in H.
  change (bpow radix2 (-61)) with (/ 2305843009213693952) in H.
  rewrite Rabs_left in H; [|change (IZR (cond_Zopp false 6333186975989760)) with 6333186975989760; lra].
  change (IZR (cond_Zopp false 6333186975989760)) with 6333186975989760 in H. lra.
Qed.
Print Assumptions C11_wraps_refuted.

(** ** C12 *)
Definition float16_input (e : Z) (c : coll) (l : list (f64 * f64)) : Prop :=
  c_body c = BFloat l /\ l <> [] /\ Forall (fun x => bounded e (snd x)) l.

(** BST16 is technique 2.  [lo] and [hi] are any bounds of the stored values,
    in particular their smallest and largest; the cell width is (hi-lo)/2^16. *)
Theorem C12_float16 : forall e, (-125 <= e <= 126)%Z ->
  forall cs, Forall (fun c => exists l, float16_input e c l) cs ->
  exists h ss, e_encode (float_encoder 2) cs = Ok (h, ss, None) /\ length ss = length cs /\
  forall i c s l, nth_error cs i = Some c -> nth_error ss i = Some s -> c_body c = BFloat l ->
    (lenN s <= 2 ^ 44)%N ->
    exists l', decodes (float_encoder 2) h s c (mkColl (c_name c) (BFloat l')) /\
      map fst l' = map fst l /\
      (forall lo hi, (forall x, In x l -> lo <= val64 (snd x) <= hi) ->
       Forall2 (fun x x' => fin64 (snd x') = true /\
         Rabs (val64 (snd x') - val64 (snd x)) <= (hi - lo) / 2 ^ 17 + bpow radix2 (e - 22)) l l') /\
      (forall j k x x' y y', nth_error l j = Some x -> nth_error l k = Some y ->
         nth_error l' j = Some x' -> nth_error l' k = Some y' ->
         val64 (snd x) <= val64 (snd y) -> val64 (snd x') <= val64 (snd y')).
Proof.
  intros e He cs Hcs.
  destruct (float_lawful 2 ltac:(lia) cs) as (h & ss & E & L & D).
  { eapply Forall_impl; [|exact Hcs]. intros [n b] (l & Hb & _). cbn in Hb. subst. split; [exact I | reflexivity]. }
  exists h, ss. split; [exact E|]. split; [exact L|]. intros i c s l Hc Hs Hb Hl.
  assert (Hh : (lenN h <= 2 ^ 44)%N).
  { cbn [e_encode float_encoder] in E. unfold float_encode in E. destruct (float_streams 2 cs).
    - apply ok_inj in E. injection E as <- _. discriminate.
    - apply ok_inj in E. discriminate E. }
  rewrite Forall_forall in Hcs. destruct (Hcs c (nth_error_In _ _ Hc)) as (l0 & Hb0 & Hne & Hv).
  rewrite Hb in Hb0. injection Hb0 as <-.
  assert (Hfin : Forall (fun v => fin64 v = true) (map snd l)).
  { apply Forall_map. eapply Forall_impl; [|exact Hv]. intros x (F & _). exact F. }
  destruct (val_range_finite (map snd l)) as (mn & mx & Er & I1 & I2 & F1 & F2 & Hr); auto.
  { destruct l; [easy | discriminate]. }
  assert (Hle : val64 mn <= val64 mx) by apply (Hr mx I2).
  assert (Hin : forall v, In v (map snd l) -> Rabs (val64 v) <= bp e).
  { intros v H. apply in_map_iff in H as (x & <- & H). rewrite Forall_forall in Hv. now apply Hv. }
  exists (map (fun x => (fst x, float16 mn mx (snd x))) l). split; [|split; [|split]].
  - unfold decodes. rewrite (D Hh i c s Hc Hs Hl (c_times c) eq_refl). do 2 f_equal. f_equal.
    unfold float_post, c_times. rewrite Hb. do 2 f_equal.
    change (float_values 2 (map snd l)) with
      (map (float16 (fst (val_range (map snd l) fpinf fminf)) (snd (val_range (map snd l) fpinf fminf))) (map snd l)).
    rewrite Er. apply combine_map.
  - rewrite map_map. reflexivity.
  - intros lo hi Hlh. apply in_map_iff in I1 as (xn & En & I1'). apply in_map_iff in I2 as (xm & Em & I2').
    pose proof (Hlh _ I1') as B1. pose proof (Hlh _ I2') as B2. rewrite En in B1. rewrite Em in B2.
    assert (A : forall x, In x l -> fin64 (float16 mn mx (snd x)) = true /\
      Rabs (val64 (float16 mn mx (snd x)) - val64 (snd x)) <= (hi - lo) / 2 ^ 17 + bp (e - 22)).
    { intros x Hx. assert (Hm : In (snd x) (map snd l)) by now apply in_map.
      rewrite Forall_forall in Hfin.
      destruct (float16_accuracy mn mx e F1 F2 Hle) with (v := snd x) (x := val64 (snd x)) as (G1 & G2); auto.
      - apply Hin. rewrite <- En. now apply in_map.
      - apply Hin. rewrite <- Em. now apply in_map.
      - apply xval_finite. now apply Hfin.
      - split; [assumption|]. replace (2 ^ 17) with 131072 by lra. lra. }
    clear -A. induction l as [|x l IH]; cbn [map]; constructor.
    + cbn [snd]. apply A. now left.
    + apply IH. intros y Hy. apply A. now right.
  - intros j k x x' y y' Hx Hy Hx' Hy' Hxy. rewrite nth_error_map, Hx in Hx'. rewrite nth_error_map, Hy in Hy'.
    injection Hx' as <-. injection Hy' as <-. cbn [snd].
    apply in_map_iff in I1 as (xn & En & I1'). apply in_map_iff in I2 as (xm & Em & I2').
    apply (float16_order mn mx e F1 F2 Hle); auto.
    + apply Hin. rewrite <- En. now apply in_map.
    + apply Hin. rewrite <- Em. now apply in_map.
    + apply fle_iff. exists (val64 (snd x)), (val64 (snd y)). rewrite Forall_forall in Hfin.
      conjs; auto; apply xval_finite, Hfin, in_map; eapply nth_error_In; eassumption.
Qed.
Print Assumptions C12_float16.

(** The same for the two functions underneath, every byte width [k] and every
    range start, start + width.  Order is exact as long as the cells are wider
    than the rounding of the walk. *)
Theorem C12_bst_any_width : forall (k : nat) v start width e,
  fin64 start = true -> fin64 width = true -> 0 <= val64 width -> (-1021 <= e <= 1022)%Z ->
  Rabs (val64 start) + val64 width <= bpow radix2 e -> INR (8 * k) + 1 < bpow radix2 51 ->
  fin64 v = true -> val64 start <= val64 v <= val64 start + val64 width ->
  length (bst_enc k v start width) = k /\
  fin64 (bst_dec start width (bst_enc k v start width)) = true /\
  Rabs (val64 (bst_dec start width (bst_enc k v start width)) - val64 v) <=
    val64 width / 2 ^ (8 * k + 1) + 2 * (INR (8 * k) + 1) * bpow radix2 (e - 52).
Proof.
  intros k v start width e Fs Fd D0 He Hb Hn Fv Hv. pose proof (bp_pos (e - 52)).
  assert (W : 0 <= walk_err (8 * k) e).
  { unfold walk_err. apply Rmult_le_pos; [pose proof (pos_INR (8 * k)); lra | lra]. }
  split; [pose proof (bst_enc_len k v start width) as Lk; unfold lenN in Lk; unfold bytes in *; lia|].
  destruct (bst_accuracy k v (val64 v) start width e (walk_err (8 * k) e) Fs Fd D0 He Hb Hn) as (F & E); auto; try lra.
  { now apply xval_finite. }
  split; [assumption|]. eapply Rle_trans; [exact E|].
  assert (P : half_pow (8 * k + 1) = / 2 ^ (8 * k + 1)).
  { generalize (8 * k + 1)%nat. induction n as [|n IH]; cbn [half_pow pow]; [lra|].
    rewrite IH. field. apply pow_nonzero. lra. }
  rewrite P. unfold walk_err, Rdiv. lra.
Qed.
Print Assumptions C12_bst_any_width.

Theorem C12_bst_order : forall (k : nat) v w start width e,
  fin64 start = true -> fin64 width = true -> 0 <= val64 width -> (-1021 <= e <= 1022)%Z ->
  Rabs (val64 start) + val64 width <= bpow radix2 e -> INR (8 * k) + 1 < bpow radix2 51 ->
  val64 width = 0 \/ 2 * (INR (8 * k) + 1) * bpow radix2 (e - 52) <= val64 width / 2 ^ (8 * k) ->
  fle v w = true ->
  val64 (bst_dec start width (bst_enc k v start width)) <= val64 (bst_dec start width (bst_enc k w start width)).
Proof.
  intros k v w start width e Fs Fd D0 He Hb Hn Hw Hvw. apply bst_order with e; auto.
  destruct Hw as [Hw|Hw]; [now left|right].
  assert (P : half_pow (8 * k) = / 2 ^ (8 * k)).
  { generalize (8 * k)%nat. induction n as [|n IH]; cbn [half_pow pow]; [lra|].
    rewrite IH. field. apply pow_nonzero. lra. }
  rewrite P. unfold walk_err, Rdiv in *. lra.
Qed.
Print Assumptions C12_bst_order.

Definition sample_floats : list (f64 * f64) := [(fz 0, fz (-1000)); (fz 1, fz 7); (fz 2, fz 123456); (fz 3, fz 7)].
Example C12_example :
  float16_input 20 (mkColl [] (BFloat sample_floats)) sample_floats /\
  exists h s, e_encode (float_encoder 2) [mkColl [] (BFloat sample_floats)] = Ok (h, [s], None) /\ lenN s = 17%N.
Proof.
  split.
  - split; [reflexivity|]. split; [discriminate|]. unfold sample_floats.
    repeat (apply Forall_cons || apply Forall_nil); cbn [snd]; split; fz_ok; try reflexivity;
      change (bpow radix2 20) with 1048576; apply Rabs_le; lra.
  - eexists. eexists. split; [vm_compute; reflexivity | reflexivity].
Qed.
Example C12_bst_example :
  INR (8 * 3) + 1 < bpow radix2 51 /\ Rabs (val64 (fz 5)) + val64 (fz 11) <= bpow radix2 4 /\
  2 * (INR (8 * 3) + 1) * bpow radix2 (4 - 52) <= val64 (fz 11) / 2 ^ (8 * 3) /\
  val64 (fz 5) <= val64 (fz 7) <= val64 (fz 5) + val64 (fz 11).
Proof.
  unfold fz. destruct (val_f64_of_Z 5 ltac:(lia)) as (_ & ->). destruct (val_f64_of_Z 11 ltac:(lia)) as (_ & ->).
  destruct (val_f64_of_Z 7 ltac:(lia)) as (_ & ->).
  assert (E : INR (8 * 3) = 24) by (rewrite INR_IZR_INZ; reflexivity). rewrite E.
  change (bpow radix2 51) with 2251799813685248. change (bpow radix2 4) with 16.
  change (bpow radix2 (4 - 52)) with (/ 281474976710656). rewrite Rabs_pos_eq by lra. cbn [Nat.mul Nat.add pow]. lra.
Qed.

(** ** C14: [oct_enc] is Vec3ToOctCells and [oct_dec] OctCellsToVec3 *)
Lemma in_axes : forall a, In a axes -> exists m, is_axis a m.
Proof.
  intros a [<-|[<-|[<-|[]]]]; [exists 2%N|exists 4%N|exists 1%N]; unfold is_axis; auto.
Qed.
Lemma half_pow_pow : forall n, half_pow n = / 2 ^ n.
Proof.
  induction n as [|n IH]; cbn [half_pow pow]; [lra|]. rewrite IH. field. apply pow_nonzero. lra.
Qed.

(** The rounding term is about 2 (k+1) units in the last place of the box. *)
Theorem C14_oct_accuracy : forall a, In a axes -> forall (k : nat) v mn mx e,
  fin64 (a v) = true -> bounded e (a mn) -> bounded e (a mx) ->
  (-1021 <= e <= 1021)%Z -> INR k + 1 < bpow radix2 51 ->
  val64 (a mn) <= val64 (a v) <= val64 (a mx) ->
  let v' := oct_dec mn mx (oct_enc k v mn mx) in
  length (oct_enc k v mn mx) = k /\ fin64 (a v') = true /\
  Rabs (val64 (a v') - val64 (a v)) <=
    (val64 (a mx) - val64 (a mn)) / 2 ^ (k + 1) + 2 * (INR k + 1) * bpow radix2 (e - 52).
Proof.
  intros a Ha k v mn mx e Fv (Fn & Bn) (Fx & Bx) He Hk Hv v'. destruct (in_axes a Ha) as (m & Hm).
  pose proof (bp_pos (e - 52)).
  assert (W : 0 <= walk_err k e).
  { unfold walk_err. apply Rmult_le_pos; [pose proof (pos_INR k); lra | lra]. }
  split; [apply oct_enc_loop_ok|].
  destruct (oct_axis_accuracy a m Hm k v mn mx e (walk_err k e)) as (F & E); auto; try lra.
  split; [exact F|]. rewrite Nat.add_1_r. unfold Rdiv. rewrite <- half_pow_pow.
  eapply Rle_trans; [exact E|]. unfold walk_err. lra.
Qed.
Print Assumptions C14_oct_accuracy.

(** What comes back on one axis depends on that axis alone. *)
Theorem C14_oct_axes_independent : forall a, In a axes -> forall k v mn mx w mn2 mx2,
  a w = a v -> a mn2 = a mn -> a mx2 = a mx ->
  a (oct_dec mn2 mx2 (oct_enc k w mn2 mx2)) = a (oct_dec mn mx (oct_enc k v mn mx)).
Proof.
  intros a Ha k v mn mx w mn2 mx2 E1 E2 E3. destruct (in_axes a Ha) as (m & Hm).
  now rewrite !(oct_dec_axis a m Hm), !(oct_enc_axis a m Hm), E1, E2, E3.
Qed.
Print Assumptions C14_oct_axes_independent.

(** Without the rounding term the claim fails: in a box one unit in the last
    place wide the walk never leaves the lower end. *)
Definition one_up : f64 := B754_finite 53 1024 false 4503599627370497 (-52) eq_refl.
Theorem C14_exact_half_cell_refuted :
  ~ (forall k v mn mx, fin64 (vx v) = true -> fin64 (vx mn) = true -> fin64 (vx mx) = true ->
     val64 (vx mn) <= val64 (vx v) <= val64 (vx mx) ->
     Rabs (val64 (vx (oct_dec mn mx (oct_enc k v mn mx))) - val64 (vx v)) <=
       (val64 (vx mx) - val64 (vx mn)) / 2 ^ (k + 1)).
Proof.
  intro H. pose (lo := mkVec (fz 1) (fz 0) (fz 0)). pose (hi := mkVec one_up (fz 0) (fz 0)).
  destruct (val_f64_of_Z 1 ltac:(lia)) as (F1 & V1).
  assert (V2 : val64 one_up = 1 + / 4503599627370496).
  { unfold one_up, B2R, F2R. cbn [Fnum Fexp cond_Zopp]. change (bpow radix2 (-52)) with (/ 4503599627370496). lra. }
  specialize (H 1%nat hi lo hi eq_refl F1 eq_refl). cbn [vx lo hi] in H. unfold fz in H.
  assert (B : bits_of_b64 (vx (oct_dec lo hi (oct_enc 1 hi lo hi))) = bits_of_b64 (f64_of_Z 1)) by (vm_compute; reflexivity).
  apply C09_float_is_its_bits in B. fold (fz 1) in H. fold lo hi in H. unfold fz in H. rewrite B, V1, V2 in H.
  specialize (H ltac:(lra)). rewrite Rabs_left in H by lra. cbn [Nat.add pow] in H. lra.
Qed.
Print Assumptions C14_exact_half_cell_refuted.

Example C14_example : exists k v mn mx e,
  bounded e (vx mn) /\ bounded e (vx mx) /\ val64 (vx mn) < val64 (vx v) < val64 (vx mx) /\ k = 16%nat /\
  map (fun c => (c <? 8)%N) (oct_enc k v mn mx) = repeat true 16.
Proof.
  exists 16%nat, (mkVec (fz 3) (fz 4) (fz 5)), (mkVec (fz (-7)) (fz 0) (fz 0)), (mkVec (fz 90) (fz 9) (fz 9)), 7%Z.
  cbn [vx]. unfold bounded, fz.
  destruct (val_f64_of_Z 3 ltac:(lia)) as (_ & ->). destruct (val_f64_of_Z (-7) ltac:(lia)) as (-> & ->).
  destruct (val_f64_of_Z 90 ltac:(lia)) as (-> & ->). change (bpow radix2 7) with 128.
  conjs; auto; try lra; try (apply Rabs_le; lra).
Qed.

(** ** C41 *)
(** consecutive differences *)
Definition steps_between (L H : R) (l : list f64) : Prop :=
  forall i x y, nth_error l i = Some x -> nth_error l (S i) = Some y -> L <= val64 y - val64 x <= H.
Lemma steps_gaps_in : forall l p L H, steps_between L H (p :: l) -> gaps_in L H p l.
Proof.
  induction l as [|t l IH]; intros p L H Hs; cbn [gaps_in]; [exact I|]. split.
  - exact (Hs 0%nat p t eq_refl eq_refl).
  - apply IH. intros i x y Hx Hy. exact (Hs (S i) x y Hx Hy).
Qed.

Lemma oct_values_len : forall k l, length (oct_values k l) = length l.
Proof.
  intros k l. unfold oct_values. destruct l as [|p [|p2 l]]; auto.
  destruct (step_range p (p2 :: l) vec_pinf vec_minf) as [mn mx]. cbn [length].
  now rewrite oct_path_length, oct_cells_length.
Qed.

(** Octree-coded positions (technique 2 has 16 levels, technique 3 has 8) on
    one axis: [L] and [H] bound the steps between consecutive captures.  The
    error of capture [j] grows at most linearly with [j]. *)
Theorem C41_oct_drift : forall tech, (tech = 2 \/ tech = 3)%N -> forall cs,
  Forall (fun c => exists l, c_body c = BPos l) cs ->
  exists h ss, e_encode (position_encoder tech) cs = Ok (h, ss, None) /\ length ss = length cs /\
  forall i c s l, nth_error cs i = Some c -> nth_error ss i = Some s -> c_body c = BPos l ->
    (lenN s <= 2 ^ 44)%N ->
    exists l', decodes (position_encoder tech) h s c (mkColl (c_name c) (BPos l')) /\
      map fst l' = map fst l /\
      forall a, In a axes -> forall e L H G, (-100 <= e <= 126)%Z ->
        Forall (fun x => bounded e (a (snd x))) l -> steps_between L H (map (fun x => a (snd x)) l) ->
        Rabs L <= G -> Rabs H <= G -> INR (length l) * G <= bpow radix2 e -> INR (length l) <= 2 ^ 40 ->
        forall j x x', nth_error l j = Some x -> nth_error l' j = Some x' ->
          fin64 (a (snd x')) = true /\
          Rabs (val64 (a (snd x')) - val64 (a (snd x))) <=
            bpow radix2 (e - 25) +
            INR j * ((H - L) / 2 ^ (if (tech =? 2)%N then 17 else 9) + G / 2 ^ 24 + bpow radix2 (e - 44)).
Proof.
  intros tech Ht cs Hcs.
  destruct (position_lawful tech ltac:(lia) cs) as (h & ss & E & L & D).
  { eapply Forall_impl; [|exact Hcs]. intros [n b] (l & Hb). cbn in Hb. subst. split; [exact I | reflexivity]. }
  exists h, ss. split; [exact E|]. split; [exact L|]. intros i c s l Hc Hs Hb Hl.
  assert (Hh : (lenN h <= 2 ^ 44)%N).
  { cbn [e_encode position_encoder] in E. unfold pos_encode in E. apply bind_ok in E as (? & _ & E).
    apply ok_inj in E. injection E as <- _. discriminate. }
  set (k := if (tech =? 2)%N then 16%nat else 8%nat).
  assert (Hv : pos_values tech (map snd l) = oct_values k (map snd l)) by (destruct Ht as [->| ->]; reflexivity).
  exists (combine (map fst l) (oct_values k (map snd l))). split; [|split].
  - unfold decodes. rewrite (D Hh i c s Hc Hs Hl (c_times c) eq_refl). do 2 f_equal. f_equal.
    unfold pos_post, c_times. now rewrite Hb, Hv.
  - assert (Q : length (map fst l) = length (oct_values k (map snd l))) by (now rewrite oct_values_len, !map_length).
    revert Q. generalize (oct_values k (map snd l)). generalize (map fst l).
    induction l0 as [|a0 l0 IH]; intros [|b0 l1] Q; try discriminate; cbn [combine map fst]; auto.
    f_equal. apply IH. now injection Q.
  - intros a Ha e L0 H0 G He Hbd Hst HL HH HG Hn j x x' Hx Hx'. destruct (in_axes a Ha) as (m & Hm).
    rewrite nth_error_combine in Hx' by (now rewrite oct_values_len, !map_length).
    rewrite nth_error_map, Hx in Hx'. cbn [option_map] in Hx'.
    destruct (nth_error (oct_values k (map snd l)) j) as [p'|] eqn:Ep; [|discriminate]. injection Hx' as <-. cbn [snd].
    assert (HP : half_pow (S k) = / 2 ^ (if (tech =? 2)%N then 17 else 9)).
    { rewrite half_pow_pow. unfold k. now destruct (tech =? 2)%N. }
    destruct l as [|x0 l]; [destruct j; discriminate|]. destruct l as [|x1 l].
    + destruct j as [|[|j]]; try discriminate. injection Hx as <-. injection Ep as <-.
      inversion Hbd as [|? ? (F0 & B0) _]; subst.
      assert (A3 : a (vmap near32 (snd x0)) = near32 (a (snd x0))) by (destruct Ha as [<-|[<-|[<-|[]]]]; reflexivity).
      rewrite A3. destruct (near32_err (a (snd x0)) e F0 B0) as (_ & Fr & _ & _ & Er0 & _); [lia|].
      split; [assumption|]. cbn [INR]. lra.
    + assert (G0 : 0 <= G) by (pose proof (Rabs_pos L0); lra).
      set (rest := x1 :: l) in *. cbn [length] in HG, Hn. rewrite S_INR in HG, Hn.
      destruct (oct_drift a m Hm k (snd x0) (map snd rest) e L0 H0 G) with (j := j) (p := snd x) as (q & E1 & E2 & E3); auto.
      * discriminate.
      * unfold k. destruct (tech =? 2)%N; lia.
      * change (snd x0 :: map snd rest) with (map snd (x0 :: rest)). apply Forall_map. exact Hbd.
      * apply steps_gaps_in. rewrite map_map. exact Hst.
      * rewrite map_length. lra.
      * rewrite map_length. change (bp 40) with 1099511627776. lra.
      * change (snd x0 :: map snd rest) with (map snd (x0 :: rest)). rewrite nth_error_map, Hx. reflexivity.
      * cbn [map] in Ep. rewrite E1 in Ep. injection Ep as <-. split; [assumption|].
        rewrite HP in E3. unfold Rdiv in *. replace (/ 2 ^ 24) with (/ 16777216) by (f_equal; lra). exact E3.
Qed.
Print Assumptions C41_oct_drift.

Definition sample_walk : list (f64 * vec) :=
  [(fz 0, mkVec (fz 0) (fz 10) (fz 0)); (fz 1, mkVec (fz 5) (fz 7) (fz 0)); (fz 2, mkVec (fz 4) (fz 3) (fz 0))].
Example C41_example :
  Forall (fun x => bounded 5 (vx (snd x))) sample_walk /\
  steps_between (-1) 5 (map (fun x => vx (snd x)) sample_walk) /\
  INR (length sample_walk) * 5 <= bpow radix2 5 /\
  exists h s, e_encode (position_encoder 3) [mkColl [] (BPos sample_walk)] = Ok (h, [s], None) /\ lenN s = 43%N.
Proof.
  split; [|split; [|split]].
  - repeat (apply Forall_cons || apply Forall_nil); cbn [snd vx]; split; fz_ok; try reflexivity;
      change (bpow radix2 5) with 32; apply Rabs_le; lra.
  - intros [|[|[|]]] x y Hx Hy; cbn [map sample_walk nth_error snd vx] in Hx, Hy; try discriminate; injection Hx as <-; injection Hy as <-; unfold fz.
    + destruct (val_f64_of_Z 5 ltac:(lia)) as (_ & ->). destruct (val_f64_of_Z 0 ltac:(lia)) as (_ & ->). lra.
    + destruct (val_f64_of_Z 5 ltac:(lia)) as (_ & ->). destruct (val_f64_of_Z 4 ltac:(lia)) as (_ & ->). lra.
  - change (bpow radix2 5) with 32. cbn. lra.
  - eexists. eexists. split; [vm_compute; reflexivity | reflexivity].
Qed.

(** ** C16 *)
Definition never_decreases (l : list f64) : Prop := StronglySorted (fun a b => fle a b = true) l.

Lemma two_byte_chunks : forall k (b : bytes), length b = (2 * k)%nat ->
  exists cs : list bytes, length cs = k /\ concat cs = b /\ Forall (fun c => length c = 2%nat) cs.
Proof.
  induction k as [|k IH]; intros b Hb.
  - destruct b; [|discriminate]. exists []. auto.
  - destruct b as [|x [|y b]]; cbn [length] in Hb; try lia.
    destruct (IH b ltac:(lia)) as (cs & L & E & F). exists ([x; y] :: cs). cbn [length concat app].
    rewrite E. auto.
Qed.

(** Any payload: a count [n] of at least two, a finite start, a finite
    non-negative largest step, and two arbitrary bytes for each further time. *)
Theorem C16_any_payload_never_decreases : forall S (R : Reader S) eager (I : S -> bytes -> Prop),
  delivers R eager I -> forall n start step payload s rest,
  (2 <= n <= 2 ^ 45)%N -> fin32 start = true -> fin32 step = true -> 0 <= val32 step ->
  lenN payload = (2 * (n - 1))%N ->
  I s ((n2b 2 :: put_uvarint n ++ f32_bytes start ++ f32_bytes step ++ payload) ++ rest) ->
  exists out s', decode_time (err_reader R) (new_er s) = Ok (out, None, s') /\
    I (er_in s') rest /\ lenN out = n /\ never_decreases out.
Proof.
  intros S R eager I HD n start step payload s rest Hn F1 F2 H0 Hp HI.
  pose proof (delivers_serves _ _ _ HD) as HS0.
  set (m := n2b 2 :: put_uvarint n ++ f32_bytes start ++ f32_bytes step ++ payload) in *.
  pose proof (er_serves R eager I (lenN (m ++ rest)) HS0) as HR.
  pose proof (er_exact R eager I (lenN (m ++ rest)) HS0) as HX.
  assert (HI0 : er_inv I (lenN (m ++ rest)) (new_er s) (m ++ rest)) by now apply new_er_inv.
  assert (HJ : forall x d, er_inv I (lenN (m ++ rest)) x d -> I (er_in x) d) by (intros x d (_ & Hx & _); exact Hx).
  set (J := er_inv I (lenN (m ++ rest))) in *. clearbody J. unfold m in HI0.
  change ((n2b 2 :: ?x) ++ rest) with ([n2b 2] ++ x ++ rest) in HI0. rewrite <- !app_assoc in HI0.
  destruct (two_byte_chunks (N.to_nat (N.pred n)) payload) as (cs & Lc & Ec & Fc).
  { unfold lenN in Hp. unfold bytes in *. lia. }
  unfold decode_time.
  destruct (HX _ [n2b 2] _ 1%N HI0 eq_refl) as (s1 & -> & HI1). cbn [bind].
  assert (Hn' : (n < 2 ^ 64)%N) by (eapply N.le_lt_trans; [apply Hn | reflexivity]).
  destruct (read_uvarint_ok HR n Hn' s1 _ HI1) as (s2 & -> & HI2); auto with more.
  cbn [bind hd]. change (b2n (n2b 2)) with 2%N. cbv iota. unfold decode_time16.
  destruct (N.eqb_spec n 0) as [E|_]; [lia|].
  destruct (rd32_ok _ false J HR f32_0 start s2 _ HI2) as (s3 & -> & HI3); auto with more.
  cbn [bind]. destruct (N.eqb_spec n 1) as [E|_]; [lia|].
  destruct (rd32_ok _ false J HR f32_0 step s3 _ HI3) as (s4 & -> & HI4); auto with more.
  cbn [bind]. rewrite go_make_ok.
  2:{ change (2 ^ 48)%N with (8 * 2 ^ 45)%N. now apply N.mul_le_mono_l. }
  rewrite <- Ec in HI4.
  replace (N.to_nat (N.pred n)) with (@length (list byte) cs) by exact Lc.
  assert (Fc2 : Forall (fun b : bytes => lenN b = 2%N) cs).
  { eapply Forall_impl; [|exact Fc]. intros c Hc. unfold lenN. unfold bytes in *. lia. }
  destruct (time_unsteps_ok _ J HX cs (f64_of_f32 start) (f64_of_f32 step) (zeros 2)) with (s := s4) (rest := rest)
    as (s5 & -> & HI5); auto with more.
  cbn [bind]. eexists. exists s5. split; [reflexivity|]. split; [now apply HJ|].
  destruct (f64_of_f32_correct start F1) as (F64 & _).
  split.
  - rewrite lenN_cons. unfold lenN. rewrite time_path_len. unfold bytes in *. lia.
  - apply time_path_sorted; auto.
Qed.
Print Assumptions C16_any_payload_never_decreases.

Lemma times16_sorted : forall t0 rest e D, (-100 <= e <= 126)%Z ->
  Forall (bounded e) (t0 :: rest) -> gaps_in 0 D t0 rest -> D <= bp e -> never_decreases (time_values 2 (t0 :: rest)).
Proof.
  intros t0 rest e D He Hall Hg HD. inversion Hall as [|? ? (F0 & B0) Hl]; subst.
  destruct (near32_err t0 e F0 B0) as (_ & Fr & _); [lia|].
  assert (E0 : fmin_upd fpinf t0 = t0).
  { unfold fmin_upd. destruct (flt t0 fpinf) eqn:E; auto.
    apply (flt_false _ _ _ _ (xval_finite _ F0) xval_fpinf) in E. pose proof (finite_range t0). lra. }
  destruct rest as [|t1 rest].
  - unfold time_values, never_decreases. cbn [time_range]. rewrite E0. cbn [time_codes time_path]. repeat constructor.
  - assert (D0 : 0 <= D) by (destruct Hg as (Hg & _); lra).
    destruct (time_range_chrono (t1 :: rest) t0 t0 fminf e D (- xinf) F0 F0 ltac:(lra) Hl B0 ltac:(lia) Hg xval_fminf D0)
      as (mx & b & Er & Xb & M & _ & Hz & _).
    destruct M as [-> |(Fm & Hb)].
    { assert (Q : t1 :: rest <> []) by discriminate. pose proof (Hz Q eq_refl). pose proof xinf_pos. lra. }
    rewrite (xval_finite _ Fm) in Xb. injection Xb as <-.
    assert (EV : time_values 2 (t0 :: t1 :: rest) =
      near32 t0 :: time_path (time_codes (t1 :: rest) t0 mx) (near32 t0) (near32 mx)).
    { unfold time_values. cbn [time_range]. rewrite E0. cbn [time_range] in Er. now rewrite Er. }
    rewrite EV. unfold near32 at 3.
    bp_is (e + 1)%Z (e - 52)%Z 53%Z. bp_is e (e - 52)%Z 52%Z. pose proof (bp_pos (e - 52)).
    assert (Bm : Rabs (val64 mx) <= bp (e + 1)) by (rewrite Rabs_pos_eq; lra).
    destruct (near32_err mx (e + 1) Fm Bm) as (F32 & _ & V & Rx & _); [lia|].
    apply time_path_sorted; auto.
    + rewrite <- V, Rx. apply round_ge_generic; auto with typeclass_instances; [apply generic_format_0 | lra].
    + pose proof (time_codes_2 (t1 :: rest) t0 mx) as C. eapply Forall_impl; [|exact C].
      intros c Hc. unfold lenN in Hc. unfold bytes in *. lia.
Qed.

(** Chronological times whose gaps are at most [D], stored with BST16
    (technique 2): what is read back never decreases, and time [j] is off by at
    most j (D/2^17 + D/2^24) up to rounding. *)
Theorem C16_drift : forall S (R : Reader S) eager (I : S -> bytes -> Prop),
  delivers R eager I -> forall times e D s rest,
  (-100 <= e <= 126)%Z -> Forall (bounded e) times -> steps_between 0 D times ->
  INR (length times) * D <= bpow radix2 e -> (lenN times <= 2 ^ 40)%N ->
  I s (encode_time 2 times ++ rest) ->
  exists out s', decode_time (err_reader R) (new_er s) = Ok (out, None, s') /\
    I (er_in s') rest /\ length out = length times /\ never_decreases out /\
    forall j t t', nth_error times j = Some t -> nth_error out j = Some t' ->
      fin64 t' = true /\
      Rabs (val64 t' - val64 t) <=
        bpow radix2 (e - 25) + INR j * (D / 2 ^ 17 + D / 2 ^ 24 + bpow radix2 (e - 44)).
Proof.
  intros S R eager I HD times e D s rest He Hb Hst HD2 Hn HI.
  pose proof (delivers_serves _ _ _ HD) as HS.
  destruct (decode_time_ok (err_reader R) (er_inv I (lenN (encode_time 2 times ++ rest)))
              (er_serves R eager I _ HS) (er_exact R eager I _ HS) 2 times) with
    (s := new_er s) (rest := rest) as (s' & E & HI').
  - lia.
  - eapply N.le_trans; [exact Hn | discriminate].
  - now apply new_er_inv.
  - auto with more.
  - destruct HI' as (_ & Hi & _). exists (time_values 2 times), s'. split; [exact E|]. split; [exact Hi|].
    split; [apply time_values_len|].
    destruct times as [|t0 rest0].
    + split; [constructor|]. intros [|j] t t' Ht; discriminate Ht.
    + pose proof (steps_gaps_in _ _ _ _ Hst) as Hg.
      assert (N40 : INR (length (t0 :: rest0)) <= 1099511627776).
      { rewrite INR_IZR_INZ. apply IZR_le. unfold lenN in Hn. change (2 ^ 40)%N with 1099511627776%N in Hn. lia. }
      cbn [length] in HD2, N40. rewrite S_INR in HD2, N40. pose proof (pos_INR (length rest0)) as P0.
      destruct rest0 as [|t1 rest0].
      * inversion Hb as [|? ? (F0 & B0) _]; subst.
        split; [apply times16_sorted with e 0; auto; apply bpow_ge_0|].
        intros [|[|j]] t t' Ht Ht'; try discriminate. injection Ht as <-.
        assert (E0 : fmin_upd fpinf t0 = t0).
        { unfold fmin_upd. destruct (flt t0 fpinf) eqn:E0; auto.
          apply (flt_false _ _ _ _ (xval_finite _ F0) xval_fpinf) in E0. pose proof (finite_range t0). lra. }
        unfold time_values in Ht'. cbn [time_range] in Ht'. rewrite E0 in Ht'. injection Ht' as <-.
        destruct (near32_err t0 e F0 B0) as (_ & Fr & _ & _ & Er0 & _); [lia|].
        split; [assumption|]. cbn [INR]. lra.
      * set (rest1 := t1 :: rest0) in *.
        assert (D0 : 0 <= D) by (destruct Hg as (Hg & _); lra).
        assert (PD : 0 <= INR (length rest1) * D) by (apply Rmult_le_pos; auto).
        split; [apply times16_sorted with e D; auto; lra|].
        intros j t t' Ht Ht'. assert (Q : forall x, x <= x + 1) by (intro; lra).
        destruct (times16_drift t0 rest1 e D) with (j := j) (t := t) as (q & E1 & E2 & E3); auto.
        -- discriminate.
        -- eapply Rle_trans; [|exact HD2]. apply Rmult_le_compat_r; [exact D0 | apply Q].
        -- change (bp 40) with 1099511627776. eapply Rle_trans; [|exact N40]. apply Q.
        -- pose proof (eq_trans (eq_sym E1) Ht') as X. injection X as ->. split; [assumption|].
           replace (2 ^ 17) with 131072 by lra. replace (2 ^ 24) with 16777216 by lra. exact E3.
Qed.
Print Assumptions C16_drift.

(** A bound of one quantisation cell for every time is false: uniformly spaced
    captures always fall half a cell short of the largest step. *)
Definition times0123 : list f64 := [fz 0; fz 1; fz 2; fz 3].
Definition back3 : f64 := B754_finite 53 1024 false 6755347901448192 (-51) eq_refl.
Theorem C16_one_cell_refuted :
  ~ (forall times D, Forall (bounded 2) times -> steps_between 0 D times ->
     forall out s', decode_time (err_reader flat) (new_er (encode_time 2 times)) = Ok (out, None, s') ->
     forall j t t', nth_error times j = Some t -> nth_error out j = Some t' ->
       Rabs (val64 t' - val64 t) <= D / 2 ^ 16).
Proof.
  intro H.
  assert (V0 := val_f64_of_Z 0 ltac:(lia)). assert (V1 := val_f64_of_Z 1 ltac:(lia)).
  assert (V2 := val_f64_of_Z 2 ltac:(lia)). assert (V3 := val_f64_of_Z 3 ltac:(lia)).
  assert (Hb : Forall (bounded 2) times0123).
  { unfold times0123. repeat (apply Forall_cons || apply Forall_nil); split; fz_ok; try reflexivity;
      change (bpow radix2 2) with 4; apply Rabs_le; lra. }
  assert (Hs : steps_between 0 1 times0123).
  { intros [|[|[|[|]]]] x y Hx Hy; cbn [nth_error times0123] in Hx, Hy; try discriminate;
      injection Hx as <-; injection Hy as <-; unfold fz; destruct V0 as (_ & V0), V1 as (_ & V1), V2 as (_ & V2), V3 as (_ & V3);
      rewrite ?V0, ?V1, ?V2, ?V3; lra. }
  specialize (H times0123 1 Hb Hs).
  assert (C : match decode_time (err_reader flat) (new_er (encode_time 2 times0123)) with
              | Ok (out, None, _) => map bits_of_b64 out = map bits_of_b64 [nth 0 out f0; nth 1 out f0; nth 2 out f0; back3]
              | _ => False
              end) by (vm_compute; reflexivity).
  destruct (decode_time (err_reader flat) (new_er (encode_time 2 times0123))) as [[[out [x|]] s']| |]; try contradiction.
  destruct out as [|a [|b [|c [|d [|]]]]]; try discriminate C. cbn [map nth] in C. injection C as C.
  assert (C' : bits_of_b64 d = bits_of_b64 back3) by exact C. apply C09_float_is_its_bits in C'. subst d.
  specialize (H _ _ eq_refl 3%nat (fz 3) back3 eq_refl eq_refl). unfold fz in H. destruct V3 as (_ & V3). rewrite V3 in H.
  unfold back3, B2R, F2R in H. cbn [Fnum Fexp cond_Zopp] in H.
  change (bpow radix2 (-51)) with (/ 2251799813685248) in H.
  change (IZR (cond_Zopp false 6755347901448192)) with 6755347901448192 in H.
  rewrite Rabs_left in H by lra. lra.
Qed.
Print Assumptions C16_one_cell_refuted.

Example C16_example :
  (-100 <= 4 <= 126)%Z /\ Forall (bounded 4) times0123 /\ steps_between 0 1 times0123 /\
  INR (length times0123) * 1 <= bpow radix2 4 /\ lenN (encode_time 2 times0123) = 16%N.
Proof.
  split; [lia|]. split; [|split; [|split]].
  - unfold times0123. repeat (apply Forall_cons || apply Forall_nil); split; fz_ok; try reflexivity;
      change (bpow radix2 4) with 16; apply Rabs_le; lra.
  - assert (V0 := val_f64_of_Z 0 ltac:(lia)). assert (V1 := val_f64_of_Z 1 ltac:(lia)).
    assert (V2 := val_f64_of_Z 2 ltac:(lia)). assert (V3 := val_f64_of_Z 3 ltac:(lia)).
    intros [|[|[|[|]]]] x y Hx Hy; cbn [nth_error times0123] in Hx, Hy; try discriminate;
      injection Hx as <-; injection Hy as <-; unfold fz; destruct V0 as (_ & V0), V1 as (_ & V1), V2 as (_ & V2), V3 as (_ & V3);
      rewrite ?V0, ?V1, ?V2, ?V3; lra.
  - change (bpow radix2 4) with 16. cbn. lra.
  - vm_compute. reflexivity.
Qed.
Example C16_payload_example :
  fin32 (f32_of_f64 (fz 5)) = true /\ fin32 (f32_of_f64 (fz 2)) = true /\
  match decode_time (err_reader flat)
          (new_er ((n2b 2 :: put_uvarint 3 ++ f32_bytes (f32_of_f64 (fz 5)) ++ f32_bytes (f32_of_f64 (fz 2)) ++
                    bs [255; 0; 7; 9]%N) ++ bs [1]%N)) with
  | Ok (out, None, s') => length out = 3%nat /\ er_in s' = bs [1]%N
  | _ => False
  end.
Proof. vm_compute. auto. Qed.
