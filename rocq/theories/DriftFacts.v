(** Quantised capture times: order and drift. *)
From Coq Require Import ZArith Reals Lia Lra Sorted.
From Flocq Require Import Relative Core IEEE754.BinarySingleNaN IEEE754.Binary IEEE754.Bits.
From Verif Require Import Base BaseFacts Floats SpecFloat FloatFacts SpecEnc Near32Facts BinaryIO NumFacts WalkFacts QuantFacts.
From Verif Require Import Recording RecordingFacts EncPosition EncFloat EncNumFacts TimeIO TimeFacts.
Local Open Scope R_scope.

Ltac conjs := repeat match goal with |- _ /\ _ => split end.

(** ** Ranges *)
Lemma fmin_upd_spec : forall m v a x, xval m = Some a -> xval v = Some x ->
  exists c, xval (fmin_upd m v) = Some c /\ c <= a /\ c <= x /\ (fmin_upd m v = m \/ fmin_upd m v = v).
Proof.
  intros m v a x Hm Hv. unfold fmin_upd. destruct (flt v m) eqn:E.
  - apply flt_iff in E. destruct E as (p & q & Vp & Vq & Hlt). rewrite Hv in Vp. rewrite Hm in Vq.
    injection Vp as <-. injection Vq as <-. exists x. repeat split; auto; lra.
  - apply (flt_false _ _ _ _ Hv Hm) in E. exists a. repeat split; auto; lra.
Qed.
Lemma fmax_upd_spec : forall m v a x, xval m = Some a -> xval v = Some x ->
  exists c, xval (fmax_upd m v) = Some c /\ a <= c /\ x <= c /\ (fmax_upd m v = m \/ fmax_upd m v = v).
Proof.
  intros m v a x Hm Hv. unfold fmax_upd, fgt. destruct (flt m v) eqn:E.
  - apply flt_iff in E. destruct E as (p & q & Vp & Vq & Hlt). rewrite Hm in Vp. rewrite Hv in Vq.
    injection Vp as <-. injection Vq as <-. exists x. repeat split; auto; lra.
  - apply (flt_false _ _ _ _ Hm Hv) in E. exists a. repeat split; auto; lra.
Qed.
Lemma val_range_spec : forall l mn mx a b, xval mn = Some a -> xval mx = Some b ->
  Forall (fun v => fin64 v = true) l ->
  exists mn' mx' a' b', val_range l mn mx = (mn', mx') /\ xval mn' = Some a' /\ xval mx' = Some b' /\
    a' <= a /\ b <= b' /\ (forall v, In v l -> a' <= val64 v <= b') /\
    (mn' = mn \/ In mn' l) /\ (mx' = mx \/ In mx' l).
Proof.
  induction l as [|v l IH]; intros mn mx a b Ha Hb Hl; cbn [val_range].
  - exists mn, mx, a, b. conjs; auto; try lra. intros v [].
  - inversion Hl as [|? ? Fv Hl']; subst. pose proof (xval_finite v Fv) as Xv.
    destruct (fmin_upd_spec mn v a _ Ha Xv) as (c & Xc & C1 & C2 & C3).
    destruct (fmax_upd_spec mx v b _ Hb Xv) as (d & Xd & D1 & D2 & D3).
    destruct (IH _ _ _ _ Xc Xd Hl') as (mn' & mx' & a' & b' & E & Xa & Xb & A1 & B1 & Hin & M1 & M2).
    exists mn', mx', a', b'. conjs; auto; try lra.
    + intros w [<- |H]; [lra | apply Hin; auto].
    + destruct M1 as [-> |M1]; [|right; now right]. destruct C3 as [-> | ->]; [now left | right; now left].
    + destruct M2 as [-> |M2]; [|right; now right]. destruct D3 as [-> | ->]; [now left | right; now left].
Qed.
Lemma val_range_finite : forall l, l <> [] -> Forall (fun v => fin64 v = true) l ->
  exists mn mx, val_range l fpinf fminf = (mn, mx) /\ In mn l /\ In mx l /\
    fin64 mn = true /\ fin64 mx = true /\ forall v, In v l -> val64 mn <= val64 v <= val64 mx.
Proof.
  intros l Hne Hl. destruct (val_range_spec l fpinf fminf _ _ xval_fpinf xval_fminf Hl)
    as (mn & mx & a & b & E & Xa & Xb & _ & _ & Hin & M1 & M2).
  destruct l as [|v l]; [easy|]. pose proof (Hin v (or_introl eq_refl)) as Hv.
  inversion Hl as [|? ? Fv Hl']; subst. pose proof (finite_range v) as Rv.
  assert (I1 : In mn (v :: l)).
  { destruct M1 as [-> |M1]; auto. rewrite xval_fpinf in Xa. injection Xa as <-. lra. }
  assert (I2 : In mx (v :: l)).
  { destruct M2 as [-> |M2]; auto. rewrite xval_fminf in Xb. injection Xb as <-. lra. }
  rewrite Forall_forall in Hl. pose proof (Hl _ I1) as F1. pose proof (Hl _ I2) as F2.
  rewrite (xval_finite _ F1) in Xa. rewrite (xval_finite _ F2) in Xb. injection Xa as <-. injection Xb as <-.
  exists mn, mx. auto 10.
Qed.

(** ** Adding a non-negative amount never goes down *)
Lemma fadd_up : forall c x, fin64 c = true \/ c = fpinf -> fin64 x = true -> 0 <= val64 x ->
  (fin64 (fadd c x) = true \/ fadd c x = fpinf) /\ fle c (fadd c x) = true.
Proof.
  intros c x [Fc| ->] Fx X0.
  - pose proof (Bplus_correct 53 1024 eq_refl eq_refl binop_nan_pl64 mode_NE c x Fc Fx) as C.
    change (SpecFloat.fexp 53 1024) with (FLT_exp (-1074) 53) in C.
    change (round_mode mode_NE) with ZnearestE in C. fold (b64_plus mode_NE c x) in C. fold (fadd c x) in C.
    assert (Mono : val64 c <= rnd64 (val64 c + val64 x)).
    { apply round_ge_generic; auto with typeclass_instances; [apply fmt64 | lra]. }
    destruct (Rlt_bool_spec (Rabs (rnd64 (val64 c + val64 x))) (bp 1024)) as [Hlt|Hge].
    + destruct C as (C1 & C2 & _). split; [now left|]. apply fle_iff.
      exists (val64 c), (val64 (fadd c x)). rewrite !xval_finite by auto. rewrite C1. auto.
    + destruct C as (C1 & C2). destruct (Bsign 53 1024 c) eqn:Sc.
      * exfalso. assert (Hc : val64 c <= 0).
        { destruct c as [s|s|s pl H|s m e H]; try discriminate; cbn in Sc |- *; subst; [lra|].
          apply Rlt_le. apply F2R_lt_0. reflexivity. }
        assert (Hup : rnd64 (val64 c + val64 x) <= val64 x).
        { apply round_le_generic; auto with typeclass_instances; [apply fmt64 | lra]. }
        pose proof (abs_B2R_lt_emax 53 1024 c) as Lc. pose proof (abs_B2R_lt_emax 53 1024 x) as Lx.
        apply Rabs_def2 in Lc, Lx. unfold Rabs in Hge. destruct (Rcase_abs _); lra.
      * assert (E : fadd c x = fpinf) by (apply B2FF_inj; rewrite C1; reflexivity).
        rewrite E. split; [now right|]. apply fle_iff. exists (val64 c), xinf.
        rewrite xval_finite, xval_fpinf by auto. repeat split; auto. pose proof (finite_range c). lra.
  - assert (E : fadd fpinf x = fpinf) by (destruct x; try discriminate; reflexivity).
    rewrite E. split; [now right|]. apply fle_iff. exists xinf, xinf. rewrite xval_fpinf. repeat split; auto. lra.
Qed.

(** a step decoded from a non-negative 32-bit range is not negative *)
Lemma step_nonneg : forall m b, fin32 m = true -> 0 <= val32 m -> length b = 2%nat ->
  fin64 (bst_dec f0 (f64_of_f32 m) b) = true /\ 0 <= val64 (bst_dec f0 (f64_of_f32 m) b).
Proof.
  intros m b Fm M0 Hb. destruct (f64_of_f32_correct m Fm) as (Fd & Ed & _).
  set (d := f64_of_f32 m) in *. rewrite bst_dec_walk.
  assert (L : length (bits_of b) = 16%nat) by (rewrite bits_of_len, Hb; reflexivity).
  assert (N16 : INR (length (bits_of b)) + 1 < bp 51).
  { rewrite L, INR_IZR_INZ. change (Z.of_nat 16) with 16%Z. change (bp 51) with 2251799813685248. lra. }
  pose proof (abs_B2R_lt_emax 24 128 m) as Lm. apply Rabs_def2 in Lm.
  destruct (Req_dec (val32 m) 0) as [Z|N].
  - rewrite Z in Ed. destruct (init_state f0 d 128 fin_f0 Fd ltac:(lra) ltac:(lia)) as (G1 & G2 & E1 & E2).
    { rewrite Ed, val_f0, Rabs_R0. pose proof (bp_pos 128). lra. }
    destruct (walk_dec_zero (bits_of b) _ _ G1 G2 (quarter_zero _ Fd Ed)) as (F & E). split; auto. rewrite E.
    destruct (fdiv_correct d f2 Fd) as (Fh & Eh).
    { rewrite val_f2. lra. }
    { rewrite Ed, val_f2. unfold Rdiv. rewrite Rmult_0_l, round_0, Rabs_R0 by auto with typeclass_instances. apply bp_pos. }
    rewrite Ed, val_f2 in Eh. unfold Rdiv in Eh. rewrite Rmult_0_l, round_0 in Eh by auto with typeclass_instances.
    destruct (fadd_correct f0 (fdiv d f2) fin_f0 Fh) as (_ & Ea).
    { rewrite Eh, val_f0, Rplus_0_l, round_0, Rabs_R0 by auto with typeclass_instances. apply bp_pos. }
    rewrite Ea, Eh, val_f0, Rplus_0_l, round_0 by auto with typeclass_instances. lra.
  - assert (Fmt : generic_format radix2 (FLT_exp (-149) 24) (val32 m)) by exact (generic_format_B2R 24 128 m).
    assert (Lo : bp (-149) <= val32 m) by (apply multiple_pos; [now apply fmt32_grid | lra]).
    destruct (mag radix2 (val32 m)) as (k & Hk). specialize (Hk N). rewrite Rabs_pos_eq in Hk by lra.
    assert (K0 : (-149 < k)%Z) by (apply (lt_bpow radix2); lra).
    assert (K1 : (k <= 128)%Z).
    { enough (k - 1 < 128)%Z by lia. apply (lt_bpow radix2). lra. }
    destruct (range_dec (bits_of b) f0 d k fin_f0 Fd ltac:(lra) ltac:(lia)) as (F & E); auto.
    { rewrite val_f0, Rabs_R0, Ed. lra. }
    split; auto. cbv zeta in E. rewrite val_f0, Ed, Rplus_0_l, L in E. apply Rabs_le_inv in E.
    pose proof (frac_range (bits_of b)) as Rf. rewrite L, half_pow_bp in Rf.
    change (bp (- Z.of_nat 17)) with (/ 131072) in Rf.
    assert (W : walk_err 16 k = 17 * bp (k - 52)).
    { unfold walk_err. rewrite INR_IZR_INZ. change (Z.of_nat 16) with 16%Z. lra. }
    bp_is (k - 1)%Z (k - 52)%Z 51%Z. pose proof (bp_pos (k - 52)).
    assert (val32 m * / 131072 <= val32 m * frac (bits_of b)) by (apply Rmult_le_compat_l; lra).
    rewrite W in E. lra.
Qed.

Lemma time_path_sorted : forall cs cur m, fin32 m = true -> 0 <= val32 m -> Forall (fun b => length b = 2%nat) cs ->
  fin64 cur = true \/ cur = fpinf ->
  StronglySorted (fun a b => fle a b = true) (cur :: time_path cs cur (f64_of_f32 m)).
Proof.
  induction cs as [|b cs IH]; intros cur m Fm M0 Hcs Hc; cbn [time_path].
  - repeat constructor.
  - inversion Hcs as [|? ? Hb Hcs']; subst.
    destruct (step_nonneg m b Fm M0 Hb) as (Fs & S0).
    destruct (fadd_up cur _ Hc Fs S0) as (Hc' & Hle).
    specialize (IH _ m Fm M0 Hcs' Hc'). constructor; [exact IH|].
    inversion IH as [|? ? _ Hall]; subst. constructor; [exact Hle|].
    eapply Forall_impl; [|exact Hall]. intros a Ha. eapply fle_trans; eauto.
Qed.

(** ** Drift of a stream of quantised steps.
    The encoder follows the quantised value [q] with its own range, the decoder
    starts at [r] and uses the range it read. *)
Section Drift.
Variables (C : Type) (enc : f64 -> C) (dec dec' : C -> f64).
Variables (lo hi cell w dl S g : R) (e : Z).
Hypothesis w0 : 0 <= w.
Hypothesis g0 : 0 <= g.
Hypothesis S0 : 0 <= S.
Hypothesis He : (-1021 <= e <= 1022)%Z.
Let u := bp (e - 53).
Hypothesis Hdec : forall v d, fin64 v = true -> w <= d -> lo - d <= val64 v <= hi + d ->
  Rabs (val64 (dec (enc v)) - val64 v) <= cell + d + w.
Hypothesis Hfin : forall v, fin64 v = true ->
  fin64 (dec (enc v)) = true /\ fin64 (dec' (enc v)) = true /\
  Rabs (val64 (dec (enc v))) <= S /\ Rabs (val64 (dec' (enc v))) <= S /\
  Rabs (val64 (dec' (enc v)) - val64 (dec (enc v))) <= dl.

Fixpoint dpath (l : list f64) (q r : f64) : list f64 :=
  match l with
  | [] => []
  | t :: l' => let c := enc (fsub t q) in
               let r' := fadd r (dec' c) in
               r' :: dpath l' (fadd q (dec c)) r'
  end.
Fixpoint steps_in (p : R) (l : list f64) : Prop :=
  match l with
  | [] => True
  | t :: l' => lo - g <= val64 t - p <= hi + g /\ steps_in (val64 t) l'
  end.
Definition rate : R := cell + g + 5 * u + 2 * w + dl.

Lemma drift : forall l q r p A B T T0, fin64 q = true -> fin64 r = true ->
  Forall (fun t => fin64 t = true /\ Rabs (val64 t) <= T0) l -> steps_in p l ->
  Rabs (p - val64 q) <= A -> Rabs (val64 r - val64 q) <= B ->
  Rabs (val64 q) <= T -> Rabs (val64 r) <= T ->
  T0 + T + INR (length l) * (S + u) < bp (e + 1) -> 0 <= T0 ->
  forall j t, nth_error l j = Some t -> exists t', nth_error (dpath l q r) j = Some t' /\
    fin64 t' = true /\ Rabs (val64 t' - val64 t) <= A + B + INR (Datatypes.S j) * rate.
Proof.
  assert (U : 0 < u) by apply bp_pos.
  induction l as [|t l IH]; intros q r p A B T T0 Fq Fr Hl Hs HA HB HTq HTr HM HT0 j tj Hj.
  - destruct j; discriminate.
  - inversion Hl as [|? ? (Ft & Bt) Hl']; subst. destruct Hs as (Hst & Hs'). cbn [length] in HM.
    rewrite S_INR in HM. pose proof (pos_INR (length l)) as P0.
    assert (PS : 0 <= INR (length l) * (S + u)) by (apply Rmult_le_pos; lra).
    destruct (gen_sub e He 0%nat t q Ft Fq) as (Fv & Ev); [lra|]. fold u in Ev.
    destruct (Hfin (fsub t q) Fv) as (F1 & F2 & S1 & S2 & D).
    destruct (gen_add e He 0%nat q (dec (enc (fsub t q))) Fq F1) as (Fq' & Eq'); [lra|]. fold u in Eq'.
    destruct (gen_add e He 0%nat r (dec' (enc (fsub t q))) Fr F2) as (Fr' & Er'); [lra|]. fold u in Er'.
    apply Rabs_le_inv in HA, HB, Ev, Eq', Er', D.
    pose proof (Hdec (fsub t q) (g + A + u + w) Fv ltac:(lra) ltac:(lra)) as E.
    apply Rabs_le_inv in E.
    assert (HA' : Rabs (val64 t - val64 (fadd q (dec (enc (fsub t q))))) <= A + (cell + g + 3 * u + 2 * w)).
    { apply Rabs_le. lra. }
    assert (HB' : Rabs (val64 (fadd r (dec' (enc (fsub t q)))) - val64 (fadd q (dec (enc (fsub t q))))) <= B + (dl + 2 * u)).
    { apply Rabs_le. lra. }
    apply Rabs_le_inv in S1, S2, HTq, HTr.
    assert (HTq' : Rabs (val64 (fadd q (dec (enc (fsub t q))))) <= T + (S + u)) by (apply Rabs_le; lra).
    assert (HTr' : Rabs (val64 (fadd r (dec' (enc (fsub t q))))) <= T + (S + u)) by (apply Rabs_le; lra).
    cbn [dpath]. destruct j as [|j]; cbn [nth_error] in *.
    + injection Hj as <-. eexists. split; [reflexivity|]. split; [assumption|].
      apply Rabs_le_inv in HA', HB'. cbn [INR]. unfold rate. apply Rabs_le. lra.
    + destruct (IH _ _ _ _ _ _ _ Fq' Fr' Hl' Hs' HA' HB' HTq' HTr' ltac:(lra) HT0 j tj Hj) as (t' & E1 & E2 & E3).
      exists t'. split; [assumption|]. split; [assumption|].
      eapply Rle_trans; [exact E3|]. rewrite (S_INR (Datatypes.S j)). unfold rate. lra.
Qed.
End Drift.

(** ** Times *)
Lemma time_path_dpath : forall l q r mx m,
  time_path (time_codes l q mx) r m =
  dpath bytes (fun v => bst_enc 2 v f0 mx) (bst_dec f0 mx) (bst_dec f0 m) l q r.
Proof. induction l as [|t l IH]; intros; cbn [time_codes time_path dpath]; [reflexivity|]. f_equal. apply IH. Qed.

(** consecutive gaps *)
Fixpoint gaps_in (a b : R) (p : f64) (l : list f64) : Prop :=
  match l with
  | [] => True
  | t :: l' => a <= val64 t - val64 p <= b /\ gaps_in a b t l'
  end.
Lemma steps_gaps : forall l a b g p, gaps_in (a - g) (b + g) p l <-> steps_in a b g (val64 p) l.
Proof. induction l as [|t l IH]; intros; cbn; [tauto|]. now rewrite IH. Qed.

(** the range found by the encoder of a chronological list *)
Lemma time_range_chrono : forall l p st mx e D b, fin64 p = true -> fin64 st = true -> val64 st <= val64 p ->
  Forall (fun t => fin64 t = true /\ Rabs (val64 t) <= bp e) l -> Rabs (val64 p) <= bp e -> (-1021 <= e <= 1000)%Z ->
  gaps_in 0 D p l -> xval mx = Some b -> 0 <= D ->
  exists mx' b', time_range (Some p) l st mx = (st, mx') /\ xval mx' = Some b' /\
    (mx' = mx \/ (fin64 mx' = true /\ 0 <= b' <= D + bp (e - 52))) /\ b <= b' /\ (l <> [] -> mx' = mx -> 0 <= b) /\
    gaps_in 0 (b' + bp (e - 52)) p l.
Proof.
  induction l as [|t l IH]; intros p st mx e D b Fp Fs Hsp Hl Bp He Hg Hmx D0; cbn [time_range].
  - exists mx, b. conjs; auto; try lra; try easy.
  - inversion Hl as [|? ? (Ft & Bt) Hl']; subst. destruct Hg as (Hg & Hg').
    assert (Est : fmin_upd st t = st).
    { unfold fmin_upd. destruct (flt t st) eqn:E; auto. apply flt_iff in E.
      destruct E as (x & y & Vx & Vy & Hlt). rewrite xval_finite in Vx, Vy by auto.
      injection Vx as <-. injection Vy as <-. lra. }
    rewrite Est.
    assert (Bd : Rabs (val64 t - val64 p) < bp (e + 2)).
    { eapply Rle_lt_trans; [apply Rabs_triang|]. rewrite Rabs_Ropp. bp_is (e + 2)%Z e 2%Z. pose proof (bp_pos e). lra. }
    destruct (fsub_err t p (e + 2) Ft Fp ltac:(lia) Bd) as (Fd & Ed).
    replace (e + 2 - 54)%Z with (e - 52)%Z in Ed by lia. apply Rabs_le_inv in Ed.
    assert (Dn : 0 <= val64 (fsub t p)).
    { destruct (fsub_correct t p Ft Fp) as (_ & ->).
      - eapply rnd64_fits; [exact Bd | lia].
      - apply round_ge_generic; auto with typeclass_instances; [apply generic_format_0 | lra]. }
    pose proof (xval_finite _ Fd) as Xd.
    destruct (fmax_upd_spec mx (fsub t p) b _ Hmx Xd) as (c & Xc & C1 & C2 & C3).
    destruct (IH t st (fmax_upd mx (fsub t p)) e D c Ft Fs ltac:(lra) Hl' Bt He Hg' Xc D0)
      as (mx' & b' & E & Xb & M & Hb & Hz & G).
    exists mx', b'. conjs; auto; try lra.
    + destruct M as [M|M]; [|now right]. subst mx'. destruct C3 as [C3|C3]; [now left|]. right.
      rewrite Xc in Xb. injection Xb as <-. rewrite C3 in Xc |- *. rewrite Xd in Xc. injection Xc as <-.
      split; [assumption | lra].
    + intros _ ->. rewrite Hmx in Xb. injection Xb as <-. lra.
    + cbn [gaps_in]. split; [lra | assumption].
Qed.

Lemma rnd32_rel : forall x, Rabs (rnd32 x - x) <= Rabs x * bp (-24) + bp (-150).
Proof.
  intro x. destruct (Rle_or_lt (bp (-125)) (Rabs x)) as [H|H].
  - pose proof (relative_error_N_FLT radix2 (-149) 24 eq_refl (fun z => negb (Z.even z)) x) as E.
    eapply Rle_trans; [apply E|].
    + eapply Rle_trans; [|exact H]. apply bpow_le. lia.
    + change (- (24) + 1)%Z with (-23)%Z.
      assert (bp (-23) = 2 * bp (-24)) by (rewrite <- bp_S; reflexivity).
      pose proof (bp_pos (-150)). rewrite H0. lra.
  - pose proof (rnd32_err x (-125) ltac:(lra) ltac:(lia)) as E. change (-125 - 25)%Z with (-150)%Z in E.
    pose proof (Rmult_le_pos _ _ (Rabs_pos x) (bpow_ge_0 radix2 (-24))). lra.
Qed.

(** the value at the end of a walk over [0, m] *)
Lemma walk_bound : forall b m e, fin64 m = true -> 0 <= val64 m <= bp e -> (-1021 <= e <= 1022)%Z -> length b = 2%nat ->
  fin64 (bst_dec f0 m b) = true /\
  Rabs (val64 (bst_dec f0 m b) - val64 m * frac (bits_of b)) <= 17 * bp (e - 52) /\
  0 <= frac (bits_of b) <= 1.
Proof.
  intros b m e Fm Hm He Hb. rewrite bst_dec_walk.
  assert (L : length (bits_of b) = 16%nat) by (rewrite bits_of_len, Hb; reflexivity).
  destruct (range_dec (bits_of b) f0 m e fin_f0 Fm ltac:(lra) He) as (F & E).
  - rewrite val_f0, Rabs_R0. lra.
  - rewrite L, INR_IZR_INZ. change (Z.of_nat 16) with 16%Z. change (bp 51) with 2251799813685248. lra.
  - cbv zeta in E. rewrite val_f0, Rplus_0_l, L in E.
    assert (W : walk_err 16 e = 17 * bp (e - 52)).
    { unfold walk_err. rewrite INR_IZR_INZ. change (Z.of_nat 16) with 16%Z. lra. }
    rewrite W in E. pose proof (frac_range (bits_of b)) as Rf. pose proof (half_pow_pos (S (length (bits_of b)))).
    conjs; auto; lra.
Qed.

Theorem times16_drift : forall t0 rest e D, rest <> [] -> (-100 <= e <= 126)%Z ->
  Forall (fun t => fin64 t = true /\ Rabs (val64 t) <= bp e) (t0 :: rest) ->
  gaps_in 0 D t0 rest -> INR (length rest) * D <= bp e -> INR (length rest) <= bp 40 ->
  forall j t, nth_error (t0 :: rest) j = Some t ->
  exists t', nth_error (time_values 2 (t0 :: rest)) j = Some t' /\ fin64 t' = true /\
    Rabs (val64 t' - val64 t) <= bp (e - 25) + INR j * (D / 131072 + D / 16777216 + bp (e - 44)).
Proof.
  intros t0 rest e D Hne He Hall Hg HD Hn j t Hj.
  inversion Hall as [|? ? (F0 & B0) Hl]; subst.
  assert (D0 : 0 <= D). { destruct rest as [|t1 rest]; [easy|]. destruct Hg as (Hg & _). lra. }
  assert (N1 : 1 <= INR (length rest)).
  { change 1 with (INR 1). apply le_INR. destruct rest; [easy|]. cbn. lia. }
  assert (De : D <= bp e). { eapply Rle_trans; [|exact HD]. rewrite <- (Rmult_1_l D) at 1. now apply Rmult_le_compat_r. }
  destruct (time_range_chrono rest t0 t0 fminf e D (- xinf) F0 F0 ltac:(lra) Hl B0 ltac:(lia) Hg xval_fminf D0)
    as (mx & b & Er & Xb & M & _ & Hz & G).
  destruct M as [-> |(Fm & Hb)].
  { pose proof (Hz Hne eq_refl). pose proof xinf_pos. lra. }
  rewrite (xval_finite _ Fm) in Xb. injection Xb as <-.
  assert (E0 : time_range None (t0 :: rest) fpinf fminf = (t0, mx)).
  { cbn [time_range]. replace (fmin_upd fpinf t0) with t0; [exact Er|].
    unfold fmin_upd. destruct (flt t0 fpinf) eqn:E; auto.
    apply (flt_false _ _ _ _ (xval_finite _ F0) xval_fpinf) in E. pose proof (finite_range t0). lra. }
  assert (EV : time_values 2 (t0 :: rest) = near32 t0 :: time_path (time_codes rest t0 mx) (near32 t0) (near32 mx)).
  { unfold time_values. now rewrite E0. }
  rewrite EV, time_path_dpath.
  destruct (near32_err t0 e F0 B0) as (_ & Fr & _ & _ & Er0 & Br); [lia|].
  bp_is (e - 25)%Z (e - 52)%Z 27%Z. bp_is (e - 44)%Z (e - 52)%Z 8%Z. bp_is e (e - 52)%Z 52%Z.
  bp_is (e + 1)%Z (e - 52)%Z 53%Z. bp_is (e + 3)%Z (e - 52)%Z 55%Z. bp_is (e - 51)%Z (e - 52)%Z 1%Z.
  pose proof (bp_pos (e - 52)) as P.
  assert (Bm : Rabs (val64 mx) <= bp (e + 1)) by (rewrite Rabs_pos_eq; lra).
  destruct (near32_err mx (e + 1) Fm Bm) as (_ & Fx & _ & Rx & _ & Bx); [lia|].
  pose proof (rnd32_rel (val64 mx)) as Rel. rewrite <- Rx in Rel. rewrite (Rabs_pos_eq (val64 mx)) in Rel by lra.
  change (bp (-24)) with (/ 16777216) in Rel.
  assert (X0 : 0 <= val64 (near32 mx)).
  { rewrite Rx. apply round_ge_generic; auto with typeclass_instances; [apply generic_format_0 | lra]. }
  apply Rabs_le_inv in Bx.
  assert (T150 : bp (-150) <= 4 * bp (e - 52)).
  { change 4 with (bp 2). rewrite <- bpow_plus. apply bpow_le. lia. }
  destruct j as [|j]; cbn [nth_error] in *.
  { injection Hj as <-. exists (near32 t0). conjs; auto. cbn [INR]. lra. }
  set (enc := fun v => bst_enc 2 v f0 mx). set (dec := bst_dec f0 mx). set (dec' := bst_dec f0 (near32 mx)).
  assert (L2 : forall v, length (enc v) = 2%nat).
  { intro v. pose proof (bst_enc_len 2 v f0 mx) as L. unfold enc, lenN in *. lia. }
  assert (Hdec : forall v d, fin64 v = true -> 34 * bp (e - 52) <= d -> 0 - d <= val64 v <= val64 mx + d ->
    Rabs (val64 (dec (enc v)) - val64 v) <= val64 mx / 131072 + d + 34 * bp (e - 52)).
  { intros v d Fv Hd Hv.
    assert (W : walk_err (8 * 2) (e + 1) = 34 * bp (e - 52)).
    { unfold walk_err. cbn [Nat.mul Nat.add]. rewrite INR_IZR_INZ. change (Z.of_nat 16) with 16%Z.
      replace (e + 1 - 52)%Z with (e - 51)%Z by lia. lra. }
    destruct (bst_accuracy 2 v (val64 v) f0 mx (e + 1) d fin_f0 Fm ltac:(lra) ltac:(lia)) as (_ & E).
    - rewrite val_f0, Rabs_R0. lra.
    - cbn [Nat.mul Nat.add]. rewrite INR_IZR_INZ. change (Z.of_nat 16) with 16%Z. change (bp 51) with 2251799813685248. lra.
    - now apply xval_finite.
    - lra.
    - rewrite val_f0. lra.
    - rewrite W in E. rewrite half_pow_bp in E. change (bp (- Z.of_nat (8 * 2 + 1))) with (/ 131072) in E. exact E. }
  assert (Hfin : forall v, fin64 v = true ->
    fin64 (dec (enc v)) = true /\ fin64 (dec' (enc v)) = true /\
    Rabs (val64 (dec (enc v))) <= D + D / 16777216 + 64 * bp (e - 52) /\
    Rabs (val64 (dec' (enc v))) <= D + D / 16777216 + 64 * bp (e - 52) /\
    Rabs (val64 (dec' (enc v)) - val64 (dec (enc v))) <= val64 mx / 16777216 + 72 * bp (e - 52)).
  { intros v _.
    destruct (walk_bound (enc v) mx (e + 1) Fm ltac:(lra) ltac:(lia) (L2 v)) as (A1 & A2 & A3).
    destruct (walk_bound (enc v) (near32 mx) (e + 1) Fx ltac:(lra) ltac:(lia) (L2 v)) as (A4 & A5 & _).
    fold dec in A1, A2. fold dec' in A4, A5. replace (e + 1 - 52)%Z with (e - 51)%Z in * by lia.
    pose proof (shrink (val64 (near32 mx) - val64 mx) (frac (bits_of (enc v))) _ A3 Rel) as Q.
    assert (Q1 : 0 <= val64 mx * frac (bits_of (enc v)) <= val64 mx).
    { split; [apply Rmult_le_pos; lra|]. rewrite <- (Rmult_1_r (val64 mx)) at 2. apply Rmult_le_compat_l; lra. }
    apply Rabs_le_inv in A2, A5, Q, Rel.
    conjs; auto; apply Rabs_le; lra. }
  assert (HS : steps_in 0 (val64 mx) (bp (e - 52)) (val64 t0) rest).
  { apply steps_gaps. clear -G P. revert G. generalize t0. induction rest as [|t rest IH]; intros p G; cbn in *; auto.
    destruct G. split; [lra | auto]. }
  destruct (drift bytes enc dec dec' 0 (val64 mx) (val64 mx / 131072) (34 * bp (e - 52))
    (val64 mx / 16777216 + 72 * bp (e - 52)) (D + D / 16777216 + 64 * bp (e - 52)) (bp (e - 52)) (e + 2)
    ltac:(lra) ltac:(lra) ltac:(lra) ltac:(lia) Hdec Hfin
    rest t0 (near32 t0) (val64 t0) 0 (bp (e - 25)) (bp e) (bp e) F0 Fr Hl HS) with (j := j) (t := t)
    as (t' & E1 & E2 & E3); auto.
  - unfold Rminus. rewrite Rplus_opp_r, Rabs_R0. lra.
  - replace (e + 2 - 53)%Z with (e - 51)%Z by lia. replace (e + 2 + 1)%Z with (e + 3)%Z by lia.
    assert (Q : INR (length rest) * (66 * bp (e - 52)) <= bp 40 * (66 * bp (e - 52))) by (apply Rmult_le_compat_r; lra).
    change (bp 40) with 1099511627776 in Q.
    replace (INR (length rest) * (D + D / 16777216 + 64 * bp (e - 52) + bp (e - 51))) with
      (INR (length rest) * D + INR (length rest) * D / 16777216 + INR (length rest) * (66 * bp (e - 52))) by (replace (bp (e - 51)) with (2 * bp (e - 52)) by lra; lra).
    lra.
  - lra.
  - exists t'. conjs; auto. eapply Rle_trans; [exact E3|]. unfold rate.
    replace (e + 2 - 53)%Z with (e - 51)%Z by lia. rewrite Rplus_0_l. apply Rplus_le_compat_l.
    apply Rmult_le_compat_l; [apply pos_INR|]. lra.
Qed.
