(** Accuracy and order of the 16-bit quantisers. *)
From Coq Require Import ZArith Reals Lia Lra.
From Flocq Require Import Core IEEE754.BinarySingleNaN IEEE754.Binary IEEE754.Bits.
From Verif Require Import Base BaseFacts Floats SpecFloat FloatFacts SpecEnc Near32Facts BinaryIO NumFacts WalkFacts.
From Verif Require Import Recording EncPosition EncFloat EncNumFacts.
Local Open Scope R_scope.

(** rewrite [bp (e + k)] into a multiple of [bp b] *)
Ltac bp_is a b n := let H := fresh "B" in
  assert (H : bp a = bp n * bp b) by (rewrite <- bpow_plus; f_equal; lia);
  let v := eval compute in (bp n) in change (bp n) with v in H.

Lemma shrink : forall a f c, 0 <= f <= 1 -> Rabs a <= c -> Rabs (a * f) <= c.
Proof.
  intros a f c Hf Ha. rewrite Rabs_mult, (Rabs_pos_eq f) by lra. pose proof (Rabs_pos a).
  apply Rle_trans with (Rabs a * 1); [|lra]. apply Rmult_le_compat_l; lra.
Qed.

(** ** Order *)
Lemma walk_dec_zero : forall l cur inc, fin64 cur = true -> fin64 inc = true -> val64 inc = 0 ->
  fin64 (walk_dec l cur inc) = true /\ val64 (walk_dec l cur inc) = val64 cur.
Proof.
  induction l as [|b l IH]; intros cur inc Fc Fi Zi; cbn [walk_dec]; [auto|].
  assert (Rc : rnd64 (val64 cur) = val64 cur).
  { apply round_generic; auto with typeclass_instances. apply fmt64. }
  destruct (fhalf_err inc Fi) as (Fh & Eh). rewrite Zi in Eh.
  assert (Zh : val64 (fdiv inc f2) = 0).
  { destruct (fdiv_correct inc f2 Fi) as (_ & E).
    - rewrite val_f2. lra.
    - rewrite Zi, val_f2. unfold Rdiv. rewrite Rmult_0_l, round_0, Rabs_R0 by auto with typeclass_instances. apply bp_pos.
    - rewrite E, Zi, val_f2. unfold Rdiv. rewrite Rmult_0_l. apply round_0; auto with typeclass_instances. }
  assert (Lc : Rabs (val64 cur) < bp 1024) by apply abs_B2R_lt_emax.
  destruct b.
  - destruct (fadd_correct cur inc Fc Fi) as (F & E); [now rewrite Zi, Rplus_0_r, Rc|].
    rewrite Zi, Rplus_0_r, Rc in E. rewrite <- E. now apply IH.
  - destruct (fsub_correct cur inc Fc Fi) as (F & E); [now rewrite Zi, Rminus_0_r, Rc|].
    rewrite Zi, Rminus_0_r, Rc in E. rewrite <- E. now apply IH.
Qed.
Lemma quarter_zero : forall d, fin64 d = true -> val64 d = 0 -> val64 (fdiv d f4) = 0.
Proof.
  intros d Fd Zd. destruct (fdiv_correct d f4 Fd) as (_ & E).
  - rewrite val_f4. lra.
  - rewrite Zd, val_f4. unfold Rdiv. rewrite Rmult_0_l, round_0, Rabs_R0 by auto with typeclass_instances. apply bp_pos.
  - rewrite E, Zd, val_f4. unfold Rdiv. rewrite Rmult_0_l. apply round_0; auto with typeclass_instances.
Qed.
Theorem range_order : forall l1 l2 start dur e, fin64 start = true -> fin64 dur = true -> 0 <= val64 dur ->
  (-1021 <= e <= 1022)%Z -> Rabs (val64 start) + val64 dur <= bp e -> INR (length l1) + 1 < bp 51 ->
  length l1 = length l2 -> lex_le l1 l2 ->
  val64 dur = 0 \/ 2 * walk_err (length l1) e <= val64 dur * half_pow (length l1) ->
  val64 (walk_dec l1 (fadd start (fdiv dur f2)) (fdiv dur f4)) <=
  val64 (walk_dec l2 (fadd start (fdiv dur f2)) (fdiv dur f4)).
Proof.
  intros l1 l2 start dur e Fs Fd D0 He Hb Hn Hl Hlex Hw.
  destruct (init_state start dur e Fs Fd D0 He Hb) as (G1 & G2 & _ & _).
  destruct Hw as [Zd|Hw].
  - pose proof (quarter_zero _ Fd Zd) as Zq.
    destruct (walk_dec_zero l1 _ _ G1 G2 Zq) as (_ & ->).
    destruct (walk_dec_zero l2 _ _ G1 G2 Zq) as (_ & ->). lra.
  - destruct (lex_frac l1 l2 Hl Hlex) as [-> |Hf]; [lra|].
    destruct (range_dec l1 start dur e Fs Fd D0 He Hb Hn) as (_ & E1).
    rewrite Hl in Hn. destruct (range_dec l2 start dur e Fs Fd D0 He Hb Hn) as (_ & E2).
    rewrite <- Hl in E2. cbv zeta in E1, E2. apply Rabs_le_inv in E1, E2.
    assert (val64 dur * (frac l1 + half_pow (length l1)) <= val64 dur * frac l2) by now apply Rmult_le_compat_l.
    lra.
Qed.

(** ** The byte functions *)
Lemma bst_bits_len : forall k v s d, length (bits_of (bst_enc k v s d)) = (8 * k)%nat.
Proof. intros. rewrite bst_enc_walk. apply walk_enc_len. Qed.
Theorem bst_accuracy : forall k v x start dur e d, fin64 start = true -> fin64 dur = true -> 0 <= val64 dur ->
  (-1021 <= e <= 1022)%Z -> Rabs (val64 start) + val64 dur <= bp e -> INR (8 * k) + 1 < bp 51 ->
  xval v = Some x -> walk_err (8 * k) e <= d -> val64 start - d <= x <= val64 start + val64 dur + d ->
  fin64 (bst_dec start dur (bst_enc k v start dur)) = true /\
  Rabs (val64 (bst_dec start dur (bst_enc k v start dur)) - x) <=
    val64 dur * half_pow (8 * k + 1) + d + walk_err (8 * k) e.
Proof.
  intros k v x start dur e d Fs Fd D0 He Hb Hn Hv Hd Hx.
  pose proof (range_enc (8 * k) v x start dur e d Fs Fd D0 He Hb Hn Hv Hd Hx) as E1.
  rewrite <- bst_enc_walk in E1. rewrite bst_dec_walk.
  destruct (range_dec (bits_of (bst_enc k v start dur)) start dur e Fs Fd D0 He Hb) as (F & E2);
    [now rewrite bst_bits_len|]. rewrite bst_bits_len in E2. split; auto.
  rewrite Nat.add_1_r. apply Rabs_le_inv in E1, E2. apply Rabs_le. lra.
Qed.
Theorem bst_order : forall k v w s d start dur e, fin64 start = true -> fin64 dur = true -> 0 <= val64 dur ->
  (-1021 <= e <= 1022)%Z -> Rabs (val64 start) + val64 dur <= bp e -> INR (8 * k) + 1 < bp 51 ->
  fle v w = true ->
  val64 dur = 0 \/ 2 * walk_err (8 * k) e <= val64 dur * half_pow (8 * k) ->
  val64 (bst_dec start dur (bst_enc k v s d)) <= val64 (bst_dec start dur (bst_enc k w s d)).
Proof.
  intros k v w s d start dur e Fs Fd D0 He Hb Hn Hv Hw. rewrite !bst_dec_walk.
  apply range_order with e; auto.
  - now rewrite bst_bits_len.
  - now rewrite !bst_bits_len.
  - rewrite !bst_enc_walk. apply walk_enc_lex. intro c. now apply fle_below.
  - now rewrite bst_bits_len.
Qed.

(** ** 32-bit headers *)
Lemma rnd32_err : forall x e, Rabs x <= bp e -> (-125 <= e)%Z -> Rabs (rnd32 x - x) <= bp (e - 25).
Proof.
  intros x e Hx He. destruct (Rle_lt_or_eq_dec _ _ Hx) as [Hlt|Heq].
  - eapply Rle_trans; [apply error_le_half_ulp; auto with typeclass_instances|].
    apply Rle_trans with (/ 2 * bp (e - 24)).
    2:{ replace (e - 25)%Z with (e - 24 - 1)%Z by lia. rewrite bp_P. pose proof (bp_pos (e - 24)). lra. }
    apply Rmult_le_compat_l; [lra|].
    destruct (Req_dec x 0) as [-> | Nx].
    + rewrite ulp_FLT_0 by reflexivity. apply bpow_le. lia.
    + rewrite ulp_neq_0 by assumption. apply bpow_le. unfold cexp, FLT_exp.
      pose proof (mag_le_bpow radix2 x e Nx Hlt). lia.
  - rewrite round_generic; auto with typeclass_instances.
    + unfold Rminus. rewrite Rplus_opp_r, Rabs_R0. apply bpow_ge_0.
    + assert (B : generic_format radix2 (FLT_exp (-149) 24) (bp e)).
      { apply generic_format_bpow. unfold FLT_exp. lia. }
      unfold Rabs in Heq. destruct (Rcase_abs x); rewrite <- Heq in B; auto.
      replace x with (- - x) by ring. now apply generic_format_opp.
Qed.
Lemma rnd32_le : forall x e, Rabs x <= bp e -> (-149 <= e)%Z -> Rabs (rnd32 x) <= bp e.
Proof.
  intros x e Hx He. apply abs_round_le_generic; auto with typeclass_instances.
  apply generic_format_bpow. unfold FLT_exp. lia.
Qed.
Lemma near32_err : forall x e, fin64 x = true -> Rabs (val64 x) <= bp e -> (-125 <= e <= 127)%Z ->
  fin32 (f32_of_f64 x) = true /\ fin64 (near32 x) = true /\ val64 (near32 x) = val32 (f32_of_f64 x) /\
  val64 (near32 x) = rnd32 (val64 x) /\
  Rabs (val64 (near32 x) - val64 x) <= bp (e - 25) /\ Rabs (val64 (near32 x)) <= bp e.
Proof.
  intros x e Fx Hx He.
  assert (Hr : Rabs (rnd32 (val64 x)) <= bp e) by (apply rnd32_le; auto; lia).
  destruct (f32_of_f64_correct x Fx) as (F1 & V1 & _).
  { eapply Rle_lt_trans; [exact Hr|]. apply bpow_lt. lia. }
  destruct (f64_of_f32_correct _ F1) as (F2 & V2 & _). unfold near32. rewrite V2, V1.
  repeat split; auto. apply rnd32_err; auto. lia.
Qed.
Lemma fsub32_correct : forall x y e, fin32 x = true -> fin32 y = true -> (-149 <= e <= 127)%Z ->
  Rabs (val32 x - val32 y) <= bp e ->
  fin32 (fsub32 x y) = true /\ val32 (fsub32 x y) = rnd32 (val32 x - val32 y).
Proof.
  intros x y e Fx Fy He Hb. unfold fsub32, b32_minus.
  pose proof (Bminus_correct 24 128 eq_refl eq_refl binop_nan_pl32 mode_NE x y Fx Fy) as C.
  change (SpecFloat.fexp 24 128) with (FLT_exp (-149) 24) in C.
  change (round_mode mode_NE) with ZnearestE in C. rewrite Rlt_bool_true in C.
  - destruct C as (C1 & C2 & _). split; assumption.
  - apply Rle_lt_trans with (bp e); [apply rnd32_le; auto; lia | apply bpow_lt; lia].
Qed.

(** distinct 32-bit floats are not too close to each other *)
Lemma fmt32_multiple : forall x k, generic_format radix2 (FLT_exp (-149) 24) x -> bp (k - 1) <= Rabs x ->
  multiple (Z.max (k - 24) (-149)) x.
Proof.
  intros x k Hx Hk.
  assert (M : (k <= mag radix2 x)%Z) by now apply mag_ge_bpow.
  apply (multiple_le (cexp radix2 (FLT_exp (-149) 24) x)).
  - unfold cexp, FLT_exp. lia.
  - exists (Ztrunc (scaled_mantissa radix2 (FLT_exp (-149) 24) x)). exact Hx.
Qed.
Lemma multiple_pos : forall g x, multiple g x -> 0 < x -> bp g <= x.
Proof.
  intros g x (a & ->) Hx. pose proof (bp_pos g) as P.
  assert (0 < IZR a). { apply Rmult_lt_reg_r with (bp g); [assumption|]. lra. }
  apply lt_IZR in H. assert (1 <= IZR a) by (apply IZR_le; lia).
  rewrite <- (Rmult_1_l (bp g)) at 1. apply Rmult_le_compat_r; lra.
Qed.
Lemma fmt32_grid : forall x, generic_format radix2 (FLT_exp (-149) 24) x -> multiple (-149) x.
Proof.
  intros x Hx. apply (multiple_le (cexp radix2 (FLT_exp (-149) 24) x)).
  - unfold cexp, FLT_exp. lia.
  - exists (Ztrunc (scaled_mantissa radix2 (FLT_exp (-149) 24) x)). exact Hx.
Qed.
Lemma sep32 : forall x y k, generic_format radix2 (FLT_exp (-149) 24) x -> generic_format radix2 (FLT_exp (-149) 24) y ->
  x < y -> bp (k - 1) <= Rabs x \/ bp (k - 1) <= Rabs y -> bp (k - 25) <= y - x.
Proof.
  intros x y k Fx Fy Hlt Hor.
  assert (Gen : forall a b, generic_format radix2 (FLT_exp (-149) 24) a -> generic_format radix2 (FLT_exp (-149) 24) b ->
    bp (k - 1) <= Rabs a -> 0 < Rabs (a - b) -> bp (k - 25) <= Rabs (a - b)).
  { intros a b Fa Fb Ha Hd. destruct (Rle_or_lt (bp (k - 2)) (Rabs b)) as [Hb|Hb].
    - replace (k - 2)%Z with ((k - 1) - 1)%Z in Hb by lia.
      pose proof (fmt32_multiple b (k - 1) Fb Hb) as Mb.
      assert (Ha' : bp ((k - 1) - 1) <= Rabs a).
      { eapply Rle_trans; [|exact Ha]. apply bpow_le. lia. }
      pose proof (fmt32_multiple a (k - 1) Fa Ha') as Ma.
      assert (Mab : multiple (Z.max (k - 1 - 24) (-149)) (Rabs (a - b))).
      { unfold Rabs. destruct (Rcase_abs (a - b)).
        - replace (- (a - b)) with (b - a) by ring. now apply multiple_sub.
        - now apply multiple_sub. }
      apply multiple_pos in Mab; auto. eapply Rle_trans; [|exact Mab]. apply bpow_le. lia.
    - apply Rle_trans with (bp (k - 2)); [apply bpow_le; lia|].
      pose proof (Rabs_triang_inv a b). pose proof (bp_pos (k - 1)).
      assert (E : bp (k - 2) = bp (k - 1) / 2) by (rewrite <- bp_P; f_equal; lia). lra. }
  destruct Hor as [H|H].
  - pose proof (Gen x y Fx Fy H) as G. rewrite Rabs_minus_sym, Rabs_pos_eq in G by lra. apply G. lra.
  - pose proof (Gen y x Fy Fx H) as G. rewrite Rabs_pos_eq in G by lra. apply G. lra.
Qed.

(** ** 16-bit float streams *)
Section Float16.
Variables (mn mx : f64) (e : Z).
Hypothesis Fmn : fin64 mn = true.
Hypothesis Fmx : fin64 mx = true.
Hypothesis Hle : val64 mn <= val64 mx.
Hypothesis Bmn : Rabs (val64 mn) <= bp e.
Hypothesis Bmx : Rabs (val64 mx) <= bp e.
Hypothesis He : (-125 <= e <= 126)%Z.
Let dur32 := f64_of_f32 (fsub32 (f32_of_f64 mx) (f32_of_f64 mn)).

Lemma dur32_ok : fin64 dur32 = true /\ 0 <= val64 dur32 <= bp (e + 1) /\
  val64 dur32 = rnd32 (val64 (near32 mx) - val64 (near32 mn)) /\
  val64 (near32 mn) <= val64 (near32 mx) /\
  Rabs (val64 dur32 - (val64 mx - val64 mn)) <= bp (e - 24) + 2 * bp (e - 25).
Proof.
  destruct (near32_err mn e Fmn Bmn) as (F1 & G1 & V1 & R1 & E1 & L1); [lia|].
  destruct (near32_err mx e Fmx Bmx) as (F2 & G2 & V2 & R2 & E2 & L2); [lia|].
  assert (Hb : Rabs (val32 (f32_of_f64 mx) - val32 (f32_of_f64 mn)) <= bp (e + 1)).
  { rewrite <- V1, <- V2, bp_S. eapply Rle_trans; [apply Rabs_triang|]. rewrite Rabs_Ropp. lra. }
  destruct (fsub32_correct _ _ (e + 1) F2 F1 ltac:(lia) Hb) as (F & E).
  destruct (f64_of_f32_correct _ F) as (F' & E' & _). fold dur32 in F', E'.
  assert (Hm : val64 (near32 mn) <= val64 (near32 mx)).
  { rewrite R1, R2. apply round_le; auto with typeclass_instances. }
  rewrite E in E'. rewrite <- V1, <- V2 in *. split; [assumption|]. split; [|split; [assumption|split; [assumption|]]].
  - rewrite E'. split.
    + apply round_ge_generic; auto with typeclass_instances; [apply generic_format_0 | lra].
    + apply Rle_trans with (Rabs (rnd32 (val64 (near32 mx) - val64 (near32 mn)))); [apply Rle_abs|].
      apply rnd32_le; [assumption | lia].
  - rewrite E'. pose proof (rnd32_err _ (e + 1) Hb ltac:(lia)) as E3.
    replace (e + 1 - 25)%Z with (e - 24)%Z in E3 by lia.
    apply Rabs_le_inv in E1, E2, E3. apply Rabs_le. lra.
Qed.

Lemma float16_order : forall v w, fle v w = true -> val64 (float16 mn mx v) <= val64 (float16 mn mx w).
Proof.
  intros v w Hvw. unfold float16. fold dur32.
  destruct dur32_ok as (Fd & (D0 & _) & Ed & Hm & _).
  destruct (near32_err mn e Fmn Bmn) as (F1 & G1 & V1 & R1 & _ & L1); [lia|].
  destruct (near32_err mx e Fmx Bmx) as (F2 & G2 & V2 & R2 & _ & L2); [lia|].
  destruct (Req_dec (val64 (near32 mn)) (val64 (near32 mx))) as [Eq|Ne].
  - assert (Zd : val64 dur32 = 0).
    { rewrite Ed, Eq. unfold Rminus. rewrite Rplus_opp_r. apply round_0; auto with typeclass_instances. }
    apply bst_order with 127%Z; auto; try lia.
    + rewrite Zd, Rplus_0_r. eapply Rle_trans; [exact L1|]. apply bpow_le. lia.
    + cbn [Nat.mul Nat.add]. rewrite INR_IZR_INZ. change (Z.of_nat 16) with 16%Z. change (bp 51) with 2251799813685248. lra.
  - set (m := Rmax (Rabs (val64 (near32 mn))) (Rabs (val64 (near32 mx)))).
    assert (m0 : 0 < m).
    { unfold m. pose proof (Rmax_l (Rabs (val64 (near32 mn))) (Rabs (val64 (near32 mx)))).
      pose proof (Rmax_r (Rabs (val64 (near32 mn))) (Rabs (val64 (near32 mx)))).
      destruct (Req_dec (val64 (near32 mn)) 0) as [Z|N].
      - assert (0 < Rabs (val64 (near32 mx))) by (apply Rabs_pos_lt; lra). lra.
      - apply Rabs_pos_lt in N. lra. }
    destruct (mag radix2 m) as (k & Hk). specialize (Hk ltac:(lra)).
    rewrite Rabs_pos_eq in Hk by lra. destruct Hk as (Hk1 & Hk2).
    assert (Hmn : Rabs (val64 (near32 mn)) <= m) by apply Rmax_l.
    assert (Hmx : Rabs (val64 (near32 mx)) <= m) by apply Rmax_r.
    assert (Hm' : m <= bp e) by (apply Rmax_lub; assumption).
    assert (Fn : generic_format radix2 (FLT_exp (-149) 24) (val64 (near32 mn))).
    { rewrite R1. apply generic_format_round; auto with typeclass_instances. }
    assert (Fx : generic_format radix2 (FLT_exp (-149) 24) (val64 (near32 mx))).
    { rewrite R2. apply generic_format_round; auto with typeclass_instances. }
    assert (D : bp (-149) <= val64 (near32 mx) - val64 (near32 mn)).
    { apply multiple_pos; [|lra]. apply multiple_sub; now apply fmt32_grid. }
    assert (T : bp (k - 25) <= val64 (near32 mx) - val64 (near32 mn)).
    { apply sep32; auto; [lra|]. unfold m in Hk1. unfold Rmax in Hk1. destruct (Rle_dec _ _); auto. }
    assert (K0 : (-151 < k)%Z).
    { apply (lt_bpow radix2). apply Rle_lt_trans with m; [|assumption].
      replace (-151)%Z with (-149 - 1 - 1)%Z by lia. rewrite !bp_P. pose proof (bp_pos (-149)).
      apply Rabs_le_inv in Hmn, Hmx. lra. }
    assert (K1 : (k <= 127)%Z).
    { enough (k - 1 <= 126)%Z by lia. apply (le_bpow radix2). eapply Rle_trans; [exact Hk1|].
      eapply Rle_trans; [exact Hm'|]. apply bpow_le. lia. }
    assert (Dl : bp (k - 25) <= val64 dur32).
    { rewrite Ed. apply Rle_trans with (bp (Z.max (k - 25) (-149))); [apply bpow_le; lia|].
      apply round_ge_generic; auto with typeclass_instances.
      - apply generic_format_bpow. unfold FLT_exp. lia.
      - destruct (Z.max_spec (k - 25) (-149)) as [(_ & ->) | (_ & ->)]; assumption. }
    assert (Dh : val64 dur32 <= bp (k + 1)).
    { rewrite Ed. apply round_le_generic; auto with typeclass_instances.
      - apply generic_format_bpow. unfold FLT_exp. lia.
      - rewrite bp_S. apply Rabs_le_inv in Hmn, Hmx. lra. }
    apply bst_order with (k + 2)%Z; auto; try lia.
    + bp_is (k + 2)%Z k 2%Z. bp_is (k + 1)%Z k 1%Z. lra.
    + cbn [Nat.mul Nat.add]. rewrite INR_IZR_INZ. change (Z.of_nat 16) with 16%Z. change (bp 51) with 2251799813685248. lra.
    + right. unfold walk_err. cbn [Nat.mul Nat.add]. rewrite INR_IZR_INZ. change (Z.of_nat 16) with 16%Z.
      rewrite half_pow_bp. change (bp (- Z.of_nat 16)) with (/ 65536).
      bp_is (k - 25)%Z (k + 2 - 52)%Z 25%Z. lra.
Qed.

Lemma float16_accuracy : forall v x, xval v = Some x -> val64 mn <= x <= val64 mx ->
  fin64 (float16 mn mx v) = true /\
  Rabs (val64 (float16 mn mx v) - x) <= (val64 mx - val64 mn) / 131072 + bp (e - 22).
Proof.
  intros v x Hv Hx. unfold float16. fold dur32.
  destruct dur32_ok as (Fd & (D0 & D1) & _ & _ & Ed).
  destruct (near32_err mn e Fmn Bmn) as (F1 & G1 & V1 & R1 & E1 & L1); [lia|].
  assert (N16 : INR 16 + 1 < bp 51).
  { rewrite INR_IZR_INZ. change (Z.of_nat 16) with 16%Z. change (bp 51) with 2251799813685248. lra. }
  assert (Fb : Rabs (val64 mx - val64 mn) < bp (e + 2)).
  { eapply Rle_lt_trans; [apply Rabs_triang|]. rewrite Rabs_Ropp. bp_is (e + 2)%Z e 2%Z. pose proof (bp_pos e). lra. }
  destruct (fsub_err mx mn (e + 2) Fmx Fmn ltac:(lia) Fb) as (Fs & Es).
  bp_is (e + 2)%Z (e - 52)%Z 54%Z. bp_is e (e - 52)%Z 52%Z. bp_is (e + 1)%Z (e - 52)%Z 53%Z.
  bp_is (e - 25)%Z (e - 52)%Z 27%Z. bp_is (e - 24)%Z (e - 52)%Z 28%Z. bp_is (e - 22)%Z (e - 52)%Z 30%Z.
  bp_is (e + 2 - 54)%Z (e - 52)%Z 0%Z. bp_is (e + 2 - 52)%Z (e - 52)%Z 2%Z. pose proof (bp_pos (e - 52)) as P.
  pose proof (Rabs_le_inv _ _ Es) as Es'. pose proof (Rabs_le_inv _ _ Bmn) as Bmn'. pose proof (Rabs_le_inv _ _ Bmx) as Bmx'.
  assert (S0 : 0 <= val64 (fsub mx mn)).
  { destruct (fsub_correct mx mn Fmx Fmn) as (_ & ->).
    - eapply rnd64_fits; [exact Fb | lia].
    - apply round_ge_generic; auto with typeclass_instances; [apply generic_format_0 | lra]. }
  assert (W : walk_err 16 (e + 2) = 68 * bp (e - 52)).
  { unfold walk_err. rewrite INR_IZR_INZ. change (Z.of_nat 16) with 16%Z. lra. }
  pose proof (range_enc 16 v x mn (fsub mx mn) (e + 2) (69 * bp (e - 52)) Fmn Fs S0 ltac:(lia)
    ltac:(lra) N16 Hv ltac:(lra) ltac:(lra)) as E2.
  change 16%nat with (8 * 2)%nat in E2. rewrite <- bst_enc_walk in E2.
  rewrite bst_dec_walk. set (bits := bits_of (bst_enc 2 v mn (fsub mx mn))) in *.
  assert (Lb : length bits = 16%nat) by apply bst_bits_len.
  destruct (range_dec bits (near32 mn) dur32 (e + 2) G1 Fd D0 ltac:(lia)) as (F & E3).
  - lra.
  - now rewrite Lb.
  - rewrite Lb, W in E3. cbv zeta in E3. split; auto.
    pose proof (frac_range bits) as Rf. rewrite Lb in Rf. rewrite half_pow_bp in *.
    change (bp (- Z.of_nat 17)) with (/ 131072) in *. change (bp (- Z.of_nat (S (8 * 2)))) with (/ 131072) in *.
    apply Rabs_le_inv in E1, E2, E3, Ed.
    assert (Q' : Rabs (val64 dur32 - val64 (fsub mx mn)) <= 536870913 * bp (e - 52)).
    { apply Rabs_le. lra. }
    pose proof (shrink _ (frac bits) _ ltac:(lra) Q') as Q2. apply Rabs_le_inv in Q2.
    apply Rabs_le. lra.
Qed.
End Float16.

(** ** Exact walks: the decoder lands on the exact point of its bits and the
    encoder finds the same bits there *)
Section ExactWalk.
Variable g : Z.
Hypothesis Hg : (-1074 <= g <= 970)%Z.
Let Gi (n : nat) (y : f64) := Egrid (g + Z.of_nat n) y.
Lemma ex_add' : forall n x y, Egrid g x -> Gi (S n) y -> Rabs (val64 x) + Rabs (val64 y) < bp (g + 53) ->
  Egrid g (fadd x y) /\ Rabs (val64 (fadd x y) - (val64 x + val64 y)) <= 0.
Proof. intros n x y. apply (ex_add g Hg). Qed.
Lemma ex_sub' : forall n x y, Egrid g x -> Gi (S n) y -> Rabs (val64 x) + Rabs (val64 y) < bp (g + 53) ->
  Egrid g (fsub x y) /\ Rabs (val64 (fsub x y) - (val64 x - val64 y)) <= 0.
Proof. intros n x y. apply (ex_sub g Hg). Qed.
Lemma ex_half' : forall n y, Gi (S n) y ->
  Gi n (fdiv y f2) /\ Rabs (val64 (fdiv y f2) - val64 y / 2) <= 0.
Proof.
  intros n y H. unfold Gi in *. replace (g + Z.of_nat (S n))%Z with (g + Z.of_nat n + 1)%Z in H by lia.
  destruct (fhalf_exact (g + Z.of_nat n) y ltac:(lia) H) as (H1 & H2). split; auto.
  rewrite H2. unfold Rminus. rewrite Rplus_opp_r, Rabs_R0. lra.
Qed.
Lemma le0_eq : forall a b, Rabs (a - b) <= 0 -> a = b.
Proof. intros a b H. apply Rabs_le_inv in H. lra. Qed.
Lemma exact_dec : forall l cur inc, Egrid g cur -> Gi (length l) inc -> 0 <= val64 inc ->
  Rabs (val64 cur) + 2 * val64 inc < bp (g + 53) ->
  Egrid g (walk_dec l cur inc) /\
  val64 (walk_dec l cur inc) = val64 cur - 2 * val64 inc + 4 * val64 inc * frac l.
Proof.
  intros l cur inc Hc Hi I0 Hb.
  destruct (walk_dec_spec 0 0 (bp (g + 53)) (Egrid g) Gi ltac:(lra) ltac:(lra) ex_add' ex_sub' ex_half' l
    cur inc (val64 cur) (val64 inc) 0 Hc Hi) as (G & E); auto.
  - unfold Rminus. rewrite Rplus_opp_r, Rabs_R0. lra.
  - unfold Rminus. rewrite Rplus_opp_r, Rabs_R0. lra.
  - replace (0 + 2 * 0) with 0 by ring. rewrite Rmult_0_r. lra.
  - split; auto. apply le0_eq. replace (0 + 2 * 0) with 0 in E by ring. rewrite Rmult_0_r in E. lra.
Qed.
Lemma exact_enc : forall n v x cur inc, Egrid g cur -> Gi n inc -> 0 <= val64 inc -> xval v = Some x ->
  Rabs (val64 cur) + 2 * val64 inc < bp (g + 53) ->
  val64 cur - 2 * val64 inc <= x <= val64 cur + 2 * val64 inc ->
  Rabs (x - (val64 cur - 2 * val64 inc + 4 * val64 inc * frac (walk_enc n v cur inc))) <=
    2 * val64 inc * half_pow n.
Proof.
  intros n v x cur inc Hc Hi I0 Hv Hb Hx.
  pose proof (walk_enc_spec 0 0 (bp (g + 53)) (Egrid g) Gi ltac:(lra) ltac:(lra) ex_add' ex_sub' ex_half' n v
    cur inc (val64 cur) (val64 inc) 0 0 x Hc Hi (fun y H => proj1 H) Hv) as E.
  replace (0 + 2 * 0) with 0 in E by ring. rewrite Rmult_0_r in E.
  eapply Rle_trans; [apply E; try lra|lra]; unfold Rminus; rewrite Rplus_opp_r, Rabs_R0; lra.
Qed.
Lemma exact_fix : forall l cur inc v, Egrid g cur -> Gi (length l) inc -> 0 < val64 inc ->
  Rabs (val64 cur) + 2 * val64 inc < bp (g + 53) ->
  xval v = Some (val64 cur - 2 * val64 inc + 4 * val64 inc * frac l) ->
  walk_enc (length l) v cur inc = l.
Proof.
  induction l as [|b l IH]; intros cur inc v Hc Hi I0 Hb Hv; [reflexivity|].
  cbn [length walk_enc frac] in *.
  pose proof (frac_range l) as Rf. pose proof (half_pow_pos (S (length l))) as Hp.
  destruct (ex_half' _ _ Hi) as (Gh & Eh). apply le0_eq in Eh.
  assert (P1 : 0 < val64 inc * frac l) by (apply Rmult_lt_0_compat; lra).
  assert (P2 : val64 inc * frac l < val64 inc).
  { rewrite <- (Rmult_1_r (val64 inc)) at 2. apply Rmult_lt_compat_l; lra. }
  assert (Hbb : Rabs (val64 cur) + Rabs (val64 inc) < bp (g + 53)) by (rewrite (Rabs_pos_eq (val64 inc)); lra).
  pose proof (xval_finite cur (proj1 Hc)) as Xc.
  assert (Eb : negb (flt v cur) = b).
  { destruct (flt v cur) eqn:Ef; cbn [negb].
    - apply flt_iff in Ef. destruct Ef as (p & q & Vp & Vq & Hlt).
      rewrite Hv in Vp. injection Vp as <-. rewrite Xc in Vq. injection Vq as <-. destruct b; [lra | reflexivity].
    - apply (flt_false _ _ _ _ Hv Xc) in Ef. destruct b; [reflexivity | lra]. }
  rewrite Eb. f_equal. destruct b.
  - destruct (ex_add' _ _ _ Hc Hi Hbb) as (Ga & Ea). apply le0_eq in Ea.
    apply IH; auto; rewrite ?Eh, ?Ea; try lra.
    + pose proof (Rabs_triang (val64 cur) (val64 inc)) as T. rewrite (Rabs_pos_eq (val64 inc)) in T by lra. lra.
    + rewrite Hv. f_equal. lra.
  - destruct (ex_sub' _ _ _ Hc Hi Hbb) as (Ga & Ea). apply le0_eq in Ea.
    apply IH; auto; rewrite ?Eh, ?Ea; try lra.
    + pose proof (Rabs_triang (val64 cur) (- val64 inc)) as T. rewrite Rabs_Ropp, (Rabs_pos_eq (val64 inc)) in T by lra.
      unfold Rminus. lra.
    + rewrite Hv. f_equal. lra.
Qed.
End ExactWalk.

(** ** Euler angles on 16 bits *)
From Verif Require Import EncEuler.
Lemma half360 : fin64 (fdiv f360 f2) = true /\ val64 (fdiv f360 f2) = 180.
Proof.
  assert (E : fdiv f360 f2 = f64_of_Z 180) by (apply B2FF_inj; vm_compute; reflexivity).
  rewrite E. apply val_f64_of_Z. lia.
Qed.
Lemma centre360 : fin64 (fadd f0 (fdiv f360 f2)) = true /\ val64 (fadd f0 (fdiv f360 f2)) = 180.
Proof.
  assert (E : fadd f0 (fdiv f360 f2) = f64_of_Z 180) by (apply B2FF_inj; vm_compute; reflexivity).
  rewrite E. apply val_f64_of_Z. lia.
Qed.
Lemma step360 : fin64 (fdiv f360 f4) = true /\ val64 (fdiv f360 f4) = 90.
Proof.
  assert (E : fdiv f360 f4 = f64_of_Z 90) by (apply B2FF_inj; vm_compute; reflexivity).
  rewrite E. apply val_f64_of_Z. lia.
Qed.
Lemma grid360 : Egrid (-15) (fadd f0 (fdiv f360 f2)) /\ Egrid (-15 + Z.of_nat 16) (fdiv f360 f4).
Proof.
  split; split; try apply centre360; try apply step360.
  - exists (180 * 2 ^ 15)%Z. rewrite (proj2 centre360). rewrite mult_IZR. change (IZR (2 ^ 15)) with (bp 15).
    rewrite Rmult_assoc, <- bpow_plus. change (bp (15 + -15)) with 1. lra.
  - exists 45%Z. rewrite (proj2 step360). change (bp (-15 + Z.of_nat 16)) with 2. lra.
Qed.
Lemma room360 : Rabs (val64 (fadd f0 (fdiv f360 f2))) + 2 * val64 (fdiv f360 f4) < bp (-15 + 53).
Proof.
  rewrite (proj2 centre360), (proj2 step360), Rabs_pos_eq by lra. change (bp (-15 + 53)) with 274877906944. lra.
Qed.
Theorem dec16_exact : forall b, length b = 2%nat ->
  fin64 (dec16 b) = true /\ val64 (dec16 b) = 360 * frac (bits_of b).
Proof.
  intros b Hb. unfold dec16. rewrite bst_dec_walk. destruct grid360 as (G1 & G2).
  assert (L : length (bits_of b) = 16%nat) by (rewrite bits_of_len, Hb; reflexivity).
  rewrite <- L in G2.
  destruct (exact_dec (-15) ltac:(lia) (bits_of b) _ _ G1 G2) as ((F & _) & E).
  - rewrite (proj2 step360). lra.
  - apply room360.
  - split; auto. rewrite E, (proj2 centre360), (proj2 step360). lra.
Qed.
Theorem dec16_inside : forall b, length b = 2%nat -> 360 / 131072 <= val64 (dec16 b) <= 360 - 360 / 131072.
Proof.
  intros b Hb. rewrite (proj2 (dec16_exact b Hb)). pose proof (frac_range (bits_of b)) as R.
  rewrite bits_of_len, Hb, half_pow_bp in R. change (bp (- Z.of_nat (S (8 * 2)))) with (/ 131072) in R. lra.
Qed.
Theorem enc16_near : forall v x, xval v = Some x -> 0 <= x <= 360 ->
  Rabs (val64 (dec16 (bst_enc 2 v f0 f360)) - x) <= 360 / 131072.
Proof.
  intros v x Hv Hx. rewrite (proj2 (dec16_exact (bst_enc 2 v f0 f360) ltac:(pose proof (bst_enc_len 2 v f0 f360); unfold lenN in *; lia))).
  rewrite bst_enc_walk. destruct grid360 as (G1 & G2).
  pose proof (exact_enc (-15) ltac:(lia) 16 v x _ _ G1 G2) as E.
  rewrite (proj2 centre360), (proj2 step360) in E. rewrite half_pow_bp in E. change (bp (- Z.of_nat 16)) with (/ 65536) in E.
  change (8 * 2)%nat with 16%nat. rewrite Rabs_minus_sym.
  match type of E with _ -> _ -> _ -> _ -> Rabs ?a <= _ => match goal with |- Rabs ?b <= _ => replace b with a by lra end end.
  eapply Rle_trans; [apply E|lra]; try assumption; try lra.
  pose proof room360 as R. rewrite (proj2 centre360), (proj2 step360) in R. exact R.
Qed.
Theorem enc16_fix : forall b v, length b = 2%nat -> xval v = Some (val64 (dec16 b)) -> bst_enc 2 v f0 f360 = b.
Proof.
  intros b v Hb Hv. apply bits_of_inj. rewrite bst_enc_walk. destruct grid360 as (G1 & G2).
  assert (L : length (bits_of b) = 16%nat) by (rewrite bits_of_len, Hb; reflexivity).
  change (8 * 2)%nat with 16%nat. rewrite <- L in G2 |- *.
  apply (exact_fix (-15) ltac:(lia)); auto.
  - rewrite (proj2 step360). lra.
  - apply room360.
  - rewrite Hv, (proj2 (dec16_exact b Hb)), (proj2 centre360), (proj2 step360). f_equal. lra.
Qed.

(** an angle in [0,360) is its own remainder *)
Lemma ffloor_unit : forall x, fin64 x = true -> 0 <= val64 x < 1 -> fin64 (ffloor x) = true /\ val64 (ffloor x) = 0.
Proof.
  intros x Fx Hx. unfold ffloor.
  destruct (Bnearbyint_correct 53 1024 eq_refl unop_nan_pl64 mode_DN x) as (E & F & _).
  rewrite E, F. split; auto. unfold round, F2R, scaled_mantissa, cexp, FIX_exp. cbn [Fnum Fexp bpow Z.opp].
  rewrite Rmult_1_r. cbn [round_mode]. rewrite (Zfloor_imp 0) by (cbn [IZR Z.add IPR]; lra). lra.
Qed.
Theorem wrap_id : forall a, fin64 a = true -> 0 <= val64 a < 360 ->
  fin64 (wrap_angle a) = true /\ val64 (wrap_angle a) = val64 a.
Proof.
  intros a Fa Ha. unfold wrap_angle.
  assert (Hq : 0 <= rnd64 (val64 a / 360) <= 1 - bp (-53)).
  { split.
    - apply round_ge_generic; auto with typeclass_instances; [apply generic_format_0 | lra].
    - apply round_le_generic; auto with typeclass_instances.
      + apply (multiple_format (-53)); [lia | | ].
        * exists (2 ^ 53 - 1)%Z. rewrite minus_IZR. change (IZR (2 ^ 53)) with (bp 53).
          rewrite Rmult_minus_distr_r, <- bpow_plus. change (bp (53 + -53)) with 1. lra.
        * change (bp (-53 + 53)) with 1. pose proof (bp_pos (-53)).
          assert (bp (-53) < bp 0) by (apply bpow_lt; lia). change (bp 0) with 1 in *. apply Rabs_le. lra.
      + assert (A : val64 a <= 360 - bp (-44)).
        { destruct (Rle_or_lt (val64 a) 256) as [Hs|Hl].
          - assert (bp (-44) < bp 0) by (apply bpow_lt; lia). change (bp 0) with 1 in *. lra.
          - assert (M : multiple (-44) (val64 a)).
            { pose proof (fmt64 a) as G. apply (multiple_le (cexp radix2 (FLT_exp (-1074) 53) (val64 a))).
              - assert (9 <= mag radix2 (val64 a))%Z.
                { apply mag_ge_bpow. change (bp (9 - 1)) with 256. rewrite Rabs_pos_eq; lra. }
                unfold cexp, FLT_exp. lia.
              - exists (Ztrunc (scaled_mantissa radix2 (FLT_exp (-1074) 53) (val64 a))). exact G. }
            assert (M' : multiple (-44) (360 - val64 a)).
            { apply multiple_sub; auto. exists (360 * 2 ^ 44)%Z. rewrite mult_IZR. change (IZR (2 ^ 44)) with (bp 44).
              rewrite Rmult_assoc, <- bpow_plus. change (bp (44 + -44)) with 1. lra. }
            apply multiple_pos in M'; lra. }
        apply Rle_trans with ((360 - bp (-44)) / 360); [unfold Rdiv; apply Rmult_le_compat_r; lra|].
        assert (bp (-44) = 512 * bp (-53)) by (change 512 with (bp 9); rewrite <- bpow_plus; reflexivity).
        pose proof (bp_pos (-53)). lra. }
  pose proof (bp_pos (-53)) as P53.
  destruct (fdiv_correct a f360 Fa) as (Fq & Eq).
  { rewrite val_f360. lra. }
  { rewrite val_f360. rewrite Rabs_pos_eq by lra. apply Rlt_trans with (bp 0); [change (bp 0) with 1; lra | apply bpow_lt; lia]. }
  rewrite val_f360 in Eq.
  destruct (ffloor_unit (fdiv a f360) Fq) as (Ff & Ef); [rewrite Eq; lra|].
  assert (Z0 : rnd64 0 = 0) by (apply round_0; auto with typeclass_instances).
  destruct (fmul_correct f360 (ffloor (fdiv a f360)) fin_f360 Ff) as (Fm & Em).
  { rewrite Ef, Rmult_0_r, Z0, Rabs_R0. apply bp_pos. }
  rewrite Ef, Rmult_0_r, Z0 in Em.
  assert (Ra : rnd64 (val64 a) = val64 a).
  { apply round_generic; auto with typeclass_instances. apply fmt64. }
  destruct (fsub_correct a (fmul f360 (ffloor (fdiv a f360))) Fa Fm) as (Fs & Es).
  { rewrite Em, Rminus_0_r, Ra. apply abs_B2R_lt_emax. }
  rewrite Em, Rminus_0_r, Ra in Es. auto.
Qed.
Theorem angle16_ok : forall a, fin64 a = true -> 0 <= val64 a < 360 ->
  fin64 (angle16 a) = true /\ Rabs (val64 (angle16 a) - val64 a) <= 360 / 131072 /\
  0 < val64 (angle16 a) < 360 /\ enc16 (angle16 a) = enc16 a.
Proof.
  intros a Fa Ha. unfold angle16. destruct (wrap_id a Fa Ha) as (Fw & Ew).
  assert (L : length (enc16 a) = 2%nat).
  { pose proof (bst_enc_len 2 (wrap_angle a) f0 f360) as L. unfold enc16, lenN in *. lia. }
  destruct (dec16_exact (enc16 a) L) as (F & _). pose proof (dec16_inside (enc16 a) L) as In.
  split; [assumption|]. split; [|split].
  - apply enc16_near; [|lra]. now rewrite xval_finite, Ew.
  - lra.
  - unfold enc16 at 1. apply enc16_fix; [assumption|].
    destruct (wrap_id (dec16 (enc16 a)) F) as (Fw' & Ew'); [lra|]. now rewrite xval_finite, Ew'.
Qed.
