(** Rounded arithmetic on finite floats, as statements about real numbers. *)
From Coq Require Import ZArith Reals Lia Lra.
From Flocq Require Import Mult_error Core IEEE754.BinarySingleNaN IEEE754.Binary IEEE754.Bits.
From Verif Require Import Base Floats SpecFloat FloatFacts Near32Facts.
Local Open Scope R_scope.

#[export] Instance prec_53 : Prec_gt_0 53 := eq_refl.
#[export] Instance prec_24 : Prec_gt_0 24 := eq_refl.
#[export] Instance valid_53 : Valid_exp (FLT_exp (-1074) 53) := FLT_exp_valid (-1074) 53.
#[export] Instance valid_24 : Valid_exp (FLT_exp (-149) 24) := FLT_exp_valid (-149) 24.
Notation rnd64 := (round radix2 (FLT_exp (-1074) 53) ZnearestE).
Notation bp := (bpow radix2).

Lemma fmt64 : forall x, generic_format radix2 (FLT_exp (-1074) 53) (val64 x).
Proof. intro x. exact (generic_format_B2R 53 1024 x). Qed.

Lemma fadd_correct : forall x y, fin64 x = true -> fin64 y = true ->
  Rabs (rnd64 (val64 x + val64 y)) < bp 1024 ->
  fin64 (fadd x y) = true /\ val64 (fadd x y) = rnd64 (val64 x + val64 y).
Proof.
  intros x y Hx Hy Hb. unfold fadd, b64_plus.
  pose proof (Bplus_correct 53 1024 eq_refl eq_refl binop_nan_pl64 mode_NE x y Hx Hy) as C.
  change (SpecFloat.fexp 53 1024) with (FLT_exp (-1074) 53) in C.
  change (round_mode mode_NE) with ZnearestE in C. rewrite Rlt_bool_true in C by exact Hb.
  destruct C as (C1 & C2 & _). split; assumption.
Qed.
Lemma fsub_correct : forall x y, fin64 x = true -> fin64 y = true ->
  Rabs (rnd64 (val64 x - val64 y)) < bp 1024 ->
  fin64 (fsub x y) = true /\ val64 (fsub x y) = rnd64 (val64 x - val64 y).
Proof.
  intros x y Hx Hy Hb. unfold fsub, b64_minus.
  pose proof (Bminus_correct 53 1024 eq_refl eq_refl binop_nan_pl64 mode_NE x y Hx Hy) as C.
  change (SpecFloat.fexp 53 1024) with (FLT_exp (-1074) 53) in C.
  change (round_mode mode_NE) with ZnearestE in C. rewrite Rlt_bool_true in C by exact Hb.
  destruct C as (C1 & C2 & _). split; assumption.
Qed.
Lemma fmul_correct : forall x y, fin64 x = true -> fin64 y = true ->
  Rabs (rnd64 (val64 x * val64 y)) < bp 1024 ->
  fin64 (fmul x y) = true /\ val64 (fmul x y) = rnd64 (val64 x * val64 y).
Proof.
  intros x y Hx Hy Hb. unfold fmul, b64_mult.
  pose proof (Bmult_correct 53 1024 eq_refl eq_refl binop_nan_pl64 mode_NE x y) as C.
  change (SpecFloat.fexp 53 1024) with (FLT_exp (-1074) 53) in C.
  change (round_mode mode_NE) with ZnearestE in C. rewrite Rlt_bool_true in C by exact Hb.
  destruct C as (C1 & C2 & _). rewrite Hx, Hy in C2. split; assumption.
Qed.
Lemma fdiv_correct : forall x y, fin64 x = true -> val64 y <> 0 ->
  Rabs (rnd64 (val64 x / val64 y)) < bp 1024 ->
  fin64 (fdiv x y) = true /\ val64 (fdiv x y) = rnd64 (val64 x / val64 y).
Proof.
  intros x y Hx Hy Hb. unfold fdiv, b64_div.
  pose proof (Bdiv_correct 53 1024 eq_refl eq_refl binop_nan_pl64 mode_NE x y Hy) as C.
  change (SpecFloat.fexp 53 1024) with (FLT_exp (-1074) 53) in C.
  change (round_mode mode_NE) with ZnearestE in C. rewrite Rlt_bool_true in C by exact Hb.
  destruct C as (C1 & C2 & _). rewrite Hx in C2. split; assumption.
Qed.

Lemma val_f0 : val64 f0 = 0. Proof. reflexivity. Qed.
Lemma fin_f0 : fin64 f0 = true. Proof. reflexivity. Qed.
Lemma val_f64_of_Z : forall z, (Z.abs z <= 2 ^ 53)%Z ->
  fin64 (f64_of_Z z) = true /\ val64 (f64_of_Z z) = IZR z.
Proof.
  intros z Hz. unfold f64_of_Z.
  pose proof (binary_normalize_correct 53 1024 eq_refl eq_refl mode_NE z 0 false) as C.
  change (SpecFloat.fexp 53 1024) with (FLT_exp (-1074) 53) in C.
  change (round_mode mode_NE) with ZnearestE in C.
  assert (E : F2R (Float radix2 z 0) = IZR z) by (unfold F2R; cbn [Fnum Fexp bpow]; lra).
  rewrite E in C.
  assert (G : generic_format radix2 (FLT_exp (-1074) 53) (IZR z)).
  { destruct (Z.eq_dec (Z.abs z) (2 ^ 53)) as [Ez|Ne].
    - assert (Hc : z = (2 ^ 53)%Z \/ z = (- 2 ^ 53)%Z) by lia.
      assert (B : generic_format radix2 (FLT_exp (-1074) 53) (bp 53)).
      { apply generic_format_bpow. unfold FLT_exp. lia. }
      destruct Hc as [-> | ->].
      + exact B.
      + rewrite opp_IZR. apply generic_format_opp. exact B.
    - apply generic_format_FLT. exists (Float radix2 z 0); auto; cbn [Fnum Fexp]; change (radix_val radix2) with 2%Z; lia. }
  rewrite round_generic in C by auto with typeclass_instances.
  rewrite Rlt_bool_true in C.
  - destruct C as (C1 & C2 & _). auto.
  - rewrite <- abs_IZR. apply Rle_lt_trans with (IZR (2 ^ 53)).
    + now apply IZR_le.
    + change (IZR (2 ^ 53)) with (bp 53). apply bpow_lt. lia.
Qed.
Lemma val_f2 : val64 f2 = 2. Proof. apply val_f64_of_Z. lia. Qed.
Lemma val_f4 : val64 f4 = 4. Proof. apply val_f64_of_Z. lia. Qed.
Lemma val_f360 : val64 f360 = 360. Proof. apply val_f64_of_Z. lia. Qed.
Lemma fin_f360 : fin64 f360 = true. Proof. apply val_f64_of_Z. lia. Qed.

(** ** Rounding errors *)
Lemma bp_pos : forall e, 0 < bp e. Proof. intro e. apply bpow_gt_0. Qed.
Lemma bp_S : forall e, bp (e + 1) = 2 * bp e.
Proof. intro e. rewrite bpow_plus. change (bp 1) with 2. ring. Qed.
Lemma bp_P : forall e, bp (e - 1) = bp e / 2.
Proof. intro e. replace e with (e - 1 + 1)%Z at 2 by lia. rewrite bp_S. field. Qed.

Lemma rnd64_err : forall x e, Rabs x < bp e -> (-1021 <= e)%Z ->
  Rabs (rnd64 x - x) <= bp (e - 54).
Proof.
  intros x e Hx He.
  eapply Rle_trans; [apply error_le_half_ulp; auto with typeclass_instances|].
  apply Rle_trans with (/ 2 * bp (e - 53)).
  2:{ replace (e - 54)%Z with (e - 53 - 1)%Z by lia. rewrite bp_P. pose proof (bp_pos (e - 53)). lra. }
  apply Rmult_le_compat_l; [lra|].
  destruct (Req_dec x 0) as [-> | Nx].
  - rewrite ulp_FLT_0 by reflexivity. apply bpow_le. lia.
  - rewrite ulp_neq_0 by assumption. apply bpow_le. unfold cexp, FLT_exp.
    pose proof (mag_le_bpow radix2 x e Nx Hx). lia.
Qed.
Lemma rnd64_lt : forall x e, Rabs x < bp e -> (-1021 <= e)%Z -> Rabs (rnd64 x) <= bp e.
Proof.
  intros x e Hx He. apply abs_round_le_generic; auto with typeclass_instances.
  - apply generic_format_bpow. unfold FLT_exp. lia.
  - lra.
Qed.
Lemma rnd64_fits : forall x e, Rabs x < bp e -> (-1021 <= e <= 1023)%Z -> Rabs (rnd64 x) < bp 1024.
Proof.
  intros x e Hx He. apply Rle_lt_trans with (bp e); [apply rnd64_lt; auto; lia|].
  apply bpow_lt. lia.
Qed.

Lemma fadd_err : forall x y e, fin64 x = true -> fin64 y = true -> (-1021 <= e <= 1023)%Z ->
  Rabs (val64 x + val64 y) < bp e ->
  fin64 (fadd x y) = true /\ Rabs (val64 (fadd x y) - (val64 x + val64 y)) <= bp (e - 54).
Proof.
  intros x y e Hx Hy He Hb. destruct (fadd_correct x y Hx Hy) as (F & E).
  - eapply rnd64_fits; eauto.
  - split; auto. rewrite E. apply rnd64_err; auto. lia.
Qed.
Lemma fsub_err : forall x y e, fin64 x = true -> fin64 y = true -> (-1021 <= e <= 1023)%Z ->
  Rabs (val64 x - val64 y) < bp e ->
  fin64 (fsub x y) = true /\ Rabs (val64 (fsub x y) - (val64 x - val64 y)) <= bp (e - 54).
Proof.
  intros x y e Hx Hy He Hb. destruct (fsub_correct x y Hx Hy) as (F & E).
  - eapply rnd64_fits; eauto.
  - split; auto. rewrite E. apply rnd64_err; auto. lia.
Qed.

(** Dividing by a power of two only errs in the subnormal range. *)
Lemma rnd64_scale_err : forall x k, generic_format radix2 (FLT_exp (-1074) 53) x -> (0 <= k)%Z ->
  Rabs (rnd64 (x / bp k) - x / bp k) <= bp (-1075).
Proof.
  intros x k Hx Hk. destruct (Rlt_or_le (Rabs (x / bp k)) (bp (-1021))) as [Hs|Hl].
  - apply (rnd64_err _ (-1021)); [assumption | lia].
  - assert (Ek : x / bp k = x * bp (- k)) by (unfold Rdiv; now rewrite <- bpow_opp).
    rewrite round_generic; auto with typeclass_instances.
    + unfold Rminus. rewrite Rplus_opp_r, Rabs_R0. apply bpow_ge_0.
    + assert (Nx : x <> 0).
      { intros ->. unfold Rdiv in Hl. rewrite Rmult_0_l, Rabs_R0 in Hl. pose proof (bp_pos (-1021)). lra. }
      assert (M : (-1020 <= mag radix2 (x * bp (- k)))%Z).
      { replace (-1020)%Z with (-1021 + 1)%Z by lia. apply mag_ge_bpow. rewrite <- Ek.
        replace (-1021 + 1 - 1)%Z with (-1021)%Z by lia. assumption. }
      rewrite Ek. rewrite mag_mult_bpow in M by assumption.
      apply generic_format_FLT_FLX.
      * rewrite <- Ek. eapply Rle_trans; [|exact Hl]. apply bpow_le. lia.
      * apply mult_bpow_exact_FLX. eapply generic_format_FLX_FLT. exact Hx.
Qed.
Lemma rnd_scale_small : forall x k, generic_format radix2 (FLT_exp (-1074) 53) x -> (0 <= k)%Z ->
  Rabs x < bp 1024 -> Rabs (rnd64 (x / bp k)) < bp 1024.
Proof.
  intros x k Hx Hk Hb. apply Rle_lt_trans with (Rabs x); [|assumption].
  apply abs_round_le_generic; auto with typeclass_instances.
  - apply generic_format_abs. assumption.
  - unfold Rdiv. rewrite Rabs_mult. rewrite <- (Rmult_1_r (Rabs x)) at 2.
    apply Rmult_le_compat_l; [apply Rabs_pos|].
    rewrite <- bpow_opp. rewrite Rabs_pos_eq by apply bpow_ge_0. change 1 with (bp 0). apply bpow_le. lia.
Qed.
Lemma fhalf_err : forall x, fin64 x = true ->
  fin64 (fdiv x f2) = true /\ Rabs (val64 (fdiv x f2) - val64 x / 2) <= bp (-1075).
Proof.
  intros x Hx.
  destruct (fdiv_correct x f2 Hx) as (F & E).
  - rewrite val_f2. lra.
  - rewrite val_f2. apply (rnd_scale_small (val64 x) 1); [apply fmt64 | lia | apply abs_B2R_lt_emax].
  - split; auto. rewrite E, val_f2. apply (rnd64_scale_err (val64 x) 1); [apply fmt64 | lia].
Qed.
Lemma fquarter_err : forall x, fin64 x = true ->
  fin64 (fdiv x f4) = true /\ Rabs (val64 (fdiv x f4) - val64 x / 4) <= bp (-1075).
Proof.
  intros x Hx.
  destruct (fdiv_correct x f4 Hx) as (F & E).
  - rewrite val_f4. lra.
  - rewrite val_f4. apply (rnd_scale_small (val64 x) 2); [apply fmt64 | lia | apply abs_B2R_lt_emax].
  - split; auto. rewrite E, val_f4. apply (rnd64_scale_err (val64 x) 2); [apply fmt64 | lia].
Qed.

(** ** Exact operations *)
Definition multiple (g : Z) (x : R) : Prop := exists k : Z, x = IZR k * bp g.
Lemma multiple_add : forall g x y, multiple g x -> multiple g y -> multiple g (x + y).
Proof. intros g x y (a & ->) (b & ->). exists (a + b)%Z. rewrite plus_IZR. ring. Qed.
Lemma multiple_sub : forall g x y, multiple g x -> multiple g y -> multiple g (x - y).
Proof. intros g x y (a & ->) (b & ->). exists (a - b)%Z. rewrite minus_IZR. ring. Qed.
Lemma multiple_le : forall g h x, (h <= g)%Z -> multiple g x -> multiple h x.
Proof.
  intros g h x Hle (a & ->). exists (a * 2 ^ (g - h))%Z. rewrite mult_IZR, (IZR_Zpower radix2) by lia.
  rewrite Rmult_assoc, <- bpow_plus. do 2 f_equal. lia.
Qed.
Lemma multiple_half : forall g x, multiple (g + 1) x -> multiple g (x / 2).
Proof. intros g x (a & ->). exists a. rewrite bp_S. field. Qed.
Lemma multiple_format : forall g x, (-1074 <= g)%Z -> multiple g x -> Rabs x <= bp (g + 53) ->
  generic_format radix2 (FLT_exp (-1074) 53) x.
Proof.
  intros g x Hg (a & ->) Hb.
  assert (Ha : (Z.abs a <= 2 ^ 53)%Z).
  { apply le_IZR. rewrite abs_IZR. rewrite Rabs_mult in Hb.
    rewrite (Rabs_pos_eq (bp g)) in Hb by apply bpow_ge_0. rewrite Z.add_comm, bpow_plus in Hb.
    apply Rmult_le_reg_r in Hb; [|apply bp_pos]. exact Hb. }
  destruct (Z.eq_dec (Z.abs a) (2 ^ 53)) as [Ez|Ne].
  - assert (Hc : a = (2 ^ 53)%Z \/ a = (- 2 ^ 53)%Z) by lia.
    assert (B : generic_format radix2 (FLT_exp (-1074) 53) (bp (53 + g))).
    { apply generic_format_bpow. unfold FLT_exp. lia. }
    rewrite bpow_plus in B. change (bp 53) with (IZR (2 ^ 53)) in B.
    destruct Hc as [-> | ->]; [assumption|].
    rewrite opp_IZR, Ropp_mult_distr_l_reverse. now apply generic_format_opp.
  - apply generic_format_FLT. exists (Float radix2 a g); auto; cbn [Fnum Fexp]; change (radix_val radix2) with 2%Z; lia.
Qed.
