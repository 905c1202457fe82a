(** float64 -> float32 -> float64. *)
From Coq Require Import ZArith Reals Lia Lra.
From Flocq Require Import Core IEEE754.BinarySingleNaN IEEE754.Binary IEEE754.Bits.
From Verif Require Import Base Floats Recording SpecRec Encoding SpecEnc.
Local Open Scope R_scope.

Notation fin64 := (is_finite 53 1024).
Notation fin32 := (is_finite 24 128).
Notation val64 := (B2R 53 1024).
Notation val32 := (B2R 24 128).
Notation rnd32 := (round radix2 (FLT_exp (-149) 24) ZnearestE).

Lemma val_finite64 : forall s m e H, val64 (B754_finite 53 1024 s m e H) = F2R (Float radix2 (cond_Zopp s (Zpos m)) e).
Proof. reflexivity. Qed.
Lemma val_finite32 : forall s m e H, val32 (B754_finite 24 128 s m e H) = F2R (Float radix2 (cond_Zopp s (Zpos m)) e).
Proof. reflexivity. Qed.

Lemma sign_finite : forall s m e,
  match Rcompare (F2R (Float radix2 (cond_Zopp s (Zpos m)) e)) 0 with
  | Eq => s | Lt => true | Gt => false end = s.
Proof.
  intros s m e. destruct s; cbn [cond_Zopp].
  - rewrite Rcompare_Lt; [reflexivity|]. apply F2R_lt_0. reflexivity.
  - rewrite Rcompare_Gt; [reflexivity|]. apply F2R_gt_0. reflexivity.
Qed.

(** ** 64 to 32 *)
Lemma f32_of_f64_correct : forall x, fin64 x = true -> Rabs (rnd32 (val64 x)) < bpow radix2 128 ->
  fin32 (f32_of_f64 x) = true /\ val32 (f32_of_f64 x) = rnd32 (val64 x) /\
  Bsign 24 128 (f32_of_f64 x) = Bsign 53 1024 x.
Proof.
  intros [s|s|s pl H|s m e H] Hf Hb; try discriminate.
  - cbn [f32_of_f64 B2R]. rewrite round_0 by auto with typeclass_instances. auto.
  - rewrite val_finite64 in *. cbn [f32_of_f64].
    pose proof (binary_normalize_correct 24 128 eq_refl eq_refl mode_NE (cond_Zopp s (Zpos m)) e s) as C.
    change (SpecFloat.fexp 24 128) with (FLT_exp (-149) 24) in C.
    change (round_mode mode_NE) with ZnearestE in C. rewrite Rlt_bool_true in C by exact Hb.
    destruct C as (C1 & C2 & C3). rewrite sign_finite in C3. auto.
Qed.
Lemma f32_of_f64_overflow : forall x, fin64 x = true -> bpow radix2 128 <= Rabs (rnd32 (val64 x)) ->
  f32_of_f64 x = B754_infinity 24 128 (Bsign 53 1024 x).
Proof.
  intros [s|s|s pl H|s m e H] Hf Hb; try discriminate.
  - cbn [B2R] in Hb. rewrite round_0 in Hb by auto with typeclass_instances. rewrite Rabs_R0 in Hb.
    pose proof (bpow_gt_0 radix2 128). lra.
  - rewrite val_finite64 in *. cbn [f32_of_f64 Bsign].
    pose proof (binary_normalize_correct 24 128 eq_refl eq_refl mode_NE (cond_Zopp s (Zpos m)) e s) as C.
    change (SpecFloat.fexp 24 128) with (FLT_exp (-149) 24) in C.
    change (round_mode mode_NE) with ZnearestE in C. rewrite Rlt_bool_false in C by exact Hb.
    replace (Rlt_bool (F2R (Float radix2 (cond_Zopp s (Zpos m)) e)) 0) with s in C.
    + apply B2FF_inj. rewrite C. reflexivity.
    + symmetry. destruct s; cbn [cond_Zopp].
      * apply Rlt_bool_true, F2R_lt_0. reflexivity.
      * apply Rlt_bool_false. apply F2R_ge_0. discriminate.
Qed.

(** ** 32 to 64 is exact *)
Lemma format_32_64 : forall x, generic_format radix2 (FLT_exp (-149) 24) x ->
  generic_format radix2 (FLT_exp (-1074) 53) x.
Proof.
  intros x Hx. apply generic_inclusion_mag with (fexp1 := FLT_exp (-149) 24); auto.
  intros _. unfold FLT_exp. lia.
Qed.
Lemma f64_of_f32_correct : forall y, fin32 y = true ->
  fin64 (f64_of_f32 y) = true /\ val64 (f64_of_f32 y) = val32 y /\
  Bsign 53 1024 (f64_of_f32 y) = Bsign 24 128 y.
Proof.
  intros y Hf. pose proof (abs_B2R_lt_emax 24 128 y) as Hlt.
  pose proof (generic_format_B2R 24 128 y) as Hg. change (SpecFloat.fexp 24 128) with (FLT_exp (-149) 24) in Hg.
  apply format_32_64 in Hg. destruct y as [s|s|s pl H|s m e H]; try discriminate; [auto|].
  rewrite val_finite32 in *. cbn [f64_of_f32].
  pose proof (binary_normalize_correct 53 1024 eq_refl eq_refl mode_NE (cond_Zopp s (Zpos m)) e s) as C.
  change (SpecFloat.fexp 53 1024) with (FLT_exp (-1074) 53) in C.
  rewrite round_generic in C by auto with typeclass_instances.
  rewrite Rlt_bool_true in C.
  - destruct C as (C1 & C2 & C3). rewrite sign_finite in C3. auto.
  - eapply Rlt_trans; [exact Hlt|]. apply bpow_lt. reflexivity.
Qed.
Lemma f32_f64_f32 : forall y, Binary.is_nan 24 128 y = false -> f32_of_f64 (f64_of_f32 y) = y.
Proof.
  intros y Hn. destruct (fin32 y) eqn:Hf.
  - destruct (f64_of_f32_correct y Hf) as (F & V & S).
    pose proof (abs_B2R_lt_emax 24 128 y) as Hlt.
    pose proof (generic_format_B2R 24 128 y) as Hg. change (SpecFloat.fexp 24 128) with (FLT_exp (-149) 24) in Hg.
    destruct (f32_of_f64_correct (f64_of_f32 y) F) as (F2 & V2 & S2).
    + rewrite V, round_generic by auto with typeclass_instances. exact Hlt.
    + rewrite V, round_generic in V2 by auto with typeclass_instances.
      apply B2R_Bsign_inj; congruence.
  - destruct y as [s|s|s pl H|s m e H]; try discriminate. reflexivity.
Qed.

(** ** NaNs *)
Lemma f32_nan_bits : forall (s : bool) p, (Zpos p < 2 ^ 23)%Z ->
  B2FF 24 128 (b32_of_bits ((if s then 2 ^ 31 else 0) + 255 * 2 ^ 23 + Zpos p)) = F754_nan s p.
Proof.
  intros s p Hp. unfold b32_of_bits, binary_float_of_bits. rewrite B2FF_FF2B.
  unfold binary_float_of_bits_aux.
  replace ((if s then 2 ^ 31 else 0) + 255 * 2 ^ 23 + Zpos p)%Z with (join_bits 23 8 s (Zpos p) 255).
  - rewrite split_join_bits; [reflexivity | lia | lia].
  - unfold join_bits. rewrite Z.shiftl_mul_pow2 by lia. destruct s; lia.
Qed.
Lemma f64_nan_bits : forall (s : bool) p, (Zpos p < 2 ^ 52)%Z ->
  B2FF 53 1024 (b64_of_bits ((if s then 2 ^ 63 else 0) + 2047 * 2 ^ 52 + Zpos p)) = F754_nan s p.
Proof.
  intros s p Hp. unfold b64_of_bits, binary_float_of_bits. rewrite B2FF_FF2B.
  unfold binary_float_of_bits_aux.
  replace ((if s then 2 ^ 63 else 0) + 2047 * 2 ^ 52 + Zpos p)%Z with (join_bits 52 11 s (Zpos p) 2047).
  - rewrite split_join_bits; [reflexivity | lia | lia].
  - unfold join_bits. rewrite Z.shiftl_mul_pow2 by lia. destruct s; lia.
Qed.

Definition quiet32 (p : positive) : Z := Z.lor (Z.shiftr (Zpos p) 29) (2 ^ 22).
Definition quiet64 (p : positive) : Z := Z.lor (Z.shiftl (Zpos p) 29) (2 ^ 51).

Lemma lor_bound : forall a b n, (0 <= a < 2 ^ n)%Z -> (0 <= b < 2 ^ n)%Z -> (0 <= n)%Z ->
  (0 <= Z.lor a b < 2 ^ n)%Z.
Proof.
  intros a b n Ha Hb Hn. split; [apply Z.lor_nonneg; lia|].
  destruct (Z.eq_dec (Z.lor a b) 0) as [->|Hz]; [lia|].
  assert (0 < Z.lor a b)%Z by (pose proof (proj2 (Z.lor_nonneg a b)); lia).
  apply Z.log2_lt_pow2; [assumption|]. rewrite Z.log2_lor by lia.
  apply Z.max_lub_lt.
  - destruct (Z.eq_dec a 0) as [->|]; [|apply Z.log2_lt_pow2; lia].
    cbn. destruct (Z.eq_dec n 0) as [->|]; [|lia]. change (2 ^ 0)%Z with 1%Z in *.
    assert (b = 0)%Z by lia. subst. cbn in Hz. congruence.
  - destruct (Z.eq_dec b 0) as [->|]; [|apply Z.log2_lt_pow2; lia].
    cbn. destruct (Z.eq_dec n 0) as [->|]; [|lia]. change (2 ^ 0)%Z with 1%Z in *.
    assert (a = 0)%Z by lia. subst. cbn in Hz. congruence.
Qed.
Lemma quiet32_pos : forall p, (Zpos p < 2 ^ 52)%Z -> exists q, quiet32 p = Zpos q /\ (Zpos q < 2 ^ 23)%Z.
Proof.
  intros p Hp. unfold quiet32.
  assert (B : (0 <= Z.shiftr (Zpos p) 29 < 2 ^ 23)%Z).
  { rewrite Z.shiftr_div_pow2 by lia. split; [apply Z.div_pos; lia|].
    apply Z.div_lt_upper_bound; [lia|]. change (2 ^ 29 * 2 ^ 23)%Z with (2 ^ 52)%Z. exact Hp. }
  pose proof (lor_bound (Z.shiftr (Zpos p) 29) (2 ^ 22) 23 B ltac:(lia) ltac:(lia)) as L.
  destruct (Z.lor (Z.shiftr (Z.pos p) 29) (2 ^ 22)) as [|q|q] eqn:E.
  - apply Z.lor_eq_0_iff in E as [_ E]. discriminate.
  - exists q. split; [auto|lia].
  - lia.
Qed.
Lemma quiet64_pos : forall p, (Zpos p < 2 ^ 23)%Z -> exists q, quiet64 p = Zpos q /\ (Zpos q < 2 ^ 52)%Z.
Proof.
  intros p Hp. unfold quiet64.
  assert (B : (0 <= Z.shiftl (Zpos p) 29 < 2 ^ 52)%Z).
  { rewrite Z.shiftl_mul_pow2 by lia. change (2 ^ 52)%Z with (2 ^ 23 * 2 ^ 29)%Z. lia. }
  pose proof (lor_bound (Z.shiftl (Zpos p) 29) (2 ^ 51) 52 B ltac:(lia) ltac:(lia)) as L.
  destruct (Z.lor (Z.shiftl (Z.pos p) 29) (2 ^ 51)) as [|q|q] eqn:E.
  - apply Z.lor_eq_0_iff in E as [_ E]. discriminate.
  - exists q. split; [auto|lia].
  - lia.
Qed.
Lemma quiet_again : forall p q r, quiet32 p = Zpos q -> quiet64 q = Zpos r -> quiet32 r = Zpos q.
Proof.
  intros p q r Hq Hr. unfold quiet32. rewrite <- Hr. unfold quiet64.
  rewrite Z.shiftr_lor. rewrite Z.shiftr_shiftl_l by lia. change (29 - 29)%Z with 0%Z.
  rewrite Z.shiftl_0_r. change (Z.shiftr (2 ^ 51) 29) with (2 ^ 22)%Z.
  rewrite <- Hq. unfold quiet32. rewrite <- !Z.lor_assoc. now rewrite !Z.lor_diag.
Qed.

Lemma f32_of_nan : forall s pl H, exists q, quiet32 pl = Zpos q /\ (Zpos q < 2 ^ 23)%Z /\
  B2FF 24 128 (f32_of_f64 (B754_nan 53 1024 s pl H)) = F754_nan s q.
Proof.
  intros s pl H. assert (Hp : (Zpos pl < 2 ^ 52)%Z).
  { clear -H. unfold nan_pl in H. apply Z.ltb_lt in H. rewrite Digits.Zpos_digits2_pos in H.
    apply (Digits.Zpower_gt_Zdigits radix2 52 (Zpos pl)). lia. }
  destruct (quiet32_pos pl Hp) as (q & E & Hq). exists q. split; [auto|]. split; [auto|].
  cbn [f32_of_f64]. fold (quiet32 pl). rewrite E. now apply f32_nan_bits.
Qed.
Lemma f64_of_nan : forall s pl H, exists q, quiet64 pl = Zpos q /\ (Zpos q < 2 ^ 52)%Z /\
  B2FF 53 1024 (f64_of_f32 (B754_nan 24 128 s pl H)) = F754_nan s q.
Proof.
  intros s pl H. assert (Hp : (Zpos pl < 2 ^ 23)%Z).
  { clear -H. unfold nan_pl in H. apply Z.ltb_lt in H. rewrite Digits.Zpos_digits2_pos in H.
    apply (Digits.Zpower_gt_Zdigits radix2 23 (Zpos pl)). lia. }
  destruct (quiet64_pos pl Hp) as (q & E & Hq). exists q. split; [auto|]. split; [auto|].
  cbn [f64_of_f32]. fold (quiet64 pl). rewrite E. now apply f64_nan_bits.
Qed.
Lemma f32_nan_inv : forall x s q, B2FF 24 128 x = F754_nan s q -> exists H, x = B754_nan 24 128 s q H.
Proof.
  intros x s q H. destruct x as [|b|b pl Hn|]; try discriminate. cbn in H. injection H as -> ->. eauto.
Qed.
Lemma f64_nan_inv : forall x s q, B2FF 53 1024 x = F754_nan s q -> exists H, x = B754_nan 53 1024 s q H.
Proof.
  intros x s q H. destruct x as [|b|b pl Hn|]; try discriminate. cbn in H. injection H as -> ->. eauto.
Qed.

(** ** near32 *)
Lemma near32_nan : forall s pl H, exists q H', near32 (B754_nan 53 1024 s pl H) = B754_nan 53 1024 s q H'.
Proof.
  intros s pl H. unfold near32. destruct (f32_of_nan s pl H) as (q & E & Hq & F).
  apply f32_nan_inv in F as [Hn ->]. destruct (f64_of_nan s q Hn) as (r & Er & Hr & F).
  apply f64_nan_inv in F as [Hn2 ->]. eauto.
Qed.
Lemma near32_finite : forall x, fin64 x = true -> Rabs (rnd32 (val64 x)) < bpow radix2 128 ->
  fin64 (near32 x) = true /\ val64 (near32 x) = rnd32 (val64 x) /\
  Bsign 53 1024 (near32 x) = Bsign 53 1024 x.
Proof.
  intros x Hf Hb. destruct (f32_of_f64_correct x Hf Hb) as (F & V & Sg).
  destruct (f64_of_f32_correct _ F) as (F' & V' & S'). unfold near32. rewrite V', S'. auto.
Qed.
Lemma near32_overflow : forall x, fin64 x = true -> bpow radix2 128 <= Rabs (rnd32 (val64 x)) ->
  near32 x = B754_infinity 53 1024 (Bsign 53 1024 x).
Proof. intros x Hf Hb. unfold near32. now rewrite (f32_of_f64_overflow x Hf Hb). Qed.

Theorem near32_idem : forall x, near32 (near32 x) = near32 x.
Proof.
  intro x. destruct x as [s|s|s pl H|s m e H].
  - reflexivity.
  - reflexivity.
  - unfold near32. destruct (f32_of_nan s pl H) as (q & E & Hq & F).
    apply f32_nan_inv in F as [Hn ->]. destruct (f64_of_nan s q Hn) as (r & Er & Hr & F).
    apply f64_nan_inv in F as [Hn2 ->].
    destruct (f32_of_nan s r Hn2) as (q' & E' & Hq' & F).
    rewrite (quiet_again pl q r E Er) in E'. injection E' as <-.
    apply f32_nan_inv in F as [Hn3 ->]. destruct (f64_of_nan s q Hn3) as (r' & Er' & _ & F).
    rewrite Er in Er'. injection Er' as <-. apply B2FF_inj. now rewrite F.
  - unfold near32. f_equal. apply f32_f64_f32.
    set (x := B754_finite 53 1024 s m e H).
    destruct (Rlt_or_le (Rabs (rnd32 (val64 x))) (bpow radix2 128)) as [Hb|Hb].
    + destruct (f32_of_f64_correct x eq_refl Hb) as (F & _). destruct (f32_of_f64 x); auto; discriminate.
    + now rewrite (f32_of_f64_overflow x eq_refl Hb).
Qed.
