(** The bisection walk shared by the 16-bit quantisers and the octree cells:
    from a centre and a step, each bit moves the centre up or down by the step
    and the step is halved. *)
From Coq Require Import ZArith Reals Lia Lra.
From Flocq Require Import Mult_error Core IEEE754.BinarySingleNaN IEEE754.Binary IEEE754.Bits.
From Verif Require Import Base BaseFacts Floats SpecFloat FloatFacts Near32Facts BinaryIO BinaryIOFacts ByteFacts NumFacts.
Local Open Scope R_scope.

Fixpoint walk_dec (bits : list bool) (cur inc : f64) : f64 :=
  match bits with
  | [] => cur
  | b :: l => walk_dec l (if b then fadd cur inc else fsub cur inc) (fdiv inc f2)
  end.
Fixpoint walk_enc (n : nat) (v cur inc : f64) : list bool :=
  match n with
  | O => []
  | S n' =>
      let b := negb (flt v cur) in
      b :: walk_enc n' v (if b then fadd cur inc else fsub cur inc) (fdiv inc f2)
  end.

(** Where the walk would end with exact arithmetic, as a fraction of the
    interval. *)
Fixpoint frac (bits : list bool) : R :=
  match bits with
  | [] => / 2
  | b :: l => (if b then / 2 else 0) + frac l / 2
  end.

Lemma walk_enc_len : forall n v cur inc, length (walk_enc n v cur inc) = n.
Proof. induction n as [|n IH]; intros; cbn [walk_enc length]; [auto|]. now rewrite IH. Qed.

Fixpoint half_pow (n : nat) : R := match n with O => 1 | S n' => half_pow n' / 2 end.
Lemma half_pow_bp : forall n, half_pow n = bp (- Z.of_nat n).
Proof.
  induction n as [|n IH]; [reflexivity|]. cbn [half_pow]. rewrite IH.
  replace (- Z.of_nat (S n))%Z with (- Z.of_nat n - 1)%Z by lia. now rewrite bp_P.
Qed.
Lemma half_pow_pos : forall n, 0 < half_pow n.
Proof. intro n. rewrite half_pow_bp. apply bp_pos. Qed.

Lemma frac_range : forall l, half_pow (S (length l)) <= frac l <= 1 - half_pow (S (length l)).
Proof.
  induction l as [|b l IH]; cbn [frac length half_pow] in *; [lra|].
  pose proof (half_pow_pos (length l)). destruct b; lra.
Qed.

(** Lexicographic order of bit strings. *)
Fixpoint lex_le (a b : list bool) : Prop :=
  match a, b with
  | [], _ => True
  | _ :: _, [] => False
  | x :: a', y :: b' => (x = false /\ y = true) \/ (x = y /\ lex_le a' b')
  end.
Lemma lex_refl : forall a, lex_le a a.
Proof. induction a as [|x a IH]; cbn [lex_le]; auto. Qed.
Lemma lex_frac : forall a b, length a = length b -> lex_le a b -> a = b \/ frac a + half_pow (length a) <= frac b.
Proof.
  induction a as [|x a IH]; intros [|y b] L H; try discriminate; [now left|].
  injection L as L. cbn [lex_le frac length half_pow] in *.
  destruct H as [(-> & ->)|(-> & H)].
  - right. pose proof (frac_range a) as Ra. pose proof (frac_range b) as Rb. rewrite <- L in Rb.
    cbn [half_pow] in *. lra.
  - destruct (IH b L H) as [-> | H']; [now left|]. right. destruct y; lra.
Qed.
(** The encoder's bits are ordered like the values; a value that is not a
    number counts as above all others. *)
Lemma walk_enc_lex : forall n v w cur inc, (forall c, flt w c = true -> flt v c = true) ->
  lex_le (walk_enc n v cur inc) (walk_enc n w cur inc).
Proof.
  induction n as [|n IH]; intros v w cur inc H; cbn [walk_enc lex_le]; [auto|].
  destruct (flt v cur) eqn:Ev, (flt w cur) eqn:Ew; cbn [negb]; auto.
  apply H in Ew. congruence.
Qed.
Lemma fle_below : forall v w c, fle v w = true -> flt w c = true -> flt v c = true.
Proof.
  intros v w c H1 H2. apply fle_iff in H1. apply flt_iff in H2. apply flt_iff.
  destruct H1 as (a & b & A & B & H1), H2 as (b' & d & B' & D & H2).
  rewrite B in B'. injection B' as <-. exists a, d. repeat split; auto. lra.
Qed.

(** ** The walk with errors.
    [u] bounds the error of one addition, [h] half the error of the steps. *)
Section Walk.
Variables (u h M : R) (Gc : f64 -> Prop) (Gi : nat -> f64 -> Prop).
Hypothesis u0 : 0 <= u.
Hypothesis h0 : 0 <= h.
Hypothesis Hadd : forall n x y, Gc x -> Gi (S n) y -> Rabs (val64 x) + Rabs (val64 y) < M ->
  Gc (fadd x y) /\ Rabs (val64 (fadd x y) - (val64 x + val64 y)) <= u.
Hypothesis Hsub : forall n x y, Gc x -> Gi (S n) y -> Rabs (val64 x) + Rabs (val64 y) < M ->
  Gc (fsub x y) /\ Rabs (val64 (fsub x y) - (val64 x - val64 y)) <= u.
Hypothesis Hhalf : forall n y, Gi (S n) y ->
  Gi n (fdiv y f2) /\ Rabs (val64 (fdiv y f2) - val64 y / 2) <= h.

Lemma walk_dec_spec : forall l cur inc c i a,
  Gc cur -> Gi (length l) inc -> Rabs (val64 cur - c) <= a -> Rabs (val64 inc - i) <= 2 * h -> 0 <= i ->
  Rabs c + 2 * i + a + INR (length l) * (u + 2 * h) < M ->
  Gc (walk_dec l cur inc) /\
  Rabs (val64 (walk_dec l cur inc) - (c - 2 * i + 4 * i * frac l)) <= a + INR (length l) * (u + 2 * h).
Proof.
  induction l as [|b l IH]; intros cur inc c i a HGc HGi Hc Hi i0 HM; cbn [walk_dec frac length].
  - split; auto. cbn [INR]. replace (c - 2 * i + 4 * i * / 2) with c by field. lra.
  - cbn [length] in *. rewrite S_INR in *. pose proof (pos_INR (length l)) as P0.
    assert (P : 0 <= INR (length l) * (u + 2 * h)) by (apply Rmult_le_pos; lra).
    assert (HM' : Rabs (val64 cur) + Rabs (val64 inc) < M).
    { apply Rabs_def2_le in Hc || idtac.
      assert (Rabs (val64 cur) <= Rabs c + a).
      { replace (val64 cur) with (c + (val64 cur - c)) by ring. eapply Rle_trans; [apply Rabs_triang|]. lra. }
      assert (Rabs (val64 inc) <= i + 2 * h).
      { replace (val64 inc) with (i + (val64 inc - i)) by ring. eapply Rle_trans; [apply Rabs_triang|].
        rewrite (Rabs_pos_eq i) by assumption. lra. }
      lra. }
    destruct (Hhalf _ _ HGi) as (Gi' & Ei).
    assert (Ei' : Rabs (val64 (fdiv inc f2) - i / 2) <= 2 * h).
    { replace (val64 (fdiv inc f2) - i / 2) with ((val64 (fdiv inc f2) - val64 inc / 2) + (val64 inc - i) / 2) by field.
      eapply Rle_trans; [apply Rabs_triang|]. unfold Rdiv at 2. rewrite Rabs_mult, (Rabs_pos_eq (/ 2)) by lra. lra. }
    destruct b.
    + destruct (Hadd _ _ _ HGc HGi HM') as (Gc' & Ec).
      assert (Ec' : Rabs (val64 (fadd cur inc) - (c + i)) <= a + u + 2 * h).
      { replace (val64 (fadd cur inc) - (c + i)) with
          ((val64 (fadd cur inc) - (val64 cur + val64 inc)) + ((val64 cur - c) + (val64 inc - i))) by ring.
        eapply Rle_trans; [apply Rabs_triang|].
        pose proof (Rabs_triang (val64 cur - c) (val64 inc - i)). lra. }
      destruct (IH (fadd cur inc) (fdiv inc f2) (c + i) (i / 2) (a + u + 2 * h)) as (G & E); auto; try lra.
      { pose proof (Rabs_triang c i). rewrite (Rabs_pos_eq i) in H by assumption. lra. }
      split; auto. replace (c - 2 * i + 4 * i * (/ 2 + frac l / 2)) with (c + i - 2 * (i / 2) + 4 * (i / 2) * frac l) by field.
      lra.
    + destruct (Hsub _ _ _ HGc HGi HM') as (Gc' & Ec).
      assert (Ec' : Rabs (val64 (fsub cur inc) - (c - i)) <= a + u + 2 * h).
      { replace (val64 (fsub cur inc) - (c - i)) with
          ((val64 (fsub cur inc) - (val64 cur - val64 inc)) + ((val64 cur - c) + - (val64 inc - i))) by ring.
        eapply Rle_trans; [apply Rabs_triang|].
        pose proof (Rabs_triang (val64 cur - c) (- (val64 inc - i))). rewrite Rabs_Ropp in H. lra. }
      destruct (IH (fsub cur inc) (fdiv inc f2) (c - i) (i / 2) (a + u + 2 * h)) as (G & E); auto; try lra.
      { pose proof (Rabs_triang c (- i)). rewrite Rabs_Ropp, (Rabs_pos_eq i) in H by assumption.
        unfold Rminus. lra. }
      split; auto. replace (c - 2 * i + 4 * i * (0 + frac l / 2)) with (c - i - 2 * (i / 2) + 4 * (i / 2) * frac l) by field.
      lra.
Qed.

(** [d] bounds how far [v] lies outside the interval. *)
Lemma walk_enc_spec : forall n v cur inc c i a d x,
  Gc cur -> Gi n inc -> (forall y, Gc y -> fin64 y = true) -> xval v = Some x ->
  Rabs (val64 cur - c) <= a -> Rabs (val64 inc - i) <= 2 * h -> 0 <= i ->
  Rabs c + 2 * i + a + INR n * (u + 2 * h) < M -> a + INR n * (u + 2 * h) <= d ->
  c - 2 * i - d <= x <= c + 2 * i + d ->
  Rabs (x - (c - 2 * i + 4 * i * frac (walk_enc n v cur inc))) <= 2 * i * half_pow n + d.
Proof.
  induction n as [|n IH]; intros v cur inc c i a d x HGc HGi Hfin Hv Hc Hi i0 HM Hd Hx; cbn [walk_enc frac half_pow].
  - replace (c - 2 * i + 4 * i * / 2) with c by field. apply Rabs_le. lra.
  - rewrite S_INR in *. pose proof (pos_INR n) as P0.
    assert (P : 0 <= INR n * (u + 2 * h)) by (apply Rmult_le_pos; lra).
    assert (HM' : Rabs (val64 cur) + Rabs (val64 inc) < M).
    { assert (Rabs (val64 cur) <= Rabs c + a).
      { replace (val64 cur) with (c + (val64 cur - c)) by ring. eapply Rle_trans; [apply Rabs_triang|]. lra. }
      assert (Rabs (val64 inc) <= i + 2 * h).
      { replace (val64 inc) with (i + (val64 inc - i)) by ring. eapply Rle_trans; [apply Rabs_triang|].
        rewrite (Rabs_pos_eq i) by assumption. lra. }
      lra. }
    destruct (Hhalf _ _ HGi) as (Gi' & Ei).
    assert (Ei' : Rabs (val64 (fdiv inc f2) - i / 2) <= 2 * h).
    { replace (val64 (fdiv inc f2) - i / 2) with ((val64 (fdiv inc f2) - val64 inc / 2) + (val64 inc - i) / 2) by field.
      eapply Rle_trans; [apply Rabs_triang|]. unfold Rdiv at 2. rewrite Rabs_mult, (Rabs_pos_eq (/ 2)) by lra. lra. }
    pose proof (xval_finite _ (Hfin _ HGc)) as Xc.
    pose proof (Rabs_le_inv _ _ Hc) as Hc'.
    destruct (flt v cur) eqn:Ef; cbn [negb].
    + apply flt_iff in Ef. destruct Ef as (p & q & Vp & Vq & Hlt).
      rewrite Hv in Vp. injection Vp as <-. rewrite Xc in Vq. injection Vq as <-.
      destruct (Hsub _ _ _ HGc HGi HM') as (Gc' & Ec).
      assert (Ec' : Rabs (val64 (fsub cur inc) - (c - i)) <= a + u + 2 * h).
      { replace (val64 (fsub cur inc) - (c - i)) with
          ((val64 (fsub cur inc) - (val64 cur - val64 inc)) + ((val64 cur - c) + - (val64 inc - i))) by ring.
        eapply Rle_trans; [apply Rabs_triang|].
        pose proof (Rabs_triang (val64 cur - c) (- (val64 inc - i))). rewrite Rabs_Ropp in H. lra. }
      assert (E := IH v (fsub cur inc) (fdiv inc f2) (c - i) (i / 2) (a + u + 2 * h) d x).
      match type of E with ?A -> ?B -> _ -> _ -> ?C -> _ -> _ -> ?D -> _ -> _ -> _ => assert (HD : D) end.
      { pose proof (Rabs_triang c (- i)). rewrite Rabs_Ropp, (Rabs_pos_eq i) in H by assumption.
        unfold Rminus. lra. }
      specialize (E Gc' Gi' Hfin Hv Ec' Ei' ltac:(lra) HD ltac:(lra) ltac:(lra)).
      replace (c - 2 * i + 4 * i * (0 + frac (walk_enc n v (fsub cur inc) (fdiv inc f2)) / 2))
        with (c - i - 2 * (i / 2) + 4 * (i / 2) * frac (walk_enc n v (fsub cur inc) (fdiv inc f2))) by field.
      lra.
    + apply (flt_false _ _ _ _ Hv Xc) in Ef.
      destruct (Hadd _ _ _ HGc HGi HM') as (Gc' & Ec).
      assert (Ec' : Rabs (val64 (fadd cur inc) - (c + i)) <= a + u + 2 * h).
      { replace (val64 (fadd cur inc) - (c + i)) with
          ((val64 (fadd cur inc) - (val64 cur + val64 inc)) + ((val64 cur - c) + (val64 inc - i))) by ring.
        eapply Rle_trans; [apply Rabs_triang|].
        pose proof (Rabs_triang (val64 cur - c) (val64 inc - i)). lra. }
      assert (E := IH v (fadd cur inc) (fdiv inc f2) (c + i) (i / 2) (a + u + 2 * h) d x).
      match type of E with ?A -> ?B -> _ -> _ -> ?C -> _ -> _ -> ?D -> _ -> _ -> _ => assert (HD : D) end.
      { pose proof (Rabs_triang c i). rewrite (Rabs_pos_eq i) in H by assumption. lra. }
      specialize (E Gc' Gi' Hfin Hv Ec' Ei' ltac:(lra) HD ltac:(lra) ltac:(lra)).
      replace (c - 2 * i + 4 * i * (/ 2 + frac (walk_enc n v (fadd cur inc) (fdiv inc f2)) / 2))
        with (c + i - 2 * (i / 2) + 4 * (i / 2) * frac (walk_enc n v (fadd cur inc) (fdiv inc f2))) by field.
      lra.
Qed.
End Walk.

(** ** General rounding: every operation errs by at most [bp (e - 53)] *)
Definition Gfin (x : f64) : Prop := fin64 x = true.
Section General.
Variable e : Z.
Hypothesis He : (-1021 <= e <= 1022)%Z.
Let u := bp (e - 53).
Lemma gen_add : forall (n : nat) x y, Gfin x -> Gfin y -> Rabs (val64 x) + Rabs (val64 y) < bp (e + 1) ->
  Gfin (fadd x y) /\ Rabs (val64 (fadd x y) - (val64 x + val64 y)) <= u.
Proof.
  intros n x y Hx Hy Hb. unfold u. replace (e - 53)%Z with (e + 1 - 54)%Z by lia.
  apply fadd_err; auto; [lia|]. eapply Rle_lt_trans; [apply Rabs_triang | exact Hb].
Qed.
Lemma gen_sub : forall (n : nat) x y, Gfin x -> Gfin y -> Rabs (val64 x) + Rabs (val64 y) < bp (e + 1) ->
  Gfin (fsub x y) /\ Rabs (val64 (fsub x y) - (val64 x - val64 y)) <= u.
Proof.
  intros n x y Hx Hy Hb. unfold u. replace (e - 53)%Z with (e + 1 - 54)%Z by lia.
  apply fsub_err; auto; [lia|]. eapply Rle_lt_trans; [apply Rabs_triang|]. now rewrite Rabs_Ropp.
Qed.
Lemma gen_half : forall (n : nat) y, Gfin y ->
  Gfin (fdiv y f2) /\ Rabs (val64 (fdiv y f2) - val64 y / 2) <= u / 2.
Proof.
  intros n y Hy. destruct (fhalf_err y Hy) as (F & E). split; auto. eapply Rle_trans; [exact E|].
  unfold u. rewrite <- bp_P. apply bpow_le. lia.
Qed.
End General.

(** ** Exact arithmetic: everything is a multiple of [bp g] below [bp (g + 53)] *)
Definition Egrid (g : Z) (x : f64) : Prop := fin64 x = true /\ multiple g (val64 x).
Section Exact.
Variable g : Z.
Hypothesis Hg : (-1074 <= g <= 970)%Z.
Lemma grid_round : forall x, multiple g x -> Rabs x < bp (g + 53) -> rnd64 x = x /\ Rabs x < bp 1024.
Proof.
  intros x Hx Hb. split.
  - apply round_generic; auto with typeclass_instances. eapply multiple_format; eauto; [lia | lra].
  - eapply Rlt_le_trans; [exact Hb|]. apply bpow_le. lia.
Qed.
Lemma ex_add : forall (n : nat) x y, Egrid g x -> Egrid (g + Z.of_nat n) y ->
  Rabs (val64 x) + Rabs (val64 y) < bp (g + 53) ->
  Egrid g (fadd x y) /\ Rabs (val64 (fadd x y) - (val64 x + val64 y)) <= 0.
Proof.
  intros n x y (Fx & Mx) (Fy & My) Hb.
  assert (Mxy : multiple g (val64 x + val64 y)).
  { apply multiple_add; auto. eapply multiple_le; [|exact My]. lia. }
  destruct (grid_round _ Mxy) as (R1 & R2).
  { eapply Rle_lt_trans; [apply Rabs_triang | exact Hb]. }
  destruct (fadd_correct x y Fx Fy) as (F & E); [now rewrite R1|]. rewrite R1 in E.
  unfold Egrid. rewrite E. repeat split; auto. unfold Rminus. rewrite Rplus_opp_r, Rabs_R0. lra.
Qed.
Lemma ex_sub : forall (n : nat) x y, Egrid g x -> Egrid (g + Z.of_nat n) y ->
  Rabs (val64 x) + Rabs (val64 y) < bp (g + 53) ->
  Egrid g (fsub x y) /\ Rabs (val64 (fsub x y) - (val64 x - val64 y)) <= 0.
Proof.
  intros n x y (Fx & Mx) (Fy & My) Hb.
  assert (Mxy : multiple g (val64 x - val64 y)).
  { apply multiple_sub; auto. eapply multiple_le; [|exact My]. lia. }
  destruct (grid_round _ Mxy) as (R1 & R2).
  { eapply Rle_lt_trans; [apply Rabs_triang|]. now rewrite Rabs_Ropp. }
  destruct (fsub_correct x y Fx Fy) as (F & E); [now rewrite R1|]. rewrite R1 in E.
  unfold Egrid. rewrite E. repeat split; auto. unfold Rminus. rewrite Rplus_opp_r, Rabs_R0. lra.
Qed.
Lemma fhalf_exact : forall k y, (-1074 <= k)%Z -> Egrid (k + 1) y -> Egrid k (fdiv y f2) /\ val64 (fdiv y f2) = val64 y / 2.
Proof.
  intros k y Hk (Fy & My).
  assert (G : generic_format radix2 (FLT_exp (-1074) 53) (val64 y / 2)).
  { destruct (Rle_or_lt (Rabs (val64 y)) (bp (-1021))) as [Hs|Hl].
    - apply (multiple_format (-1074)); [lia | | ].
      + apply (multiple_le k); [assumption|]. now apply multiple_half.
      + change (-1074 + 53)%Z with (-1021)%Z. unfold Rdiv. rewrite Rabs_mult, (Rabs_pos_eq (/ 2)) by lra.
        pose proof (Rabs_pos (val64 y)). lra.
    - assert (Ey : val64 y / 2 = val64 y * bp (- 1)) by reflexivity.
      apply generic_format_FLT_FLX.
      + unfold Rdiv. rewrite Rabs_mult, (Rabs_pos_eq (/ 2)) by lra.
        change (-1074 + 53 - 1)%Z with (-1021 - 1)%Z. rewrite bp_P. lra.
      + rewrite Ey. apply mult_bpow_exact_FLX. eapply generic_format_FLX_FLT. apply fmt64. }
  destruct (fdiv_correct y f2 Fy) as (F & E).
  - rewrite val_f2. lra.
  - rewrite val_f2. apply (rnd_scale_small (val64 y) 1); [apply fmt64 | lia | apply abs_B2R_lt_emax].
  - rewrite val_f2, round_generic in E by auto with typeclass_instances.
    unfold Egrid. rewrite E. repeat split; auto. now apply multiple_half.
Qed.
End Exact.

(** ** The bytes of BinaryIO hold the bits of the walk *)
Definition byte_bits (b : byte) : list bool :=
  map (N.testbit (b2n b)) [0; 1; 2; 3; 4; 5; 6; 7]%N.
Definition bits_of (l : bytes) : list bool := flat_map byte_bits l.
Lemma byte_bits_len : forall b, length (byte_bits b) = 8%nat.
Proof. reflexivity. Qed.
Lemma bits_of_len : forall l, length (bits_of l) = (8 * length l)%nat.
Proof.
  induction l as [|b l IH]; [reflexivity|]. cbn [bits_of flat_map length]. rewrite app_length.
  fold (bits_of l). rewrite IH, byte_bits_len. lia.
Qed.

Fixpoint walk_state (bits : list bool) (cur inc : f64) : f64 * f64 :=
  match bits with
  | [] => (cur, inc)
  | b :: l => walk_state l (if b then fadd cur inc else fsub cur inc) (fdiv inc f2)
  end.
Lemma walk_dec_app : forall a b cur inc, walk_dec (a ++ b) cur inc =
  let (c, i) := walk_state a cur inc in walk_dec b c i.
Proof. induction a as [|x a IH]; intros; cbn [app walk_dec walk_state]; auto. Qed.
Lemma land_testbit : forall b i, (N.land (N.shiftr b i) 1 =? 1)%N = N.testbit b i.
Proof.
  intros b i. change 1%N with (N.ones 1) at 1. rewrite N.land_ones, N.pow_1_r.
  rewrite <- N.bit0_mod, N.shiftr_spec' . cbn [N.add]. now destruct (N.testbit b i).
Qed.
Lemma bst_dec_bits_state : forall k bit b cur inc,
  bst_dec_bits k bit b cur inc = walk_state (map (fun j => N.testbit b (bit + N.of_nat j)) (seq 0 k)) cur inc.
Proof.
  induction k as [|k IH]; intros; [reflexivity|]. cbn [bst_dec_bits seq map walk_state].
  rewrite land_testbit, N.add_0_r. destruct (N.testbit b bit); rewrite IH; f_equal;
    rewrite <- seq_shift, map_map; apply map_ext; intro j; f_equal; lia.
Qed.
Lemma bst_dec_bytes_walk : forall l cur inc, bst_dec_bytes l cur inc = walk_dec (bits_of l) cur inc.
Proof.
  induction l as [|b l IH]; intros; [reflexivity|]. cbn [bst_dec_bytes bits_of flat_map].
  rewrite walk_dec_app, bst_dec_bits_state.
  change (map (fun j => N.testbit (b2n b) (0 + N.of_nat j)) (seq 0 8)) with (byte_bits b).
  destruct (walk_state (byte_bits b) cur inc) as [c i]. apply IH.
Qed.
Lemma bst_dec_walk : forall start dur l,
  bst_dec start dur l = walk_dec (bits_of l) (fadd start (fdiv dur f2)) (fdiv dur f4).
Proof. intros. apply bst_dec_bytes_walk. Qed.

Lemma walk_enc_app : forall m n v cur inc, walk_enc (m + n) v cur inc =
  let l := walk_enc m v cur inc in
  l ++ let (c, i) := walk_state l cur inc in walk_enc n v c i.
Proof.
  induction m as [|m IH]; intros; [reflexivity|]. cbn [Nat.add walk_enc walk_state app]. f_equal. apply IH.
Qed.
Fixpoint bits_val (l : list bool) : N :=
  match l with [] => 0%N | b :: l' => (N.b2n b + 2 * bits_val l')%N end.
Lemma bits_val_lt : forall l, (bits_val l < 2 ^ N.of_nat (length l))%N.
Proof.
  induction l as [|b l IH]; [reflexivity|]. cbn [bits_val length]. rewrite Nat2N.inj_succ, N.pow_succ_r'.
  destruct b; cbn [N.b2n]; lia.
Qed.
Lemma bits_val_bit : forall l j, (j < length l)%nat -> N.testbit (bits_val l) (N.of_nat j) = nth j l false.
Proof.
  induction l as [|b l IH]; intros j Hj; [cbn in Hj; lia|]. cbn [bits_val length] in *. destruct j as [|j].
  - cbn [N.of_nat nth]. apply N.add_b2n_double_bit0.
  - rewrite Nat2N.inj_succ. cbn [nth]. rewrite <- (IH j) by lia. destruct b; cbn [N.b2n].
    + rewrite N.add_comm. apply N.testbit_odd_succ. lia.
    + rewrite N.add_0_l. apply N.testbit_even_succ. lia.
Qed.
Lemma bst_enc_bits_walk : forall k bit acc v cur inc, (acc < 2 ^ bit)%N ->
  bst_enc_bits k bit acc v cur inc =
    let l := walk_enc k v cur inc in
    let (c, i) := walk_state l cur inc in
    ((acc + 2 ^ bit * bits_val l)%N, c, i).
Proof.
  induction k as [|k IH]; intros bit acc v cur inc Ha; cbn [bst_enc_bits walk_enc walk_state].
  - rewrite N.mul_0_r, N.add_0_r. reflexivity.
  - assert (P : (2 ^ (bit + 1) = 2 * 2 ^ bit)%N) by (rewrite N.add_1_r, N.pow_succ_r'; reflexivity).
    destruct (flt v cur); cbn [negb bits_val N.b2n].
    + rewrite IH by lia. cbv zeta. destruct (walk_state _ _ _) as [c i]. do 2 f_equal. rewrite P. lia.
    + assert (Ea : (N.lor acc (N.shiftl 1 bit) = acc + 2 ^ bit)%N).
      { rewrite lor_shift_add by assumption. lia. }
      rewrite Ea, IH by lia. cbv zeta. destruct (walk_state _ _ _) as [c i]. do 2 f_equal. rewrite P. lia.
Qed.

Lemma bits_of_cons : forall b l, bits_of (b :: l) = byte_bits b ++ bits_of l.
Proof. reflexivity. Qed.
Lemma list_bits8 : forall (l : list bool), length l = 8%nat -> byte_bits (n2b (bits_val l)) = l.
Proof.
  intros l H. unfold byte_bits. rewrite b2n_n2b_small.
  2:{ pose proof (bits_val_lt l) as B. rewrite H in B. exact B. }
  do 8 (destruct l as [|? l]; [discriminate H|]). destruct l; [|discriminate H].
  pose proof (bits_val_bit [b; b0; b1; b2; b3; b4; b5; b6]) as T.
  cbn [map]. repeat (f_equal; [first [exact (T 0%nat ltac:(cbn; lia)) | exact (T 1%nat ltac:(cbn; lia))
    | exact (T 2%nat ltac:(cbn; lia)) | exact (T 3%nat ltac:(cbn; lia)) | exact (T 4%nat ltac:(cbn; lia))
    | exact (T 5%nat ltac:(cbn; lia)) | exact (T 6%nat ltac:(cbn; lia)) | exact (T 7%nat ltac:(cbn; lia))]|]).
  f_equal. exact (T 7%nat ltac:(cbn; lia)).
Qed.
Lemma bst_enc_bytes_walk : forall k v cur inc, bits_of (bst_enc_bytes k v cur inc) = walk_enc (8 * k) v cur inc.
Proof.
  induction k as [|k IH]; intros; [reflexivity|]. cbn [bst_enc_bytes].
  rewrite bst_enc_bits_walk by reflexivity. replace (8 * S k)%nat with (8 + 8 * k)%nat by lia.
  rewrite walk_enc_app. cbv zeta. destruct (walk_state (walk_enc 8 v cur inc) cur inc) as [c i].
  rewrite bits_of_cons, IH. f_equal. rewrite N.add_0_l, N.pow_0_r, N.mul_1_l.
  apply list_bits8, walk_enc_len.
Qed.
Lemma bst_enc_walk : forall k v start dur, bits_of (bst_enc k v start dur) =
  walk_enc (8 * k) v (fadd start (fdiv dur f2)) (fdiv dur f4).
Proof. intros. apply bst_enc_bytes_walk. Qed.
Lemma bits_of_inj : forall a b, bits_of a = bits_of b -> a = b.
Proof.
  induction a as [|x a IH]; intros [|y b] H; try discriminate; [reflexivity|].
  rewrite !bits_of_cons in H. assert (H1 : byte_bits x = byte_bits y /\ bits_of a = bits_of b).
  { unfold byte_bits in *. cbn [map app] in H. injection H as E0 E1 E2 E3 E4 E5 E6 E7 H. cbn [map].
    split; [congruence | assumption]. }
  destruct H1 as (H1 & H2). f_equal; [|now apply IH]. apply b2n_inj. apply N.bits_inj. intro j.
  destruct (N.lt_ge_cases j 8) as [Hj|Hj].
  - unfold byte_bits in H1. cbn [map] in H1. injection H1 as E0 E1 E2 E3 E4 E5 E6 E7.
    assert (j = 0 \/ j = 1 \/ j = 2 \/ j = 3 \/ j = 4 \/ j = 5 \/ j = 6 \/ j = 7)%N as C by lia.
    destruct C as [-> | [-> | [-> | [-> | [-> | [-> | [-> | -> ]]]]]]]; assumption.
  - assert (Hi : forall z, N.testbit (b2n z) j = false).
    { intro z. pose proof (b2n_lt z). rewrite <- (N.mod_small (b2n z) (2 ^ 8)) by assumption.
      now apply N.mod_pow2_bits_high. }
    now rewrite !Hi.
Qed.

(** ** Accuracy of the walk over a range *)
Definition walk_err (n : nat) (e : Z) : R := (INR n + 1) * bp (e - 52).
Lemma init_state : forall start dur e, fin64 start = true -> fin64 dur = true -> 0 <= val64 dur ->
  (-1021 <= e <= 1022)%Z -> Rabs (val64 start) + val64 dur <= bp e ->
  Gfin (fadd start (fdiv dur f2)) /\ Gfin (fdiv dur f4) /\
  Rabs (val64 (fadd start (fdiv dur f2)) - (val64 start + val64 dur / 2)) <= 2 * bp (e - 53) /\
  Rabs (val64 (fdiv dur f4) - val64 dur / 4) <= 2 * (bp (e - 53) / 2).
Proof.
  intros start dur e Fs Fd D0 He Hb.
  destruct (fhalf_err dur Fd) as (Fh & Eh). destruct (fquarter_err dur Fd) as (Fq & Eq).
  assert (S : bp (-1075) <= bp (e - 53) / 2) by (rewrite <- bp_P; apply bpow_le; lia).
  assert (Hadd : Rabs (val64 start) + Rabs (val64 (fdiv dur f2)) < bp (e + 1)).
  { assert (Rabs (val64 (fdiv dur f2)) <= val64 dur / 2 + bp (-1075)).
    { replace (val64 (fdiv dur f2)) with (val64 dur / 2 + (val64 (fdiv dur f2) - val64 dur / 2)) by ring.
      eapply Rle_trans; [apply Rabs_triang|]. rewrite (Rabs_pos_eq (val64 dur / 2)) by lra. lra. }
    assert (bp (-1075) < bp e) by (apply bpow_lt; lia).
    rewrite bp_S. lra. }
  destruct (gen_add e He 0%nat start (fdiv dur f2) Fs Fh Hadd) as (Fa & Ea).
  pose proof (bp_pos (e - 53)) as U. repeat split; auto; [|lra].
  replace (val64 (fadd start (fdiv dur f2)) - (val64 start + val64 dur / 2)) with
    ((val64 (fadd start (fdiv dur f2)) - (val64 start + val64 (fdiv dur f2))) + (val64 (fdiv dur f2) - val64 dur / 2)) by ring.
  eapply Rle_trans; [apply Rabs_triang|]. lra.
Qed.
Lemma err_room : forall n e c i s d, INR n + 1 < bp 51 -> c = s + d / 2 -> i = d / 4 -> 0 <= d ->
  Rabs s + d <= bp e ->
  Rabs c + 2 * i + 2 * bp (e - 53) + INR n * (bp (e - 53) + 2 * (bp (e - 53) / 2)) < bp (e + 1).
Proof.
  intros n e c i s d Hn -> -> D0 Hb. pose proof (Rabs_triang s (d / 2)) as T.
  rewrite (Rabs_pos_eq (d / 2)) in T by lra.
  assert ((INR n + 1) * bp (e - 52) < bp e).
  { replace e with (51 + (e - 51))%Z at 2 by lia. rewrite bpow_plus.
    apply Rmult_le_0_lt_compat; auto; try apply bpow_ge_0.
    - pose proof (pos_INR n). lra.
    - apply bpow_lt. lia. }
  replace (e - 52)%Z with (e - 53 + 1)%Z in H by lia. rewrite !bp_S in *. lra.
Qed.
Theorem range_dec : forall l start dur e, fin64 start = true -> fin64 dur = true -> 0 <= val64 dur ->
  (-1021 <= e <= 1022)%Z -> Rabs (val64 start) + val64 dur <= bp e -> INR (length l) + 1 < bp 51 ->
  let r := walk_dec l (fadd start (fdiv dur f2)) (fdiv dur f4) in
  fin64 r = true /\
  Rabs (val64 r - (val64 start + val64 dur * frac l)) <= walk_err (length l) e.
Proof.
  intros l start dur e Fs Fd D0 He Hb Hn r.
  destruct (init_state start dur e Fs Fd D0 He Hb) as (G1 & G2 & E1 & E2).
  pose proof (bp_pos (e - 53)) as U.
  destruct (walk_dec_spec (bp (e - 53)) (bp (e - 53) / 2) (bp (e + 1)) Gfin (fun _ => Gfin)
    ltac:(lra) ltac:(lra) (gen_add e He) (gen_sub e He) (gen_half e He) l
    (fadd start (fdiv dur f2)) (fdiv dur f4) (val64 start + val64 dur / 2) (val64 dur / 4)
    (2 * bp (e - 53)) G1 G2 E1 E2) as (G & E).
  - lra.
  - eapply err_room; eauto.
  - split; [exact G|]. unfold walk_err. replace (e - 52)%Z with (e - 53 + 1)%Z by lia. rewrite bp_S.
    replace (val64 start + val64 dur * frac l) with
      (val64 start + val64 dur / 2 - 2 * (val64 dur / 4) + 4 * (val64 dur / 4) * frac l) by field.
    unfold r. lra.
Qed.
Theorem range_enc : forall n v x start dur e d, fin64 start = true -> fin64 dur = true -> 0 <= val64 dur ->
  (-1021 <= e <= 1022)%Z -> Rabs (val64 start) + val64 dur <= bp e -> INR n + 1 < bp 51 ->
  xval v = Some x -> walk_err n e <= d -> val64 start - d <= x <= val64 start + val64 dur + d ->
  Rabs (x - (val64 start + val64 dur * frac (walk_enc n v (fadd start (fdiv dur f2)) (fdiv dur f4))))
    <= val64 dur * half_pow (S n) + d.
Proof.
  intros n v x start dur e d Fs Fd D0 He Hb Hn Hv Hd Hx.
  destruct (init_state start dur e Fs Fd D0 He Hb) as (G1 & G2 & E1 & E2).
  pose proof (bp_pos (e - 53)) as U.
  unfold walk_err in Hd. replace (e - 52)%Z with (e - 53 + 1)%Z in Hd by lia. rewrite bp_S in Hd.
  pose proof (walk_enc_spec (bp (e - 53)) (bp (e - 53) / 2) (bp (e + 1)) Gfin (fun _ => Gfin)
    ltac:(lra) ltac:(lra) (gen_add e He) (gen_sub e He) (gen_half e He) n v
    (fadd start (fdiv dur f2)) (fdiv dur f4) (val64 start + val64 dur / 2) (val64 dur / 4)
    (2 * bp (e - 53)) d x G1 G2 (fun _ H => H) Hv E1 E2 ltac:(lra)
    (err_room n e _ _ _ _ Hn eq_refl eq_refl D0 Hb) ltac:(lra) ltac:(lra)) as E.
  cbn [half_pow].
  replace (val64 start + val64 dur * frac (walk_enc n v (fadd start (fdiv dur f2)) (fdiv dur f4))) with
    (val64 start + val64 dur / 2 - 2 * (val64 dur / 4) + 4 * (val64 dur / 4) *
      frac (walk_enc n v (fadd start (fdiv dur f2)) (fdiv dur f4))) by field.
  lra.
Qed.
