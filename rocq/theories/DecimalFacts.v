(** Proofs about numbers written as text. *)
From Coq Require Import Strings.String Reals Lia Lra.
From Flocq Require Import Core Calc.Bracket IEEE754.BinarySingleNaN IEEE754.Binary IEEE754.Bits.
From Verif Require Import Base BaseFacts Floats Recording JsonText JsonTextFacts ParseFloat SpecDecimal.
Local Open Scope Z_scope.

(** ** Digits *)
Lemma dec_digit : forall c v, dec c v <-> is_digit c = true /\ digit_value c = v.
Proof.
  intros c v. unfold dec, digit_value, is_digit. rewrite andb_true_iff, !N.leb_le.
  destruct (N.leb_spec (b2n c) 57); [|lia]. lia.
Qed.
Lemma hex_digit : forall c v, hex c v <-> is_hex c = true /\ digit_value c = v.
Proof.
  intros c v. unfold hex, dec, digit_value, is_hex, is_digit. rewrite !orb_true_iff, !andb_true_iff, !N.leb_le.
  destruct (N.leb_spec (b2n c) 57); [lia|]. destruct (N.leb_spec (b2n c) 70); lia.
Qed.
Lemma numeral_iff : forall (digit : byte -> Z -> Prop) f base, (forall c v, digit c v <-> f c = true /\ digit_value c = v) ->
  forall d n, numeral digit base d n <-> Forall (fun c => f c = true) d /\ digits_value base d = n.
Proof.
  intros digit f base Hd d n. split.
  - induction 1 as [|s n c v Hs [IH1 IH2] Hc]; [now split|]. apply Hd in Hc as [Hc <-].
    split; [apply Forall_app; split; auto|]. unfold digits_value in *. rewrite fold_left_app, IH2. cbn [fold_left]. lia.
  - intros [H1 <-]. induction d as [|c d IH] using rev_ind; [constructor|].
    apply Forall_app in H1 as [H1 H2]. inversion_clear H2 as [|? ? Hc _].
    unfold digits_value in *. rewrite fold_left_app. cbn [fold_left]. rewrite Z.mul_comm.
    constructor; [now apply IH|]. now apply Hd.
Qed.
Lemma numeral_dec : forall d n, numeral dec 10 d n <-> Forall (fun c => is_digit c = true) d /\ digits_value 10 d = n.
Proof. apply numeral_iff, dec_digit. Qed.
Lemma numeral_hex : forall d n, numeral hex 16 d n <-> Forall (fun c => is_hex c = true) d /\ digits_value 16 d = n.
Proof. apply numeral_iff, hex_digit. Qed.
Lemma digit_value_range : forall c, is_digit c = true -> 0 <= digit_value c < 10.
Proof. intros c H. apply (dec_digit c (digit_value c)). now split. Qed.
Lemma digits_nonneg : forall base d, 0 <= base -> 0 <= digits_value base d.
Proof.
  intros base d Hb. unfold digits_value. enough (H : forall z, 0 <= z -> 0 <= fold_left (fun a c => a * base + digit_value c) d z) by (apply H; lia).
  induction d as [|c d IH]; intros z Hz; [exact Hz|]. cbn [fold_left]. apply IH.
  assert (0 <= digit_value c) by (unfold digit_value; lia). nia.
Qed.
(** The cap does nothing below 100000. *)
Lemma capped_ok : forall d, Forall (fun c => is_digit c = true) d -> digits_value 10 d < 100000 ->
  capped d = digits_value 10 d.
Proof.
  intros d H. induction d as [|c d IH] using rev_ind; [reflexivity|]. apply Forall_app in H as [H1 H2].
  inversion_clear H2 as [|? ? Hc _]. apply digit_value_range in Hc.
  unfold capped, digits_value in *. rewrite !fold_left_app. cbn [fold_left]. intro Hv.
  assert (K : digits_value 10 d < 10000) by (unfold digits_value; lia). unfold digits_value in K.
  rewrite IH by (assumption || lia). destruct (Z.ltb_spec (fold_left (fun a c => a * 10 + digit_value c) d 0) 10000); [reflexivity|lia].
Qed.

(** ** Syntax *)
Lemma span_stop : forall f d r, Forall (fun c => f c = true) d -> (r = [] \/ f (hd x00 r) = false) ->
  span f (d ++ r) = (d, r).
Proof. intros. now apply span_app. Qed.
Lemma mantissa_with_point : forall digit f base, (forall c v, digit c v <-> f c = true /\ digit_value c = v) ->
  (forall c, f c = true -> beqb c "." = false) ->
  forall t n k r, with_point digit base t n k -> (r = [] \/ f (hd x00 r) = false /\ beqb (hd x00 r) "." = false) ->
  read_mantissa f base (t ++ r) = Some (n, Z.of_nat k, r).
Proof.
  intros digit f base Hd Hp t n k r Ht Hr. unfold read_mantissa. destruct Ht as [d n Hne Hn|d q n Hne Hn];
    apply (numeral_iff _ _ _ Hd) in Hn as [Hf Hn].
  - rewrite span_stop by (auto; destruct Hr as [Hr|[Hr _]]; auto).
    assert (E : (lenN d =? 0)%N = false) by (destruct d; [easy|reflexivity]).
    destruct r as [|c r]; [rewrite E; now subst|].
    destruct Hr as [Hr|[_ Hr]]; [discriminate Hr|]. cbn [hd] in Hr. rewrite Hr, E. now subst.
  - apply Forall_app in Hf as [Hf1 Hf2]. rewrite <- !app_assoc. change (lit "." ++ q ++ r) with (x2e :: (q ++ r)).
    rewrite span_stop; [|exact Hf1|right].
    2:{ cbn [hd]. destruct (f x2e) eqn:E; [|reflexivity]. apply Hp in E. discriminate E. }
    change (beqb x2e ".") with true. cbv iota.
    rewrite span_stop by (auto; destruct Hr as [Hr|[Hr _]]; auto).
    assert (E : (lenN (d ++ q) =? 0)%N = false) by (destruct (d ++ q); [easy|reflexivity]).
    rewrite E. unfold lenN. rewrite nat_N_Z. now subst.
Qed.
Lemma mantissa_inv : forall digit f base, (forall c v, digit c v <-> f c = true /\ digit_value c = v) ->
  forall s n k r, read_mantissa f base s = Some (n, k, r) ->
  exists t k', s = t ++ r /\ k = Z.of_nat k' /\ with_point digit base t n k'.
Proof.
  intros digit f base Hd s n k r H. unfold read_mantissa in H. destruct (span f s) as [i r0] eqn:E.
  apply span_spec in E as (-> & Hi & _).
  assert (K : forall d r1, (if (lenN d =? 0)%N then None else Some (digits_value base d, 0, r1)) = Some (n, k, r) ->
    Forall (fun c => f c = true) d -> exists t k', d ++ r1 = t ++ r /\ k = Z.of_nat k' /\ with_point digit base t n k').
  { intros d r1 HK Hf. destruct (lenN d =? 0)%N eqn:E; [discriminate|]. injection HK as <- <- <-.
    exists d, O. split; [reflexivity|]. split; [reflexivity|]. constructor; [intros ->; discriminate E|].
    apply (numeral_iff _ _ _ Hd). now split. }
  destruct r0 as [|c r0]; [now apply K|]. destruct (beqb c ".") eqn:Ec; [|now apply K].
  apply beqb_eq in Ec. subst c. destruct (span f r0) as [q r1] eqn:Eq. apply span_spec in Eq as (-> & Hq & _).
  destruct (lenN (i ++ q) =? 0)%N eqn:E; [discriminate|]. injection H as <- <- <-.
  exists (i ++ lit "." ++ q), (length q). split; [rewrite <- !app_assoc; reflexivity|].
  split; [unfold lenN; now rewrite nat_N_Z|]. constructor; [intros E'; rewrite E' in E; discriminate E|].
  apply (numeral_iff _ _ _ Hd). split; [now apply Forall_app|reflexivity].
Qed.

Lemma sign_not : forall c t, beqb c "+" = false -> beqb c "-" = false -> take_sign (c :: t) = (false, c :: t).
Proof. intros c t H1 H2. unfold take_sign. now rewrite H1, H2. Qed.
Lemma sign_taken : forall s neg t, sign s neg -> (t = [] \/ beqb (hd x00 t) "+" = false /\ beqb (hd x00 t) "-" = false) ->
  take_sign (s ++ t) = (neg, t).
Proof.
  intros s neg t H Ht. destruct H; [|reflexivity|reflexivity]. destruct t as [|c t]; [reflexivity|].
  destruct Ht as [Ht|[H1 H2]]; [discriminate|]. now apply sign_not.
Qed.
Lemma sign_inv : forall s neg t, take_sign s = (neg, t) -> exists p, sign p neg /\ s = p ++ t.
Proof.
  intros [|c s] neg t H; cbn [take_sign] in H; [injection H as <- <-; exists []; now split; [constructor|]|].
  destruct (beqb c "+") eqn:E1; [apply beqb_eq in E1; subst c; injection H as <- <-; exists (lit "+"); split; [constructor|reflexivity]|].
  destruct (beqb c "-") eqn:E2; [apply beqb_eq in E2; subst c; injection H as <- <-; exists (lit "-"); split; [constructor|reflexivity]|].
  injection H as <- <-. exists []. split; [constructor|reflexivity].
Qed.
Lemma digit_plain : forall c, is_digit c = true -> beqb c "+" = false /\ beqb c "-" = false /\ beqb c "." = false.
Proof.
  intros c H. unfold is_digit in H. apply andb_true_iff in H as [H1 H2]. apply N.leb_le in H1, H2.
  repeat split; (destruct (beqb c _) eqn:E; [|reflexivity]; apply beqb_eq in E; subst c; cbn in H1, H2; lia).
Qed.
Lemma hex_plain : forall c, is_hex c = true -> beqb c "+" = false /\ beqb c "-" = false /\ beqb c "." = false.
Proof.
  intros c H. unfold is_hex, is_digit in H. rewrite !orb_true_iff, !andb_true_iff, !N.leb_le in H.
  repeat split; (destruct (beqb c _) eqn:E; [|reflexivity]; apply beqb_eq in E; subst c; cbn in H; lia).
Qed.
Lemma exponent_taken : forall small large l, letter (hd x00 (lit small)) l = true -> letter (hd x00 (lit large)) l = true ->
  length (lit small) = 1%nat -> length (lit large) = 1%nat ->
  forall u e, exponent small large u e -> Z.abs e < 100000 -> read_exponent l u = Some e.
Proof.
  intros small large l H1 H2 L1 L2 u e H He. destruct H as [w s neg d n Hw Hs Hne Hd]. apply numeral_dec in Hd as [Hf <-].
  assert (E : exists c, w = [c] /\ letter c l = true).
  { destruct Hw as [-> | ->].
    - destruct (lit small) as [|c [|]]; try discriminate. now exists c.
    - destruct (lit large) as [|c [|]]; try discriminate. now exists c. }
  destruct E as (c & -> & Hc). cbn [app read_exponent]. rewrite Hc.
  rewrite (sign_taken s neg d Hs).
  2:{ destruct d as [|a d]; [now left|]. right. inversion_clear Hf as [|? ? Ha _]. apply digit_plain in Ha. now split. }
  rewrite <- (app_nil_r d) at 1. rewrite span_stop by auto.
  assert (E : (lenN d =? 0)%N = false) by (destruct d; [easy|reflexivity]). rewrite E. cbn [orb negb lenN length].
  change (negb (0 =? 0)%N) with false. cbv iota. change (N.of_nat 0) with 0%N. cbn [N.eqb negb].
  pose proof (digits_nonneg 10 d ltac:(lia)). rewrite capped_ok; [reflexivity|exact Hf|]. destruct neg; lia.
Qed.
Lemma exponent_inv : forall l u e, read_exponent l u = Some e -> exists c s neg d,
  letter c l = true /\ u = [c] ++ s ++ d /\ sign s neg /\ d <> [] /\ Forall (fun c => is_digit c = true) d.
Proof.
  intros l [|c t] e H; cbn [read_exponent] in H; [discriminate|]. destruct (letter c l) eqn:Ec; [|discriminate].
  destruct (take_sign t) as [neg t'] eqn:Es. apply sign_inv in Es as (s & Hs & ->).
  destruct (span is_digit t') as [d r] eqn:Ed. apply span_spec in Ed as (-> & Hd & _).
  destruct (lenN d =? 0)%N eqn:E1; [discriminate|]. destruct r as [|x r]; [|discriminate H].
  exists c, s, neg, d. rewrite app_nil_r. repeat split; auto. intros ->. discriminate E1.
Qed.

(** ** Rounding *)
Section Rounding.
Context (prec emax : Z) (Hp : 1 < prec) (Hpe : prec < emax).
Local Instance prec_pos : Prec_gt_0 prec. Proof. red. lia. Qed.
Local Instance prec_emax : Prec_lt_emax prec emax. Proof. exact Hpe. Qed.
Notation fx := (FLT_exp (3 - emax - prec) prec).
Notation rnd := (round radix2 fx ZnearestE).

Lemma limit_pos : (0 < limit prec emax)%R.
Proof. unfold limit. assert (bpow radix2 (emax - prec - 1) < bpow radix2 emax)%R by (apply bpow_lt; lia). lra. Qed.

Lemma top_exp : forall x, (bpow radix2 (emax - 1) <= x < bpow radix2 emax)%R -> cexp radix2 fx x = emax - prec.
Proof.
  intros x [H1 H2]. unfold cexp.
  rewrite (mag_unique_pos radix2 x emax) by (split; assumption). unfold FLT_exp. lia.
Qed.
Lemma in_range_pos : forall x, (0 <= x < limit prec emax)%R -> (rnd x < bpow radix2 emax)%R.
Proof.
  intros x [H0 H]. assert (HL : (limit prec emax < bpow radix2 emax)%R).
  { unfold limit. pose proof (bpow_gt_0 radix2 (emax - prec - 1)). lra. }
  destruct (Rlt_le_dec x (bpow radix2 (emax - 1))) as [Hs|Hs].
  - apply Rle_lt_trans with (bpow radix2 (emax - 1)); [|apply bpow_lt; lia].
    apply round_le_generic; [typeclasses eauto|typeclasses eauto| |lra].
    apply generic_format_bpow. unfold FLT_exp. lia.
  - unfold round. rewrite (top_exp x) by lra. unfold F2R, scaled_mantissa. cbn [Fnum Fexp].
    rewrite (top_exp x) by lra.
    set (y := (x * bpow radix2 (- (emax - prec)))%R).
    assert (Hy : (y < IZR (2 ^ prec) - / 2)%R).
    { unfold y. rewrite (IZR_Zpower radix2) by lia.
      replace (bpow radix2 prec - / 2)%R with (limit prec emax * bpow radix2 (- (emax - prec)))%R.
      - apply Rmult_lt_compat_r; [apply bpow_gt_0|exact H].
      - unfold limit. rewrite Rmult_minus_distr_r, <- !bpow_plus. f_equal; [f_equal; lia|].
        replace (emax - prec - 1 + - (emax - prec)) with (-1) by lia. reflexivity. }
    pose proof (Znearest_half (fun z => negb (Z.even z)) y) as Hn. apply Rabs_le_inv in Hn.
    assert (Hz : ZnearestE y < 2 ^ prec) by (apply lt_IZR; lra).
    replace emax with (prec + (emax - prec)) at 2 by lia. rewrite bpow_plus.
    apply Rmult_lt_compat_r; [apply bpow_gt_0|]. rewrite <- (IZR_Zpower radix2) by lia. now apply IZR_lt.
Qed.
Lemma out_of_range_pos : forall x, (limit prec emax <= x)%R -> (bpow radix2 emax <= rnd x)%R.
Proof.
  intros x H. destruct (Rlt_le_dec x (bpow radix2 emax)) as [Hs|Hs].
  - assert (Hlow : (bpow radix2 (emax - 1) <= x)%R).
    { apply Rle_trans with (2 := H). unfold limit.
      assert (bpow radix2 emax = 2 * bpow radix2 (emax - 1))%R.
      { replace emax with (1 + (emax - 1)) at 1 by lia. rewrite bpow_plus. reflexivity. }
      assert (bpow radix2 (emax - prec - 1) <= bpow radix2 (emax - 1))%R by (apply bpow_le; lia). lra. }
    unfold round. rewrite (top_exp x) by lra. unfold F2R, scaled_mantissa. cbn [Fnum Fexp].
    rewrite (top_exp x) by lra. set (y := (x * bpow radix2 (- (emax - prec)))%R).
    assert (Hy : (IZR (2 ^ prec) - / 2 <= y)%R).
    { unfold y. rewrite (IZR_Zpower radix2) by lia.
      replace (bpow radix2 prec - / 2)%R with (limit prec emax * bpow radix2 (- (emax - prec)))%R.
      - apply Rmult_le_compat_r; [apply bpow_ge_0|exact H].
      - unfold limit. rewrite Rmult_minus_distr_r, <- !bpow_plus. f_equal; [f_equal; lia|].
        replace (emax - prec - 1 + - (emax - prec)) with (-1) by lia. reflexivity. }
    assert (Hz : 2 ^ prec <= ZnearestE y).
    { destruct (Req_dec y (IZR (2 ^ prec) - / 2)) as [E|E].
      - assert (Hf : Zfloor y = 2 ^ prec - 1).
        { apply Zfloor_imp. rewrite plus_IZR, minus_IZR. lra. }
        unfold Znearest. rewrite Hf. rewrite minus_IZR. rewrite Rcompare_Eq by lra.
        assert (Ev : Z.even (2 ^ prec - 1) = false).
        { rewrite Z.even_sub. replace prec with (Z.succ (prec - 1)) by lia. rewrite Z.pow_succ_r by lia.
          rewrite Z.even_mul. reflexivity. }
        rewrite Ev. cbn [negb]. rewrite Zceil_floor_neq; [lia|]. rewrite Hf, minus_IZR. lra.
      - pose proof (Znearest_half (fun z => negb (Z.even z)) y) as Hn. apply Rabs_le_inv in Hn.
        assert (2 ^ prec - 1 < ZnearestE y) by (apply lt_IZR; rewrite minus_IZR; lra). lia. }
    replace emax with (prec + (emax - prec)) at 1 by lia. rewrite bpow_plus.
    apply Rmult_le_compat_r; [apply bpow_ge_0|]. rewrite <- (IZR_Zpower radix2) by lia. now apply IZR_le.
  - apply round_ge_generic; [typeclasses eauto|typeclasses eauto| |exact Hs].
    apply generic_format_bpow. unfold FLT_exp. lia.
Qed.
Lemma rnd_abs : forall x, Rabs (rnd x) = rnd (Rabs x).
Proof. intro x. now rewrite round_NE_abs by typeclasses eauto. Qed.
Lemma in_range : forall x, (Rabs x < limit prec emax)%R -> (Rabs (rnd x) < bpow radix2 emax)%R.
Proof. intros x H. rewrite rnd_abs. apply in_range_pos. split; [apply Rabs_pos|exact H]. Qed.
Lemma out_of_range : forall x, (limit prec emax <= Rabs x)%R -> (bpow radix2 emax <= Rabs (rnd x))%R.
Proof. intros x H. rewrite rnd_abs. now apply out_of_range_pos. Qed.

Lemma to_float_zero : forall neg den, to_float prec emax neg 0 den = Some (B754_zero prec emax neg).
Proof. reflexivity. Qed.

(** The quotient and what is left of it locate the number. *)
Lemma located : forall num den, 0 < num -> 0 < den ->
  let scaled := num * 2 ^ (- emin prec emax) in
  let r := scaled mod den in
  inbetween_float radix2 (scaled / den) (emin prec emax) (IZR num / IZR den)
    (if r =? 0 then loc_Exact else loc_Inexact (2 * r ?= den)).
Proof.
  intros num den Hn Hd scaled r. unfold emin in *.
  assert (Hden : (0 < IZR den)%R) by now apply IZR_lt.
  pose proof (Z.mod_pos_bound scaled den Hd) as Hr. fold r in Hr.
  pose proof (Z.div_mod scaled den ltac:(lia)) as Hq. fold r in Hq. set (q := scaled / den) in *.
  set (b := bpow radix2 (3 - emax - prec)). assert (Hb : (0 < b)%R) by apply bpow_gt_0.
  assert (Hx : (IZR num / IZR den = (IZR q + IZR r / IZR den) * b)%R).
  { assert (Hs : (IZR scaled * b = IZR num)%R).
    { unfold scaled, b. rewrite mult_IZR, (IZR_Zpower radix2) by lia. rewrite Rmult_assoc, <- bpow_plus.
      replace (- (3 - emax - prec) + (3 - emax - prec)) with 0 by lia. cbn [bpow]. lra. }
    rewrite <- Hs, Hq, plus_IZR, mult_IZR. field. lra. }
  unfold inbetween_float, F2R. cbn [Fnum Fexp]. fold b.
  destruct (Z.eqb_spec r 0) as [E|E].
  - constructor. rewrite Hx, E. unfold Rdiv. rewrite Rmult_0_l, Rplus_0_r. reflexivity.
  - assert (Hfr : (0 < IZR r / IZR den < 1)%R).
    { split; [apply Rdiv_lt_0_compat; [apply IZR_lt; lia|exact Hden]|].
      apply Rmult_lt_reg_r with (IZR den); [exact Hden|]. unfold Rdiv. rewrite Rmult_assoc, Rinv_l by lra.
      rewrite Rmult_1_r, Rmult_1_l. apply IZR_lt. lia. }
    rewrite plus_IZR. constructor.
    + rewrite Hx. split; apply Rmult_lt_compat_r; lra.
    + rewrite Hx.
      replace ((IZR q * b + (IZR q + 1) * b) / 2)%R with ((IZR q + / 2) * b)%R by lra.
      rewrite Rcompare_mult_r by exact Hb. rewrite Rcompare_plus_l.
      rewrite <- (Rcompare_mult_r (2 * IZR den) (IZR r / IZR den) (/ 2)) by lra.
      replace (IZR r / IZR den * (2 * IZR den))%R with (IZR (2 * r)) by (rewrite mult_IZR; field; lra).
      replace (/ 2 * (2 * IZR den))%R with (IZR den) by field. now rewrite Rcompare_IZR.
Qed.

Lemma to_float_correct : forall neg num den, 0 <= num -> 0 < den ->
  let x := signed neg (IZR num / IZR den) in
  if Rlt_dec (Rabs x) (limit prec emax)
  then exists f, to_float prec emax neg num den = Some f /\ nearest prec emax x neg f
  else to_float prec emax neg num den = None.
Proof.
  intros neg num den Hn Hd x. assert (Hden : (0 < IZR den)%R) by now apply IZR_lt.
  destruct (Z.eq_dec num 0) as [->|Hnz].
  - assert (E : x = 0%R) by (unfold x, signed, Rdiv; destruct neg; lra).
    rewrite E, Rabs_R0. destruct (Rlt_dec 0 (limit prec emax)) as [_|H]; [|destruct (H limit_pos)].
    exists (B754_zero prec emax neg). split; [reflexivity|]. split; [reflexivity|]. split; [reflexivity|].
    cbn [B2R]. rewrite round_0; [reflexivity|typeclasses eauto].
  - assert (Hpos : (0 < IZR num / IZR den)%R) by (apply Rdiv_lt_0_compat; [apply IZR_lt; lia|exact Hden]).
    assert (Habs : Rabs x = (IZR num / IZR den)%R).
    { unfold x, signed. destruct neg; [rewrite Rabs_Ropp|]; apply Rabs_pos_eq; lra. }
    assert (Hsign : Rlt_bool x 0 = neg).
    { unfold x, signed. destruct neg; [apply Rlt_bool_true; lra|apply Rlt_bool_false; lra]. }
    unfold to_float. destruct (Z.eqb_spec num 0) as [|_]; [contradiction|].
    pose proof (located num den ltac:(lia) Hd) as HL. cbv zeta in HL |- *.
    set (mx := num * 2 ^ (- emin prec emax) / den) in *.
    set (loc := if _ =? 0 then _ else _) in *. rewrite <- Habs in HL.
    pose proof (binary_round_aux_correct' prec emax prec_pos prec_emax mode_NE x mx (emin prec emax) loc) as C.
    rewrite Hsign in C. cbv zeta in C. destruct C as [Hv C].
    + unfold x, signed. destruct neg; lra.
    + exact HL.
    + unfold cexp, emin, SpecFloat.fexp, SpecFloat.emin. lia.
    + set (z := binary_round_aux prec emax mode_NE neg mx (emin prec emax) loc) in *.
      change (SpecFloat.fexp prec emax) with fx in C. change (round_mode mode_NE) with ZnearestE in C.
      destruct (Rlt_dec (Rabs x) (limit prec emax)) as [Hlt|Hge].
      * apply in_range in Hlt. rewrite Rlt_bool_true in C by exact Hlt. destruct C as (C1 & C2 & C3).
        assert (Hz : forall s, z <> F754_infinity s) by (intros s E; rewrite E in C2; discriminate C2).
        assert (G : exists f, match Bool.bool_dec (valid_binary prec emax z) true with
          | left H => Some (FF2B prec emax z H) | right _ => None end = Some f /\ nearest prec emax x neg f).
        { destruct (Bool.bool_dec (valid_binary prec emax z) true) as [H|H]; [|contradiction].
          eexists. split; [reflexivity|]. split; [now rewrite is_finite_FF2B|]. split; [now rewrite Bsign_FF2B|].
          now rewrite B2R_FF2B. }
        destruct z; try exact G. now destruct (Hz s).
      * apply Rnot_lt_le, out_of_range in Hge. rewrite Rlt_bool_false in C by exact Hge. rewrite C. reflexivity.
Qed.

End Rounding.

(** Powers of ten and two. *)
Lemma scale_value : forall m base e, 0 < base -> 0 <= m ->
  0 <= fst (scale m base e) /\ 0 < snd (scale m base e) /\
  (IZR (fst (scale m base e)) / IZR (snd (scale m base e)) = IZR m * powerRZ (IZR base) e)%R.
Proof.
  intros m base e Hb Hm. unfold scale. assert (Hbr : (0 < IZR base)%R) by now apply IZR_lt.
  destruct (Z.leb_spec 0 e) as [He|He]; cbn [fst snd].
  - pose proof (Z.pow_pos_nonneg base e Hb He). split; [nia|]. split; [lia|].
    rewrite mult_IZR. destruct e as [|p|p]; [cbn; field| |lia].
    cbn [powerRZ]. rewrite <- (positive_nat_Z p) at 1. rewrite <- pow_IZR. field.
  - split; [lia|]. split; [apply Z.pow_pos_nonneg; lia|].
    destruct e as [|p|p]; [lia|lia|]. cbn [powerRZ]. change (- Z.neg p) with (Z.pos p).
    rewrite <- (positive_nat_Z p) at 1. rewrite <- pow_IZR. reflexivity.
Qed.
Lemma power_shift : forall b a k, (0 < b)%R -> powerRZ b (a - Z.of_nat k) = (powerRZ b a / b ^ k)%R.
Proof.
  intros b a k Hb. unfold Z.sub. rewrite powerRZ_add by lra. rewrite powerRZ_neg'. now rewrite <- pow_powerRZ.
Qed.

(** ** Reading *)
Section Reading.
Context (prec emax : Z) (Hp : 1 < prec) (Hpe : prec < emax).
Notation reads := (fun o neg x => if Rlt_dec (Rabs x) (limit prec emax)
  then exists f, o = Some f /\ nearest prec emax x neg f else o = None).
Lemma scaled_correct : forall neg m base e x, 0 <= m -> 0 < base -> x = (IZR m * powerRZ (IZR base) e)%R ->
  reads (let (n, d) := scale m base e in to_float prec emax neg n d) neg (signed neg x).
Proof.
  intros neg m base e x Hm Hb ->. destruct (scale_value m base e Hb Hm) as (H1 & H2 & H3).
  destruct (scale m base e) as [n d]. cbn [fst snd] in *. rewrite <- H3.
  exact (to_float_correct prec emax Hp Hpe neg n d H1 H2).
Qed.

Lemma with_point_start : forall (digit : byte -> Z -> Prop) f base, (forall c v, digit c v <-> f c = true /\ digit_value c = v) ->
  forall t n k r, with_point digit base t n k -> t <> [] /\ (f (hd x00 (t ++ r)) = true \/ hd x00 (t ++ r) = x2e).
Proof.
  intros digit f base Hd t n k r H. destruct H as [d n Hne Hn|d q n Hne Hn].
  - split; [exact Hne|]. apply (numeral_iff _ _ _ Hd) in Hn as [Hf _]. destruct d as [|c d]; [easy|].
    left. now inversion Hf.
  - split; [now destruct d|]. apply (numeral_iff _ _ _ Hd) in Hn as [Hf _]. destruct d as [|c d]; [now right|].
    left. now inversion Hf.
Qed.
Lemma with_point_nonneg : forall (digit : byte -> Z -> Prop) f base, (forall c v, digit c v <-> f c = true /\ digit_value c = v) ->
  0 <= base -> forall t n k, with_point digit base t n k -> 0 <= n.
Proof. intros digit f base Hd Hb t n k H. destruct H as [d n _ Hn|d q n _ Hn]; apply (numeral_iff _ _ _ Hd) in Hn as [_ <-]; now apply digits_nonneg. Qed.
Lemma start_unsigned : forall c, is_digit c = true \/ c = x2e -> beqb c "+" = false /\ beqb c "-" = false.
Proof. intros c [H | ->]; [apply digit_plain in H; tauto|now split]. Qed.
Lemma letter_not_digit : forall c l, (97 <= l <= 122)%N -> letter c l = true -> is_digit c = false /\ beqb c "." = false.
Proof.
  intros c l Hl H. unfold letter in H. rewrite orb_true_iff, !N.eqb_eq in H. unfold is_digit.
  split; [rewrite andb_false_iff, !N.leb_gt; lia|]. destruct (beqb c ".") eqn:E; [|reflexivity].
  apply beqb_eq in E. subst c. cbn in H. lia.
Qed.
Lemma letter_not_hex : forall c l, (103 <= l <= 122)%N -> letter c l = true -> is_hex c = false.
Proof.
  intros c l Hl H. unfold letter in H. rewrite orb_true_iff, !N.eqb_eq in H. unfold is_hex, is_digit.
  rewrite !orb_false_iff, !andb_false_iff, !N.leb_gt. lia.
Qed.
(** Only hexadecimal numbers begin like one. *)
Lemma decimal_branch : forall A (t : str) (a : str -> A) (b : A), (forall x u, t = x30 :: x :: u -> letter x 120 = false) ->
  match t with
  | z :: x :: ((_ :: _) as u) => if beqb z "0" && letter x 120 then a u else b
  | _ => b
  end = b.
Proof.
  intros A [|z [|x [|y u]]] a b H; try reflexivity. destruct (beqb z "0") eqn:E; [|reflexivity].
  apply beqb_eq in E. rewrite (H x (y :: u)); [reflexivity|]. now subst z.
Qed.
Definition decimal_part (neg : bool) (t : str) : option (binary_float prec emax) :=
  match read_mantissa is_digit 10 t with
  | None => None
  | Some (m, k, []) => let (n, d) := scale m 10 (- k) in to_float prec emax neg n d
  | Some (m, k, r) =>
      match read_exponent 101 r with
      | None => None
      | Some e => let (n, d) := scale m 10 (e - k) in to_float prec emax neg n d
      end
  end.
Lemma not_hex_prefix : forall t n k r, with_point dec 10 t n k -> (r = [] \/ letter (hd x00 r) 101 = true) ->
  forall x u, t ++ r = x30 :: x :: u -> letter x 120 = false.
Proof.
  intros t n k r H Hr x u E. destruct (letter x 120) eqn:Ex; [|reflexivity]. exfalso.
  assert (K : is_digit x = true \/ x = x2e \/ letter x 101 = true).
  { destruct H as [d n _ Hn|d q n _ Hn]; apply numeral_dec in Hn as [Hf _].
    - destruct d as [|a [|a' d]].
      + destruct r; [discriminate|]. destruct Hr as [Hr|Hr]; [discriminate|]. injection E as -> ->. discriminate Hr.
      + cbn [app] in E. injection E as -> ->. destruct Hr as [Hr|Hr]; [discriminate|]. auto.
      + cbn [app] in E. injection E as -> -> _. inversion_clear Hf as [|? ? _ Hf']. inversion Hf'. auto.
    - apply Forall_app in Hf as [Hf _]. destruct d as [|a [|a' d]].
      + discriminate E.
      + cbn in E. injection E as _ E _. auto.
      + cbn [app] in E. injection E as _ -> _. inversion_clear Hf as [|? ? _ Hf']. inversion Hf'. auto. }
  unfold letter in *. rewrite orb_true_iff, !N.eqb_eq in Ex. destruct K as [K|[K|K]].
  - unfold is_digit in K. rewrite andb_true_iff, !N.leb_le in K. lia.
  - subst x. cbn in Ex. lia.
  - rewrite orb_true_iff, !N.eqb_eq in K. lia.
Qed.
Lemma read_number_decimal : forall s neg t, take_sign s = (neg, t) -> (forall x u, t = x30 :: x :: u -> letter x 120 = false) ->
  read_number prec emax s = decimal_part neg t.
Proof. intros s neg t E H. unfold read_number. rewrite E. exact (decimal_branch (option (binary_float prec emax)) t (fun u => match read_mantissa is_hex 16 u with None => None | Some (m, k, r) => match read_exponent 112 r with None => None | Some e => let (n, d) := scale m 2 (e - 4 * k) in to_float prec emax neg n d end end) (decimal_part neg t) H). Qed.

Lemma e_exponent : forall u e, exponent "e" "E" u e -> letter (hd x00 u) 101 = true /\ u <> [].
Proof. intros u e H. destruct H as [l s neg d n [-> | ->] _ _ _]; now split. Qed.
Lemma p_exponent : forall u e, exponent "p" "P" u e -> letter (hd x00 u) 112 = true /\ u <> [].
Proof. intros u e H. destruct H as [l s neg d n [-> | ->] _ _ _]; now split. Qed.

Lemma read_literal : forall s neg x e, literal s neg x e -> Z.abs e < 100000 -> reads (read_number prec emax s) neg x.
Proof.
  intros s neg x e H He. destruct H as [s neg t n k Hs Ht|s neg t n k u e Hs Ht Hu|s neg x t n k u e Hs Hx Ht Hu].
  - assert (E : take_sign (s ++ t) = (neg, t)).
    { apply sign_taken; [exact Hs|right]. apply start_unsigned.
      destruct (with_point_start _ _ _ dec_digit _ _ _ [] Ht) as [_ K]. now rewrite app_nil_r in K. }
    rewrite (read_number_decimal _ neg t E).
    2:{ rewrite <- (app_nil_r t). eapply not_hex_prefix; [exact Ht|now left]. }
    pose proof (mantissa_with_point dec is_digit 10 dec_digit (fun c H => proj2 (proj2 (digit_plain c H))) t n k [] Ht (or_introl eq_refl)) as M.
    rewrite app_nil_r in M. unfold decimal_part. rewrite M.
    apply scaled_correct; [exact (with_point_nonneg dec is_digit 10 dec_digit ltac:(lia) t n k Ht)|lia|].
    change (- Z.of_nat k) with (0 - Z.of_nat k). rewrite power_shift by lra. cbn [powerRZ]. unfold Rdiv. ring.
  - destruct (e_exponent _ _ Hu) as [Hl Hne].
    assert (E : take_sign (s ++ t ++ u) = (neg, t ++ u)).
    { apply sign_taken; [exact Hs|right]. apply start_unsigned.
      now destruct (with_point_start _ _ _ dec_digit _ _ _ u Ht) as [_ K]. }
    rewrite (read_number_decimal _ neg _ E).
    2:{ eapply not_hex_prefix; [exact Ht|now right]. }
    unfold decimal_part.
    rewrite (mantissa_with_point dec is_digit 10 dec_digit (fun c H => proj2 (proj2 (digit_plain c H))) t n k u Ht).
    2:{ right. apply letter_not_digit with 101%N; [lia|exact Hl]. }
    destruct u as [|c u]; [easy|]. rewrite (exponent_taken "e" "E" 101 eq_refl eq_refl eq_refl eq_refl _ _ Hu He).
    apply scaled_correct; [exact (with_point_nonneg dec is_digit 10 dec_digit ltac:(lia) t n k Ht)|lia|].
    rewrite power_shift by lra. unfold Rdiv. ring.
  - destruct (p_exponent _ _ Hu) as [Hl Hne].
    assert (Hx' : exists c, x = [x30; c] /\ letter c 120 = true) by (destruct Hx as [-> | ->]; eexists; split; reflexivity).
    destruct Hx' as (c & -> & Hc).
    assert (E : take_sign (s ++ [x30; c] ++ t ++ u) = (neg, [x30; c] ++ t ++ u)) by (apply sign_taken; [exact Hs|right; now split]).
    unfold read_number. rewrite E. cbn [app].
    destruct (with_point_start _ _ _ hex_digit _ _ _ u Ht) as [Htne _].
    destruct (t ++ u) as [|y w] eqn:Ew; [destruct t; [easy|discriminate Ew]|]. rewrite <- Ew.
    change (beqb x30 "0") with true. rewrite Hc. cbn [andb].
    rewrite (mantissa_with_point hex is_hex 16 hex_digit (fun c H => proj2 (proj2 (hex_plain c H))) t n k u Ht).
    2:{ right. split; [apply letter_not_hex with 112%N; [lia|exact Hl]|apply letter_not_digit with 112%N; [lia|exact Hl]]. }
    rewrite (exponent_taken "p" "P" 112 eq_refl eq_refl eq_refl eq_refl _ _ Hu He).
    apply scaled_correct; [exact (with_point_nonneg hex is_hex 16 hex_digit ltac:(lia) t n k Ht)|lia|].
    replace (4 * Z.of_nat k) with (Z.of_nat (4 * k)) by lia. rewrite power_shift by lra.
    rewrite pow_mult. replace (2 ^ 4)%R with 16%R by lra. unfold Rdiv. ring.
Qed.
End Reading.

(** ** Everything that is read *)
Lemma letter_two : forall c l, letter c l = true -> (97 <= l <= 122)%N ->
  c = n2b l \/ c = n2b (l - 32).
Proof.
  intros c l H Hl. unfold letter in H. rewrite orb_true_iff, !N.eqb_eq in H. rewrite <- (n2b_b2n c).
  destruct H as [H|H]; [left|right]; f_equal; lia.
Qed.
Lemma exponent_form : forall small large l, (97 <= l <= 122)%N -> lit small = [n2b l] -> lit large = [n2b (l - 32)] ->
  forall u e, read_exponent l u = Some e -> exists e', exponent small large u e'.
Proof.
  intros small large l Hl E1 E2 u e H. apply exponent_inv in H as (c & s & neg & d & Hc & -> & Hs & Hne & Hd).
  exists (if neg then - digits_value 10 d else digits_value 10 d). constructor; auto.
  - destruct (letter_two _ _ Hc Hl) as [-> | ->]; [left|right]; now rewrite ?E1, ?E2.
  - apply numeral_dec. now split.
Qed.
Lemma read_number_inv : forall prec emax s f, read_number prec emax s = Some f -> exists neg x e, literal s neg x e.
Proof.
  intros prec emax s f H. unfold read_number in H. destruct (take_sign s) as [neg t] eqn:Es.
  apply sign_inv in Es as (p & Hs & ->).
  fold (decimal_part prec emax neg t) in H.
  assert (D : decimal_part prec emax neg t = Some f -> exists neg x e, literal (p ++ t) neg x e).
  { clear H. unfold decimal_part. destruct (read_mantissa is_digit 10 t) as [[[m k] r]|] eqn:Em; [|discriminate].
    apply (mantissa_inv dec is_digit 10 dec_digit) in Em as (d & k' & -> & -> & Hd). intro H.
    destruct r as [|c r].
    - rewrite app_nil_r. do 3 eexists. apply L_decimal; eassumption.
    - destruct (read_exponent 101 (c :: r)) as [e|] eqn:Ee; [|discriminate].
      apply (exponent_form "e" "E" 101 ltac:(lia) eq_refl eq_refl) in Ee as (e' & He').
      do 3 eexists. apply L_exponent; eassumption. }
  destruct t as [|z [|x [|y u]]]; try exact (D H). destruct (beqb z "0" && letter x 120) eqn:E; [|exact (D H)].
  clear D. apply andb_true_iff in E as [Ez Ex]. apply beqb_eq in Ez. subst z.
  destruct (read_mantissa is_hex 16 (y :: u)) as [[[m k] r]|] eqn:Em; [|discriminate].
  apply (mantissa_inv hex is_hex 16 hex_digit) in Em as (d & k' & E & -> & Hd). rewrite E.
  destruct (read_exponent 112 r) as [e|] eqn:Ee; [|discriminate].
  apply (exponent_form "p" "P" 112 ltac:(lia) eq_refl eq_refl) in Ee as (e' & He').
  do 3 eexists. change (p ++ x30 :: x :: d ++ r) with (p ++ [x30; x] ++ d ++ r). apply L_hex; try eassumption.
  apply letter_two in Ex; [|lia]. destruct Ex as [-> | ->]; [left|right]; reflexivity.
Qed.

(** ** Words and underscores *)
Lemma is_word_iff : forall w s, is_word w s = true <-> word w s.
Proof.
  intros w s. unfold is_word, word. rewrite andb_true_iff, N.eqb_eq. generalize (lit w). intro l. split.
  - intros [H1 H2]. revert l H1 H2. induction s as [|c s IH]; intros [|a l] H1 H2; try discriminate H1; [constructor|].
    cbn [combine forallb fst snd] in H2. apply andb_true_iff in H2 as [Hc H2]. constructor.
    + unfold letter in Hc. rewrite orb_true_iff, !N.eqb_eq in Hc. exact Hc.
    + apply IH; [|exact H2]. unfold lenN in *. cbn [length] in H1. lia.
  - induction 1 as [|c a s l Hc _ [IH1 IH2]]; [now split|]. unfold lenN in *. cbn [length combine forallb fst snd].
    split; [lia|]. rewrite IH2, andb_true_r. unfold letter. rewrite orb_true_iff, !N.eqb_eq. exact Hc.
Qed.
Definition plain_char (c : byte) : bool :=
  is_hex c || letter c 120 || letter c 112 || beqb c "+" || beqb c "-" || beqb c ".".
Lemma sign_plain : forall s neg, sign s neg -> forallb plain_char s = true.
Proof. intros s neg H. now destruct H. Qed.
Lemma hexes_plain : forall d, Forall (fun c => is_hex c = true) d -> forallb plain_char d = true.
Proof. intros d H. apply forallb_forall. rewrite Forall_forall in H. intros c Hc. unfold plain_char. now rewrite (H c Hc). Qed.
Lemma digit_is_hex : forall c, is_digit c = true -> is_hex c = true.
Proof. intros c H. unfold is_hex. now rewrite H. Qed.
Lemma digits_plain : forall d, Forall (fun c => is_digit c = true) d -> forallb plain_char d = true.
Proof. intros d H. apply hexes_plain. eapply Forall_impl; [|exact H]. exact digit_is_hex. Qed.
Lemma point_plain : forall (digit : byte -> Z -> Prop) f base, (forall c v, digit c v <-> f c = true /\ digit_value c = v) ->
  (forall c, f c = true -> is_hex c = true) -> forall t n k, with_point digit base t n k -> forallb plain_char t = true.
Proof.
  intros digit f base Hd Hf t n k H. destruct H as [d n _ Hn|d q n _ Hn]; apply (numeral_iff _ _ _ Hd) in Hn as [Hn _].
  - apply hexes_plain. eapply Forall_impl; [|exact Hn]. exact Hf.
  - apply Forall_app in Hn as [H1 H2]. rewrite !forallb_app. apply andb_true_iff. split; [|apply andb_true_iff; split; [reflexivity|]];
      apply hexes_plain; (eapply Forall_impl; [|eassumption]); exact Hf.
Qed.
Lemma exponent_plain : forall small large, forallb plain_char (lit small) = true -> forallb plain_char (lit large) = true ->
  forall u e, exponent small large u e -> forallb plain_char u = true.
Proof.
  intros small large H1 H2 u e H. destruct H as [l s neg d n Hl Hs _ Hd]. apply numeral_dec in Hd as [Hd _].
  rewrite !forallb_app. rewrite (sign_plain _ _ Hs), (digits_plain _ Hd). destruct Hl as [-> | ->]; now rewrite ?H1, ?H2.
Qed.
Lemma literal_plain : forall s neg x e, literal s neg x e -> forallb plain_char s = true.
Proof.
  intros s neg x e H. destruct H as [s neg t n k Hs Ht|s neg t n k u e Hs Ht Hu|s neg x t n k u e Hs Hx Ht Hu];
    rewrite !forallb_app, (sign_plain _ _ Hs).
  - now rewrite (point_plain _ _ _ dec_digit digit_is_hex _ _ _ Ht).
  - now rewrite (point_plain _ _ _ dec_digit digit_is_hex _ _ _ Ht), (exponent_plain "e" "E" eq_refl eq_refl _ _ Hu).
  - rewrite (point_plain _ _ _ hex_digit (fun c H => H) _ _ _ Ht), (exponent_plain "p" "P" eq_refl eq_refl _ _ Hu).
    destruct Hx as [-> | ->]; reflexivity.
Qed.
Lemma plain_not_n : forall c, plain_char c = true -> letter c 110 = false.
Proof.
  intros c H. destruct (letter c 110) eqn:E; [|reflexivity]. apply letter_two in E; [|lia].
  destruct E as [-> | ->]; discriminate H.
Qed.
Lemma plain_not_underscore : forall s, forallb plain_char s = true -> existsb is_underscore s = false.
Proof.
  induction s as [|c s IH]; [reflexivity|]. cbn [forallb existsb]. rewrite andb_true_iff. intros [H1 H2]. rewrite (IH H2).
  unfold is_underscore. destruct (beqb c "_") eqn:E; [|reflexivity]. apply beqb_eq in E. subst c. discriminate H1.
Qed.
(** All three words have an n in the first two places. *)
Lemma word_n : forall w s, In w ["nan"; "inf"; "infinity"]%string -> word w s -> forallb plain_char s = false.
Proof.
  intros w s Hw H. destruct (forallb plain_char s) eqn:E; [|reflexivity]. exfalso. rewrite forallb_forall in E.
  assert (K : exists c, In c s /\ same_letter c x6e).
  { destruct Hw as [<- | [<- | [<- | []]]]; unfold word in H; cbn in H.
    - inversion H as [|c ? s' ? Hc _]; subst. exists c. split; [now left|exact Hc].
    - inversion H as [|c ? s' ? _ H']; subst. inversion H' as [|c' ? s'' ? Hc _]; subst. exists c'. split; [right; now left|exact Hc].
    - inversion H as [|c ? s' ? _ H']; subst. inversion H' as [|c' ? s'' ? Hc _]; subst. exists c'. split; [right; now left|exact Hc]. }
  destruct K as (c & Hin & Hc). apply E in Hin. apply plain_not_n in Hin. unfold letter in Hin. unfold same_letter in Hc.
  rewrite orb_false_iff, !N.eqb_neq in Hin. change (b2n x6e) with 110%N in Hc. lia.
Qed.
Lemma word_underscore : forall w s, In w ["nan"; "inf"; "infinity"]%string -> word w s -> existsb is_underscore s = false.
Proof.
  intros w s Hw H. destruct (existsb is_underscore s) eqn:E; [|reflexivity]. exfalso. apply existsb_exists in E as (c & Hc & E).
  apply beqb_eq in E. subst c. unfold word in H.
  assert (K : Forall (fun l => (96 < b2n l < 127)%N) (lit w)).
  { destruct Hw as [<- | [<- | [<- | []]]]; repeat constructor. }
  revert K Hc. induction H as [|c l s' w' Hl _ IH]; intros K Hc; [destruct Hc|]. inversion_clear K as [|? ? K1 K2].
  destruct Hc as [->|Hc]; [|now apply IH]. unfold same_letter in Hl. change (b2n x5f) with 95%N in Hl. lia.
Qed.

Lemma digit_not_underscore : forall c, is_digit c = true -> beqb c "_" = false.
Proof. intros c H. destruct (beqb c "_") eqn:E; [|reflexivity]. apply beqb_eq in E. subst c. discriminate H. Qed.
Section Parsing.
Context (prec emax : Z).
Lemma special_none : forall nan s, forallb plain_char s = true -> special prec emax nan s = None.
Proof.
  intros nan s H. unfold special.
  assert (K : forall w t, In w ["nan"; "inf"; "infinity"]%string -> forallb plain_char t = true -> is_word w t = false).
  { intros w t Hw Ht. destruct (is_word w t) eqn:E; [|reflexivity]. apply is_word_iff in E. apply (word_n w) in E; [congruence|exact Hw]. }
  rewrite (K "nan"%string) by (cbn; auto). destruct (take_sign s) as [neg t] eqn:Es. apply sign_inv in Es as (p & _ & ->).
  rewrite forallb_app, andb_true_iff in H. rewrite (K "inf"%string), (K "infinity"%string) by (cbn; tauto). reflexivity.
Qed.
Lemma parse_literal : forall nan s neg x e, literal s neg x e -> parse_number prec emax nan s = read_number prec emax s.
Proof.
  intros nan s neg x e H. apply literal_plain in H. unfold parse_number. rewrite special_none by exact H.
  now rewrite plain_not_underscore by exact H.
Qed.
Lemma special_inv : forall nan s f, special prec emax nan s = Some f ->
  (word "nan" s /\ f = nan) \/
  exists p neg t, s = p ++ t /\ sign p neg /\ (word "inf" t \/ word "infinity" t) /\ f = B754_infinity prec emax neg.
Proof.
  intros nan s f H. unfold special in H. destruct (is_word "nan" s) eqn:E.
  - apply is_word_iff in E. injection H as <-. now left.
  - right. destruct (take_sign s) as [neg t] eqn:Es. apply sign_inv in Es as (p & Hp & ->).
    destruct (is_word "inf" t || is_word "infinity" t) eqn:Ew; [|discriminate]. injection H as <-.
    apply orb_true_iff in Ew. rewrite !is_word_iff in Ew. exists p, neg, t. auto.
Qed.
Lemma parse_nan : forall nan s, word "nan" s -> parse_number prec emax nan s = Some nan.
Proof. intros nan s H. apply is_word_iff in H. unfold parse_number, special. now rewrite H. Qed.
Lemma same_letter_not : forall c l (x : byte), same_letter c l -> (96 < b2n l)%N -> (b2n x < 64)%N -> beqb c x = false.
Proof. intros c l x H1 H2 H3. destruct (beqb c x) eqn:E; [|reflexivity]. apply beqb_eq in E. subst x. unfold same_letter in H1. lia. Qed.
Lemma parse_inf : forall nan p neg t, sign p neg -> word "inf" t \/ word "infinity" t ->
  parse_number prec emax nan (p ++ t) = Some (B754_infinity prec emax neg).
Proof.
  intros nan p neg t Hp Ht. assert (Hi : exists c u, t = c :: u /\ same_letter c x69).
  { destruct Ht as [Ht|Ht]; unfold word in Ht; cbn in Ht; inversion Ht as [|c ? u ? Hc _]; subst; now exists c, u. }
  destruct Hi as (c & u & -> & Hc).
  assert (N : is_word "nan" (p ++ c :: u) = false).
  { destruct (is_word "nan" (p ++ c :: u)) eqn:E; [|reflexivity]. apply is_word_iff in E. unfold word in E. cbn in E.
    destruct Hp; cbn [app lit list_byte_of_string] in E; inversion E as [|? ? ? ? Hn _]; subst; unfold same_letter in *;
      cbn in Hn, Hc; lia. }
  unfold parse_number, special. rewrite N. rewrite (sign_taken p neg (c :: u) Hp).
  2:{ right. cbn [hd]. split; (eapply same_letter_not; [exact Hc|reflexivity|reflexivity]). }
  rewrite <- !is_word_iff, <- orb_true_iff in Ht. now rewrite Ht.
Qed.
Lemma parse_inv : forall nan s f, parse_number prec emax nan s = Some f -> existsb is_underscore s = false ->
  (exists neg x e, literal s neg x e) \/ (word "nan" s /\ f = nan) \/
  exists p neg t, s = p ++ t /\ sign p neg /\ (word "inf" t \/ word "infinity" t) /\ f = B754_infinity prec emax neg.
Proof.
  intros nan s f H Hu. unfold parse_number in H. destruct (special prec emax nan s) as [x|] eqn:E.
  - right. apply special_inv. now rewrite E.
  - rewrite Hu in H. left. eapply read_number_inv. exact H.
Qed.
Lemma special_underscore : forall nan s, existsb is_underscore s = true -> special prec emax nan s = None.
Proof.
  intros nan s H. destruct (special prec emax nan s) eqn:E; [|reflexivity]. apply special_inv in E as [[E _]|(p & neg & t & -> & Hp & Ht & _)].
  - apply word_underscore in E; [congruence|now left].
  - rewrite existsb_app in H. assert (E1 : existsb is_underscore p = false) by now destruct Hp.
    assert (E2 : existsb is_underscore t = false) by (destruct Ht as [Ht|Ht]; (eapply word_underscore; [|exact Ht]); cbn; tauto).
    rewrite E1, E2 in H. discriminate H.
Qed.
Lemma parse_stripped : forall nan s f, existsb is_underscore s = true -> parse_number prec emax nan s = Some f ->
  parse_number prec emax nan (filter (fun c => negb (is_underscore c)) s) = Some f.
Proof.
  intros nan s f Hu H. unfold parse_number in H. rewrite special_underscore, Hu in H by exact Hu.
  destruct (underscores_ok s); [|discriminate]. destruct (read_number_inv _ _ _ _ H) as (neg & x & e & Hl).
  rewrite (parse_literal nan _ _ _ _ Hl). exact H.
Qed.

(** Every underscore stands between two digits. *)
Definition separating (s : str) : Prop :=
  forall p q, s = p ++ x5f :: q -> exists p' a b q', p = p' ++ [a] /\ q = b :: q' /\ is_digit a = true /\ is_digit b = true.
Lemma underscores_walk : forall hx s saw c, separating (c :: s) -> (saw = 0%N \/ is_digit c = false /\ saw = 2%N) ->
  beqb c "_" = false -> underscores_from hx saw s = true.
Proof.
  intros hx s. remember (length s) as n eqn:En. revert s En. induction n as [n IHn] using lt_wf_ind. intros s -> saw c Hs Hc Hu.
  destruct s as [|a s]; cbn [underscores_from]; [destruct Hc as [->|[_ ->]]; reflexivity|].
  assert (Hs' : beqb a "_" = false -> separating (a :: s)).
  { intros Ha p q E. destruct (Hs (c :: p) q) as (p' & x & y & q' & Ep & Eq & Hx & Hy); [cbn; now rewrite E|].
    destruct p as [|z p]; [cbn in E; injection E as -> _; discriminate Ha|].
    destruct p' as [|z' p']; [discriminate Ep|]. injection Ep as _ Ep. now exists p', x, y, q'. }
  destruct (is_digit a || (hx && is_hex a)) eqn:Ea.
  - assert (Ha : beqb a "_" = false).
    { destruct (beqb a "_") eqn:E; [|reflexivity]. apply beqb_eq in E. subst a. destruct hx; discriminate Ea. }
    apply (IHn (length s)) with a; auto.
  - destruct (beqb a "_") eqn:Eu.
    + apply beqb_eq in Eu. subst a. destruct (Hs [c] s eq_refl) as (p' & x & y & q' & Ep & -> & Hx & Hy).
      destruct p' as [|? [|]]; try discriminate Ep. injection Ep as <-.
      destruct Hc as [->|[Hc _]]; [|congruence]. cbn [N.eqb underscores_from andb]. rewrite Hy. cbn [orb].
      apply (IHn (length q')) with y; auto; [cbn [length]; lia| |apply digit_not_underscore; exact Hy].
      intros p q E. destruct (Hs (c :: x5f :: p) q) as (p' & x & z & q'' & Ep & Eq & Hx' & Hz); [cbn; now rewrite E|].
      destruct p as [|w p]; [injection E as -> _; discriminate Hy|].
      destruct p' as [|? [|? p']]; try discriminate Ep.
      injection Ep as _ _ Ep. now exists p', x, z, q''.
    + apply orb_false_iff in Ea as [Ea _]. assert (E : (saw =? 1)%N = false) by (destruct Hc as [->|[_ ->]]; reflexivity).
      rewrite E. cbn [negb andb]. apply (IHn (length s)) with a; auto.
Qed.
Lemma separating_tail : forall c s, separating (c :: s) -> (forall a, hd_error s = Some a -> beqb a "_" = false) -> separating s.
Proof.
  intros c s Hs Ha p q ->. destruct (Hs (c :: p) q eq_refl) as (p' & x & y & q' & Ep & Eq & Hx & Hy).
  destruct p as [|z p]; [specialize (Ha _ eq_refl); discriminate Ha|].
  destruct p' as [|z' p']; [discriminate Ep|]. injection Ep as _ Ep. now exists p', x, y, q'.
Qed.
Lemma separating_first : forall s a, separating s -> hd_error s = Some a -> beqb a "_" = false.
Proof.
  intros [|c s] a Hs Ha; [discriminate|]. injection Ha as ->. destruct (beqb a "_") eqn:E; [|reflexivity]. apply beqb_eq in E. subst a.
  destruct (Hs [] s eq_refl) as (p' & ? & ? & ? & Ep & _). destruct p'; discriminate Ep.
Qed.
Lemma separating_after : forall c s a, separating (c :: s) -> is_digit c = false -> hd_error s = Some a -> beqb a "_" = false.
Proof.
  intros c [|b s] a Hs Hc Ha; [discriminate|]. injection Ha as ->. destruct (beqb a "_") eqn:E; [|reflexivity]. apply beqb_eq in E. subst a.
  destruct (Hs [c] s eq_refl) as (p' & x & ? & ? & Ep & _ & Hx & _). destruct p' as [|? [|]]; try discriminate Ep. injection Ep as <-. congruence.
Qed.
Lemma underscores_start : forall hx s, separating s -> underscores_from hx 2 s = true.
Proof.
  intros hx [|a s] Hs; [reflexivity|]. pose proof (separating_first _ a Hs eq_refl) as Ha. cbn [underscores_from].
  destruct (is_digit a || (hx && is_hex a)) eqn:E.
  - apply underscores_walk with a; auto.
  - rewrite Ha. cbn [N.eqb negb andb]. apply orb_false_iff in E as [E _]. apply underscores_walk with a; auto.
Qed.
Lemma letter_plain : forall c l, (97 <= l <= 122)%N -> letter c l = true -> is_digit c = false /\ beqb c "_" = false.
Proof.
  intros c l Hl H. pose proof (letter_two _ _ H Hl) as K. unfold letter in H. rewrite orb_true_iff, !N.eqb_eq in H. unfold is_digit.
  split; [rewrite andb_false_iff, !N.leb_gt; lia|]. destruct (beqb c "_") eqn:E; [|reflexivity].
  apply beqb_eq in E. subst c. cbn in H. lia.
Qed.
Lemma separating_ok : forall s, separating s -> underscores_ok s = true.
Proof.
  intros s Hs. unfold underscores_ok. assert (Ht : separating (snd (take_sign s))).
  { destruct s as [|c s]; [exact Hs|]. cbn [take_sign]. destruct (beqb c "+") eqn:E1; cbn [snd].
    - apply beqb_eq in E1. subst c. apply separating_tail with x2b; [exact Hs|]. intros a Ha. now apply (separating_after _ _ a Hs).
    - destruct (beqb c "-") eqn:E2; cbn [snd]; [|exact Hs].
      apply beqb_eq in E2. subst c. apply separating_tail with x2d; [exact Hs|]. intros a Ha. now apply (separating_after _ _ a Hs). }
  generalize dependent (snd (take_sign s)). clear s Hs. intros [|z [|x u]] Hs; try now apply underscores_start.
  destruct (beqb z "0" && (letter x 98 || letter x 111 || letter x 120)) eqn:E; [|now apply underscores_start].
  apply andb_true_iff in E as [_ E].
  assert (Hx : is_digit x = false /\ beqb x "_" = false).
  { apply orb_true_iff in E as [E|E]; [apply orb_true_iff in E as [E|E]|]; (eapply letter_plain; [|exact E]); lia. }
  apply underscores_walk with x; [|now left|apply Hx].
  apply separating_tail with z; [exact Hs|]. intros a Ha. cbn in Ha. injection Ha as <-. apply Hx.
Qed.
Lemma parse_separated : forall nan s f, separating s ->
  parse_number prec emax nan (filter (fun c => negb (is_underscore c)) s) = Some f ->
  (exists neg x e, literal (filter (fun c => negb (is_underscore c)) s) neg x e) ->
  parse_number prec emax nan s = Some f.
Proof.
  intros nan s f Hs H (neg & x & e & Hl). rewrite (parse_literal nan _ _ _ _ Hl) in H.
  destruct (existsb is_underscore s) eqn:Hu.
  - unfold parse_number. rewrite special_underscore, Hu, separating_ok by assumption. exact H.
  - assert (E : filter (fun c => negb (is_underscore c)) s = s).
    { clear -Hu. induction s as [|c s IH]; [reflexivity|]. cbn [existsb filter] in *. apply orb_false_iff in Hu as [Hc Hu].
      rewrite Hc. cbn [negb]. now rewrite (IH Hu). }
    rewrite E in *. now rewrite (parse_literal nan _ _ _ _ Hl).
Qed.
End Parsing.

(** ** Where underscores are accepted *)
Definition dig (hx : bool) (c : byte) : bool := is_digit c || (hx && is_hex c).
Lemma dig_not_underscore : forall hx, dig hx x5f = false.
Proof. intros []; reflexivity. Qed.
Lemma underscores_inv : forall hx s saw, underscores_from hx saw s = true ->
  (saw = 1%N -> exists b q, s = b :: q /\ dig hx b = true) /\
  forall p q, s = p ++ x5f :: q ->
    (p = [] /\ saw = 0%N \/ exists p' a, p = p' ++ [a] /\ dig hx a = true) /\ exists b q', q = b :: q' /\ dig hx b = true.
Proof.
  intros hx s. induction s as [|c s IH]; intros saw H.
  - split; [intros ->; discriminate H|]. intros [|] q E; discriminate E.
  - cbn [underscores_from] in H. fold (dig hx c) in H. destruct (dig hx c) eqn:Ec.
    + apply IH in H as [_ H]. split; [intros _; now exists c, s|]. intros p q E. destruct p as [|a p].
      * cbn in E. injection E as -> _. rewrite dig_not_underscore in Ec. discriminate Ec.
      * cbn in E. injection E as <- E. destruct (H p q E) as [[[-> _]|(p' & b & -> & Hb)] K]; (split; [right|exact K]).
        -- now exists [], c.
        -- now exists (c :: p'), b.
    + destruct (beqb c "_") eqn:Eu.
      * apply beqb_eq in Eu. subst c. apply andb_true_iff in H as [H0 H]. apply N.eqb_eq in H0. apply IH in H as [H1 H].
        split; [intros ->; discriminate H0|]. intros p q E. destruct p as [|a p].
        -- cbn in E. injection E as <-. split; [now left|exact (H1 eq_refl)].
        -- cbn in E. injection E as <- E. destruct (H p q E) as [[[_ K]|(p' & b & -> & Hb)] K']; [discriminate K|].
           split; [right; now exists (x5f :: p'), b|exact K'].
      * apply andb_true_iff in H as [H0 H]. apply IH in H as [_ H].
        split; [intros ->; discriminate H0|]. intros p q E. destruct p as [|a p].
        -- cbn in E. injection E as -> _. discriminate Eu.
        -- cbn in E. injection E as <- E. destruct (H p q E) as [[[_ K]|(p' & b & -> & Hb)] K']; [discriminate K|].
           split; [right; now exists (c :: p'), b|exact K'].
Qed.
Definition stripping (s : str) : str := filter (fun c => negb (is_underscore c)) s.
(** Every accepted underscore. *)
Lemma accepted_underscores : forall prec emax s f, underscores_ok s = true ->
  read_number prec emax (stripping s) = Some f ->
  forall p q, s = p ++ x5f :: q -> exists p' a b q', p = p' ++ [a] /\ q = b :: q' /\
    (is_digit a = true /\ is_digit b = true \/
     (exists g neg x u, sign g neg /\ letter x 120 = true /\ s = g ++ [x30; x] ++ u) /\
     (is_hex a = true \/ letter a 120 = true) /\ is_hex b = true).
Proof.
  intros prec emax s f Hok Hr. unfold underscores_ok in Hok. destruct (take_sign s) as [neg t] eqn:Es. cbn [snd] in Hok.
  destruct (sign_inv _ _ _ Es) as (g & Hg & Es'). subst s. clear Es. intros p q E.
  (* the underscore is behind the sign *)
  assert (K : exists p0, p = g ++ p0 /\ t = p0 ++ x5f :: q).
  { destruct Hg; cbn [app lit list_byte_of_string] in E |- *; [now exists p| |];
      (destruct p as [|a p]; [discriminate E|]); cbn in E; injection E as <- E; now exists p. }
  destruct K as (p0 & -> & ->). clear E.
  assert (Plain : underscores_from false 2 (p0 ++ x5f :: q) = true ->
    exists p' a b q', g ++ p0 = p' ++ [a] /\ q = b :: q' /\
    (is_digit a = true /\ is_digit b = true \/
     (exists g' neg0 x u, sign g' neg0 /\ letter x 120 = true /\ g ++ p0 ++ x5f :: q = g' ++ [x30; x] ++ u) /\
     (is_hex a = true \/ letter a 120 = true) /\ is_hex b = true)).
  { intro H. apply underscores_inv in H as [_ H]. destruct (H p0 q eq_refl) as [[[_ K]|(p' & a & -> & Ha)] (b & q' & -> & Hb)]; [discriminate K|].
    exists (g ++ p'), a, b, q'. split; [now rewrite app_assoc|]. split; [reflexivity|]. left.
    unfold dig in Ha, Hb. cbn [andb] in Ha, Hb. now rewrite orb_false_r in Ha, Hb. }
  destruct p0 as [|z [|x p0]]; cbn [app] in Hok.
  - apply Plain. cbn [app]. destruct q; exact Hok.
  - (* the underscore is the second character *)
    destruct (beqb z "0" && _) eqn:Ez in Hok; [|now apply Plain]. apply andb_true_iff in Ez as [_ Ez]. discriminate Ez.
  - destruct (beqb z "0" && (letter x 98 || letter x 111 || letter x 120)) eqn:Ez; [|now apply Plain].
    apply andb_true_iff in Ez as [Ez Ex]. apply beqb_eq in Ez. subst z.
    destruct (letter x 120) eqn:Exx.
    + apply underscores_inv in Hok as [_ H]. destruct (H p0 q eq_refl) as [Hl (b & q' & -> & Hb)].
      assert (Hb' : is_hex b = true) by (unfold dig in Hb; apply orb_true_iff in Hb as [Hb|Hb]; [now apply digit_is_hex|exact Hb]).
      assert (W : exists g' neg0 x0 u, sign g' neg0 /\ letter x0 120 = true /\
        g ++ (x30 :: x :: p0) ++ x5f :: b :: q' = g' ++ [x30; x0] ++ u) by (exists g, neg, x, (p0 ++ x5f :: b :: q'); auto).
      destruct Hl as [[-> _]|(p' & a & -> & Ha)].
      * exists (g ++ [x30]), x, b, q'. split; [now rewrite <- app_assoc|]. split; [reflexivity|]. right. auto.
      * exists (g ++ x30 :: x :: p'), a, b, q'. split; [now rewrite <- app_assoc|]. split; [reflexivity|]. right.
        split; [exact W|]. split; [left|exact Hb'].
        unfold dig in Ha; apply orb_true_iff in Ha as [Ha|Ha]; [now apply digit_is_hex|exact Ha].
    + (* 0b and 0o are no numbers *)
      exfalso. rewrite orb_false_r in Ex.
      assert (Hx : is_digit x = false /\ beqb x "_" = false /\ beqb x "." = false /\ letter x 101 = false).
      { unfold letter in *. rewrite orb_true_iff, !orb_true_iff, !N.eqb_eq in Ex. unfold is_digit.
        split; [rewrite andb_false_iff, !N.leb_gt; lia|].
        split; [destruct (beqb x "_") eqn:B; [apply beqb_eq in B; subst x; cbn in Ex; lia|reflexivity]|].
        split; [destruct (beqb x ".") eqn:B; [apply beqb_eq in B; subst x; cbn in Ex; lia|reflexivity]|].
        rewrite orb_false_iff, !N.eqb_neq. lia. }
      destruct Hx as (Hx1 & Hx2 & Hx3 & Hx4).
      assert (Ef : exists w, stripping (g ++ (x30 :: x :: p0) ++ x5f :: q) = g ++ x30 :: x :: w).
      { unfold stripping. rewrite filter_app. cbn [app filter]. unfold is_underscore at 2 3. change (beqb x30 "_") with false.
        rewrite Hx2. cbn [negb]. eexists. f_equal. now destruct Hg. }
      destruct Ef as (w & Ef). rewrite Ef in Hr. rewrite (read_number_decimal prec emax _ neg (x30 :: x :: w)) in Hr.
      * unfold decimal_part, read_mantissa in Hr. cbn [span] in Hr. change (is_digit x30) with true in Hr. cbv iota in Hr.
        rewrite Hx1 in Hr. cbv iota in Hr. rewrite Hx3 in Hr. cbn [lenN length N.of_nat N.eqb] in Hr.
        unfold read_exponent in Hr. rewrite Hx4 in Hr. discriminate Hr.
      * apply sign_taken; [exact Hg|right; now split].
      * intros x' u Eq. injection Eq as -> _. exact Exx.
Qed.
