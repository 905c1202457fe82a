(** C66: how many digits a number needs to come back exactly. *)
From Coq Require Import ZArith Reals Lra Lia Permutation Strings.String.
From Flocq Require Import Core IEEE754.Binary IEEE754.Bits.
From Verif Require Import Base BaseFacts IO Spec Floats Metadata Recording SpecFile Encoding Writer Reader Tools.
From Verif Require Import Text Csv CsvText SpecCsv SpecCsvText PropCsvText.
From Verif Require Import ParseFloat SpecDecimal SpecDigits DecimalFacts SpecV1 PropDecimal SpecText SpecJson SpecToJson.
Local Open Scope R_scope.

Section Near.
Context (prec emin : Z) {Hp : Prec_gt_0 prec}.
Notation fexp := (FLT_exp emin prec).
Notation F := (generic_format radix2 fexp).
Notation rnd := (round radix2 fexp ZnearestE).
Lemma near_pos : forall f x eps, F f -> 0 < f -> 0 <= eps -> 2 * eps * (1 + bpow radix2 (- prec)) <= bpow radix2 (- prec) ->
  Rabs (x - f) < f * eps -> rnd x = f.
Proof.
  intros f x eps Ff Hf He Heps Hx. set (t := bpow radix2 (- prec)) in *. assert (0 < t) by apply bpow_gt_0.
  apply Rabs_def2 in Hx as [H1 H2]. apply Rle_antisym.
  - apply round_N_le_midp; [now apply FLT_exp_valid|exact Ff|].
    rewrite succ_eq_pos by lra. pose proof (ulp_FLT_gt radix2 emin prec f) as U. rewrite Rabs_pos_eq in U by lra. fold t in U.
    assert (f * eps <= f * t / 2) by nra. lra.
  - apply round_N_ge_midp; [now apply FLT_exp_valid|exact Ff|].
    pose proof (pred_plus_ulp radix2 fexp f Hf Ff) as P. pose proof (pred_ge_0 radix2 fexp f Hf Ff) as P0.
    set (p := pred radix2 fexp f) in *. pose proof (ulp_FLT_gt radix2 emin prec p) as U. rewrite Rabs_pos_eq in U by lra. fold t in U.
    assert (D : (f - p) * (1 + t) > f * t) by nra.
    assert (f * eps <= (f - p) / 2); [|lra]. apply Rmult_le_reg_r with (2 * (1 + t)); [lra|]. nra.
Qed.
Lemma near : forall f x eps, F f -> f <> 0 -> 0 <= eps -> 2 * eps * (1 + bpow radix2 (- prec)) <= bpow radix2 (- prec) ->
  Rabs (x - f) < Rabs f * eps -> rnd x = f.
Proof.
  intros f x eps Ff Hf He Heps Hx. destruct (Rlt_dec 0 f) as [H|H].
  - rewrite (Rabs_pos_eq f) in Hx by lra. now apply near_pos with eps.
  - rewrite (Rabs_left f) in Hx by lra. assert (E : rnd (- x) = - f).
    { apply near_pos with eps; auto; [now apply generic_format_opp|lra|]. replace (- x - - f) with (- (x - f)) by lra. now rewrite Rabs_Ropp. }
    rewrite round_NE_opp in E. lra.
Qed.
End Near.
Lemma reads_near : forall prec emax (Hp : Prec_gt_0 prec) (f : binary_float prec emax) x eps,
  is_finite prec emax f = true -> B2R prec emax f <> 0 -> 0 < eps -> 2 * eps * (1 + bpow radix2 (- prec)) <= bpow radix2 (- prec) ->
  Rabs (x - B2R prec emax f) < Rabs (B2R prec emax f) * eps ->
  round radix2 (FLT_exp (3 - emax - prec) prec) ZnearestE x = B2R prec emax f /\ Rabs x < limit prec emax.
Proof.
  intros prec emax Hp f x eps Hf H0 He Heps Hx. split; [eapply near; eauto; [apply generic_format_B2R|lra]|].
  pose proof (abs_B2R_le_emax_minus_prec prec emax Hp f) as U. unfold limit. set (y := B2R prec emax f) in *.
  assert (Rabs x <= Rabs (x - y) + Rabs y) by (replace x with ((x - y) + y) at 1 by lra; apply Rabs_triang).
  replace (emax - prec)%Z with ((emax - prec - 1) + 1)%Z in U by lia. rewrite bpow_plus in U. change (bpow radix2 1) with 2 in U.
  assert (Q : bpow radix2 emax = bpow radix2 (emax - prec - 1) * bpow radix2 (prec + 1)) by (rewrite <- bpow_plus; f_equal; lia). rewrite Q in *.
  set (a := bpow radix2 (emax - prec - 1)) in *. assert (0 < a) by apply bpow_gt_0.
  assert (T : bpow radix2 (- prec) * bpow radix2 (prec + 1) = 2) by (rewrite <- bpow_plus; replace (- prec + (prec + 1))%Z with 1%Z by lia; reflexivity).
  set (t := bpow radix2 (- prec)) in *. set (b := bpow radix2 (prec + 1)) in *. assert (0 < t) by apply bpow_gt_0. assert (0 < b) by apply bpow_gt_0.
  assert (2 * eps < t) by nra. assert (eps * b < 1) by nra. assert (0 <= Rabs y) by apply Rabs_pos.
  assert (Rabs y * eps <= (a * b) * eps) by (apply Rmult_le_compat_r; [lra|]; nra). nra.
Qed.
Lemma same_float : forall prec emax (f g : binary_float prec emax), is_finite prec emax f = true -> is_finite prec emax g = true ->
  B2R prec emax f = B2R prec emax g -> B2R prec emax g <> 0 -> f = g.
Proof.
  intros prec emax f g Hf Hg E H. apply B2R_inj; [| |exact E].
  - destruct f; try discriminate; [|reflexivity]. cbn [B2R] in E. congruence.
  - destruct g; try discriminate; [|reflexivity]. cbn [B2R] in H. congruence.
Qed.
Lemma digits_near : forall d f x, digits_of d f x -> Rabs (x - f) <= Rabs f * (powerRZ 10 (1 - d) / 2).
Proof.
  intros d f x (k & [Hk _] & Hx). replace (k + 1 - d)%Z with (k + (1 - d))%Z in Hx by lia. rewrite powerRZ_add in Hx by lra.
  assert (0 < powerRZ 10 (1 - d)) by (apply powerRZ_lt; lra). nra.
Qed.

(** A float64 that is written with 17 significant digits or more, in whatever notation,
    is read back exactly. *)
Theorem C66_exact64 : forall (f : f64) s neg x e, is_finite 53 1024 f = true -> B2R 53 1024 f <> 0 ->
  literal s neg x e -> (Z.abs e < 100000)%Z -> digits_of 17 (B2R 53 1024 f) x -> parse_float64 s = Some f.
Proof.
  intros f s neg x e Hf H0 Hl He Hd. apply digits_near in Hd. change (1 - 17)%Z with (-16)%Z in Hd.
  assert (P : powerRZ 10 (-16) = / 10000000000000000) by (unfold powerRZ; simpl; f_equal; lra). rewrite P in Hd.
  assert (0 < Rabs (B2R 53 1024 f)) by now apply Rabs_pos_lt.
  destruct (reads_near 53 1024 eq_refl f x (55 / 1000000000000000000) Hf H0) as [Er Hlim]; [lra| |lra|].
  - change (bpow radix2 (- (53))) with (/ 9007199254740992). lra.
  - destruct (C63_nearest s neg x e Hl He) as [Hn _]. destruct (Hn Hlim) as (g & -> & Hg & _ & Eg). f_equal.
    apply same_float; auto. now rewrite Eg.
Qed.
Print Assumptions C66_exact64.
(** Nine digits are enough for a float32. *)
Theorem C66_exact32 : forall (f : f32) s neg x e, is_finite 24 128 f = true -> B2R 24 128 f <> 0 ->
  literal s neg x e -> (Z.abs e < 100000)%Z -> digits_of 9 (B2R 24 128 f) x ->
  parse_float32 s = Some f /\ md_value parse_float32 s = PFloat f.
Proof.
  intros f s neg x e Hf H0 Hl He Hd. apply digits_near in Hd. change (1 - 9)%Z with (-8)%Z in Hd.
  assert (P : powerRZ 10 (-8) = / 100000000) by (unfold powerRZ; simpl; f_equal; lra). rewrite P in Hd.
  assert (0 < Rabs (B2R 24 128 f)) by now apply Rabs_pos_lt.
  destruct (reads_near 24 128 eq_refl f x (6 / 1000000000) Hf H0) as [Er Hlim]; [lra| |lra|].
  - change (bpow radix2 (- (24))) with (/ 16777216). lra.
  - destruct (C63_nearest s neg x e Hl He) as (_ & _ & Hn & _). destruct (Hn Hlim) as (g & Ep & Hg & _ & Eg).
    assert (g = f) by (apply same_float; auto; now rewrite Eg). subst g. split; [exact Ep|]. unfold md_value. now rewrite Ep.
Qed.
Print Assumptions C66_exact32.
(** A zero keeps its sign. *)
Theorem C66_zero : forall s neg e, literal s neg 0 e -> (Z.abs e < 100000)%Z -> parse_float64 s = Some (B754_zero 53 1024 neg).
Proof.
  intros s neg e Hl He. destruct (C63_nearest s neg 0 e Hl He) as [Hn _]. destruct Hn as (g & -> & Hg & Es & Eg).
  - rewrite Rabs_R0. unfold limit. assert (bpow radix2 (1024 - 53 - 1) < bpow radix2 1024) by (apply bpow_lt; lia). lra.
  - rewrite round_0 in Eg by apply valid_rnd_N. f_equal. destruct g as [s0| | |s0 m e0 Hb]; try discriminate Hg; [cbn [Bsign] in Es; now subst|].
    exfalso. cbn [B2R] in Eg. apply eq_0_F2R in Eg. destruct s0; discriminate.
Qed.
Print Assumptions C66_zero.

(** [exact_cell row i f]: the cell holds [f] with 17 significant digits or more; a zero
    with its sign. *)
Definition exact_cell (row : list str) (i : nat) (f : f64) : Prop :=
  exists s neg x e, nth_error row i = Some s /\ literal (trim_space s) neg x e /\ (Z.abs e < 100000)%Z /\
    (is_finite 53 1024 f = true /\ B2R 53 1024 f <> 0 /\ digits_of 17 (B2R 53 1024 f) x \/ f = B754_zero 53 1024 neg /\ x = 0).
Definition exact_row (k : columns) (row : list str) (e : SpecCsv.entry) : Prop :=
  let '(id, name, (t, v)) := e in
  nth_error row (in_id k) = Some id /\ nth_error row (in_name k) = Some name /\ exact_cell row (in_time k) t /\
  exact_cell row (in_x k) (vx v) /\ exact_cell row (in_y k) (vy v) /\ exact_cell row (in_z k) (vz v).
Lemma exact_number : forall row i f, exact_cell row i f -> number_at parse_float64 row i f.
Proof.
  intros row i f (s & neg & x & e & Hn & Hl & He & [(Hf & H0 & Hd)|(-> & ->)]); exists s; (split; [exact Hn|]).
  - now apply C66_exact64 with neg x e.
  - now apply C66_zero with e.
Qed.
(** So a table of captures, written with that many digits, goes through the from-csv
    command and Load without any loss. *)
Theorem C66_table : forall outer inner t header rows k l Z IZ v1,
  (forall d, Permutation (outer d) d) -> (forall i m, Permutation (inner i m) m) ->
  says_table t (header :: rows) -> six_columns header k -> Forall2 (exact_row k) rows l -> codec_ok Z IZ ->
  exists subs n file,
    let r := mkRec [] [] [] (map Some subs) [] [] [] in
    NoDup (map (fun r => (rec_id r, rec_name r)) subs) /\
    (forall r, In r subs <-> exists p, In p (map SpecCsv.key l) /\ r = group p l) /\
    recording_from_csv parse_float64 outer inner (csv_read t None) = Ok (inl r) /\
    write_views from_csv_writer Z buffer r r r [] = Ok (n, None, file) /\
    ((n <= 2 ^ 40)%N ->
     forall S (R : Reader S) eager I, delivers R eager I -> forall s rest, I s (file ++ rest) ->
     exists s', read load_encoders v1 IZ R s = Ok (Some r, n, None, s')).
Proof.
  intros outer inner t header rows k l Z IZ v1 Ho Hi Ht Hk Hl HZ.
  apply (C49_from_csv parse_float64 outer inner t header rows k l Z IZ v1); auto.
  clear Ht. induction Hl as [|row [[id name] [tm v]] rows l (H1 & H2 & H3 & H4 & H5 & H6) _ IH]; constructor; [|exact IH].
  unfold row_says. repeat split; auto using exact_number.
Qed.
Print Assumptions C66_table.
(** Sixteen digits are not enough: 1.000000000000000 are the sixteen digits of the float
    behind 1 too, but are read as 1. *)
Definition after_one : f64 := b64_of_bits 4607182418800017409.
Lemma after_one_value : B2R 53 1024 after_one = 1 + / 4503599627370496 /\ is_finite 53 1024 after_one = true.
Proof.
  split; [|vm_compute; reflexivity].
  assert (E : B2R 53 1024 after_one = F2R (Float radix2 4503599627370497 (-52))) by reflexivity. rewrite E. unfold F2R. cbn [Fnum Fexp].
  change (bpow radix2 (-52)) with (/ 4503599627370496). lra.
Qed.
Lemma digits_of_one : forall d, (d = 16 \/ d = 17)%Z -> digits_of d (1 + / 4503599627370496) (if Z.eqb d 16 then 1 else 10000000000000002 / 10 ^ 16).
Proof.
  intros d Hd. exists 0%Z. change (powerRZ 10 0) with 1. change (powerRZ 10 (0 + 1)) with (10 ^ 1). rewrite (Rabs_pos_eq (1 + _)) by lra.
  split; [lra|]. destruct Hd as [-> | ->].
  - change (Z.eqb 16 16) with true. cbv iota. rewrite <- Rabs_Ropp, Rabs_pos_eq by lra.
    replace (powerRZ 10 (0 + 1 - 16)) with (/ 1000000000000000) by (symmetry; change (0 + 1 - 16)%Z with (-15)%Z; unfold powerRZ; simpl; f_equal; lra). lra.
  - change (Z.eqb 17 16) with false. cbv iota.
    replace (powerRZ 10 (0 + 1 - 17)) with (/ 10000000000000000) by (symmetry; change (0 + 1 - 17)%Z with (-16)%Z; unfold powerRZ; simpl; f_equal; lra).
    replace (10 ^ 16) with 10000000000000000 by (simpl; lra). rewrite <- Rabs_Ropp, Rabs_pos_eq by lra. lra.
Qed.
Theorem C66_sixteen_refuted : exists (f : f64) s neg x e, is_finite 53 1024 f = true /\ B2R 53 1024 f <> 0 /\
  literal s neg x e /\ (Z.abs e < 100000)%Z /\ digits_of 16 (B2R 53 1024 f) x /\ parse_float64 s <> Some f.
Proof.
  destruct after_one_value as [V F]. exists after_one, (lit "1.000000000000000"), false, 1, 0%Z. rewrite V.
  split; [exact F|split; [lra|split; [|split; [reflexivity|split; [exact (digits_of_one 16 (or_introl eq_refl))|]]]]].
  - replace 1 with (signed false (1000000000000000 / 10 ^ 15)) by (unfold signed; replace (10 ^ 15) with 1000000000000000 by (simpl; lra); lra).
    change (lit "1.000000000000000") with ([] ++ (lit "1" ++ lit "." ++ lit "000000000000000")).
    apply (L_decimal [] false _ 1000000000000000 (length (lit "000000000000000"))); [constructor|].
    apply (P_with dec 10 (lit "1") (lit "000000000000000") 1000000000000000); [discriminate|]. exact (numeral_of (lit "1000000000000000") eq_refl).
  - intro E. assert (B : bits (parse_float64 (lit "1.000000000000000")) = bits (Some after_one)) by now rewrite E.
    revert B. vm_compute. discriminate.
Qed.
Print Assumptions C66_sixteen_refuted.

(** ** Integers *)
Lemma numeral_text : forall t s a, numeral dec 10 s (Z.of_N a) -> Forall digit t -> numeral dec 10 (s ++ t) (Z.of_N (text_val a t)).
Proof.
  induction t as [|c t IH]; intros s a Hs Ht; cbn [text_val]; [now rewrite app_nil_r|]. inversion Ht as [|? ? Hc Ht']; subst.
  change (c :: t) with ([c] ++ t). rewrite app_assoc. apply IH; [|exact Ht'].
  replace (Z.of_N (10 * a + digit_val c)) with (10 * Z.of_N a + Z.of_N (digit_val c))%Z by lia.
  constructor; [exact Hs|]. unfold dec, digit, digit_val in *. lia.
Qed.
Lemma tells_literal : forall t z, tells t z -> exists neg, literal t neg (IZR z) 0.
Proof.
  assert (A : forall s neg d n, sign s neg -> spells d n -> literal (s ++ d) neg (signed neg (IZR (Z.of_N n) / 10 ^ 0)) 0).
  { intros s neg d n Hs (H1 & H2 & <- & _). apply L_decimal; [exact Hs|]. constructor; [exact H1|]. apply (numeral_text d [] 0%N); [constructor|exact H2]. }
  assert (V : forall r, r / 10 ^ 0 = r) by (intro; simpl; lra).
  intros t z [(n & -> & H)|(n & d & -> & _ & -> & H)].
  - exists false. specialize (A [] false t n S_none H). now rewrite V in A.
  - exists true. specialize (A (lit "-") true d n S_minus H). rewrite V in A. unfold signed in A. now rewrite opp_IZR.
Qed.
(** The decimal notation of an integer that has at most 53 bits is read as exactly this
    integer. *)
Theorem C66_integers : forall t z, tells t z -> (Z.abs z < 2 ^ 53)%Z -> exists x, parse_float64 t = Some x /\ integral x z.
Proof.
  intros t z Ht Hz. destruct (tells_literal t z Ht) as (neg & Hl). destruct (C63_nearest t neg (IZR z) 0 Hl eq_refl) as [Hn _].
  destruct Hn as (x & Hx & Hf & _ & E).
  - rewrite <- abs_IZR. apply Rlt_trans with (bpow radix2 53); [rewrite <- (IZR_Zpower radix2 53) by lia; apply IZR_lt; exact Hz|].
    unfold limit. assert (bpow radix2 970 <= bpow radix2 1023) by (apply bpow_le; lia).
    assert (bpow radix2 53 < bpow radix2 1023) by (apply bpow_lt; lia).
    assert (bpow radix2 1024 = 2 * bpow radix2 1023) by exact (bpow_plus radix2 1 1023).
    change (1024 - 53 - 1)%Z with 970%Z. lra.
  - exists x. split; [exact Hx|]. split; [exact Hf|]. split; [|lia]. rewrite E. apply round_generic; [apply valid_rnd_N|].
    apply generic_format_FLT. exists (Float radix2 z 0); [unfold F2R; cbn [Fnum Fexp bpow]; lra|exact Hz|cbn; lia].
Qed.
Print Assumptions C66_integers.
(** Beyond that it need not be: 2^53 + 1 is read as 2^53. *)
Theorem C66_integers_refuted : exists t z, tells t z /\ (Z.abs z <= 2 ^ 53 + 1)%Z /\ forall x, parse_float64 t = Some x -> ~ integral x z.
Proof.
  exists (lit "9007199254740993"), 9007199254740993%Z. split; [|split; [cbn; lia|]].
  - left. exists 9007199254740993%N. split; [reflexivity|]. unfold spells. split; [discriminate|].
    split; [|split; [reflexivity|discriminate]]. cbn [lit list_byte_of_string]. apply Forall_forall. intros c Hc. unfold digit.
    assert (K : forallb (fun c => (48 <=? b2n c) && (b2n c <=? 57))%N (lit "9007199254740993") = true) by reflexivity.
    rewrite forallb_forall in K. specialize (K c Hc). apply Bool.andb_true_iff in K as [K1 K2]. apply N.leb_le in K1, K2. now split.
  - intros x Hx (_ & E & _). assert (B : bits (parse_float64 (lit "9007199254740993")) = Some 4845873199050653696%Z) by (vm_compute; reflexivity).
    rewrite Hx in B. apply (f_equal (fun o => match o with Some v => v | None => 0%Z end)) in B. cbn [bits] in B.
    assert (X : x = b64_of_bits 4845873199050653696) by exact (eq_trans (eq_sym (binary_float_of_bits_of_binary_float 52 11 eq_refl eq_refl eq_refl x)) (f_equal b64_of_bits B)).
    assert (Y : B2R 53 1024 x = F2R (Float radix2 4503599627370496 1)) by (rewrite X; reflexivity).
    rewrite E in Y. unfold F2R in Y. cbn [Fnum Fexp] in Y. change (bpow radix2 1) with (IZR 2) in Y. rewrite <- mult_IZR in Y. apply eq_IZR in Y. discriminate.
Qed.
Print Assumptions C66_integers_refuted.

(** ** Examples *)
(** The float behind 1 and its seventeen digits. *)
Example C66_example : is_finite 53 1024 after_one = true /\ B2R 53 1024 after_one <> 0 /\
  literal (lit "1.0000000000000002") false (10000000000000002 / 10 ^ 16) 0 /\
  digits_of 17 (B2R 53 1024 after_one) (10000000000000002 / 10 ^ 16) /\
  bits (parse_float64 (lit "1.0000000000000002")) = Some 4607182418800017409%Z.
Proof.
  destruct after_one_value as [V F]. rewrite V. split; [exact F|split; [lra|split; [|split; [exact (digits_of_one 17 (or_intror eq_refl))|vm_compute; reflexivity]]]].
  change (lit "1.0000000000000002") with ([] ++ (lit "1" ++ lit "." ++ lit "0000000000000002")).
  apply (L_decimal [] false _ 10000000000000002 (length (lit "0000000000000002"))); [constructor|].
  apply (P_with dec 10 (lit "1") (lit "0000000000000002") 10000000000000002); [discriminate|]. exact (numeral_of (lit "10000000000000002") eq_refl).
Qed.
Example C66_example_row : exact_row (mkColumns 2 0 1 3 4 5) (map lit ["1"; "Bob"; " 1.0000000000000002"; "0"; "0"; "0"]%string)
  (lit "1", lit "Bob", (after_one, mkVec (B754_zero 53 1024 false) (B754_zero 53 1024 false) (B754_zero 53 1024 false))).
Proof.
  destruct C66_example as (F & N & L & D & _). cbn [in_id in_name in_time in_x in_y in_z vx vy vz exact_row]. split; [reflexivity|split; [reflexivity|]].
  assert (O : literal (trim_space (lit "0")) false 0 0).
  { replace 0 with (signed false (IZR 0 / 10 ^ 0)) by (unfold signed; lra). change (trim_space (lit "0")) with ([] ++ lit "0").
    apply L_decimal; [constructor|]. constructor; [discriminate|]. exact (numeral_of (lit "0") eq_refl). }
  split.
  - exists (lit " 1.0000000000000002"), false, (10000000000000002 / 10 ^ 16), 0%Z. split; [reflexivity|]. split; [exact L|]. split; [reflexivity|]. left. auto.
  - split; [|split]; exists (lit "0"), false, 0, 0%Z; (split; [reflexivity|split; [exact O|split; [reflexivity|right; split; reflexivity]]]).
Qed.
Example C66_example_integer : tells (lit "-20") (-20) /\ (Z.abs (-20) < 2 ^ 53)%Z.
Proof.
  split; [|reflexivity]. right. exists 20%N, (lit "20"). split; [reflexivity|]. split; [discriminate|]. split; [reflexivity|].
  split; [discriminate|]. split; [|split; [reflexivity|discriminate]].
  apply Forall_cons; [vm_compute; split; discriminate|]. apply Forall_cons; [vm_compute; split; discriminate|]. constructor.
Qed.
