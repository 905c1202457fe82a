(** Round trips of the primitive encodings, over every serving reader. *)
From Coq Require Import ZArith Lia.
Ltac Zify.zify_post_hook ::= Z.div_mod_to_equations.
From Verif Require Import Base BaseFacts IO Spec IOFacts Floats BinaryIO.
Local Open Scope N_scope.

(** [f] reads exactly the bytes [enc] and returns [v]. *)
Definition parses {S A} (I : S -> bytes -> Prop) (eager : bool)
  (f : S -> res (A * S)) (enc : bytes) (v : A) : Prop :=
  forall s rest, I s (enc ++ rest) -> more eager rest ->
    exists s', f s = Ok (v, s') /\ I s' rest.

Lemma more_app : forall eager l rest, more eager rest -> more eager (l ++ rest).
Proof.
  intros eager l rest [H|H]; [now left|right]. intro E. apply app_eq_nil in E. tauto.
Qed.
Lemma more_cons : forall eager b rest, more eager (b :: rest).
Proof. now right. Qed.
Lemma more_false : forall rest, more false rest.
Proof. now left. Qed.
#[global] Hint Resolve more_app more_cons more_false : more.

(** Disjoint bits: or is addition. *)
Lemma lor_shift_add : forall a d sh, a < 2 ^ sh -> N.lor a (N.shiftl d sh) = a + d * 2 ^ sh.
Proof.
  intros a d sh Ha.
  assert (Hland : N.land a (N.shiftl d sh) = 0).
  { apply N.bits_inj. intro n. rewrite N.land_spec, N.bits_0.
    destruct (N.lt_ge_cases n sh) as [H|H].
    - rewrite N.shiftl_spec_low by assumption. apply andb_false_r.
    - destruct (N.eq_dec a 0) as [->|Ha0]; [now rewrite N.bits_0|].
      rewrite (N.bits_above_log2 a n); [reflexivity|].
      apply N.log2_lt_pow2 in Ha; [|lia]. lia. }
  rewrite <- N.lxor_lor by assumption.
  rewrite <- N.add_nocarry_lxor by assumption.
  now rewrite N.shiftl_mul_pow2.
Qed.

Lemma wrap64_small : forall n, n < 2 ^ 64 -> wrap64 n = n.
Proof. intros. unfold wrap64. now apply N.mod_small. Qed.

(** The encoder's digits. *)
Lemma land_127 : forall n, N.land n 127 = n mod 128.
Proof. intro n. change 127 with (N.ones 7). now rewrite N.land_ones. Qed.
Lemma lor_128 : forall n, N.lor (n mod 256) 128 mod 256 = 128 + n mod 128.
Proof.
  intro n.
  replace (n mod 256) with (n mod 2 ^ 7 + ((n / 128) mod 2) * 2 ^ 7).
  2:{ change 256 with (128 * 2). rewrite N.mod_mul_r by discriminate. f_equal. apply N.mul_comm. }
  assert (Hd : (n / 128) mod 2 < 2) by (apply N.mod_lt; discriminate).
  assert (Hm : n mod 2 ^ 7 < 2 ^ 7) by (apply N.mod_lt; discriminate).
  change (n mod 128) with (n mod 2 ^ 7).
  generalize dependent (n mod 2 ^ 7). generalize dependent ((n / 128) mod 2). clear n.
  intros d Hd m Hm.
  rewrite <- (lor_shift_add m d 7) by assumption.
  rewrite <- N.lor_assoc.
  replace (N.lor (N.shiftl d 7) 128) with (N.shiftl 1 7).
  2:{ assert (d = 0 \/ d = 1) as [-> | ->] by lia; reflexivity. }
  rewrite lor_shift_add by assumption. rewrite N.mod_small; lia.
Qed.

Lemma put_uvarint_aux_length : forall f x, x < 2 ^ (7 * N.of_nat f) ->
  (1 <= length (put_uvarint_aux (S f) x) <= S f)%nat.
Proof.
  induction f as [|f IH]; intros x Hx; cbn [put_uvarint_aux].
  - assert (x = 0) by (cbn in Hx; lia). subst. cbn. lia.
  - destruct (N.ltb_spec x 128); [cbn; lia|].
    cbn [length]. destruct (IH (N.shiftr x 7)) as [H1 H2]; [|cbn [put_uvarint_aux] in *; lia].
    rewrite N.shiftr_div_pow2. apply N.div_lt_upper_bound; [discriminate|].
    rewrite <- N.pow_add_r. replace (7 + 7 * N.of_nat f) with (7 * N.of_nat (S f)) by lia.
    assumption.
Qed.

Section Reading.
Context {S : Type} {R : Reader S} {eager : bool} {I : S -> bytes -> Prop}.
Context (HR : serves R eager I).
Notation parses := (parses I eager).

Lemma read_uvarint_loop_ok : forall f i acc b total x,
  (0 < f)%nat -> i + N.of_nat f = 10 ->
  acc < 2 ^ (7 * i) -> x < 2 ^ (64 - 7 * i) ->
  forall s rest, I s (put_uvarint_aux f x ++ rest) -> more eager rest ->
    exists s', read_uvarint_loop R f i acc (7 * i) b total s
      = Ok (acc + x * 2 ^ (7 * i), i + lenN (put_uvarint_aux f x), None, s') /\ I s' rest.
Proof.
  induction f as [|f IH]; intros i acc b total x Hf Hi Hacc Hx s rest HI Hm; [lia|].
  cbn [put_uvarint_aux read_uvarint_loop] in *.
  assert (Hp64 : 2 ^ (64 - 7 * i) * 2 ^ (7 * i) = 2 ^ 64).
  { rewrite <- N.pow_add_r. f_equal. lia. }
  assert (Hpos : 0 < 2 ^ (7 * i)) by (apply N.neq_0_lt_0, N.pow_nonzero; discriminate).
  assert (Hxw : x * 2 ^ (7 * i) < 2 ^ 64).
  { rewrite <- Hp64. apply N.mul_lt_mono_pos_r; lia. }
  destruct (N.ltb_spec x 128) as [Hlt|Hge].
  - cbn [app] in HI.
    destruct (read_byte_ok R eager I HR _ _ _ HI Hm) as (s1 & -> & HI1). cbn [bind hd].
    rewrite b2n_n2b_small by lia.
    apply N.ltb_lt in Hlt as Hlt'. rewrite Hlt'.
    assert (E9 : (i =? 9) && (1 <? x) = false).
    { destruct (N.eqb_spec i 9) as [->|]; [|reflexivity].
      cbn [andb]. apply N.ltb_ge. change (64 - 7 * 9) with 1 in Hx. change (2 ^ 1) with 2 in Hx. lia. }
    rewrite E9. exists s1. split; [|assumption].
    rewrite wrap64_small by (now rewrite N.shiftl_mul_pow2).
    rewrite lor_shift_add by assumption. now rewrite lenN_cons.
  - cbn [app] in HI.
    destruct (read_byte_ok R eager I HR _ _ _ HI) as (s1 & -> & HI1); [auto with more|].
    cbn [bind hd]. rewrite b2n_n2b, lor_128.
    replace (128 + x mod 128 <? 128) with false by (symmetry; apply N.ltb_ge, N.le_add_r).
    (* this is not the last digit *)
    destruct f as [|f'].
    { exfalso. assert (i = 9) by lia. subst i. change (64 - 7 * 9) with 1 in Hx.
      change (2 ^ 1) with 2 in Hx. lia. }
    assert (Hld : N.land (128 + x mod 128) 127 = x mod 128).
    { rewrite land_127, (N.add_comm 128). change 128 with (1 * 128) at 2.
      rewrite N.mod_add by discriminate. apply N.mod_small, N.mod_lt. discriminate. }
    rewrite Hld.
    assert (Hdiv : x = 128 * (x / 128) + x mod 128) by (apply N.div_mod; discriminate).
    assert (Hml : x mod 128 < 128) by (apply N.mod_lt; discriminate).
    assert (Hmle : x mod 128 <= x) by (apply N.mod_le; discriminate).
    rewrite wrap64_small.
    2:{ rewrite N.shiftl_mul_pow2. eapply N.le_lt_trans; [|exact Hxw]. apply N.mul_le_mono_r. lia. }
    rewrite lor_shift_add by assumption.
    assert (Hpow : 2 ^ (7 * (i + 1)) = 128 * 2 ^ (7 * i)).
    { replace (7 * (i + 1)) with (7 + 7 * i) by lia. now rewrite N.pow_add_r. }
    replace (7 * i + 7) with (7 * (i + 1)) by lia.
    destruct (IH (i + 1) (acc + x mod 128 * 2 ^ (7 * i)) (n2b (N.lor (x mod 256) 128))
                 (total + lenN [n2b (N.lor (x mod 256) 128)]) (N.shiftr x 7))
      with (s := s1) (rest := rest) as (s' & E & HI').
    + lia.
    + lia.
    + rewrite Hpow.
      apply N.lt_le_trans with (2 ^ (7 * i) + x mod 128 * 2 ^ (7 * i)); [lia|].
      replace (128 * 2 ^ (7 * i)) with (2 ^ (7 * i) + 127 * 2 ^ (7 * i)) by lia.
      apply N.add_le_mono_l. apply N.mul_le_mono_r. lia.
    + rewrite N.shiftr_div_pow2. apply N.div_lt_upper_bound; [discriminate|].
      rewrite <- N.pow_add_r. replace (7 + (64 - 7 * (i + 1))) with (64 - 7 * i) by lia.
      assumption.
    + assumption.
    + assumption.
    + rewrite E. exists s'. split; [|assumption].
      rewrite lenN_cons. rewrite N.shiftr_div_pow2. change (2 ^ 7) with 128.
      f_equal. f_equal. f_equal. f_equal; [|lia].
      rewrite Hpow. rewrite Hdiv at 3. lia.
Qed.

Theorem read_uvarint_ok : forall x, x < 2 ^ 64 ->
  parses (read_uvarint R) (put_uvarint x) (x, lenN (put_uvarint x), None).
Proof.
  intros x Hx s rest HI Hm. unfold put_uvarint in *. rewrite wrap64_small in * by assumption.
  destruct (read_uvarint_loop_ok 10 0 0 x00 0 x) with (s := s) (rest := rest)
    as (s' & E & HI'); auto; try (cbn; lia).
  change (7 * 0) with 0 in E.
  unfold read_uvarint. exists s'. rewrite E. split; [|assumption].
  rewrite N.pow_0_r, N.mul_1_r. reflexivity.
Qed.

Lemma put_uvarint_nonempty : forall x, put_uvarint x <> [].
Proof.
  intro x. unfold put_uvarint. cbn [put_uvarint_aux]. now destruct (_ <? _).
Qed.

(** A length prefix followed by that many bytes. *)
Lemma read_string_ok : forall x, lenN x < 2 ^ 48 ->
  parses (read_string R) (string_to_bytes x) (x, lenN (string_to_bytes x), None).
Proof.
  intros x Hx s rest HI Hm. unfold string_to_bytes in HI. rewrite <- app_assoc in HI.
  destruct (read_uvarint_ok (lenN x)) with (s := s) (rest := x ++ rest) as (s1 & E & HI1);
    auto with more.
  { eapply N.lt_trans; [exact Hx | reflexivity]. }
  unfold read_string. rewrite E. cbn [bind].
  rewrite go_make_ok by lia.
  destruct (read_full_ok R eager I HR _ _ _ _ HI1 eq_refl) as (s2 & -> & HI2). cbn [bind].
  exists s2. split; [|assumption]. unfold string_to_bytes. now rewrite lenN_app.
Qed.

Lemma read_bytes_array_ok : forall x, lenN x < 2 ^ 48 ->
  parses (read_bytes_array R) (bytes_array_to_bytes x) (x, lenN (bytes_array_to_bytes x), None).
Proof.
  intros x Hx s rest HI Hm. unfold bytes_array_to_bytes in HI. rewrite <- app_assoc in HI.
  destruct (read_uvarint_ok (lenN x)) with (s := s) (rest := x ++ rest) as (s1 & E & HI1);
    auto with more.
  { eapply N.lt_trans; [exact Hx | reflexivity]. }
  unfold read_bytes_array. rewrite E. cbn [bind].
  rewrite go_make_ok by lia.
  destruct (read_full_ok R eager I HR _ _ _ _ HI1 eq_refl) as (s2 & -> & HI2). cbn [bind].
  rewrite N.eqb_refl.
  exists s2. split; [|assumption]. unfold bytes_array_to_bytes. now rewrite lenN_app.
Qed.

Lemma read_strings_ok : forall l n,
  Forall (fun x => lenN x < 2 ^ 48) l ->
  parses (read_strings R (length l) n) (flat_map string_to_bytes l)
         (l, n + lenN (flat_map string_to_bytes l), None).
Proof.
  induction l as [|x l IH]; intros n Hl s rest HI Hm; cbn [flat_map length read_strings] in *.
  - exists s. rewrite lenN_nil, N.add_0_r. auto.
  - inversion Hl as [|? ? Hx Hl']; subst. rewrite <- app_assoc in HI.
    destruct (read_string_ok x Hx s _ HI) as (s1 & -> & HI1); [auto with more|]. cbn [bind].
    destruct (IH (n + lenN (string_to_bytes x)) Hl' s1 rest HI1 Hm) as (s2 & -> & HI2). cbn [bind].
    exists s2. rewrite lenN_app, N.add_assoc. auto.
Qed.
Lemma read_string_array_ok : forall l,
  lenN l <= 2 ^ 44 -> Forall (fun x => lenN x < 2 ^ 48) l ->
  parses (read_string_array R) (string_array_to_bytes l)
         (l, lenN (string_array_to_bytes l), None).
Proof.
  intros l Hlen Hl s rest HI Hm. unfold string_array_to_bytes in HI. rewrite <- app_assoc in HI.
  destruct (read_uvarint_ok (lenN l)) with (s := s) (rest := flat_map string_to_bytes l ++ rest)
    as (s1 & E & HI1); auto with more.
  { eapply N.le_lt_trans; [exact Hlen | reflexivity]. }
  unfold read_string_array. rewrite E. cbn [bind].
  rewrite go_make_ok.
  2:{ change (2 ^ 48) with (16 * 2 ^ 44). now apply N.mul_le_mono_l. }
  destruct (read_strings_ok l (lenN (put_uvarint (lenN l))) Hl s1 rest HI1 Hm) as (s2 & E2 & HI2).
  unfold lenN at 1. rewrite Nat2N.id. rewrite E2.
  exists s2. split; [|assumption]. unfold string_array_to_bytes. now rewrite lenN_app.
Qed.

Lemma read_uvarints_ok : forall l n,
  Forall (fun x => x < 2 ^ 64) l ->
  parses (read_uvarints R (length l) n) (flat_map put_uvarint l)
         (l, n + lenN (flat_map put_uvarint l), None).
Proof.
  induction l as [|x l IH]; intros n Hl s rest HI Hm; cbn [flat_map length read_uvarints] in *.
  - exists s. rewrite lenN_nil, N.add_0_r. auto.
  - inversion Hl as [|? ? Hx Hl']; subst. rewrite <- app_assoc in HI.
    destruct (read_uvarint_ok x Hx s _ HI) as (s1 & -> & HI1); [auto with more|]. cbn [bind].
    destruct (IH (n + lenN (put_uvarint x)) Hl' s1 rest HI1 Hm) as (s2 & -> & HI2). cbn [bind].
    exists s2. rewrite lenN_app, N.add_assoc. auto.
Qed.
Lemma read_uvarint_array_ok : forall l,
  lenN l <= 2 ^ 45 -> Forall (fun x => x < 2 ^ 64) l ->
  parses (read_uvarint_array R) (uvarint_array_to_bytes l)
         (l, lenN (uvarint_array_to_bytes l), None).
Proof.
  intros l Hlen Hl s rest HI Hm. unfold uvarint_array_to_bytes in HI. rewrite <- app_assoc in HI.
  destruct (read_uvarint_ok (lenN l)) with (s := s) (rest := flat_map put_uvarint l ++ rest)
    as (s1 & E & HI1); auto with more.
  { eapply N.le_lt_trans; [exact Hlen | reflexivity]. }
  unfold read_uvarint_array. rewrite E. cbn [bind].
  rewrite go_make_ok.
  2:{ change (2 ^ 48) with (8 * 2 ^ 45). now apply N.mul_le_mono_l. }
  destruct (read_uvarints_ok l (lenN (put_uvarint (lenN l))) Hl s1 rest HI1 Hm) as (s2 & E2 & HI2).
  unfold lenN at 1. rewrite Nat2N.id. rewrite E2.
  exists s2. split; [|assumption]. unfold uvarint_array_to_bytes. now rewrite lenN_app.
Qed.

Lemma binary_read_ok : forall d n, lenN d = n ->
  parses (binary_read R n) d (Some d, None).
Proof.
  intros d n Hd s rest HI Hm.
  destruct (read_full_ok R eager I HR _ _ _ _ HI Hd) as (s1 & E & HI1).
  unfold binary_read. rewrite E. cbn [bind]. eauto.
Qed.

End Reading.
