(** The varint reader on arbitrary input, and the size of varints. *)
From Coq Require Import ZArith Lia.
Ltac Zify.zify_post_hook ::= Z.div_mod_to_equations.
From Verif Require Import Base BaseFacts IO Spec IOFacts Floats BinaryIO BinaryIOFacts.
Local Open Scope N_scope.

Lemma flat_read1 : forall d, rread flat 1 d =
  match d with [] => Ok ([], Some EEOF, []) | b :: d' => Ok ([b], None, d') end.
Proof. intros [|b [|c d]]; reflexivity. Qed.

Lemma digits_nonempty : forall p, digits p -> exists b p', p = b :: p'.
Proof. intros [|b p]; [easy | eauto]. Qed.

Lemma pow7_step : forall i, 2 ^ (7 * (i + 1)) = 128 * 2 ^ (7 * i).
Proof. intro i. replace (7 * (i + 1)) with (7 + 7 * i) by lia. now rewrite N.pow_add_r. Qed.

(** the four ways one round can go *)
Lemma loop_step : forall f i acc sh b t d,
  read_uvarint_loop flat (Datatypes.S f) i acc sh b t d =
  match d with
  | [] => Ok (acc, t + 0, Some EEOF, [])
  | b1 :: d' =>
      if b2n b1 <? 128 then
        if (i =? 9) && (1 <? b2n b1) then Ok (acc, t + 1, Some EOverflow, d')
        else Ok (N.lor acc (wrap64 (N.shiftl (b2n b1) sh)), i + 1, None, d')
      else read_uvarint_loop flat f (i + 1)
             (N.lor acc (wrap64 (N.shiftl (N.land (b2n b1) 127) sh))) (sh + 7) b1 (t + 1) d'
  end.
Proof.
  intros. cbn [read_uvarint_loop]. rewrite flat_read1. destruct d; reflexivity.
Qed.

Lemma pow_pos : forall n, 0 < 2 ^ n.
Proof. intro. apply N.neq_0_lt_0, N.pow_nonzero. discriminate. Qed.

(** no bit is lost as long as the digit index stays below 9 *)
Lemma digit_fits : forall i d, i <= 8 -> d < 128 -> d * 2 ^ (7 * i) < 2 ^ 64.
Proof.
  intros i d Hi Hd.
  apply N.lt_le_trans with (128 * 2 ^ (7 * i)).
  - apply N.mul_lt_mono_pos_r; [apply pow_pos | assumption].
  - rewrite <- pow7_step. apply N.pow_le_mono_r; lia.
Qed.

Lemma acc_step : forall i acc d, acc < 2 ^ (7 * i) -> d < 128 ->
  acc + d * 2 ^ (7 * i) < 2 ^ (7 * (i + 1)).
Proof.
  intros i acc d Ha Hd. rewrite pow7_step. pose proof (pow_pos (7 * i)).
  assert (d * 2 ^ (7 * i) <= 127 * 2 ^ (7 * i)) by (apply N.mul_le_mono_r; lia). lia.
Qed.

Lemma loop_sound : forall f i acc b t d x n d',
  i + N.of_nat f = 10 -> acc < 2 ^ (7 * i) ->
  read_uvarint_loop flat f i acc (7 * i) b t d = Ok (x, n, None, d') ->
  exists p, d = p ++ d' /\ digits p /\ n = i + lenN p /\ lenN p <= N.of_nat f /\
            x = acc + digits_value p * 2 ^ (7 * i) /\ x < 2 ^ 64.
Proof.
  induction f as [|f IH]; intros i acc b t d x n d' Hi Hacc H.
  - cbn in H. congruence.
  - rewrite loop_step in H. destruct d as [|b1 d1]; [congruence|].
    pose proof (b2n_lt b1) as Hb.
    destruct (N.ltb_spec (b2n b1) 128) as [Hlt|Hge].
    + destruct ((i =? 9) && (1 <? b2n b1)) eqn:E9; [congruence|].
      injection H as <- <- <-.
      assert (Hfit : b2n b1 * 2 ^ (7 * i) < 2 ^ 64 /\ acc + b2n b1 * 2 ^ (7 * i) < 2 ^ 64).
      { apply andb_false_iff in E9 as [E|E].
        - apply N.eqb_neq in E. split; [apply digit_fits; lia|].
          eapply N.lt_le_trans; [apply acc_step; auto|]. apply N.pow_le_mono_r; lia.
        - apply N.ltb_ge in E. assert (i <= 9) by lia.
          assert (i <= 8 \/ i = 9) as [Hi8| ->] by lia.
          + split; [apply digit_fits; lia|].
            eapply N.lt_le_trans; [apply acc_step; auto|]. apply N.pow_le_mono_r; lia.
          + assert (b2n b1 * 2 ^ (7 * 9) <= 1 * 2 ^ (7 * 9)) by (apply N.mul_le_mono_r; lia).
            change (2 ^ (7 * 9)) with (2 ^ 63) in *. change (2 ^ 64) with (2 * 2 ^ 63). lia. }
      exists [b1]. rewrite wrap64_small by (rewrite N.shiftl_mul_pow2; tauto).
      rewrite lor_shift_add by assumption.
      cbn [digits digits_value app]. rewrite N.mod_small by assumption.
      rewrite lenN_cons, lenN_nil, N.mul_0_r, N.add_0_r, N.add_0_l.
      repeat split; auto; try lia; tauto.
    + destruct (N.eq_dec i 9) as [->|Hi9].
      { (* tenth byte with a continuation bit: the loop is over *)
        assert (f = 0%nat) by lia. subst f. cbn in H. congruence. }
      rewrite land_127 in H.
      assert (Hd : b2n b1 mod 128 < 128) by (apply N.mod_lt; discriminate).
      rewrite wrap64_small in H.
      2:{ rewrite N.shiftl_mul_pow2. apply digit_fits; lia. }
      rewrite lor_shift_add in H by assumption.
      replace (7 * i + 7) with (7 * (i + 1)) in H by lia.
      apply IH in H; [|lia | now apply acc_step].
      destruct H as (p & -> & Hp & -> & Hlen & -> & Hx).
      exists (b1 :: p). cbn [digits digits_value app]. rewrite lenN_cons.
      destruct (digits_nonempty p Hp) as (b2 & p2 & ->).
      rewrite pow7_step in *. repeat split; try lia; auto.
Qed.

Lemma loop_complete : forall f i acc b t p d',
  i + N.of_nat f = 10 -> acc < 2 ^ (7 * i) ->
  digits p -> lenN p <= N.of_nat f -> acc + digits_value p * 2 ^ (7 * i) < 2 ^ 64 ->
  read_uvarint_loop flat f i acc (7 * i) b t (p ++ d')
  = Ok (acc + digits_value p * 2 ^ (7 * i), i + lenN p, None, d').
Proof.
  induction f as [|f IH]; intros i acc b t p d' Hi Hacc Hp Hlen Hx.
  - destruct (digits_nonempty p Hp) as (? & ? & ->). rewrite lenN_cons in Hlen. lia.
  - destruct p as [|b1 p]; [easy|]. rewrite loop_step. cbn [app].
    pose proof (b2n_lt b1) as Hb. rewrite lenN_cons in *. cbn [digits_value] in *.
    pose proof (pow_pos (7 * i)) as Hpp.
    destruct p as [|b2 p].
    + cbn [digits digits_value] in *. rewrite N.mod_small in * by assumption.
      assert (Hlt : b2n b1 <? 128 = true) by now apply N.ltb_lt.
      rewrite Hlt. change (lenN (@nil Coq.Init.Byte.byte)) with 0. cbn [app]. rewrite N.mul_0_r, N.add_0_r in *.
      assert (E9 : (i =? 9) && (1 <? b2n b1) = false).
      { destruct (N.eqb_spec i 9) as [->|]; [|reflexivity]. apply N.ltb_ge.
        change (2 ^ 64) with (2 * 2 ^ (7 * 9)) in Hx.
        assert (b2n b1 * 2 ^ (7 * 9) < 2 * 2 ^ (7 * 9)) by lia.
        apply N.mul_lt_mono_pos_r in H; [lia | exact Hpp]. }
      rewrite E9. rewrite wrap64_small by (rewrite N.shiftl_mul_pow2; lia).
      rewrite lor_shift_add by assumption. reflexivity.
    + destruct Hp as [Hge Hp].
      replace (b2n b1 <? 128) with false by (symmetry; now apply N.ltb_ge).
      rewrite land_127.
      assert (Hd : b2n b1 mod 128 < 128) by (apply N.mod_lt; discriminate).
      rewrite wrap64_small.
      2:{ rewrite N.shiftl_mul_pow2. eapply N.le_lt_trans; [|exact Hx].
          rewrite N.mul_add_distr_r. lia. }
      rewrite lor_shift_add by assumption.
      replace (7 * i + 7) with (7 * (i + 1)) by lia.
      rewrite IH; auto; try lia.
      * f_equal. f_equal. f_equal. f_equal; [|lia]. rewrite pow7_step. lia.
      * now apply acc_step.
      * rewrite pow7_step. eapply N.le_lt_trans; [|exact Hx]. lia.
Qed.

Theorem read_uvarint_flat_iff : forall d x n d',
  read_uvarint flat d = Ok (x, n, None, d') <->
  exists p, d = p ++ d' /\ digits p /\ n = lenN p /\ lenN p <= 10 /\
            x = digits_value p /\ x < 2 ^ 64.
Proof.
  intros d x n d'. unfold read_uvarint. split.
  - intro H. apply (loop_sound 10 0 0) in H; [|lia | cbn; lia].
    destruct H as (p & -> & Hp & -> & Hl & -> & Hx). exists p.
    change (2 ^ (7 * 0)) with 1 in *. repeat split; auto; lia.
  - intros (p & -> & Hp & -> & Hl & -> & Hx).
    rewrite (loop_complete 10 0 0); auto; change (2 ^ (7 * 0)) with 1; try lia.
    rewrite N.mul_1_r, !N.add_0_l. reflexivity.
Qed.

(** and there is no fourth outcome: the reader always returns *)
Theorem read_uvarint_flat_total : forall d,
  exists x n e d', read_uvarint flat d = Ok (x, n, e, d').
Proof.
  intro d. unfold read_uvarint.
  enough (H : forall f i acc sh b t d, exists x n e d',
             read_uvarint_loop flat f i acc sh b t d = Ok (x, n, e, d')) by apply H.
  clear d. induction f as [|f IH]; intros i acc sh b t d.
  - cbn. eauto 10.
  - rewrite loop_step. destruct d as [|b1 d1]; [eauto 10|].
    destruct (b2n b1 <? 128); [|apply IH].
    destruct (_ && _); eauto 10.
Qed.

(** Size. *)
Lemma put_uvarint_aux_size : forall f x, x < 2 ^ (7 * N.of_nat f) ->
  lenN (put_uvarint_aux f x) = (if f then 0 else N.log2 x / 7 + 1).
Proof.
  induction f as [|f IH]; intros x Hx; [reflexivity|].
  cbn [put_uvarint_aux]. destruct (N.ltb_spec x 128) as [Hlt|Hge].
  - rewrite lenN_cons, lenN_nil.
    assert (N.log2 x < 7).
    { destruct (N.eq_dec x 0) as [->|]; [reflexivity|]. apply N.log2_lt_pow2; [lia | exact Hlt]. }
    rewrite N.div_small by assumption. reflexivity.
  - rewrite lenN_cons, IH.
    + rewrite N.log2_shiftr.
      assert (7 <= N.log2 x) by (apply N.log2_le_pow2; [lia | exact Hge]).
      destruct f as [|f].
      { exfalso. change (2 ^ (7 * N.of_nat 1)) with 128 in Hx. lia. }
      replace (N.log2 x) with ((N.log2 x - 7) + 1 * 7) at 2 by lia.
      rewrite N.div_add by discriminate. lia.
    + rewrite N.shiftr_div_pow2. apply N.div_lt_upper_bound; [discriminate|].
      rewrite <- N.pow_add_r. replace (7 + 7 * N.of_nat f) with (7 * N.of_nat (S f)) by lia.
      assumption.
Qed.
Theorem put_uvarint_size : forall x, x < 2 ^ 64 ->
  lenN (put_uvarint x) = N.log2 x / 7 + 1.
Proof.
  intros x Hx. unfold put_uvarint. rewrite wrap64_small by assumption.
  rewrite put_uvarint_aux_size; [reflexivity|].
  eapply N.lt_le_trans; [exact Hx|]. apply N.pow_le_mono_r; lia.
Qed.
Lemma put_uvarint_size_le : forall x, 1 <= lenN (put_uvarint x) <= 10.
Proof.
  intro x. assert (H : put_uvarint x = put_uvarint (wrap64 x)).
  { unfold put_uvarint, wrap64. now rewrite N.mod_mod by discriminate. }
  rewrite H, put_uvarint_size by (apply N.mod_lt; discriminate).
  assert (Hw : wrap64 x < 2 ^ 64) by (apply N.mod_lt; discriminate).
  assert (N.log2 (wrap64 x) < 64).
  { destruct (N.eq_dec (wrap64 x) 0) as [->|]; [reflexivity|]. apply N.log2_lt_pow2; [lia | exact Hw]. }
  assert (N.log2 (wrap64 x) / 7 <= 9); [|lia].
  apply N.div_le_upper_bound; lia.
Qed.
