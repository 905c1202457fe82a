(** The first-come-first-numbered tables of the event and enum encoders. *)
From Coq Require Import ZArith Lia.
From Verif Require Import Base BaseFacts IO Spec IOFacts Floats BinaryIO BinaryIOFacts.
From Verif Require Import Metadata Recording Encoding.
Local Open Scope N_scope.

Fixpoint number (n : N) (l : list str) : tbl :=
  match l with
  | [] => []
  | k :: l' => (k, n) :: number (n + 1) l'
  end.
Lemma number_len : forall l n, lenN (number n l) = lenN l.
Proof. induction l as [|k l IH]; intro n; [reflexivity|]. cbn [number]. now rewrite !lenN_cons, IH. Qed.
Lemma number_length : forall l n, length (number n l) = length l.
Proof. induction l; intro n; cbn; auto. Qed.
Lemma number_app : forall l l' n, number n (l ++ l') = number n l ++ number (n + lenN l) l'.
Proof.
  induction l as [|k l IH]; intros l' n; cbn [number app].
  - now rewrite N.add_0_r.
  - rewrite IH, lenN_cons. do 3 f_equal. lia.
Qed.
Lemma number_find_none : forall k l n, tbl_find k (number n l) = None <-> ~ In k l.
Proof.
  induction l as [|k' l IH]; intro n; cbn [number tbl_find].
  - split; [intros _ []|reflexivity].
  - destruct (str_eqb k k') eqn:E.
    + apply str_eqb_eq in E. subst. split; [discriminate|]. intro H. destruct H. now left.
    + rewrite IH. apply str_eqb_neq in E. cbn. split; intros H H'; apply H; [|now right].
      destruct H'; [congruence | assumption].
Qed.
Lemma number_find : forall k l n i, tbl_find k (number n l) = Some i ->
  n <= i /\ nthN l (i - n) = Some k.
Proof.
  induction l as [|k' l IH]; intros n i H; cbn [number tbl_find] in H; [discriminate|].
  destruct (str_eqb k k') eqn:E.
  - injection H as <-. apply str_eqb_eq in E. subst. rewrite N.sub_diag. split; [lia | reflexivity].
  - apply IH in H as [H1 H2]. split; [lia|]. cbn [nthN].
    replace (i - n =? 0) with false by (symmetry; apply N.eqb_neq; lia).
    replace (N.pred (i - n)) with (i - (n + 1)) by lia. assumption.
Qed.
Lemma NoDup_snoc : forall A (l : list A) x, NoDup l -> ~ In x l -> NoDup (l ++ [x]).
Proof.
  intros A l x Hl Hx. induction Hl as [|y l Hy Hl IH]; cbn.
  - constructor; [intros []|constructor].
  - constructor.
    + intro H. apply in_app_or in H as [H|[<-|[]]]; [contradiction|]. apply Hx. now left.
    + apply IH. intro. apply Hx. now right.
Qed.

(** interning extends the key list and the index found selects the key *)
Lemma intern_spec : forall k l, NoDup l ->
  exists x, tbl_intern k (number 0 l) = number 0 (l ++ x) /\ NoDup (l ++ x) /\
            nthN (l ++ x) (tbl_get k (number 0 (l ++ x))) = Some k /\
            (x = [] \/ x = [k]).
Proof.
  intros k l Hl. unfold tbl_intern. destruct (tbl_find k (number 0 l)) as [i|] eqn:E.
  - exists []. rewrite app_nil_r. split; [reflexivity|]. split; [assumption|]. split; [|now left].
    unfold tbl_get. rewrite E. apply number_find in E as [_ E]. now rewrite N.sub_0_r in E.
  - exists [k]. rewrite number_app, number_len, N.add_0_l. cbn [number].
    split; [reflexivity|]. apply number_find_none in E. pose proof (NoDup_snoc _ _ _ Hl E) as Hn.
    split; [assumption|]. split; [|now right].
    unfold tbl_get.
    destruct (tbl_find k (number 0 l ++ [(k, lenN l)])) as [i|] eqn:F.
    + assert (F' : tbl_find k (number 0 (l ++ [k])) = Some i) by (rewrite number_app; exact F).
      apply number_find in F' as [_ F']. now rewrite N.sub_0_r in F'.
    + assert (F' : tbl_find k (number 0 (l ++ [k])) = None) by (rewrite number_app; exact F).
      apply number_find_none in F'. destruct F'. apply in_or_app. right. now left.
Qed.

Lemma set_nth_mid : forall A (l : list A) y l' x,
  set_nth (l ++ y :: l') (lenN l) x = Some (l ++ x :: l').
Proof.
  induction l as [|z l IH]; intros y l' x; [reflexivity|].
  rewrite lenN_cons. cbn [app set_nth].
  replace (lenN l + 1 =? 0) with false by (symmetry; apply N.eqb_neq; lia).
  replace (N.pred (lenN l + 1)) with (lenN l) by lia. now rewrite IH.
Qed.
Lemma tbl_fill_number : forall l pre,
  tbl_fill (number (lenN pre) l) (pre ++ repeat [] (length l)) = Ok (pre ++ l).
Proof.
  induction l as [|k l IH]; intro pre; cbn [number tbl_fill length repeat].
  - reflexivity.
  - rewrite set_nth_mid. specialize (IH (pre ++ [k])).
    rewrite lenN_app in IH. change (lenN [k]) with 1 in IH.
    rewrite <- !app_assoc in IH. exact IH.
Qed.
Lemma tbl_array_number : forall l, tbl_array (number 0 l) = Ok l.
Proof.
  intro l. unfold tbl_array. rewrite number_length. apply (tbl_fill_number l []).
Qed.

Lemma nthN_prefix : forall A (l l' : list A) i x, nthN l i = Some x -> nthN (l ++ l') i = Some x.
Proof.
  intros A l l' i x H. rewrite nthN_app_l; [assumption|]. eapply nthN_some_lt; eauto.
Qed.
