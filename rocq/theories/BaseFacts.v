(** Facts about the vocabulary of Base.v. *)
From Coq Require Import Lia.
From Coq Require Import Strings.Byte.
From Verif Require Import Base.
Local Open Scope N_scope.

Lemma b2n_lt : forall b, b2n b < 256.
Proof. intro b. pose proof (Byte.to_N_bounded b). unfold b2n. lia. Qed.

Lemma n2b_b2n : forall b, n2b (b2n b) = b.
Proof.
  intro b. unfold n2b, b2n.
  rewrite N.mod_small by apply b2n_lt. now rewrite Byte.of_to_N.
Qed.

Lemma b2n_n2b : forall n, b2n (n2b n) = n mod 256.
Proof.
  intro n. unfold n2b.
  assert (H : n mod 256 < 256) by (apply N.mod_lt; lia).
  destruct (Byte.of_N (n mod 256)) eqn:E.
  - now apply Byte.to_of_N in E.
  - apply Byte.of_N_None_iff in E. lia.
Qed.

Lemma b2n_n2b_small : forall n, n < 256 -> b2n (n2b n) = n.
Proof. intros. rewrite b2n_n2b. now apply N.mod_small. Qed.

Lemma b2n_inj : forall a b, b2n a = b2n b -> a = b.
Proof. intros a b H. rewrite <- (n2b_b2n a), H. apply n2b_b2n. Qed.

Lemma beqb_eq : forall a b, beqb a b = true <-> a = b.
Proof.
  intros a b. unfold beqb. split; intro H.
  - now apply Byte.byte_dec_bl.
  - subst. now apply Byte.byte_dec_lb.
Qed.

Lemma str_eqb_eq : forall a b, str_eqb a b = true <-> a = b.
Proof.
  induction a as [|x a IH]; destruct b as [|y b]; cbn; split; intro H;
    try reflexivity; try discriminate.
  - apply andb_true_iff in H as [H1 H2].
    apply beqb_eq in H1. apply IH in H2. now subst.
  - injection H as -> ->. apply andb_true_iff. split; [now apply beqb_eq | now apply IH].
Qed.
Lemma str_eqb_refl : forall a, str_eqb a a = true.
Proof. intro. now apply str_eqb_eq. Qed.
Lemma str_eqb_neq : forall a b, str_eqb a b = false <-> a <> b.
Proof.
  intros a b. split; intro H.
  - intros ->. now rewrite str_eqb_refl in H.
  - destruct (str_eqb a b) eqn:E; [|reflexivity]. apply str_eqb_eq in E. contradiction.
Qed.
Lemma str_dec : forall a b : str, {a = b} + {a <> b}.
Proof.
  intros a b. destruct (str_eqb a b) eqn:E.
  - left. now apply str_eqb_eq.
  - right. now apply str_eqb_neq.
Qed.

Section Lists.
Context {A : Type}.
Implicit Types l : list A.

Lemma lenN_nil : lenN (@nil A) = 0.
Proof. reflexivity. Qed.
Lemma lenN_cons : forall (x : A) l, lenN (x :: l) = lenN l + 1.
Proof. intros. unfold lenN. cbn [length]. lia. Qed.
Lemma lenN_app : forall l l', lenN (l ++ l') = lenN l + lenN l'.
Proof. intros. unfold lenN. rewrite app_length. lia. Qed.
Lemma lenN_0 : forall l, lenN l = 0 -> l = [].
Proof. intros [|x l]; [reflexivity|]. rewrite lenN_cons. lia. Qed.

Lemma takeN_firstn : forall l n, takeN n l = firstn (N.to_nat n) l.
Proof.
  induction l as [|x l IH]; intro n; cbn [takeN].
  - now rewrite firstn_nil.
  - destruct (N.eqb_spec n 0) as [->|H]; [reflexivity|].
    replace (N.to_nat n) with (S (N.to_nat (N.pred n))) by lia.
    cbn [firstn]. now rewrite IH.
Qed.
Lemma dropN_skipn : forall l n, dropN n l = skipn (N.to_nat n) l.
Proof.
  induction l as [|x l IH]; intro n; cbn [dropN].
  - now rewrite skipn_nil.
  - destruct (N.eqb_spec n 0) as [->|H]; [reflexivity|].
    replace (N.to_nat n) with (S (N.to_nat (N.pred n))) by lia.
    cbn [skipn]. now rewrite IH.
Qed.
Lemma take_drop : forall n l, takeN n l ++ dropN n l = l.
Proof. intros. rewrite takeN_firstn, dropN_skipn. apply firstn_skipn. Qed.
Lemma lenN_take : forall n l, lenN (takeN n l) = N.min n (lenN l).
Proof. intros. rewrite takeN_firstn. unfold lenN. rewrite firstn_length. lia. Qed.
Lemma lenN_drop : forall n l, lenN (dropN n l) = lenN l - n.
Proof. intros. rewrite dropN_skipn. unfold lenN. rewrite skipn_length. lia. Qed.
Lemma takeN_app : forall l l' n, n = lenN l -> takeN n (l ++ l') = l.
Proof.
  intros l l' n ->. rewrite takeN_firstn. unfold lenN. rewrite Nat2N.id.
  rewrite firstn_app, Nat.sub_diag, firstn_all. cbn. apply app_nil_r.
Qed.
Lemma dropN_app : forall l l' n, n = lenN l -> dropN n (l ++ l') = l'.
Proof.
  intros l l' n ->. rewrite dropN_skipn. unfold lenN. rewrite Nat2N.id.
  rewrite skipn_app, Nat.sub_diag, skipn_all. reflexivity.
Qed.
Lemma takeN_all : forall l n, lenN l <= n -> takeN n l = l.
Proof. intros. rewrite takeN_firstn. apply firstn_all2. unfold lenN in *. lia. Qed.
Lemma dropN_all : forall l n, lenN l <= n -> dropN n l = [].
Proof. intros. rewrite dropN_skipn. apply skipn_all2. unfold lenN in *. lia. Qed.
Lemma takeN_0 : forall l, takeN 0 l = [].
Proof. now intros [|]. Qed.
Lemma dropN_0 : forall l, dropN 0 l = l.
Proof. now intros [|]. Qed.

Lemma nthN_nth_error : forall l i, nthN l i = nth_error l (N.to_nat i).
Proof.
  induction l as [|x l IH]; intro i; cbn [nthN].
  - now destruct (N.to_nat i).
  - destruct (N.eqb_spec i 0) as [->|H]; [reflexivity|].
    replace (N.to_nat i) with (S (N.to_nat (N.pred i))) by lia.
    cbn [nth_error]. apply IH.
Qed.
Lemma nthN_lt : forall l i, i < lenN l -> exists x, nthN l i = Some x.
Proof.
  intros l i H. rewrite nthN_nth_error.
  destruct (nth_error l (N.to_nat i)) eqn:E; [eauto|].
  apply nth_error_None in E. unfold lenN in H. lia.
Qed.
Lemma nthN_some_lt : forall l i x, nthN l i = Some x -> i < lenN l.
Proof.
  intros l i x H. rewrite nthN_nth_error in H.
  assert (nth_error l (N.to_nat i) <> None) by congruence.
  apply nth_error_Some in H0. unfold lenN. lia.
Qed.
Lemma nthN_app_l : forall l l' i, i < lenN l -> nthN (l ++ l') i = nthN l i.
Proof.
  intros. rewrite !nthN_nth_error. apply nth_error_app1. unfold lenN in *. lia.
Qed.
Lemma nthN_app_r : forall l l' i, lenN l <= i -> nthN (l ++ l') i = nthN l' (i - lenN l).
Proof.
  intros. rewrite !nthN_nth_error. rewrite nth_error_app2 by (unfold lenN in *; lia).
  f_equal. unfold lenN in *. lia.
Qed.
Lemma nthN_In : forall l i x, nthN l i = Some x -> In x l.
Proof. intros l i x H. rewrite nthN_nth_error in H. eapply nth_error_In; eauto. Qed.
Lemma nthN_mid : forall l (x : A) l' i, i = lenN l -> nthN (l ++ x :: l') i = Some x.
Proof. intros l x l' i ->. rewrite nthN_app_r by lia. now rewrite N.sub_diag. Qed.
Lemma nthN_map : forall {B} (f : A -> B) l i,
  nthN (map f l) i = option_map f (nthN l i).
Proof.
  intros B f. induction l as [|x l IH]; intro i; cbn [nthN map]; [reflexivity|].
  destruct (i =? 0); [reflexivity | apply IH].
Qed.
End Lists.

Lemma lenN_map : forall {A B} (f : A -> B) l, lenN (map f l) = lenN l.
Proof. intros. unfold lenN. now rewrite map_length. Qed.
Lemma lenN_repeat : forall {A} (x : A) n, lenN (repeat x n) = N.of_nat n.
Proof. intros. unfold lenN. now rewrite repeat_length. Qed.

(** Inversion of the monadic operators. *)
Lemma bind_ok : forall {A B} (m : res A) (k : A -> res B) b,
  bind m k = Ok b <-> exists a, m = Ok a /\ k a = Ok b.
Proof.
  intros A B m k b. destruct m as [a| |]; cbn; split; intro H.
  - eauto.
  - destruct H as (a' & E & H). now injection E as ->.
  - discriminate.
  - now destruct H as (a' & E & _).
  - discriminate.
  - now destruct H as (a' & E & _).
Qed.
Lemma ok_inj : forall {A} (a b : A), Ok a = Ok b -> a = b.
Proof. intros. congruence. Qed.
Lemma bind_ext : forall {A B} (m : res A) (k1 k2 : A -> res B),
  (forall a, m = Ok a -> k1 a = k2 a) -> bind m k1 = bind m k2.
Proof. intros A B [a| |] k1 k2 H; cbn; auto. Qed.
Lemma bind_assoc : forall {A B C} (m : res A) (k1 : A -> res B) (k2 : B -> res C),
  bind (bind m k1) k2 = bind m (fun a => bind (k1 a) k2).
Proof. now intros A B C [a| |] k1 k2. Qed.
Lemma go_make_ok : forall {A} e n (k : res A), e * n <= 2 ^ 48 -> go_make e n k = k.
Proof.
  intros A e n k H. unfold go_make, make_ok. apply N.leb_le in H. now rewrite H.
Qed.
Lemma Forall2_len : forall {A B} {R : A -> B -> Prop} {l l'}, Forall2 R l l' -> length l = length l'.
Proof. intros A B R l l' H. induction H; cbn; congruence. Qed.
