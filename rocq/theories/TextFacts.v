(** Decimal texts. *)
From Coq Require Import Strings.String DecimalN DecimalFacts Decimal Lia.
From Verif Require Import Base Recording Text SpecText.
Local Open Scope N_scope.

Lemma show_digits : forall d, Forall digit (show_uint d).
Proof. induction d; cbn [show_uint]; constructor; auto; unfold digit; vm_compute; split; discriminate. Qed.

Lemma text_val_acc : forall d p, text_val (Npos p) (show_uint d) = Npos (Pos.of_uint_acc d p).
Proof.
  induction d; intro p; cbn [show_uint text_val Pos.of_uint_acc]; [reflexivity| ..];
    rewrite <- IHd; f_equal;
    match goal with |- context [digit_val ?b] => let v := eval vm_compute in (digit_val b) in
      change (digit_val b) with v end; lia.
Qed.

Lemma text_val_uint : forall d, text_val 0 (show_uint d) = N.of_uint d.
Proof.
  induction d; cbn [show_uint text_val N.of_uint Pos.of_uint]; [reflexivity| |..];
    match goal with |- context [digit_val ?b] => let v := eval vm_compute in (digit_val b) in
      change (digit_val b) with v end.
  1: exact IHd.
  all: match goal with |- text_val ?a _ = _ => let v := eval vm_compute in a in change a with v end;
    apply text_val_acc.
Qed.

Lemma nzhead_D0 : forall u d, nzhead u <> D0 d.
Proof. induction u; intros x; cbn; try discriminate; auto. Qed.

Theorem show_N_spells : forall n, spells (show_N n) n.
Proof.
  intro n. unfold show_N.
  pose proof (Unsigned.to_of (N.to_uint n)) as Hu. rewrite Unsigned.of_to in Hu.
  split; [|split; [apply show_digits|split]].
  - rewrite Hu. unfold unorm. destruct (nzhead (N.to_uint n)); discriminate.
  - rewrite text_val_uint. apply Unsigned.of_to.
  - rewrite Hu. unfold unorm. pose proof (nzhead_D0 (N.to_uint n)) as H0.
    destruct (nzhead (N.to_uint n)) as [|d|d|d|d|d|d|d|d|d|d]; intro E; try discriminate E.
    + reflexivity.
    + destruct (H0 d eq_refl).
Qed.

Lemma spells_inj : forall t n m, spells t n -> spells t m -> n = m.
Proof. unfold spells. intuition congruence. Qed.
