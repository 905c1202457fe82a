(** Specification vocabulary for decimal numbers in texts. *)
From Verif Require Import Base.
Local Open Scope N_scope.

(** [spells t n]: the text [t] is the usual decimal notation of [n]: digits
    only, most significant first, no leading zero except for "0" itself. *)
Definition digit (b : byte) : Prop := 48 <= b2n b <= 57.
Definition digit_val (b : byte) : N := b2n b - 48.
Fixpoint text_val (acc : N) (t : str) : N :=
  match t with
  | [] => acc
  | b :: t' => text_val (10 * acc + digit_val b) t'
  end.
Definition spells (t : str) (n : N) : Prop :=
  t <> [] /\ Forall digit t /\ text_val 0 t = n /\
  (hd x00 t = "0"%byte -> t = ["0"%byte]).
