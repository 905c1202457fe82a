(** When a number is written with enough digits. *)
From Coq Require Import ZArith Reals.
Local Open Scope R_scope.

(** [digits_of d f x]: [x] is [f] rounded to [d] significant decimal digits, or nearer. *)
Definition digits_of (d : Z) (f x : R) : Prop :=
  exists k, powerRZ 10 k <= Rabs f < powerRZ 10 (k + 1) /\ Rabs (x - f) <= powerRZ 10 (k + 1 - d) / 2.
