(** Vocabulary for C62. *)
From Verif Require Import Base.
Local Open Scope N_scope.

(** How many bytes after the technique byte the decoders of positions and
    rotations insist on, for [n] captures; less than that is reported.
    Compare the sizes that are written (C17): 24n, 12n, 36 + 6(n - 1) and
    36 + 3(n - 1) for positions, 30n, 12n and 6n for rotations. *)
Definition position_insists (tech n : N) : N :=
  match tech, n with
  | _, 0 => 0
  | 0, _ => 24 * n - 7       (* Raw64: at least one byte of the last number *)
  | 1, _ => 0                (* Raw32: nothing *)
  | _, 1 => 12               (* Oct48, Oct24: the one capture *)
  | _, _ => 36               (* the box and the first capture *)
  end.
Definition euler_insists (tech n : N) : N :=
  match tech, n with
  | _, 0 => 0
  | 0, _ => 30 * n - 9       (* Raw64: at least one byte of the last number *)
  | 1, _ => 0                (* Raw32: nothing *)
  | _, 1 => 12               (* Raw16: the one capture *)
  | _, _ => 0                (* nothing *)
  end.
