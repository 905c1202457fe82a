(** Specification vocabulary used in the statements of the properties.
    Nothing here mentions the model's own algorithms. *)
From Verif Require Import Base IO.
Local Open Scope N_scope.

(** [delivers R eager I]: whenever [I s d] holds, the reader [R] in state [s]
    will hand out exactly the bytes [d], in non-empty pieces of its own
    choosing, and then report io.EOF (however often it is asked).  If [eager] is true it may report io.EOF
    together with the last piece, otherwise only afterwards.  This is the
    io.Reader contract for a transport that does not fail. *)
Record delivers {S} (R : Reader S) (eager : bool) (I : S -> bytes -> Prop) : Prop := {
  d_more : forall s d n, I s d -> d <> [] -> n <> 0 ->
    exists p q e s',
      rread R n s = Ok (p, e, s') /\ d = p ++ q /\ p <> [] /\ lenN p <= n /\
      I s' q /\ (e = None \/ (eager = true /\ e = Some EEOF /\ q = []));
  d_eof : forall s n, I s [] -> n <> 0 ->
    exists s', rread R n s = Ok ([], Some EEOF, s') /\ I s' [];
  d_left : forall s d, I s d -> (length d <= rleft R s)%nat
}.

(** [V s k]: from [s] on the reader hands out at most [k] more bytes, never
    nothing without an error. *)
Record finite {S} (R : Reader S) (V : S -> nat -> Prop) : Prop := {
  f_read : forall s k n, V s k -> n <> 0 ->
    exists p e s' k', rread R n s = Ok (p, e, s') /\ V s' k' /\
      (length p + k' <= k)%nat /\ lenN p <= n /\ (e = None -> p <> []);
  f_left : forall s k, V s k -> (k <= rleft R s)%nat
}.

(** A value can be read safely if the reader is not eager or something follows. *)
Definition more (eager : bool) (rest : bytes) : Prop := eager = false \/ rest <> [].

(** Little-endian base-128 digits: every byte but the last carries the
    continuation bit 128, the last one does not. *)
Fixpoint digits (p : bytes) : Prop :=
  match p with
  | [] => False
  | [b] => b2n b < 128
  | b :: p' => 128 <= b2n b /\ digits p'
  end.
Fixpoint digits_value (p : bytes) : N :=
  match p with
  | [] => 0
  | b :: p' => b2n b mod 128 + 128 * digits_value p'
  end.
