(** Common vocabulary of the model: bytes, outcomes of Go code, slices. *)
From Coq Require Export List NArith ZArith Bool.
From Coq Require Export Init.Byte.
From Coq Require Import Strings.Byte.
Export ListNotations.

(** Go's [byte]; Go strings and byte slices are both [bytes] (a Go string is
    an arbitrary, not necessarily UTF-8, byte sequence). *)
Notation byte := Coq.Init.Byte.byte (only parsing).
Definition bytes := list Coq.Init.Byte.byte.
Definition str := bytes.

Definition b2n (b : byte) : N := Byte.to_N b.
(** Go's [byte(x)] conversion: the value modulo 256. *)
Definition n2b (n : N) : byte :=
  match Byte.of_N (n mod 256) with Some b => b | None => x00 end.

(** ASCII literals are written as lists of numbers through [bs]. *)
Definition bs (l : list N) : bytes := map n2b l.

(** Outcome of running Go code.  [Panic] is a run-time panic, [Stuck] means
    that the fuel of a recursive model function ran out (never a normal
    looking value).  Go [error]s are not outcomes but ordinary values. *)
Inductive res (A : Type) : Type :=
| Ok (a : A)
| Panic
| Stuck.
Arguments Ok {A} a.
Arguments Panic {A}.
Arguments Stuck {A}.

Definition bind {A B} (m : res A) (k : A -> res B) : res B :=
  match m with Ok a => k a | Panic => Panic | Stuck => Stuck end.

Notation "'do' x <- m ; k" := (bind m (fun x => k))
  (at level 200, x pattern, m at level 100, k at level 200, right associativity).

(** Go errors.  [EIO n] are the errors an arbitrary transport may produce;
    the others are the error values the library itself creates. *)
Inductive err : Type :=
| EEOF                          (* io.EOF *)
| EUnexpectedEOF                (* io.ErrUnexpectedEOF *)
| EOverflow                     (* "varint overflows a 64-bit integer" *)
| EShortWrite                   (* io.ErrShortWrite *)
| EBadProperty (code : N)       (* "unrecognized property type code" *)
| EBadTime (code : N)           (* "unrecognized time encoding" *)
| EBadTechnique (code : N)      (* "Unknown ... encoding technique" *)
| ENotCapture                   (* "capture is not of type ..." *)
| ENilRecording | ENilReference | ENilBinary | ENilCollection
| ENoEncoder (sig : bytes)      (* "no encoder registered to handle stream" *)
| ENoReader (sig : bytes)       (* "no registered encoder has signature" *)
| EOldEncoder (sig : bytes)     (* "registered encoder version is behind" *)
| EBadVersion (v : N)           (* "Unrecognized file version" *)
| EChronological                (* Validate's error *)
| EV1Short                      (* a version 1 file: a Read came back short *)
| EV1Count (n : N)              (* "Can only upload one recording at a time" *)
| EV1Data                       (* the payload of a version 1 file is no recording *)
| ECsvBareQuote | ECsvQuote | ECsvFieldCount   (* csv.ErrBareQuote, ErrQuote, ErrFieldCount *)
| EIO (n : N).                  (* any error of the transport *)

Definition lenN {A} (l : list A) : N := N.of_nat (length l).

(** [l[:n]] and [l[n:]], cut at the end of [l]. *)
Fixpoint takeN {A} (n : N) (l : list A) : list A :=
  match l with
  | [] => []
  | x :: r => if N.eqb n 0 then [] else x :: takeN (N.pred n) r
  end.
Fixpoint dropN {A} (n : N) (l : list A) : list A :=
  match l with
  | [] => []
  | x :: r => if N.eqb n 0 then l else dropN (N.pred n) r
  end.

(** Slice indexing [l[i]]: [None] is Go's index-out-of-range panic. *)
Fixpoint nthN {A} (l : list A) (i : N) : option A :=
  match l with
  | [] => None
  | x :: r => if N.eqb i 0 then Some x else nthN r (N.pred i)
  end.

(** [make([]T, n)] with [elem] = sizeof(T): the runtime panics when the
    size exceeds its 48-bit address space (runtime.makeslice on amd64, where
    maxAlloc = 1<<48).  Running out of physical memory is not modelled. *)
Definition make_ok (elem n : N) : bool := N.leb (elem * n) (2 ^ 48).
Definition go_make {A} (elem n : N) (k : res A) : res A :=
  if make_ok elem n then k else Panic.

(** A counted loop [for i := 0; i < n; i++ { body }] threading a state and
    collecting one value per iteration. *)
Fixpoint loop {S A} (n : nat) (body : S -> res (A * S)) (s : S)
  : res (list A * S) :=
  match n with
  | O => Ok ([], s)
  | S m =>
      do (a, s1) <- body s;
      do (l, s2) <- loop m body s1;
      Ok (a :: l, s2)
  end.

(** The same loop when the body can leave the enclosing function with an
    error ([return nil, err]). *)
Fixpoint loop_err {S A} (n : nat) (body : S -> res ((A + err) * S)) (s : S)
  : res ((list A + err) * S) :=
  match n with
  | O => Ok (inl [], s)
  | S m =>
      do (r, s1) <- body s;
      match r with
      | inr e => Ok (inr e, s1)
      | inl a =>
          do (rl, s2) <- loop_err m body s1;
          match rl with
          | inr e => Ok (inr e, s2)
          | inl l => Ok (inl (a :: l), s2)
          end
      end
  end.

Definition beqb (a b : byte) : bool := Byte.eqb a b.
Fixpoint str_eqb (a b : bytes) : bool :=
  match a, b with
  | [], [] => true
  | x :: a', y :: b' => beqb x y && str_eqb a' b'
  | _, _ => false
  end.
