(** io.Reader, io.Writer, and the library's sticky wrappers around them. *)
From Verif Require Import Base.
Local Open Scope N_scope.

(** An io.Reader is a state machine.  [rread n s] is [Read(p)] with
    [len(p) = n]: the bytes stored at the front of [p], the error and the new
    state.  [rleft] is not part of Go's interface: it bounds the number of
    bytes still to come and only serves as fuel for the recursions below. *)
Record Reader (S : Type) := mkReader {
  rread : N -> S -> res (bytes * option err * S);
  rleft : S -> nat
}.
Arguments rread {S} r n s.
Arguments rleft {S} r s.

(** io.ReadAtLeast(r, buf, len(buf)) (Go standard library, io/io.go): keep
    reading until the buffer is full or an error occurs; the error is dropped
    when the buffer got full, and io.EOF becomes io.ErrUnexpectedEOF after
    a partial read. *)
Fixpoint read_at_least {S} (R : Reader S) (fuel : nat) (need : N) (acc : bytes)
  (s : S) : res (bytes * option err * S) :=
  if need =? 0 then Ok (acc, None, s)
  else match fuel with
       | O => Stuck
       | Datatypes.S f =>
           do (pe, s1) <- rread R need s;
           let (p, e) := pe in
           let acc1 := acc ++ p in
           let need1 := need - lenN p in
           match e with
           | None => read_at_least R f need1 acc1 s1
           | Some e =>
               if need1 =? 0 then Ok (acc1, None, s1)
               else match e, acc1 with
                    | EEOF, _ :: _ => Ok (acc1, Some EUnexpectedEOF, s1)
                    | _, _ => Ok (acc1, Some e, s1)
                    end
           end
       end.

(** io.ReadFull *)
Definition read_full {S} (R : Reader S) (n : N) (s : S)
  : res (bytes * option err * S) :=
  read_at_least R (Datatypes.S (rleft R s)) n [] s.

(** internal/io/binary/reader.go:8-12  type ErrReader *)
Record er (S : Type) := mkEr { er_in : S; er_err : option err; er_n : N }.
Arguments mkEr {S}.
Arguments er_in {S} e.
Arguments er_err {S} e.
Arguments er_n {S} e.

(** internal/io/binary/reader.go:14-16  NewErrReader *)
Definition new_er {S} (s : S) : er S := mkEr s None 0.

(** internal/io/binary/reader.go:22-31  ErrReader.Read.  (TotalRead, lines
    39-41, is [er_n]; Error, lines 18-20, is [er_err]; ReadByte, lines 33-37,
    is a one-byte Read.) *)
Definition err_reader {S} (R : Reader S) : Reader (er S) :=
  {| rread := fun n e =>
       match er_err e with
       | Some x => Ok ([], Some x, e)
       | None =>
           do (px, s1) <- read_full R n (er_in e);
           let (p, x) := px in
           Ok (p, x, mkEr s1 x (er_n e + lenN p))
       end;
     rleft := fun e => rleft R (er_in e) |}.

(** bytes.Reader / bytes.Buffer: an in-memory reader (standard library). *)
Definition flat : Reader bytes :=
  {| rread := fun n (d : bytes) =>
       match d with
       | [] => Ok ([], Some EEOF, [])
       | _ => Ok (takeN n d, None, dropN n d)
       end;
     rleft := fun d => length d |}.

(** A transport that delivers the data in the given pieces, never merging two
    of them; [eager] says whether the last piece comes together with io.EOF. *)
Definition chunked (eager : bool) : Reader (list bytes) :=
  {| rread := fun n (cs : list bytes) =>
       match cs with
       | [] => Ok ([], Some EEOF, [])
       | c :: cs' =>
           let p := takeN n c in
           match dropN n c with
           | [] => Ok (p, (if eager then match cs' with [] => Some EEOF | _ => None end
                           else None), cs')
           | r => Ok (p, None, r :: cs')
           end
       end;
     rleft := fun (cs : list bytes) => length (concat cs) |}.

(** bufio.NewReader over an in-memory reader (standard library, bufio.Reader
    with the default 4096-byte buffer): state = (buffered, still in the
    underlying reader).  Read hands out at most what is buffered; an empty
    buffer is refilled once, or bypassed for reads of 4096 bytes or more. *)
Definition bufio : Reader (bytes * bytes) :=
  {| rread := fun n (st : bytes * bytes) =>
       let (buf, rest) := st in
       match buf with
       | _ :: _ => Ok (takeN n buf, None, (dropN n buf, rest))
       | [] =>
           match rest with
           | [] => Ok ([], Some EEOF, ([], []))
           | _ =>
               if 4096 <=? n then Ok (takeN n rest, None, ([], dropN n rest))
               else
                 let buf' := takeN 4096 rest in
                 Ok (takeN n buf', None, (dropN n buf', dropN 4096 rest))
           end
       end;
     rleft := fun (st : bytes * bytes) => (length (fst st) + length (snd st))%nat |}.
Definition new_bufio (d : bytes) : bytes * bytes := ([], d).

(** The contents of a buffer of the given old contents after [Read] stored [p]
    in it: bytes beyond [len(p)] keep their old (stale) value. *)
Definition fill (old p : bytes) : bytes := p ++ dropN (lenN p) old.

(** An io.Writer: the number of bytes accepted, the error, the new state. *)
Record Writer (S : Type) := mkWriter {
  wwrite : bytes -> S -> N * option err * S
}.
Arguments wwrite {S} w p s.

(** bytes.Buffer as a writer: never fails. *)
Definition buffer : Writer bytes :=
  {| wwrite := fun p (b : bytes) => (lenN p, None, b ++ p) |}.

(** format/io/writer.go:22-26  type errWriter *)
Record ew (S : Type) := mkEw { ew_out : S; ew_err : option err; ew_n : N }.
Arguments mkEw {S}.
Arguments ew_out {S} e.
Arguments ew_err {S} e.
Arguments ew_n {S} e.
Definition new_ew {S} (s : S) : ew S := mkEw s None 0.

(** format/io/writer.go:28-37  errWriter.Write (TotalWritten, 39-41, is
    [ew_n]; Close, 43-45, is [ew_err]). *)
Definition err_writer {S} (W : Writer S) : Writer (ew S) :=
  {| wwrite := fun p e =>
       match ew_err e with
       | Some x => (0, Some x, e)
       | None =>
           let '(n, x, s1) := wwrite W p (ew_out e) in
           (n, x, mkEw s1 x (ew_n e + n))
       end |}.

(** [ew.Write(p)] with both results ignored, the usual call form in
    recurseRecordingToBytes. *)
Definition put {S} (W : Writer S) (p : bytes) (s : S) : S :=
  snd (wwrite W p s).
