(** Model of format/io/reader.go and load.go. *)
From Verif Require Import Base IO Floats BinaryIO Metadata Recording Encoding TimeIO.
From Verif Require Import EncPosition EncEuler EncEnum EncEvent.
Local Open Scope N_scope.

(** flate.NewReader: any reader built on another one (see Writer.v) *)
Record inflater := mkInflater {
  iz_st : Type -> Type;
  iz_new : forall S, S -> iz_st S;
  iz_read : forall S, Reader S -> Reader (iz_st S)
}.

Section WithReader.
Context {S : Type} (R : Reader S).

(** reader.go:36-44 *)
Fixpoint read_versions (k : nat) (n : N) (s : S)
  : res (list N * N * option err * S) :=
  match k with
  | O => Ok ([], n, None, s)
  | Datatypes.S k' =>
      do (r, s1) <- read_uvarint R s;
      let '(v, m, e) := r in
      match e with
      | Some e => Ok ([], n, Some e, s1)
      | None =>
          do (r2, s2) <- read_versions k' (n + m) s1;
          let '(vs, t, e2) := r2 in
          Ok (v :: vs, t, e2, s2)
      end
  end.

(** reader.go:48-66: the registered encoder for one signature; the last
    registered one with that signature wins *)
Fixpoint find_encoder (reg : list encoder) (sig : str) (v : N) (found : option encoder)
  : encoder + err :=
  match reg with
  | [] => match found with Some e => inl e | None => inr (ENoReader sig) end
  | e :: reg' =>
      if str_eqb (e_sig e) sig then
        if v <=? e_version e then find_encoder reg' sig v (Some e)
        else inr (EOldEncoder sig)
      else find_encoder reg' sig v found
  end.
Fixpoint find_encoders (reg : list encoder) (l : list (str * N)) : list encoder + err :=
  match l with
  | [] => inl []
  | (sig, v) :: l' =>
      match find_encoder reg sig v None with
      | inr e => inr e
      | inl x =>
          match find_encoders reg l' with
          | inr e => inr e
          | inl xs => inl (x :: xs)
          end
      end
  end.

(** reader.go:27-70  readEncoders *)
Definition read_encoders (reg : list encoder) (s : S)
  : res (list encoder * N * option err * S) :=
  do (r, s1) <- read_string_array R s;
  let '(sigs, n, e) := r in
  match e with
  | Some e => Ok ([], n, Some e, s1)
  | None =>
      do (r2, s2) <- read_versions (length sigs) n s1;
      let '(vs, n2, e2) := r2 in
      match e2 with
      | Some e2 => Ok ([], n2, Some e2, s2)
      | None =>
          match find_encoders reg (combine sigs vs) with
          | inr e3 => Ok ([], n2, Some e3, s2)
          | inl es => Ok (es, n2, None, s2)
          end
      end
  end.

(** reader.go:80-85.  An index outside the key table panics, whether or not
    the property can be read (the map entry is assigned before the error is
    looked at). *)
Fixpoint read_md_entries (keys : list str) (is : list N) (acc : block) (s : S)
  : res (block * option err * S) :=
  match is with
  | [] => Ok (acc, None, s)
  | i :: is' =>
      match nthN keys i with
      | None => Panic
      | Some k =>
          do (r, s1) <- read_property R s;
          match r with
          | (_, Some e) => Ok ([], Some e, s1)
          | (p, None) =>
              read_md_entries keys is'
                (map_set k (match p with Some p => p | None => PNil end) acc) s1
          end
      end
  end.
(** reader.go:72-88  readRecordingMetadataBlock *)
Definition read_md (keys : list str) (s : S) : res (block * option err * S) :=
  do (r, s1) <- read_uvarint_array R s;
  let '(is, _, e) := r in
  match e with
  | Some e => Ok ([], Some e, s1)
  | None => read_md_entries keys is [] s1
  end.

(** reader.go:112-119: one stream; all errors are dropped *)
Definition read_stream (encs : list encoder) (headers : list bytes) (s : S)
  : res (option coll * S) :=
  do (r, s) <- read_uvarint R s;
  let '(ix, _, _) := r in
  do (r, s) <- read_string R s;
  let '(name, _, _) := r in
  do (r, s) <- decode_time R s;
  let (times, _) := r in
  do (r, s) <- read_bytes_array R s;
  let '(body, _, _) := r in
  match nthN encs ix, nthN headers ix with
  | Some enc, Some h =>
      do r <- e_decode enc name h body times;
      Ok (fst r, s)
  | _, _ => Panic
  end.

(** reader.go:127-133 *)
Definition read_ref (keys : list str) (s : S) : res (option binref * S) :=
  do (r, s) <- read_string R s;
  let '(name, _, _) := r in
  do (r, s) <- read_string R s;
  let '(uri, _, _) := r in
  do (r, s) <- read_uvarint R s;
  let '(size, _, _) := r in
  do (r, s) <- read_md keys s;
  Ok (Some (mkRef name uri size (fst r)), s).

(** reader.go:141-150; NewBinary (format/io/binary.go:16-22) has the size of
    its data.  Bytes that could not be read stay zero. *)
Definition read_bin (keys : list str) (s : S) : res (option binary * S) :=
  do (r, s) <- read_string R s;
  let '(name, _, _) := r in
  do (r, s) <- read_uvarint R s;
  let '(size, _, _) := r in
  do (r, s) <- read_md keys s;
  let md := fst r in
  go_make 1 size
    (do (pe, s) <- read_full R size s;
     let d := fill (repeat x00 (N.to_nat size)) (fst pe) in
     Ok (Some (mkBin name d (lenN d) md), s)).

End WithReader.

(** reader.go:90-166  recursiveBuidRecordings: recording, total read, error
    and the state of the given reader.  Each level wraps the reader once more
    in an ErrReader. *)
Fixpoint build (fuel : nat) (keys : list str) (encs : list encoder)
  (headers : list bytes) {S : Type} (R : Reader S) (s0 : S)
  : res (option recording * N * option err * S) :=
  match fuel with
  | O => Stuck
  | Datatypes.S f =>
      let E := err_reader R in
      let s := new_er s0 in
      do (r, s) <- read_string E s;
      let '(id, _, _) := r in
      do (r, s) <- read_string E s;
      let '(name, _, _) := r in
      do (r, s) <- read_md E keys s;
      let (md, e) := r in
      match e with
      | Some e => Ok (None, er_n s, Some e, er_in s)
      | None =>
          do (r, s) <- read_uvarint E s;
          let '(nstreams, _, _) := r in
          go_make 16 nstreams
          (do (colls, s) <- loop (N.to_nat nstreams) (read_stream E encs headers) s;
           do (r, s) <- read_uvarint E s;
           let '(nrefs, _, _) := r in
           go_make 16 nrefs
           (do (refs, s) <- loop (N.to_nat nrefs) (read_ref E keys) s;
            do (r, s) <- read_uvarint E s;
            let '(nbins, _, _) := r in
            go_make 16 nbins
            (do (bins, s) <- loop (N.to_nat nbins) (read_bin E keys) s;
             do (r, s) <- read_uvarint E s;
             let '(nrecs, _, _) := r in
             go_make 16 nrecs
             (do (rl, s) <- loop_err (N.to_nat nrecs)
                 (fun s => do (r, s1) <- build f keys encs headers E s;
                           let '(c, _, e) := r in
                           match e with
                           | Some e => Ok (inr e, s1)
                           | None => Ok (inl c, s1)
                           end) s;
              match rl with
              | inr e => Ok (None, er_n s, Some e, er_in s)
              | inl recs =>
                  Ok (Some (mkRec id name colls recs md bins refs),
                      er_n s, er_err s, er_in s)
              end))))
      end
  end.

(** reader.go:210-218 *)
Fixpoint read_headers {S} (R : Reader S) (k : nat) (n : N) (s : S)
  : res (list bytes * N * option err * S) :=
  match k with
  | O => Ok ([], n, None, s)
  | Datatypes.S k' =>
      do (r, s1) <- read_bytes_array R s;
      let '(h, m, e) := r in
      match e with
      | Some e => Ok ([], n + m, Some e, s1)
      | None =>
          do (r2, s2) <- read_headers R k' (n + m) s1;
          let '(hs, t, e2) := r2 in
          match e2 with
          | Some e2 => Ok ([], t, Some e2, s2)
          | None => Ok (h :: hs, t, None, s2)
          end
      end
  end.

(** Every nested recording costs at least one byte, so the number of bytes
    left bounds the recursion (proved in ReaderFacts.v). *)
Definition build_fuel {S} (R : Reader S) (s : S) : nat := Datatypes.S (rleft R s).

(** reader.go:210-234: everything behind the compression flag *)
Definition read_payload {S} (R : Reader S) (encs : list encoder) (n : N) (s : S)
  : res (option recording * N * option err * S) :=
  do (r, s) <- read_headers R (length encs) n s;
  let '(headers, n, e) := r in
  match e with
  | Some e => Ok (None, n, Some e, s)
  | None =>
      do (r, s) <- read_string_array R s;
      let '(keys, m, e) := r in
      let n := n + m in
      match e with
      | Some e => Ok (None, n, Some e, s)
      | None =>
          do (r, s) <- build (build_fuel R s) keys encs headers R s;
          let '(rec, m, e) := r in
          let n := n + m in
          match e with
          | Some e => Ok (None, n, Some e, s)
          | None => Ok (rec, n, None, s)
          end
      end
  end.

(** load.go:14-23  GetRecoringVersion.  When Read stores nothing and reports
    no error the byte stays 0. *)
Definition get_version {S} (R : Reader S) (s : S) : res (N * N * option err * S) :=
  do (pe, s1) <- rread R 1 s;
  let (p, e) := pe in
  match e with
  | Some e => Ok (0, lenN p, Some e, s1)
  | None => Ok (b2n (hd x00 p), lenN p, None, s1)
  end.

(** What rapv1.ReadRecording does with the rest of a version 1 file (see
    RapV1.v); a parameter here. *)
Definition v1_reader := forall S, Reader S -> S -> res (option recording * N * option err * S).

(** reader.go:168-235  Read.  The final state is that of the given reader, or
    of the inflater on top of it.  (A nil reader panics: not representable.) *)
Definition read (reg : list encoder) (v1 : v1_reader) (Z : inflater)
  {S} (R : Reader S) (s : S)
  : res (option recording * N * option err * (S + iz_st Z S)) :=
  do (r, s) <- get_version R s;
  let '(v, n, e) := r in
  match e with
  | Some e => Ok (None, n, Some e, inl s)
  | None =>
      if v =? 1 then
        do (r, s) <- v1 S R s;
        let '(rec, m, e) := r in
        Ok (rec, m + n, e, inl s)
      else if negb (v =? 2) then Ok (None, n, Some (EBadVersion v), inl s)
      else
        do (r, s) <- read_encoders R reg s;
        let '(encs, m, e) := r in
        let n := n + m in
        match e with
        | Some e => Ok (None, n, Some e, inl s)
        | None =>
            do (pe, s) <- rread R 1 s;
            let (p, e) := pe in
            let n := n + lenN p in
            match e with
            | Some e => Ok (None, n, Some e, inl s)
            | None =>
                if b2n (hd x00 p) =? 1 then
                  do (r, s) <- read_payload (iz_read Z S R) encs n (iz_new Z S s);
                  Ok (r, inr s)
                else
                  do (r, s) <- read_payload R encs n s;
                  Ok (r, inl s)
            end
        end
  end.

(** load.go:25-32  Load: the encoders it registers *)
Definition load_encoders : list encoder :=
  [event_encoder; position_encoder 2; euler_encoder 1; enum_encoder].
