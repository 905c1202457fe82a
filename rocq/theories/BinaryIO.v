(** Model of package internal/io/binary. *)
From Verif Require Import Base IO Floats.
Local Open Scope N_scope.

Definition wrap64 (n : N) : N := n mod 2 ^ 64.

(** encoding/binary.PutUvarint (standard library) applied to a uint64:
      for x >= 0x80 { buf[i] = byte(x) | 0x80; x >>= 7; i++ }
      buf[i] = byte(x)
    A uint64 needs at most ten digits. *)
Fixpoint put_uvarint_aux (fuel : nat) (x : N) : bytes :=
  match fuel with
  | O => []
  | S f =>
      if x <? 128 then [n2b x]
      else n2b (N.lor (x mod 256) 128) :: put_uvarint_aux f (N.shiftr x 7)
  end.
Definition put_uvarint (x : N) : bytes := put_uvarint_aux 10 (wrap64 x).

Section WithReader.
Context {S : Type} (R : Reader S).

(** internal/io/binary/util.go:13-36  ReadUvarint.  [b] is the one-byte
    buffer, which keeps its old contents if Read delivers nothing. *)
Fixpoint read_uvarint_loop (fuel : nat) (i x sh : N) (b : byte) (total : N)
  (s : S) : res (N * N * option err * S) :=
  match fuel with
  | O => Ok (x, total, Some EOverflow, s)
  | Datatypes.S f =>
      do (pe, s1) <- rread R 1 s;
      let (p, e) := pe in
      let b1 := hd b p in
      let total1 := total + lenN p in
      match e with
      | Some e => Ok (x, total1, Some e, s1)
      | None =>
          if b2n b1 <? 128 then
            if (i =? 9) && (1 <? b2n b1) then Ok (x, total1, Some EOverflow, s1)
            else Ok (N.lor x (wrap64 (N.shiftl (b2n b1) sh)), i + 1, None, s1)
          else
            read_uvarint_loop f (i + 1)
              (N.lor x (wrap64 (N.shiftl (N.land (b2n b1) 127) sh)))
              (sh + 7) b1 total1 s1
      end
  end.
Definition read_uvarint (s : S) : res (N * N * option err * S) :=
  read_uvarint_loop 10 0 0 0 x00 0 s.

(** internal/io/binary/string.go:18-31  ReadString *)
Definition read_string (s : S) : res (str * N * option err * S) :=
  do (r, s1) <- read_uvarint s;
  let '(len, n, e) := r in
  match e with
  | Some e => Ok ([], n, Some e, s1)
  | None =>
      go_make 1 len
        (do (pe, s2) <- read_full R len s1;
         let (p, e2) := pe in
         match e2 with
         | Some e2 => Ok ([], n + lenN p, Some e2, s2)
         | None => Ok (p, n + lenN p, None, s2)
         end)
  end.

(** internal/io/binary/bytes.go:23-40  ReadBytesArray.  (io.EOF from ReadFull
    on an empty read is turned into io.ErrUnexpectedEOF by the length test.) *)
Definition read_bytes_array (s : S) : res (bytes * N * option err * S) :=
  do (r, s1) <- read_uvarint s;
  let '(len, n, e) := r in
  match e with
  | Some e => Ok ([], n, Some e, s1)
  | None =>
      go_make 1 len
        (do (pe, s2) <- read_full R len s1;
         let (p, e2) := pe in
         match e2 with
         | Some EEOF | None =>
             if lenN p =? len then Ok (p, n + lenN p, None, s2)
             else Ok ([], n + lenN p, Some EUnexpectedEOF, s2)
         | Some e2 => Ok ([], n + lenN p, Some e2, s2)
         end)
  end.

(** internal/io/binary/string.go:46-63  ReadStringArray, the loop *)
Fixpoint read_strings (k : nat) (n : N) (s : S)
  : res (list str * N * option err * S) :=
  match k with
  | O => Ok ([], n, None, s)
  | Datatypes.S k' =>
      do (r, s1) <- read_string s;
      let '(x, m, e) := r in
      match e with
      | Some e => Ok ([], n + m, Some e, s1)
      | None =>
          do (r2, s2) <- read_strings k' (n + m) s1;
          let '(xs, t, e2) := r2 in
          match e2 with
          | Some e2 => Ok ([], t, Some e2, s2)
          | None => Ok (x :: xs, t, None, s2)
          end
      end
  end.
Definition read_string_array (s : S) : res (list str * N * option err * S) :=
  do (r, s1) <- read_uvarint s;
  let '(len, n, e) := r in
  match e with
  | Some e => Ok ([], n, Some e, s1)
  | None => go_make 16 len (read_strings (N.to_nat len) n s1)
  end.

(** internal/io/binary/uint.go:23-40  ReadUvarIntArray *)
Fixpoint read_uvarints (k : nat) (n : N) (s : S)
  : res (list N * N * option err * S) :=
  match k with
  | O => Ok ([], n, None, s)
  | Datatypes.S k' =>
      do (r, s1) <- read_uvarint s;
      let '(x, m, e) := r in
      match e with
      | Some e => Ok ([], n + m, Some e, s1)
      | None =>
          do (r2, s2) <- read_uvarints k' (n + m) s1;
          let '(xs, t, e2) := r2 in
          match e2 with
          | Some e2 => Ok ([], t, Some e2, s2)
          | None => Ok (x :: xs, t, None, s2)
          end
      end
  end.
Definition read_uvarint_array (s : S) : res (list N * N * option err * S) :=
  do (r, s1) <- read_uvarint s;
  let '(len, n, e) := r in
  match e with
  | Some e => Ok ([], n, Some e, s1)
  | None => go_make 8 len (read_uvarints (N.to_nat len) n s1)
  end.

(** encoding/binary.Read of a [k]-byte number (standard library): io.ReadFull
    into a fresh buffer; on error the destination is left untouched. *)
Definition binary_read (k : N) (s : S) : res (option bytes * option err * S) :=
  do (pe, s1) <- read_full R k s;
  let (p, e) := pe in
  match e with
  | Some e => Ok (None, Some e, s1)
  | None => Ok (Some p, None, s1)
  end.

End WithReader.

(** internal/io/binary/string.go:9-16  StringToBytes *)
Definition string_to_bytes (s : str) : bytes := put_uvarint (lenN s) ++ s.
(** internal/io/binary/bytes.go:10-19  BytesArrayToBytes *)
Definition bytes_array_to_bytes (b : bytes) : bytes := put_uvarint (lenN b) ++ b.
(** internal/io/binary/string.go:33-44  StringArrayToBytes *)
Definition string_array_to_bytes (l : list str) : bytes :=
  put_uvarint (lenN l) ++ flat_map string_to_bytes l.
(** internal/io/binary/uint.go:9-21  UvarintArrayToBytes *)
Definition uvarint_array_to_bytes (l : list N) : bytes :=
  put_uvarint (lenN l) ++ flat_map put_uvarint l.

(** internal/io/binary/util.go:38-57  UnsignedFloatBSTToBytes: one byte
    (eight bits, least significant first) and then all the bytes of [out]. *)
Fixpoint bst_enc_bits (k : nat) (bit acc : N) (value cur inc : f64)
  : N * f64 * f64 :=
  match k with
  | O => (acc, cur, inc)
  | S k' =>
      if flt value cur
      then bst_enc_bits k' (bit + 1) acc value (fsub cur inc) (fdiv inc f2)
      else bst_enc_bits k' (bit + 1) (N.lor acc (N.shiftl 1 bit)) value
                        (fadd cur inc) (fdiv inc f2)
  end.
Fixpoint bst_enc_bytes (k : nat) (value cur inc : f64) : bytes :=
  match k with
  | O => []
  | S k' =>
      let '(acc, cur', inc') := bst_enc_bits 8 0 0 value cur inc in
      n2b acc :: bst_enc_bytes k' value cur' inc'
  end.
Definition bst_enc (k : nat) (value start duration : f64) : bytes :=
  bst_enc_bytes k value (fadd start (fdiv duration f2)) (fdiv duration f4).

(** internal/io/binary/util.go:59-76  BytesToUnisngedFloatBST *)
Fixpoint bst_dec_bits (k : nat) (bit : N) (b : N) (cur inc : f64) : f64 * f64 :=
  match k with
  | O => (cur, inc)
  | S k' =>
      if N.land (N.shiftr b bit) 1 =? 1
      then bst_dec_bits k' (bit + 1) b (fadd cur inc) (fdiv inc f2)
      else bst_dec_bits k' (bit + 1) b (fsub cur inc) (fdiv inc f2)
  end.
Fixpoint bst_dec_bytes (l : bytes) (cur inc : f64) : f64 :=
  match l with
  | [] => cur
  | b :: l' =>
      let '(cur', inc') := bst_dec_bits 8 0 (b2n b) cur inc in
      bst_dec_bytes l' cur' inc'
  end.
Definition bst_dec (start duration : f64) (l : bytes) : f64 :=
  bst_dec_bytes l (fadd start (fdiv duration f2)) (fdiv duration f4).
