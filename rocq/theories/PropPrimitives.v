(** Properties C01 - C03: varints, strings, byte arrays and arrays. *)
From Verif Require Import Base BaseFacts IO Spec IOFacts Floats BinaryIO.
From Verif Require Import BinaryIOFacts VarintFacts.
Local Open Scope N_scope.

(** C01: whatever reader delivers the bytes, and whatever follows them, a
    written uint64 is read back, with its exact length, and nothing more is
    consumed. *)
Theorem C01_varint_roundtrip :
  forall S (R : Reader S) eager (I : S -> bytes -> Prop), delivers R eager I ->
  forall x, x < 2 ^ 64 ->
  forall s rest, I s (put_uvarint x ++ rest) -> more eager rest ->
  exists s', read_uvarint R s = Ok (x, lenN (put_uvarint x), None, s') /\ I s' rest.
Proof. exact (fun S R eager I H => read_uvarint_ok (delivers_serves R eager I H)). Qed.
Print Assumptions C01_varint_roundtrip.

Example C01_example : forall rest,
  put_uvarint (2 ^ 64 - 1) = bs [255;255;255;255;255;255;255;255;255;1] /\
  put_uvarint 300 = bs [172; 2] /\
  delivers flat false (fun s d => s = d) /\
  read_uvarint flat (bs [172; 2] ++ rest) = Ok (300, 2, None, rest).
Proof.
  intro rest. split; [reflexivity|]. split; [reflexivity|].
  split; [apply flat_delivers|]. destruct rest; reflexivity.
Qed.

(** C01: the encoding consists of base-128 digits of the number, and is
    minimal: one byte per started group of seven significant bits. *)
Theorem C01_varint_format : forall x, x < 2 ^ 64 ->
  digits (put_uvarint x) /\ digits_value (put_uvarint x) = x /\
  lenN (put_uvarint x) = N.log2 x / 7 + 1 /\ lenN (put_uvarint x) <= 10.
Proof.
  intros x Hx.
  destruct (read_uvarint_ok (delivers_serves _ _ _ (flat_delivers false)) x Hx
              (put_uvarint x ++ []) [] eq_refl (or_introl eq_refl)) as (s' & E & ->).
  apply read_uvarint_flat_iff in E as (p & Ep & Hd & _ & Hl & Hv & _).
  rewrite !app_nil_r in Ep. subst p.
  repeat split; auto. now apply put_uvarint_size.
Qed.
Print Assumptions C01_varint_format.

(** The condition [more] is needed: a reader that reports io.EOF together with
    the last byte makes ReadUvarint fail although the number is complete. *)
Theorem C01_eager_end_refuted :
  exists (R : Reader (list bytes)) I s x s',
    delivers R true I /\ I s (put_uvarint x ++ []) /\
    read_uvarint R s = Ok (0, 1, Some EEOF, s').
Proof.
  exists (chunked true), (fun s d => ~ In [] s /\ d = concat s), [bs [5]], 5, [].
  split; [apply chunked_delivers|]. split; [|reflexivity].
  split; [|reflexivity]. now intros [H|[]].
Qed.
Print Assumptions C01_eager_end_refuted.

(** C02: the reader accepts exactly the digit strings of at most ten digits
    whose value fits 64 bits, returns that value and consumes exactly them;
    on every other input it returns an error. *)
Theorem C02_varint_sound : forall d x n d',
  read_uvarint flat d = Ok (x, n, None, d') <->
  exists p, d = p ++ d' /\ digits p /\ n = lenN p /\ lenN p <= 10 /\
            x = digits_value p /\ x < 2 ^ 64.
Proof. exact read_uvarint_flat_iff. Qed.
Print Assumptions C02_varint_sound.

Theorem C02_varint_total : forall d, exists x n e d', read_uvarint flat d = Ok (x, n, e, d').
Proof. exact read_uvarint_flat_total. Qed.
Print Assumptions C02_varint_total.

Example C02_example :
  read_uvarint flat (bs [172; 2; 7]) = Ok (300, 2, None, bs [7]) /\
  (exists x n d', read_uvarint flat (bs [128;128;128;128;128;128;128;128;128;2])
                  = Ok (x, n, Some EOverflow, d')) /\
  (exists x n d', read_uvarint flat (bs [128;128;128;128;128;128;128;128;128;128;0])
                  = Ok (x, n, Some EOverflow, d')) /\
  (exists x n d', read_uvarint flat (bs [128]) = Ok (x, n, Some EEOF, d')).
Proof. repeat split; repeat eexists. Qed.

(** C03 *)
Theorem C03_string_roundtrip :
  forall S (R : Reader S) eager (I : S -> bytes -> Prop), delivers R eager I ->
  forall x, lenN x < 2 ^ 48 ->
  forall s rest, I s (string_to_bytes x ++ rest) -> more eager rest ->
  exists s', read_string R s = Ok (x, lenN (string_to_bytes x), None, s') /\ I s' rest.
Proof. exact (fun S R eager I H => read_string_ok (delivers_serves R eager I H)). Qed.
Print Assumptions C03_string_roundtrip.

Theorem C03_bytes_roundtrip :
  forall S (R : Reader S) eager (I : S -> bytes -> Prop), delivers R eager I ->
  forall x, lenN x < 2 ^ 48 ->
  forall s rest, I s (bytes_array_to_bytes x ++ rest) -> more eager rest ->
  exists s', read_bytes_array R s = Ok (x, lenN (bytes_array_to_bytes x), None, s') /\ I s' rest.
Proof. exact (fun S R eager I H => read_bytes_array_ok (delivers_serves R eager I H)). Qed.
Print Assumptions C03_bytes_roundtrip.

Theorem C03_string_array_roundtrip :
  forall S (R : Reader S) eager (I : S -> bytes -> Prop), delivers R eager I ->
  forall l, lenN l <= 2 ^ 44 -> Forall (fun x => lenN x < 2 ^ 48) l ->
  forall s rest, I s (string_array_to_bytes l ++ rest) -> more eager rest ->
  exists s', read_string_array R s = Ok (l, lenN (string_array_to_bytes l), None, s') /\ I s' rest.
Proof. exact (fun S R eager I H => read_string_array_ok (delivers_serves R eager I H)). Qed.
Print Assumptions C03_string_array_roundtrip.

Theorem C03_uint_array_roundtrip :
  forall S (R : Reader S) eager (I : S -> bytes -> Prop), delivers R eager I ->
  forall l, lenN l <= 2 ^ 45 -> Forall (fun x => x < 2 ^ 64) l ->
  forall s rest, I s (uvarint_array_to_bytes l ++ rest) -> more eager rest ->
  exists s', read_uvarint_array R s = Ok (l, lenN (uvarint_array_to_bytes l), None, s') /\ I s' rest.
Proof. exact (fun S R eager I H => read_uvarint_array_ok (delivers_serves R eager I H)). Qed.
Print Assumptions C03_uint_array_roundtrip.

Example C03_example :
  let l := [bs [104; 105]; []; bs [104; 105]] in
  lenN l <= 2 ^ 44 /\ Forall (fun x => lenN x < 2 ^ 48) l /\
  string_array_to_bytes l = bs [3; 2;104;105; 0; 2;104;105] /\
  (exists s, delivers (chunked true) true (fun s d => ~ In [] s /\ d = concat s) /\
     concat s = string_array_to_bytes l ++ bs [9] /\
     read_string_array (chunked true) s = Ok (l, 8, None, [bs [9]])).
Proof.
  split; [discriminate|]. split.
  { repeat constructor. }
  split; [reflexivity|].
  exists [bs [3]; bs [2;104]; bs [105;0;2]; bs [104]; bs [105]; bs [9]].
  split; [apply chunked_delivers|]. split; reflexivity.
Qed.
