(** Model of the UnmarshalJSON methods of format/metadata/property.go: reading a
    JSON text as a property of a given type. *)
From Coq Require Import Strings.String.
From Flocq Require Import IEEE754.Binary.
From Verif Require Import Base Floats Metadata Recording Text SpecText Json Quote JsonText.
Local Open Scope N_scope.

(** The types with an UnmarshalJSON method. *)
Inductive kind := KString | KInt | KFloat | KBool | KByte | KVec2 | KVec3 | KBlock | KTime | KArray | KRaw.

(** encoding/json (Go 1.18, decode.go literalStore) into a string, and a number
    into an int32: strconv.ParseInt in base 10, then a check of the range.  A null
    leaves the zero value. *)
Definition as_string (t : tree) : option str :=
  match t with TStr s => Some s | TNull => Some [] | _ => None end.
Definition parse_int (t : str) : option Z :=
  let (neg, d) := match t with c :: u => if beqb c "-" then (true, u) else (false, t) | [] => (false, t) end in
  if negb (lenN d =? 0) && forallb is_digit d then
    let n := Z.of_N (text_val 0 d) in Some (if neg then (- n)%Z else n)
  else None.
Definition as_int32 (t : tree) : option Z :=
  match t with
  | TNum t =>
      match parse_int t with
      | Some z => if ((- 2 ^ 31 <=? z) && (z <? 2 ^ 31))%Z%bool then Some z else None
      | None => None
      end
  | TNull => Some 0%Z
  | _ => None
  end.
Definition as_boolean (t : tree) : option bool :=
  match t with TBool b => Some b | TNull => Some false | _ => None end.

Section Unmarshal.
(** strconv.ParseFloat for 64 and 32 bits; time.Parse(time.RFC3339Nano, s)
    followed by UnixMicro; the float32 that [getProperties] makes of a float64.
    [None] is an error. *)
Context (parse64 : str -> option f64) (parse32 : str -> option f32) (parse_time : str -> option Z)
  (reparse32 : f64 -> option f32).
Definition as_float32 (t : tree) : option f32 :=
  match t with TNum t => parse32 t | TNull => Some (B754_zero 24 128 false) | _ => None end.

(** decode.go object: a field of a struct takes the members with its name in
    lower or upper case, one after the other; null changes nothing.  An error is
    remembered and returned at the end.  (Here the fields are filled one after the
    other, which is the same.) *)
Definition is_field (c : byte) (k : str) : bool :=
  match k with [d] => beqb d c || (b2n d + 32 =? b2n c) | _ => false end.
Fixpoint field (c : byte) (m : list (str * tree)) (x : f64) : option f64 :=
  match m with
  | [] => Some x
  | (k, t) :: m' =>
      if is_field c k then
        match t with
        | TNum tx => match parse64 tx with Some v => field c m' v | None => None end
        | TNull => field c m' x
        | _ => None
        end
      else field c m' x
  end.
Definition as_field (c : byte) (t : tree) : option f64 :=
  match t with TObj m => field c m f0 | TNull => Some f0 | _ => None end.

(** The UnmarshalJSON methods: property.go:53-60 (string), 106-113 (int32),
    159-166 (float32), 220-227 (bool), 275-286 (byte: b[0] of nothing panics),
    335-346 and 411-424 (vectors), 515-530 (block), 576-587 (time), 636-652 (array:
    null becomes an array without elements) and 738-755 (raw array). *)
Definition unmarshal_tree (k : kind) (t : tree) : res (option prop) :=
  let give {A} (o : option A) (f : A -> prop) : res (option prop) :=
    match o with Some a => ret (f a) | None => fail end in
  match k with
  | KString => give (as_string t) PString
  | KInt => give (as_int32 t) PInt
  | KFloat => give (as_float32 t) PFloat
  | KBool => give (as_boolean t) PBool
  | KByte =>
      match as_string t with
      | None => fail
      | Some s =>
          match hex_decode match strip (lit "0x") s with Some r => r | None => s end with
          | None => fail
          | Some [] => Panic
          | Some (b :: _) => ret (PByte b)
          end
      end
  | KVec2 =>
      match as_field "x" t, as_field "y" t with
      | Some x, Some y => ret (PVec2 x y)
      | _, _ => fail
      end
  | KVec3 =>
      match as_field "x" t, as_field "y" t, as_field "z" t with
      | Some x, Some y, Some z => ret (PVec3 x y z)
      | _, _, _ => fail
      end
  | KTime => match as_string t with Some s => give (parse_time s) PTime | None => fail end
  | KBlock =>
      match value_of parse64 t with
      | Some j => obind (block_of_json parse_time reparse32 j) (fun b => ret (PBlock b))
      | None => fail
      end
  | KArray =>
      match value_of parse64 t with
      | Some JNull => Panic
      | Some (JArr l) =>
          obind (get_properties parse_time reparse32 (JArr l)) (fun p =>
          match p with PArray c ps => ret (PArray c ps) | _ => fail end)
      | _ => fail
      end
  | KRaw =>
      match value_of parse64 t with
      | Some j =>
          obind (get_properties parse_time reparse32 j) (fun p =>
          match p with PRaw c d => ret (PRaw c d) | _ => fail end)
      | None => fail
      end
  end.
(** json.Unmarshal(s, &p) for a zero [p] of the type [k]; also property.go:95-99,
    148-152, 209-213, 264-268, 324-328, 401-405, 505-509, 565-569: the
    UnmarshalNew functions, which do just this (beside an error they return the
    zero property) *)
Definition unmarshal_as (k : kind) (s : str) : res (option prop) :=
  match parse_text (clean s) with Some t => unmarshal_tree k t | None => fail end.
End Unmarshal.
