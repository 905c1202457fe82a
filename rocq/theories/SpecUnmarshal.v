(** Specification vocabulary for reading a JSON text as a property of a given
    type. *)
From Coq Require Import Strings.String.
From Flocq Require Import IEEE754.Binary.
From Verif Require Import Base Floats Metadata Recording SpecText Json SpecJson SpecToJson SpecJsonText Unmarshal.
Local Open Scope N_scope.

(** [content s t]: the text [s] has the content [t]; invalid UTF-8 is repaired. *)
Definition content (s : str) (t : tree) : Prop :=
  exists u, repaired s u /\ document u t /\ (nesting t <= N.to_nat 10000)%nat.

Section As.
Context (parse64 : str -> option f64) (parse32 : str -> option f32) (parse_time : str -> option Z)
  (reparse32 : f64 -> option f32).
(** The coordinate [c] of an object: the last member with that name, in lower or
    upper case, that is not null; 0 if there is none.  The others have to be
    numbers or null, too. *)
Definition named (c : byte) (k : str) : Prop := k = [c] \/ exists d, k = [d] /\ b2n d + 32 = b2n c.
Definition coordinate (c : byte) (m : list (str * tree)) (v : f64) : Prop :=
  (forall k t, In (k, t) m -> named c k -> t = TNull \/ exists tx x, t = TNum tx /\ parse64 tx = Some x) /\
  ((v = B754_zero 53 1024 false /\ forall k t, In (k, t) m -> named c k -> t = TNull) \/
   exists m1 k tx m2, m = m1 ++ (k, TNum tx) :: m2 /\ named c k /\ parse64 tx = Some v /\
     forall k' t, In (k', t) m2 -> named c k' -> t = TNull).
(** [reads_as k t p]: the content [t] stands for the property [p] of type [k].  A
    null stands for the zero value, except for bytes, times and raw arrays. *)
Inductive reads_as : kind -> tree -> prop -> Prop :=
| D_string : forall s, reads_as KString (TStr s) (PString s)
| D_string0 : reads_as KString TNull (PString [])
| D_int : forall t z, tells t z -> (- 2 ^ 31 <= z < 2 ^ 31)%Z -> reads_as KInt (TNum t) (PInt z)
| D_int_minus0 : reads_as KInt (TNum (lit "-0")) (PInt 0)
| D_int0 : reads_as KInt TNull (PInt 0)
| D_float : forall t f, parse32 t = Some f -> reads_as KFloat (TNum t) (PFloat f)
| D_float0 : reads_as KFloat TNull (PFloat (B754_zero 24 128 false))
| D_bool : forall b, reads_as KBool (TBool b) (PBool b)
| D_bool0 : reads_as KBool TNull (PBool false)
| D_byte : forall h b d, hex_text h (b :: d) -> reads_as KByte (TStr (lit "0x" ++ h)) (PByte b)
| D_byte_plain : forall h b d, ~ starts_0x h -> hex_text h (b :: d) -> reads_as KByte (TStr h) (PByte b)
| D_vec2 : forall m x y, coordinate "x" m x -> coordinate "y" m y -> reads_as KVec2 (TObj m) (PVec2 x y)
| D_vec2_0 : reads_as KVec2 TNull (PVec2 (B754_zero 53 1024 false) (B754_zero 53 1024 false))
| D_vec3 : forall m x y z, coordinate "x" m x -> coordinate "y" m y -> coordinate "z" m z ->
    reads_as KVec3 (TObj m) (PVec3 x y z)
| D_vec3_0 : reads_as KVec3 TNull (PVec3 (B754_zero 53 1024 false) (B754_zero 53 1024 false) (B754_zero 53 1024 false))
| D_time : forall s us, parse_time s = Some us -> reads_as KTime (TStr s) (PTime us)
| D_time0 : forall us, parse_time [] = Some us -> reads_as KTime TNull (PTime us)
| D_block : forall t j b, means parse64 t j -> says parse_time reparse32 j (PBlock b) -> reads_as KBlock t (PBlock b)
| D_block0 : reads_as KBlock TNull (PBlock [])
| D_array : forall t j c ps, means parse64 t j -> says parse_time reparse32 j (PArray c ps) -> reads_as KArray t (PArray c ps)
| D_raw : forall t j c d, means parse64 t j -> says parse_time reparse32 j (PRaw c d) -> reads_as KRaw t (PRaw c d).
(** The contents on which the methods panic: no digits at all where a byte is to
    be, null where an array is to be, and the values on which [getProperties]
    panics. *)
Inductive pitfall : kind -> tree -> Prop :=
| F_byte_null : pitfall KByte TNull
| F_byte_empty : pitfall KByte (TStr [])
| F_byte_0x : pitfall KByte (TStr (lit "0x"))
| F_array_null : pitfall KArray TNull
| F_block : forall m j t, means parse64 (TObj m) j -> within t j -> trap t -> pitfall KBlock (TObj m)
| F_array : forall l j t, means parse64 (TArr l) j -> within t j -> trap t -> pitfall KArray (TArr l)
| F_raw : forall u j t, means parse64 u j -> within t j -> trap t -> pitfall KRaw u.
End As.

(** A property that its own type reads back: any UTF-8 text, any int32, any finite
    number, any byte, any bool; times that the time format keeps; faithful blocks
    and arrays. *)
Section Own.
Context (time_text : Z -> str) (parse_time : str -> option Z).
Inductive own : kind -> prop -> Prop :=
| O_string : forall s, valid_utf8 s -> own KString (PString s)
| O_int : forall z, (- 2 ^ 31 <= z < 2 ^ 31)%Z -> own KInt (PInt z)
| O_float : forall f, is_finite 24 128 f = true -> own KFloat (PFloat f)
| O_bool : forall b, own KBool (PBool b)
| O_byte : forall b, own KByte (PByte b)
| O_vec2 : forall x y, is_finite 53 1024 x = true -> is_finite 53 1024 y = true -> own KVec2 (PVec2 x y)
| O_vec3 : forall x y z, is_finite 53 1024 x = true -> is_finite 53 1024 y = true -> is_finite 53 1024 z = true ->
    own KVec3 (PVec3 x y z)
| O_time : forall us, valid_utf8 (time_text us) -> parse_time (time_text us) = Some us -> own KTime (PTime us)
| O_block : forall m, faithful time_text parse_time (PBlock m) -> own KBlock (PBlock m)
| O_array : forall c ps, faithful time_text parse_time (PArray c ps) -> own KArray (PArray c ps)
| O_raw : forall c d, faithful time_text parse_time (PRaw c d) -> own KRaw (PRaw c d).
End Own.
