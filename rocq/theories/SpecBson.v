(** Specification vocabulary for the BSON export: the grammar of BSON as
    bsonspec.org (version 1.1) gives it, for the types of values that occur,
    and which BSON value stands for which property. *)
From Coq Require Import Permutation Reals Strings.String.
From Flocq Require Import Core IEEE754.Binary.
From Verif Require Import Base Floats BinaryIO Metadata Recording Text.
Local Open Scope N_scope.

Inductive bval : Type :=
| VDouble (x : f64)
| VString (s : str)
| VDoc (l : list (str * bval))
| VArray (l : list bval)
| VBinary (data : bytes)
| VBool (b : bool)
| VDate (ms : Z)
| VNull
| VInt32 (z : Z).

(** Array elements are numbered from 0 in decimal. *)
Fixpoint numbered (i : nat) (l : list bval) : list (str * bval) :=
  match l with [] => [] | v :: l' => (show_nat i, v) :: numbered (S i) l' end.

(** [value t v b]: the bytes [b] are a value of BSON type [t] that says [v].
    [document l b]: the bytes [b] are a document with the elements [l].
    Lengths are int32, little-endian, and positive. *)
Definition int32 (n : N) (b : bytes) : Prop := n < 2 ^ 31 /\ b = le_bytes 4 (Z.of_N n).
Inductive value : N -> bval -> bytes -> Prop :=
| G_double : forall x, value 1 (VDouble x) (f64_bytes x)
| G_string : forall s n, int32 (lenN s + 1) n -> value 2 (VString s) (n ++ s ++ [x00])
| G_doc : forall l b, document l b -> value 3 (VDoc l) b
| G_array : forall l b, document (numbered 0 l) b -> value 4 (VArray l) b
| G_binary : forall d n, int32 (lenN d) n -> value 5 (VBinary d) (n ++ [x00] ++ d)
| G_bool : forall b, value 8 (VBool b) [if b then x01 else x00]
| G_date : forall ms, (- 2 ^ 63 <= ms < 2 ^ 63)%Z -> value 9 (VDate ms) (le_bytes 8 ms)
| G_null : value 10 VNull []
| G_int32 : forall z, (- 2 ^ 31 <= z < 2 ^ 31)%Z -> value 16 (VInt32 z) (le_bytes 4 z)
with document : list (str * bval) -> bytes -> Prop :=
| G_document : forall l e n, elements l e -> int32 (4 + lenN e + 1) n -> document l (n ++ e ++ [x00])
with elements : list (str * bval) -> bytes -> Prop :=
| G_end : elements [] []
| G_element : forall t k v b l e, ~ In x00 k -> value t v b -> elements l e ->
    elements ((k, v) :: l) ([n2b t] ++ k ++ [x00] ++ b ++ e).

(** The number of bytes of a value. *)
Fixpoint size (v : bval) : N :=
  match v with
  | VDouble _ | VDate _ => 8
  | VString s => 4 + lenN s + 1
  | VDoc l =>
      4 + (fix go (l : list (str * bval)) : N :=
             match l with [] => 0 | kv :: l' => 1 + lenN (fst kv) + 1 + size (snd kv) + go l' end) l + 1
  | VArray l =>
      4 + (fix go (i : nat) (l : list bval) : N :=
             match l with [] => 0 | v :: l' => 1 + lenN (show_nat i) + 1 + size v + go (S i) l' end) 0%nat l + 1
  | VBinary d => 4 + 1 + lenN d
  | VBool _ => 1
  | VNull => 0
  | VInt32 _ => 4
  end.

(** The double is the float32, exactly. *)
Definition same_number (f : f32) (x : f64) : Prop :=
  (is_finite 24 128 f = true /\ is_finite 53 1024 x = true /\
   B2R 53 1024 x = B2R 24 128 f /\ Bsign 53 1024 x = Bsign 24 128 f) \/
  (exists s, f = B754_infinity 24 128 s /\ x = B754_infinity 53 1024 s) \/
  (is_nan 24 128 f = true /\ is_nan 53 1024 x = true).

(** What a property becomes: a string a string, numbers and bytes an int32, a
    float32 the same double, vectors documents of doubles, a block a document
    with the same keys in any order, a time the whole milliseconds before it,
    an array an array, bytes binary data, a bool array an array of bools. *)
Inductive shown : prop -> bval -> Prop :=
| S_string : forall s, shown (PString s) (VString s)
| S_int : forall z, shown (PInt z) (VInt32 z)
| S_float : forall f x, same_number f x -> shown (PFloat f) (VDouble x)
| S_bool : forall b, shown (PBool b) (VBool b)
| S_byte : forall b, shown (PByte b) (VInt32 (Z.of_N (b2n b)))
| S_vec2 : forall x y,
    shown (PVec2 x y) (VDoc [(lit "x", VDouble x); (lit "y", VDouble y)])
| S_vec3 : forall x y z,
    shown (PVec3 x y z) (VDoc [(lit "x", VDouble x); (lit "y", VDouble y); (lit "z", VDouble z)])
| S_block : forall m m' l, Permutation m m' -> shown_entries m' l -> shown (PBlock m) (VDoc l)
| S_time : forall us ms, (ms * 1000 <= us < (ms + 1) * 1000)%Z -> shown (PTime us) (VDate ms)
| S_array : forall base ps l, shown_list ps l -> shown (PArray base ps) (VArray l)
| S_bytes : forall d, shown (new_binary_array d) (VBinary d)
| S_bools : forall l, shown (new_bool_array l) (VArray (map VBool l))
with shown_entries : block -> list (str * bval) -> Prop :=
| SE_nil : shown_entries [] []
| SE_cons : forall k p v m l, shown p v -> shown_entries m l -> shown_entries ((k, p) :: m) ((k, v) :: l)
with shown_list : list prop -> list bval -> Prop :=
| SL_nil : shown_list [] []
| SL_cons : forall p v ps l, shown p v -> shown_list ps l -> shown_list (p :: ps) (v :: l).

(** A key with a zero byte, at any depth. *)
Inductive zero_key : prop -> Prop :=
| Z_here : forall m k v, In (k, v) m -> In x00 k -> zero_key (PBlock m)
| Z_block : forall m k v, In (k, v) m -> zero_key v -> zero_key (PBlock m)
| Z_array : forall base ps v, In v ps -> zero_key v -> zero_key (PArray base ps).

(** Every time lies in the years 1678 to 2262, at every depth: its nanoseconds
    fit an int64.  (Bool arrays hold zeros and ones, as their constructor makes
    them.  No slice in memory has 2^48 bytes.) *)
Inductive ordinary : prop -> Prop :=
| O_leaf : forall p, match p with PBlock _ | PArray _ _ | PTime _ | PRaw _ _ => False | _ => True end -> ordinary p
| O_time : forall us, (- 2 ^ 63 <= us * 1000 < 2 ^ 63)%Z -> ordinary (PTime us)
| O_block : forall m, (forall k v, In (k, v) m -> ordinary v) -> ordinary (PBlock m)
| O_array : forall base ps, (forall v, In v ps -> ordinary v) -> ordinary (PArray base ps)
| O_bytes : forall d, lenN d < 2 ^ 48 -> ordinary (new_binary_array d)
| O_bools : forall l, lenN l < 2 ^ 48 -> ordinary (new_bool_array l).
