(** Specification vocabulary for reading JSON texts: the values they stand for. *)
From Coq Require Import Strings.String Permutation Reals.
From Flocq Require Import IEEE754.Binary.
From Verif Require Import Base Floats Metadata Recording Json SpecJson SpecToJson.
Local Open Scope N_scope.

(** How deep arrays and objects are nested. *)
Fixpoint nesting (t : tree) : nat :=
  match t with
  | TArr l => S (fold_right (fun x n => Nat.max (nesting x) n) O l)
  | TObj m => S (fold_right (fun kx n => Nat.max (nesting (snd kx)) n) O m)
  | _ => O
  end.

(** Equal values: a Go map has no order, so the order of an object's members is
    irrelevant, at every depth. *)
Inductive same_json : json -> json -> Prop :=
| J_null : same_json JNull JNull
| J_bool : forall b, same_json (JBool b) (JBool b)
| J_num : forall x, same_json (JNum x) (JNum x)
| J_str : forall s, same_json (JStr s) (JStr s)
| J_arr : forall l l', Forall2 same_json l l' -> same_json (JArr l) (JArr l')
| J_obj : forall m m1 m', Permutation m m1 ->
    Forall2 (fun a b => fst a = fst b /\ same_json (snd a) (snd b)) m1 m' -> same_json (JObj m) (JObj m').

(** ** UTF-8 *)
(** The Unicode scalar values, and the texts that encode a sequence of them. *)
Definition scalar (r : N) : Prop := r < 55296 \/ 57344 <= r < 1114112.
Inductive valid_utf8 : str -> Prop :=
| U_nil : valid_utf8 []
| U_rune : forall r s, scalar r -> valid_utf8 s -> valid_utf8 (utf8 r ++ s).
(** [repaired s t]: every byte of [s] that begins no code point is replaced by
    U+FFFD. *)
Inductive repaired : str -> str -> Prop :=
| R_empty : repaired [] []
| R_rune : forall r s t, scalar r -> repaired s t -> repaired (utf8 r ++ s) (utf8 r ++ t)
| R_wrong : forall b s t, (forall r q, scalar r -> b :: s <> utf8 r ++ q) -> repaired s t ->
    repaired (b :: s) (utf8 65533 ++ t).

Section Values.
(** The float64 a decimal number stands for; [None] if it is too large. *)
Context (parse64 : str -> option f64).
(** [means t j]: the value of a text with the content [t].  Of members with the
    same key the last one counts; the order of an object's keys does not. *)
Inductive means : tree -> json -> Prop :=
| N_null : means TNull JNull
| N_bool : forall b, means (TBool b) (JBool b)
| N_num : forall t x, parse64 t = Some x -> means (TNum t) (JNum x)
| N_str : forall s, means (TStr s) (JStr s)
| N_arr : forall l r, Forall2 means l r -> means (TArr l) (JArr r)
| N_obj : forall m r o, Forall2 (fun kt kj => fst kt = fst kj /\ means (snd kt) (snd kj)) m r ->
    NoDup (map fst o) -> (forall k, jlookup k o = jlookup k (rev r)) -> means (TObj m) (JObj o).
(** [decodes s j]: the value of the text [s].  A text nested deeper than 10000
    levels is rejected. *)
Definition decodes (s : str) (j : json) : Prop :=
  exists u t, repaired s u /\ document u t /\ (nesting t <= N.to_nat 10000)%nat /\ means t j.
End Values.

(** ** Metadata that survives as JSON *)
(** How deep a property is nested. *)
Fixpoint levels (p : prop) : nat :=
  match p with
  | PVec2 _ _ | PVec3 _ _ _ | PRaw _ _ => 1%nat
  | PBlock m => S ((fix go (l : list (str * prop)) : nat :=
                      match l with [] => O | kv :: l' => Nat.max (levels (snd kv)) (go l') end) m)
  | PArray _ ps => S ((fix go (l : list prop) : nat :=
                         match l with [] => O | v :: l' => Nat.max (levels v) (go l') end) ps)
  | _ => O
  end.
Section Faithful.
Context (time_text : Z -> str) (parse_time : str -> option Z).
(** [faithful p]: a property that JSON can tell from every other one.  Text is
    UTF-8 without quotes, backslashes and control characters, and looks neither
    like a byte array nor like a time; integers have at most six digits;
    fractions are fractions; arrays have elements, and their type is that of the
    first one; a block is not a vector. *)
Definition text_ok (s : str) : Prop := valid_utf8 s /\ plain_text s /\ ~ starts_0x s.
Inductive faithful : prop -> Prop :=
| A_string : forall s, text_ok s -> parse_time s = None -> faithful (PString s)
| A_int : forall z, (- 10 ^ 6 < z < 10 ^ 6)%Z -> faithful (PInt z)
| A_float : forall f, is_finite 24 128 f = true -> (forall z, B2R 24 128 f <> IZR z) -> faithful (PFloat f)
| A_bool : forall b, faithful (PBool b)
| A_byte : forall b, faithful (PByte b)
| A_vec2 : forall x y, is_finite 53 1024 x = true -> is_finite 53 1024 y = true -> faithful (PVec2 x y)
| A_vec3 : forall x y z, is_finite 53 1024 x = true -> is_finite 53 1024 y = true -> is_finite 53 1024 z = true ->
    faithful (PVec3 x y z)
| A_block : forall m, NoDup (map fst m) -> ~ is_vector m -> Forall (fun kv => valid_utf8 (fst kv) /\ faithful (snd kv)) m ->
    faithful (PBlock m)
| A_time : forall us, text_ok (time_text us) -> parse_time (time_text us) = Some us -> faithful (PTime us)
| A_array : forall c p ps, (forall b, p <> PBool b) -> prop_code p = Ok c -> faithful p -> Forall faithful ps ->
    faithful (PArray c (p :: ps))
| A_bytes : forall d, length d <> 1%nat -> lenN d < 2 ^ 48 -> faithful (new_binary_array d)
| A_bools : forall l, l <> [] -> lenN l < 2 ^ 48 -> faithful (new_bool_array l)
| A_nil : faithful PNil.
End Faithful.
(** What is assumed of the numbers that encoding/json and fmt write and read:
    they write JSON numbers, read integers as what they are, and read again
    every float they wrote; no float with a fraction is written as an integer, and
    small integers are written exactly. *)
Record number_text (parse64 : str -> option f64) (reparse32 : f64 -> option f32)
  (num64 : f64 -> str) (num32 : f32 -> str) : Prop := {
  written64 : forall x, is_finite 53 1024 x = true -> number (num64 x);
  written32 : forall f, is_finite 24 128 f = true -> number (num32 f);
  reads_int : forall t z, tells t z -> (- 2 ^ 31 <= z < 2 ^ 31)%Z -> exists x, parse64 t = Some x /\ integral x z;
  reads64 : forall x, is_finite 53 1024 x = true -> parse64 (num64 x) = Some x;
  reads32 : forall f, is_finite 24 128 f = true -> exists x, parse64 (num32 f) = Some x /\ reparse32 x = Some f /\
    is_finite 53 1024 x = true /\
    ((exists z, B2R 53 1024 x = IZR z) -> exists z, B2R 24 128 f = IZR z) /\
    (forall z, (Z.abs z < 2 ^ 24)%Z -> B2R 24 128 f = IZR z -> B2R 53 1024 x = IZR z)
}.
