(** Specification vocabulary for building recordings from JSON. *)
From Coq Require Import Strings.String Reals.
From Flocq Require Import IEEE754.Binary.
From Verif Require Import Base Floats Metadata Recording Json.
Local Open Scope N_scope.

(** Objects have distinct keys, at every depth. *)
Inductive jwf : json -> Prop :=
| W_null : jwf JNull
| W_bool : forall b, jwf (JBool b)
| W_num : forall x, jwf (JNum x)
| W_str : forall s, jwf (JStr s)
| W_arr : forall l, Forall jwf l -> jwf (JArr l)
| W_obj : forall m, NoDup (map fst m) -> Forall (fun kv => jwf (snd kv)) m -> jwf (JObj m).

(** [x] is the integer [z], an int64. *)
Definition integral (x : f64) (z : Z) : Prop :=
  is_finite 53 1024 x = true /\ B2R 53 1024 x = IZR z /\ (- 2 ^ 63 <= z < 2 ^ 63)%Z.

(** A value that stands for a vector: an object with exactly these keys. *)
Definition has_keys {A} (m : list (str * A)) (ks : list string) : Prop :=
  length m = length ks /\ forall k, In k ks -> In (lit k) (map fst m).
Definition is_vector {A} (m : list (str * A)) : Prop :=
  has_keys m ["x"; "y"]%string \/ has_keys m ["x"; "y"; "z"]%string.
Definition starts_0x (s : str) : Prop := exists r, s = lit "0x" ++ r.

(** Text that stands for itself between quotes: no quote, no backslash, no
    control character. *)
Definition plain_char (b : byte) : Prop := 32 <= b2n b /\ b <> """"%byte /\ b <> "\"%byte.
Definition plain_text (s : str) : Prop := Forall plain_char s.
(** Two hexadecimal digits per byte. *)
Definition hex_value (c : byte) (n : N) : Prop :=
  (48 <= b2n c <= 57 /\ n = b2n c - 48) \/ (97 <= b2n c <= 102 /\ n = b2n c - 97 + 10) \/
  (65 <= b2n c <= 70 /\ n = b2n c - 65 + 10).
Inductive hex_text : str -> bytes -> Prop :=
| X_nil : hex_text [] []
| X_cons : forall a b x y s d, hex_value a x -> hex_value b y -> hex_text s d ->
    hex_text (a :: b :: s) (n2b (16 * x + y) :: d).

Section Import.
Context (parse_time : str -> option Z) (reparse32 : f64 -> option f32) (big_atoi : f64 -> option Z).

(** [says j p]: the property [p] that the JSON value [j] stands for. *)
Inductive says : json -> prop -> Prop :=
| S_null : says JNull PNil
| S_bool : forall b, says (JBool b) (PBool b)
| S_int : forall x z, integral x z -> (- 10 ^ 6 < z < 10 ^ 6)%Z -> says (JNum x) (PInt z)
| S_float : forall x f, (forall z, ~ integral x z) -> reparse32 x = Some f -> says (JNum x) (PFloat f)
| S_byte : forall a b c, hex_text [a; b] [c] -> says (JStr (lit "0x" ++ [a; b])) (PByte c)
| S_bytes : forall s d, length s <> 2%nat -> hex_text s d -> says (JStr (lit "0x" ++ s)) (new_binary_array d)
| S_time : forall s t us, ~ starts_0x s -> parse_time s <> None -> unquote s = Some t -> parse_time t = Some us ->
    says (JStr s) (PTime us)
| S_text : forall s t, ~ starts_0x s -> parse_time s = None -> unquote s = Some t -> says (JStr s) (PString t)
| S_vec2 : forall m x y, has_keys m ["x"; "y"]%string ->
    jlookup (lit "x") m = Some (JNum x) -> jlookup (lit "y") m = Some (JNum y) ->
    says (JObj m) (PVec2 x y)
| S_vec3 : forall m x y z, has_keys m ["x"; "y"; "z"]%string ->
    jlookup (lit "x") m = Some (JNum x) -> jlookup (lit "y") m = Some (JNum y) -> jlookup (lit "z") m = Some (JNum z) ->
    says (JObj m) (PVec3 x y z)
| S_block : forall m b, ~ is_vector m ->
    Forall2 (fun kj kp => fst kj = fst kp /\ says (snd kj) (snd kp)) m b -> says (JObj m) (PBlock b)
| S_bools : forall b l, says (JArr (JBool b :: l)) (new_bool_array (b :: map as_bool l))
| S_array : forall j l p ps c, (forall b, j <> JBool b) -> says j p -> Forall2 says l ps ->
    prop_code p = Ok c -> says (JArr (j :: l)) (PArray c (p :: ps)).

(** The values on which the import panics: an empty array, an array that
    begins with null, a vector with a coordinate that is no number. *)
Inductive trap : json -> Prop :=
| T_empty : trap (JArr [])
| T_null : forall l, trap (JArr (JNull :: l))
| T_vector : forall m k v, is_vector m -> In (k, v) m -> (forall x, v <> JNum x) -> trap (JObj m).
Inductive within : json -> json -> Prop :=
| I_self : forall j, within j j
| I_arr : forall j x l, In x l -> within j x -> within j (JArr l)
| I_obj : forall j k x m, In (k, x) m -> within j x -> within j (JObj m).
(** The document [j] holds such a value in the metadata of one of its objects. *)
Definition risk (t j : json) : Prop :=
  exists m o, within (JObj m) j /\ In (lit "metadata", JObj o) m /\ within t (JObj o) /\ trap t.

(** Keys of an object. *)
Definition field (m : list (str * json)) (k : string) (v : json) : Prop := jlookup (lit k) m = Some v.
Definition no_field (m : list (str * json)) (k : string) : Prop := jlookup (lit k) m = None.
(** An array that may be missing. *)
Definition array_field (m : list (str * json)) (k : string) (l : list json) : Prop :=
  field m k (JArr l) \/ (no_field m k /\ l = []).

(** The metadata of an object: converted as a whole, or lost as a whole. *)
Definition metadata_of (m : list (str * json)) (b : block) : Prop :=
  (no_field m "metadata" /\ b = []) \/
  (exists o, field m "metadata" (JObj o) /\
     (says (JObj o) (PBlock b) \/ (b = [] /\ forall b', ~ says (JObj o) (PBlock b')))).

Definition vector_of (m : list (str * json)) (v : vec) : Prop :=
  field m "x" (JNum (vx v)) /\ field m "y" (JNum (vy v)) /\ field m "z" (JNum (vz v)).
Inductive vec_capture_of : json -> f64 * vec -> Prop :=
| V_cap : forall m d t v, field m "time" (JNum t) -> field m "data" (JObj d) -> vector_of d v ->
    vec_capture_of (JObj m) (t, v).
Inductive event_capture_of : json -> f64 * (str * block) -> Prop :=
| E_cap : forall m d t name md, field m "time" (JNum t) -> field m "data" (JObj d) ->
    field d "name" (JStr name) -> metadata_of d md -> event_capture_of (JObj m) (t, (name, md)).
Inductive enum_capture_of : json -> f64 * str -> Prop :=
| N_cap : forall m t s, field m "time" (JNum t) -> field m "data" (JStr s) -> enum_capture_of (JObj m) (t, s).
(** The captures in order.  (For enums see C35: every capture contributes a
    member, and every capture refers to the first one.) *)
Inductive body_of : string -> list json -> cbody -> Prop :=
| B_pos : forall l c, Forall2 vec_capture_of l c -> body_of "recolude.position" l (BPos c)
| B_euler : forall l c, Forall2 vec_capture_of l c -> body_of "recolude.euler" l (BEuler c)
| B_event : forall l c, Forall2 event_capture_of l c -> body_of "recolude.event" l (BEvent c)
| B_enum : forall l c, Forall2 enum_capture_of l c ->
    body_of "recolude.enum" l (BEnum (map snd c) (map (fun x => (fst x, 0%Z)) c)).
Inductive collection_of : json -> option coll -> Prop :=
| C_coll : forall m name ty l b, field m "name" (JStr name) -> field m "type" (JStr (lit ty)) ->
    field m "captures" (JArr l) -> body_of ty l b -> collection_of (JObj m) (Some (mkColl name b)).
Inductive reference_of : json -> option binref -> Prop :=
| R_ref : forall m name uri x n md, field m "name" (JStr name) -> field m "uri" (JStr uri) ->
    field m "size" (JNum x) ->
    ((integral x (Z.of_N n) /\ n <= 2 ^ 53) \/
     (exists z, integral x z /\ (2 ^ 53 < Z.abs z)%Z /\ big_atoi x = Some (Z.of_N n))) ->
    metadata_of m md -> reference_of (JObj m) (Some (mkRef name uri n md)).
(** [describes j r]: the recording that the document [j] describes. *)
Inductive describes : json -> recording -> Prop :=
| D_rec : forall m id name cs colls rs subs fs refs md,
    field m "id" (JStr id) -> field m "name" (JStr name) ->
    array_field m "collections" cs -> Forall2 collection_of cs colls ->
    array_field m "recordings" rs -> Forall2 (fun j o => exists r, o = Some r /\ describes j r) rs subs ->
    array_field m "references" fs -> Forall2 reference_of fs refs ->
    metadata_of m md ->
    describes (JObj m) (mkRec id name colls subs md [] refs).

(** [plain c j]: a value every part of which becomes a property that the
    package's constructors can build; [c] is the type code of the property
    (format/metadata/property.go).  An array holds values of one kind. *)
Inductive plain : N -> json -> Prop :=
| P_text : forall s, plain_text s -> ~ starts_0x s -> parse_time s = None -> plain 0 (JStr s)
| P_int : forall x z, integral x z -> (- 10 ^ 6 < z < 10 ^ 6)%Z -> plain 1 (JNum x)
| P_float : forall x, (forall z, ~ integral x z) -> reparse32 x <> None -> plain 2 (JNum x)
| P_true : plain 3 (JBool true)
| P_false : plain 4 (JBool false)
| P_byte : forall a b c, hex_text [a; b] [c] -> plain 5 (JStr (lit "0x" ++ [a; b]))
| P_vec2 : forall m, NoDup (map fst m) -> has_keys m ["x"; "y"]%string ->
    (forall k v, In (k, v) m -> exists x, v = JNum x) -> plain 6 (JObj m)
| P_vec3 : forall m, NoDup (map fst m) -> has_keys m ["x"; "y"; "z"]%string ->
    (forall k v, In (k, v) m -> exists x, v = JNum x) -> plain 7 (JObj m)
| P_object : forall m, NoDup (map fst m) -> ~ is_vector m ->
    (forall k v, In (k, v) m -> exists c, plain c v) -> plain 11 (JObj m)
| P_time : forall s us, plain_text s -> ~ starts_0x s -> parse_time s = Some us -> (- 2 ^ 63 <= us < 2 ^ 63)%Z ->
    plain 12 (JStr s)
| P_bytes : forall s d, length s <> 2%nat -> hex_text s d -> plain 18 (JStr (lit "0x" ++ s))
| P_bools : forall l, l <> [] -> (forall v, In v l -> exists b, v = JBool b) -> plain 16 (JArr l)
| P_array : forall c l, In c [0; 1; 2; 6; 7; 11; 12] -> l <> [] -> Forall (plain c) l -> plain (13 + c) (JArr l).

(** A document all of whose metadata is plain: that of the recording, of its
    references, of its events, and of its sub-recordings. *)
Definition plain_metadata (m : list (str * json)) : Prop :=
  forall v, field m "metadata" v -> exists c, plain c v.
Inductive plain_document : json -> Prop :=
| P_document : forall m, plain_metadata m ->
    (forall l x, field m "recordings" (JArr l) -> In x l -> plain_document x) ->
    (forall l o, field m "references" (JArr l) -> In (JObj o) l -> plain_metadata o) ->
    (forall l o cs c d, field m "collections" (JArr l) -> In (JObj o) l -> field o "captures" (JArr cs) ->
       In (JObj c) cs -> field c "data" (JObj d) -> plain_metadata d) ->
    plain_document (JObj m).
End Import.

(** The recordings of a tree beside the documents they come from. *)
Inductive comes_from : json -> recording -> json -> recording -> Prop :=
| F_self : forall j r, comes_from j r j r
| F_sub : forall m r l i x y j' r', jlookup (lit "recordings") m = Some (JArr l) ->
    nth_error l i = Some x -> nth_error (rec_recs r) i = Some (Some y) ->
    comes_from x y j' r' -> comes_from (JObj m) r j' r'.

(** The name an index selects. *)
Definition selects (members : list str) (i : Z) : option str :=
  if (i <? 0)%Z then None else nth_error members (Z.to_nat i).
