(** Model of package format/metadata: properties, blocks and their binary
    encoding. *)
From Verif Require Import Base IO Floats BinaryIO.
Local Open Scope N_scope.

(** format/metadata/property.go: the implementations of Property (lines 31,
    71, 124, 177, 238, 297, 371, 453, 541, 598, 720).  A block
    (format/metadata/metadata.go:3-5) is a Go map: here an association list
    whose keys are distinct, in the order in which one iteration visits them.
    [PInt] holds an int32, [PTime] an int64 number of microseconds.
    [ArrayPropertyRaw.division] is left out: every constructor sets it to 1
    and only String() looks at it.  [PNil] is the nil interface. *)
Inductive prop : Type :=
| PString (s : str)
| PInt (z : Z)
| PFloat (f : f32)
| PBool (b : bool)
| PByte (b : byte)
| PVec2 (x y : f64)
| PVec3 (x y z : f64)
| PBlock (m : list (str * prop))
| PTime (us : Z)
| PArray (base : N) (ps : list prop)
| PRaw (base : N) (data : bytes)
| PNil.
Definition block := list (str * prop).

(** format/metadata/property.go: the Code methods (lines 41, 81, 134, 187,
    248, 309, 385, 465, 551, 610, 726).  Codes are bytes, so 13 + base wraps.
    Calling a method on the nil interface panics. *)
Definition prop_code (p : prop) : res N :=
  match p with
  | PString _ => Ok 0
  | PInt _ => Ok 1
  | PFloat _ => Ok 2
  | PBool b => Ok (if b then 3 else 4)
  | PByte _ => Ok 5
  | PVec2 _ _ => Ok 6
  | PVec3 _ _ _ => Ok 7
  | PBlock _ => Ok 11
  | PTime _ => Ok 12
  | PArray base _ => Ok ((13 + base) mod 256)
  | PRaw base _ => Ok ((13 + base) mod 256)
  | PNil => Panic
  end.

(** format/metadata/property.go: the Data methods (lines 49, 89, 142, 201,
    256, 317, 393, 485, 559, 618, 734).  MetadataProperty.Data iterates over
    the map once, to collect the keys, and then looks every key up again: with
    distinct keys that is the value met during the iteration. *)
Fixpoint prop_data (p : prop) : res bytes :=
  match p with
  | PString s => Ok (string_to_bytes s)
  | PInt z => Ok (le_bytes 4 z)
  | PFloat f => Ok (f32_bytes f)
  | PBool _ => Ok []
  | PByte b => Ok [b]
  | PVec2 x y => Ok (f64_bytes x ++ f64_bytes y)
  | PVec3 x y z => Ok (f64_bytes x ++ f64_bytes y ++ f64_bytes z)
  | PBlock m =>
      do vals <- (fix go (l : list (str * prop)) : res bytes :=
                    match l with
                    | [] => Ok []
                    | kv :: l' =>
                        let (_, v) := (kv : str * prop) in
                        do c <- prop_code v;
                        do d <- prop_data v;
                        do t <- go l';
                        Ok (n2b c :: d ++ t)
                    end) m;
      Ok (string_array_to_bytes (map fst m) ++ vals)
  | PTime us => Ok (le_bytes 8 us)
  | PArray _ ps =>
      do vals <- (fix go (l : list prop) : res bytes :=
                    match l with
                    | [] => Ok []
                    | v :: l' =>
                        do d <- prop_data v;
                        do t <- go l';
                        Ok (d ++ t)
                    end) ps;
      Ok (put_uvarint (lenN ps) ++ vals)
  | PRaw _ d => Ok d
  | PNil => Panic
  end.

(** format/metadata/io.go:12-19  WriteProprty into a bytes.Buffer (which
    never fails): the bytes appended. *)
Definition write_property (p : prop) : res bytes :=
  do c <- prop_code p;
  do d <- prop_data p;
  Ok (n2b c :: d).

(** Assignment to a Go map entry. *)
Fixpoint map_set (k : str) (v : prop) (m : block) : block :=
  match m with
  | [] => [(k, v)]
  | (k', v') :: m' =>
      if str_eqb k k' then (k, v) :: m' else (k', v') :: map_set k v m'
  end.

(** Two's complement readings of little-endian integers (binary.Read of an
    int32 / int64). *)
Definition signed (bits : Z) (z : Z) : Z :=
  (if z <? 2 ^ (bits - 1) then z else z - 2 ^ bits)%Z.
(** property.go:75-79  NewIntProperty: int32(i) *)
Definition new_int (z : Z) : prop := PInt (signed 32 (z mod 2 ^ 32))%Z.
(** property.go:806-812, 814-829  NewBinaryArrayProperty, NewBoolArrayProperty *)
Definition new_binary_array (d : bytes) : prop := PRaw 5 (bytes_array_to_bytes d).
Definition new_bool_array (l : list bool) : prop :=
  PRaw 3 (bytes_array_to_bytes (map (fun b : bool => if b then x01 else x00) l)).

Section WithReader.
Context {S : Type} (R : Reader S).

(** io.go:21-32  readFloat64s *)
Fixpoint read_float64s (k : nat) (s : S) : res (list f64 * option err * S) :=
  match k with
  | O => Ok ([], None, s)
  | Datatypes.S k' =>
      do (r, s1) <- binary_read R 8 s;
      match r with
      | (Some p, None) =>
          do (r2, s2) <- read_float64s k' s1;
          match r2 with
          | (l, None) => Ok (f64_of_bytes p :: l, None, s2)
          | (_, Some e) => Ok ([], Some e, s2)
          end
      | (_, e) => Ok ([], e, s1)
      end
  end.

(** io.go:165-172  ReadProperty, over a given readPropData *)
Definition read_property_with
  (rpd : N -> S -> res (option prop * option err * S)) (s : S)
  : res (option prop * option err * S) :=
  do (pe, s1) <- rread R 1 s;
  let (p, e) := pe in
  match e with
  | Some e => Ok (None, Some e, s1)
  | None => rpd (b2n (hd x00 p)) s1
  end.

(** io.go:42-47 and reader.go:80-85: read one property per key into a map *)
Fixpoint read_entries
  (rp : S -> res (option prop * option err * S)) (keys : list str)
  (acc : block) (s : S) : res (block * option err * S) :=
  match keys with
  | [] => Ok (acc, None, s)
  | k :: ks =>
      do (r, s1) <- rp s;
      match r with
      | (Some p, None) => read_entries rp ks (map_set k p acc) s1
      | (None, None) => read_entries rp ks (map_set k PNil acc) s1
      | (_, Some e) => Ok ([], Some e, s1)
      end
  end.

(** io.go:34-50  readNestedMetadatablock *)
Definition read_nested_with (rp : S -> res (option prop * option err * S))
  (s : S) : res (block * option err * S) :=
  do (r, s1) <- read_string_array R s;
  let '(keys, _, e) := r in
  match e with
  | Some e => Ok ([], Some e, s1)
  | None => read_entries rp keys [] s1
  end.

(** io.go:154-159: the loop over the elements of an array property *)
Fixpoint read_props (rpd : S -> res (option prop * option err * S)) (k : nat)
  (s : S) : res (list prop * option err * S) :=
  match k with
  | O => Ok ([], None, s)
  | Datatypes.S k' =>
      do (r, s1) <- rpd s;
      match r with
      | (Some p, None) =>
          do (r2, s2) <- read_props rpd k' s1;
          match r2 with
          | (l, None) => Ok (p :: l, None, s2)
          | (_, Some e) => Ok ([], Some e, s2)
          end
      | (None, None) =>
          do (r2, s2) <- read_props rpd k' s1;
          match r2 with
          | (l, None) => Ok (PNil :: l, None, s2)
          | (_, Some e) => Ok ([], Some e, s2)
          end
      | (_, Some e) => Ok ([], Some e, s1)
      end
  end.

(** io.go:52-163  readPropData *)
Fixpoint read_prop_data (fuel : nat) (code : N) (s : S)
  : res (option prop * option err * S) :=
  match fuel with
  | O => Stuck
  | Datatypes.S f =>
      match code with
      | 0 =>
          do (r, s1) <- read_string R s;
          let '(x, _, e) := r in
          match e with
          | Some e => Ok (None, Some e, s1)
          | None => Ok (Some (PString x), None, s1)
          end
      | 1 =>
          do (r, s1) <- binary_read R 4 s;
          match r with
          | (Some p, None) => Ok (Some (new_int (signed 32 (le_val p))), None, s1)
          | (_, e) => Ok (None, e, s1)
          end
      | 2 =>
          do (r, s1) <- binary_read R 4 s;
          match r with
          | (Some p, None) => Ok (Some (PFloat (f32_of_bytes p)), None, s1)
          | (_, e) => Ok (None, e, s1)
          end
      | 3 => Ok (Some (PBool true), None, s)
      | 4 => Ok (Some (PBool false), None, s)
      | 5 =>
          do (pe, s1) <- rread R 1 s;
          let (p, e) := pe in
          match e with
          | Some e => Ok (None, Some e, s1)
          | None => Ok (Some (PByte (hd x00 p)), None, s1)
          end
      | 6 =>
          do (r, s1) <- read_float64s 2 s;
          match r with
          | ([x; y], None) => Ok (Some (PVec2 x y), None, s1)
          | (_, Some e) => Ok (None, Some e, s1)
          | (_, None) => Panic
          end
      | 7 =>
          do (r, s1) <- read_float64s 3 s;
          match r with
          | ([x; y; z], None) => Ok (Some (PVec3 x y z), None, s1)
          | (_, Some e) => Ok (None, Some e, s1)
          | (_, None) => Panic
          end
      | 11 =>
          do (r, s1) <- read_nested_with (read_property_with (read_prop_data f)) s;
          match r with
          | (m, None) => Ok (Some (PBlock m), None, s1)
          | (_, Some e) => Ok (None, Some e, s1)
          end
      | 12 =>
          do (r, s1) <- binary_read R 8 s;
          match r with
          | (Some p, None) => Ok (Some (PTime (signed 64 (le_val p))), None, s1)
          | (_, e) => Ok (None, e, s1)
          end
      | 16 =>
          do (r, s1) <- read_bytes_array R s;
          let '(d, _, e) := r in
          match e with
          | Some e => Ok (None, Some e, s1)
          | None => Ok (Some (PRaw 3 (bytes_array_to_bytes d)), None, s1)
          end
      | 18 =>
          do (r, s1) <- read_bytes_array R s;
          let '(d, _, e) := r in
          match e with
          | Some e => Ok (None, Some e, s1)
          | None => Ok (Some (new_binary_array d), None, s1)
          end
      | 13 | 14 | 15 | 19 | 20 | 24 | 25 =>
          do (r, s1) <- read_uvarint R s;
          let '(len, _, e) := r in
          match e with
          | Some e => Ok (None, Some e, s1)
          | None =>
              go_make 16 len
                (do (r2, s2) <- read_props (read_prop_data f (code - 13))
                                           (N.to_nat len) s1;
                 match r2 with
                 | (l, None) => Ok (Some (PArray (code - 13) l), None, s2)
                 | (_, Some e) => Ok (None, Some e, s2)
                 end)
          end
      | _ => Ok (None, Some (EBadProperty code), s)
      end
  end.

(** Every level of nesting consumes at least one byte, so the number of bytes
    left bounds the recursion (proved in MetadataFacts.v). *)
Definition prop_fuel (s : S) : nat := Datatypes.S (rleft R s).

(** io.go:165-172  ReadProperty *)
Definition read_property (s : S) : res (option prop * option err * S) :=
  read_property_with (fun c s1 => read_prop_data (prop_fuel s) c s1) s.

End WithReader.
