(** Model of format/parsing/json.go and of format/metadata/utils.go: building a
    recording from a JSON document. *)
From Coq Require Import Strings.String.
From Flocq Require Import Core.Zaux IEEE754.Binary.
From Verif Require Import Base IO Floats Metadata Recording Text.
Local Open Scope N_scope.

(** What encoding/json makes of a document (interface{} values): objects are
    maps, hence lists with distinct keys in the order in which an iteration
    visits them; strings are valid UTF-8; numbers are finite float64s. *)
Inductive json : Type :=
| JNull
| JBool (b : bool)
| JNum (x : f64)
| JStr (s : str)
| JArr (l : list json)
| JObj (m : list (str * json)).

(** The content of a JSON text.  Numbers are kept as they are written, objects
    as lists of their members, with repetitions. *)
Inductive tree : Type :=
| TNull
| TBool (b : bool)
| TNum (t : str)
| TStr (s : str)
| TArr (l : list tree)
| TObj (m : list (str * tree)).

Fixpoint jlookup (k : str) (m : list (str * json)) : option json :=
  match m with
  | [] => None
  | (k', v) :: m' => if str_eqb k k' then Some v else jlookup k m'
  end.

(** gabs v1.4.0 (not part of the repository) Container.Path of a name without
    dots: the value of a key; of an array, the array of what its elements
    have there.  [None] is a nil container, a JSON null is not. *)
Fixpoint path (k : str) (j : json) : option json :=
  match j with
  | JObj m => jlookup k m
  | JArr l =>
      match (fix go (l : list json) : list json :=
               match l with
               | [] => []
               | x :: l' => match path k x with Some v => v :: go l' | None => go l' end
               end) l with
      | [] => None
      | r => Some (JArr r)
      end
  | _ => None
  end.

(** A step that may panic ([Panic]) or report an error ([Ok None]).  The error
    texts are not kept apart. *)
Definition obind {A B} (m : res (option A)) (k : A -> res (option B)) : res (option B) :=
  do o <- m; match o with Some a => k a | None => Ok None end.
Definition fail {A} : res (option A) := Ok None.
Definition ret {A} (a : A) : res (option A) := Ok (Some a).
Fixpoint each {A B} (f : A -> res (option B)) (l : list A) : res (option (list B)) :=
  match l with
  | [] => ret []
  | x :: l' => obind (f x) (fun y => obind (each f l') (fun r => ret (y :: r)))
  end.

(** ** Text in quotes *)
(** The value of a hexadecimal digit (encoding/hex and the \u escapes of
    encoding/json accept both cases). *)
Definition hex_digit (b : byte) : option N :=
  let n := b2n b in
  if (48 <=? n) && (n <=? 57) then Some (n - 48)
  else if (97 <=? n) && (n <=? 102) then Some (n - 87)
  else if (65 <=? n) && (n <=? 70) then Some (n - 55)
  else None.
(** hex.DecodeString (standard library) *)
Fixpoint hex_decode (s : str) : option bytes :=
  match s with
  | [] => Some []
  | a :: b :: s' =>
      match hex_digit a, hex_digit b, hex_decode s' with
      | Some x, Some y, Some r => Some (n2b (16 * x + y) :: r)
      | _, _, _ => None
      end
  | [_] => None
  end.
(** utf8.AppendRune (standard library) *)
Definition utf8 (r : N) : bytes :=
  if r <? 128 then bs [r]
  else if r <? 2048 then bs [192 + r / 64; 128 + r mod 64]
  else if r <? 65536 then bs [224 + r / 4096; 128 + r / 64 mod 64; 128 + r mod 64]
  else bs [240 + r / 262144; 128 + r / 4096 mod 64; 128 + r / 64 mod 64; 128 + r mod 64].
Definition hex4 (a b c d : byte) : option N :=
  match hex_digit a, hex_digit b, hex_digit c, hex_digit d with
  | Some w, Some x, Some y, Some z => Some (4096 * w + 256 * x + 16 * y + z)
  | _, _, _, _ => None
  end.
(** encoding/json's reading of the text [s] between two quotes as a string:
    [None] if the whole is not one JSON string, that is if [s] contains a bare
    quote, a control character or a bad escape.  Bytes from 128 on are passed on
    (they are parts of valid UTF-8).  [hi] is a first surrogate waiting for the
    second one; without it a surrogate becomes U+FFFD. *)
Fixpoint unquote_from (hi : option N) (s : str) : option str :=
  let lone (t : str) := match hi with Some _ => utf8 65533 ++ t | None => t end in
  let put (p : str) (r : option str) := match r with Some t => Some (lone (p ++ t)) | None => None end in
  match s with
  | [] => Some (lone [])
  | c :: s' =>
      if beqb c """" then None
      else if b2n c <? 32 then None
      else if negb (beqb c "\") then put [c] (unquote_from None s')
      else
        match s' with
        | [] => None
        | e :: s' =>
            if beqb e """" || beqb e "\" || beqb e "/" then put [e] (unquote_from None s')
            else if beqb e "b" then put (bs [8]) (unquote_from None s')
            else if beqb e "f" then put (bs [12]) (unquote_from None s')
            else if beqb e "n" then put (bs [10]) (unquote_from None s')
            else if beqb e "r" then put (bs [13]) (unquote_from None s')
            else if beqb e "t" then put (bs [9]) (unquote_from None s')
            else if negb (beqb e "u") then None
            else
              match s' with
              | w :: x :: y :: z :: s' =>
                  match hex4 w x y z with
                  | None => None
                  | Some r =>
                      if (55296 <=? r) && (r <? 56320) then
                        match unquote_from (Some r) s' with Some t => Some (lone t) | None => None end
                      else if (56320 <=? r) && (r <? 57344) then
                        match hi with
                        | Some h =>
                            match unquote_from None s' with
                            | Some t => Some (utf8 (65536 + 1024 * (h - 55296) + (r - 56320)) ++ t)
                            | None => None
                            end
                        | None => put (utf8 65533) (unquote_from None s')
                        end
                      else put (utf8 r) (unquote_from None s')
                  end
              | _ => None
              end
        end
  end.
Definition unquote (s : str) : option str := unquote_from None s.

(** ** Numbers *)
(** [int64(x)] if [x == float64(int64(x))] (the conversion truncates; beyond
    the range it gives the smallest int64 on amd64) *)
Definition int_of (x : f64) : option Z :=
  match x with
  | B754_zero _ _ _ => Some 0%Z
  | B754_finite _ _ s m e _ =>
      let q := if (0 <=? e)%Z then Some (Zpos m * 2 ^ e)%Z
               else if (Zpos m mod 2 ^ (- e) =? 0)%Z then Some (Zpos m / 2 ^ (- e))%Z
               else None in
      match q with
      | Some a =>
          let z := cond_Zopp s a in
          if ((- 2 ^ 63 <=? z) && (z <? 2 ^ 63))%Z%bool then Some z else None
      | None => None
      end
  | _ => None
  end.

Section Import.
(** time.Parse(time.RFC3339Nano, s) followed by UnixMicro; [None] is an error *)
Context (parse_time : str -> option Z).
(** json.Unmarshal([]byte(fmt.Sprintf("%v", x)), &f) for a float32 [f];
    [None] is an error (out of range) *)
Context (reparse32 : f64 -> option f32).
(** strconv.Atoi of the text json.Marshal writes for an integer of 2^53 or
    more, where that text need not be exact; [None] is an error *)
Context (big_atoi : f64 -> option Z).

(** format/metadata/utils.go:48-74, property.go:51-58, 275-286, 576-587: the text
    is put between quotes without escaping and read again as JSON *)
Definition string_property (d : str) : res (option prop) :=
  match strip (lit "0x") d with
  | Some rest =>
      if lenN d =? 4 then
        match unquote d with
        | None => fail
        | Some t =>
            match hex_decode match strip (lit "0x") t with Some r => r | None => t end with
            | None => fail
            | Some [] => Panic
            | Some (b :: _) => ret (PByte b)
            end
        end
      else match hex_decode rest with Some b => ret (new_binary_array b) | None => fail end
  | None =>
      match parse_time d with
      | Some _ =>
          match unquote d with
          | None => fail
          | Some t => match parse_time t with Some us => ret (PTime us) | None => fail end
          end
      | None => match unquote d with Some t => ret (PString t) | None => fail end
      end
  end.
(** utils.go:75-87, property.go:102-109, 155-162.  fmt writes integers from a
    million on with an exponent, and such a text is no int32 for encoding/json. *)
Definition number_property (x : f64) : res (option prop) :=
  match int_of x with
  | Some z => if (Z.abs z <? 10 ^ 6)%Z then ret (PInt z) else fail
  | None => match reparse32 x with Some f => ret (PFloat f) | None => fail end
  end.
Definition as_bool (j : json) : bool := match j with JBool b => b | _ => false end.

(** utils.go:11-96  getProperties.  [x.(float64)] panics unless x is a number,
    [d[0]] of an empty array panics, and so does the Code method of nil. *)
Fixpoint get_properties (j : json) : res (option prop) :=
  match j with
  | JObj m =>
      let x := jlookup (lit "x") m in
      let y := jlookup (lit "y") m in
      let z := jlookup (lit "z") m in
      match (lenN m =? 2)%N, x, y with
      | true, Some x, Some y =>
          match x, y with
          | JNum x, JNum y => ret (PVec2 x y)
          | _, _ => Panic
          end
      | _, _, _ =>
          match (lenN m =? 3)%N, x, y, z with
          | true, Some x, Some y, Some z =>
              match x, y, z with
              | JNum x, JNum y, JNum z => ret (PVec3 x y z)
              | _, _, _ => Panic
              end
          | _, _, _, _ =>
              obind ((fix go (l : list (str * json)) : res (option block) :=
                        match l with
                        | [] => ret []
                        | kv :: l' =>
                            let (k, v) := (kv : str * json) in
                            obind (get_properties v) (fun p =>
                            obind (go l') (fun r => ret ((k, p) :: r)))
                        end) m)
                    (fun b => ret (PBlock b))
          end
      end
  | JArr l =>
      match l with
      | [] => Panic
      | JBool _ :: _ => ret (new_bool_array (map as_bool l))
      | _ =>
          obind ((fix go (l : list json) : res (option (list prop)) :=
                    match l with
                    | [] => ret []
                    | v :: l' =>
                        obind (get_properties v) (fun p =>
                        obind (go l') (fun r => ret (p :: r)))
                    end) l)
                (fun ps => match ps with
                           | [] => Panic
                           | p :: _ => do c <- prop_code p; ret (PArray c ps)
                           end)
      end
  | JStr d => string_property d
  | JNum x => number_property x
  | JBool b => ret (PBool b)
  | JNull => ret PNil
  end.

(** json.go:28-43  parseMetadata, with property.go:515-530.  The metadata is
    written as JSON and read again, which changes nothing.  The error of
    UnmarshalJSON is dropped: the block is then the empty one. *)
Definition parse_metadata (j : json) : res (option block) :=
  match path (lit "metadata") j with
  | None => ret []
  | Some (JObj m) =>
      do p <- get_properties (JObj m);
      match p with
      | Some (PBlock b) => ret b
      | _ => ret []
      end
  | Some _ => fail
  end.

(** json.go:140-152, 169-181, 183-195 *)
Definition string_key (j : json) (k : string) : res (option str) :=
  match path (lit k) j with Some (JStr s) => ret s | _ => fail end.
Definition float_key (j : json) (k : string) : res (option f64) :=
  match path (lit k) j with Some (JNum x) => ret x | _ => fail end.

(** json.go:76-106  parseReferenceFromJSON.  The text of an integer has no
    exponent below 10^21 and is exact up to 2^53; from 2^63 on it is too large
    for Atoi, and so are fractions and exponents unreadable. *)
Definition atoi (x : f64) : option Z :=
  match int_of x with
  | Some z => if (Z.abs z <=? 2 ^ 53)%Z then Some z else big_atoi x
  | None => None
  end.
Definition parse_reference (j : json) : res (option binref) :=
  obind (string_key j "name") (fun name =>
  obind (string_key j "uri") (fun uri =>
  obind (parse_metadata j) (fun md =>
  match path (lit "size") j with
  | Some (JNum x) =>
      match atoi x with
      | Some z => if (z <? 0)%Z then fail else ret (mkRef name uri (Z.to_N z) md)
      | None => fail
      end
  | _ => fail
  end))).

(** json.go:197-214  parseVector3; a nil container has no keys *)
Definition parse_vector (j : option json) : res (option vec) :=
  match j with
  | None => fail
  | Some j =>
      obind (float_key j "x") (fun x =>
      obind (float_key j "y") (fun y =>
      obind (float_key j "z") (fun z => ret (mkVec x y z))))
  end.
(** json.go:216-234, 236-254 *)
Definition vec_capture (j : json) : res (option (f64 * vec)) :=
  obind (float_key j "time") (fun t =>
  obind (parse_vector (path (lit "data") j)) (fun v => ret (t, v))).
(** json.go:256-284  parseEnumCollection.  The table of known entries is never
    filled, so that it has no entry for any name and its length is 0; every
    name is appended. *)
Definition enum_capture (j : json) : res (option (f64 * str)) :=
  obind (float_key j "time") (fun t =>
  obind (string_key j "data") (fun s => ret (t, s))).
Definition enum_body (l : list (f64 * str)) : cbody :=
  BEnum (map snd l) (map (fun c => (fst c, 0%Z)) l).
(** json.go:286-314  parseEventCollection *)
Definition event_capture (j : json) : res (option (f64 * (str * block))) :=
  obind (float_key j "time") (fun t =>
  match path (lit "data") j with
  | None => fail
  | Some d =>
      obind (string_key d "name") (fun name =>
      obind (parse_metadata d) (fun md => ret (t, (name, md))))
  end).
(** json.go:316-352  parseCollectionFromJSON *)
Definition parse_collection (j : json) : res (option coll) :=
  obind (string_key j "name") (fun name =>
  obind (string_key j "type") (fun ty =>
  match path (lit "captures") j with
  | Some (JArr l) =>
      if str_eqb ty sig_position then
        obind (each vec_capture l) (fun c => ret (mkColl name (BPos c)))
      else if str_eqb ty sig_euler then
        obind (each vec_capture l) (fun c => ret (mkColl name (BEuler c)))
      else if str_eqb ty sig_event then
        obind (each event_capture l) (fun c => ret (mkColl name (BEvent c)))
      else if str_eqb ty sig_enum then
        obind (each enum_capture l) (fun c => ret (mkColl name (enum_body c)))
      else fail
  | _ => fail
  end)).

(** json.go:108-138, 354-384: an array of objects, or nothing at all *)
Definition is_obj (j : json) : bool := match j with JObj _ => true | _ => false end.
Definition parse_array {A} (k : string) (f : json -> res (option A)) (j : json)
  : res (option (list (option A))) :=
  match path (lit k) j with
  | None => ret []
  | Some (JArr l) =>
      obind (each (fun x => if is_obj x then f x else fail) l) (fun r => ret (map Some r))
  | Some _ => fail
  end.

(** json.go:45-74  parseSubRecordings, over a given parseRecordingFromJSON, on
    the entries of an object.  (What is no object has no id: json.go:396.) *)
Definition sub_recordings (f : json -> res (option recording)) :=
  fix go (m : list (str * json)) : res (option (list (option recording))) :=
    match m with
    | [] => ret []
    | kv :: m' =>
        let (k, v) := (kv : str * json) in
        if str_eqb (lit "recordings") k then
          match v with
          | JArr l => obind ((fix loop (l : list json) : res (option (list recording)) :=
                                match l with
                                | [] => ret []
                                | x :: l' =>
                                    obind (if is_obj x then f x else fail) (fun y =>
                                    obind (loop l') (fun r => ret (y :: r)))
                                end) l)
                            (fun r => ret (map Some r))
          | _ => fail
          end
        else go m'
    end.
(** json.go:386-434  parseRecordingFromJSON.  A value without children, and one
    whose id or name is no string, is rejected first. *)
Fixpoint parse_recording (j : json) : res (option recording) :=
  obind (string_key j "id") (fun id =>
  obind (string_key j "name") (fun name =>
  match j with
  | JObj m =>
      obind (sub_recordings parse_recording m) (fun subs =>
      obind (parse_metadata j) (fun md =>
      obind (parse_array "references" parse_reference j) (fun refs =>
      obind (parse_array "collections" parse_collection j) (fun colls =>
      ret (mkRec id name colls subs md [] refs)))))
  | _ => fail
  end)).
(** json.go:436-442  FromJSON, after gabs.ParseJSON; [None] is an error *)
Definition from_json (doc : option json) : res (option recording) :=
  match doc with None => fail | Some j => parse_recording j end.
End Import.
