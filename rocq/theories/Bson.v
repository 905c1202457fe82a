(** Model of the BSON methods of package format/metadata.  They hand their
    content to go.mongodb.org/mongo-driver/bson (v1.11.6, go.mod:12), whose
    encoding of the few Go types used here is modelled from its source. *)
From Coq Require Import Strings.String.
From Verif Require Import Base IO Floats BinaryIO Metadata Recording Text.
Local Open Scope N_scope.

(** The errors: a key with a zero byte, a document above 2^31 - 1 bytes, a raw
    array whose bytes cannot be read. *)
Inductive bson_err := BadKey | TooLarge | BadArray.
Definition bson (A : Type) : Type := (A + bson_err)%type.

(** mongo-driver: the writer keeps the document under construction in a
    buffer; at its end it writes the length in front and refuses if the buffer
    ([extra] bytes before the document included) is above 2^31 - 1. *)
Definition finish (extra : N) (body : bytes) : bson bytes :=
  let n := 4 + lenN body + 1 in
  if extra + n <=? 2147483647 then inl (le_bytes 4 (Z.of_N n) ++ body ++ [x00]) else inr TooLarge.
(** mongo-driver: the element's header, checked after the value was made *)
Definition has_zero (k : str) : bool := existsb (fun b => b2n b =? 0) k.
Definition element (k : str) (tv : N * bytes) : bson bytes :=
  if has_zero k then inr BadKey else inl (n2b (fst tv) :: k ++ [x00] ++ snd tv).

(** mongo-driver: time.Time becomes a count of milliseconds;
    property.go:594  time.Unix(0, tp.microseconds*1000) multiplies in int64 *)
Definition bson_date (us : Z) : Z := (signed 64 ((us * 1000) mod 2 ^ 64) / 1000000)%Z.

(** an array is a document whose keys are 0, 1, 2, ... *)
Fixpoint array_body (i : nat) (l : list (N * bytes)) : bson bytes :=
  match l with
  | [] => inl []
  | tv :: l' =>
      match element (show_nat i) tv with
      | inr e => inr e
      | inl b => match array_body (S i) l' with inl t => inl (b ++ t) | inr e => inr e end
      end
  end.
Definition bool_value (b : bool) : N * bytes := (8, [if b then x01 else x00]).
Definition double_value (x : f64) : N * bytes := (1, f64_bytes x).
Definition array_value (l : list (N * bytes)) : bson (N * bytes) :=
  match array_body 0 l with
  | inr e => inr e
  | inl b => match finish 2 b with inl d => inl (4, d) | inr e => inr e end
  end.
(** a struct of doubles with the fields named in its tags *)
Definition doubles (l : list (str * f64)) : bson (N * bytes) :=
  match finish 0 (concat (map (fun kx => n2b 1 :: fst kx ++ [x00] ++ f64_bytes (snd kx)) l)) with
  | inl d => inl (3, d)
  | inr e => inr e
  end.

(** property.go:66, 119, 172, 233, 292, 359-368, 439-450, 536, 593, 658,
    783-804: MarshalBSONValue and MarshalBSON, the type of the value and its
    bytes.  A nil property becomes null.  A map is visited in the order of the
    list.  A panic of the reading of a raw array, which only a hand-made array
    can cause, counts as an error. *)
Fixpoint bson_value (p : prop) : bson (N * bytes) :=
  match p with
  | PString s => inl (2, le_bytes 4 (Z.of_N (lenN s + 1)) ++ s ++ [x00])
  | PInt z => inl (16, le_bytes 4 z)
  | PFloat f => inl (double_value (f64_of_f32 f))
  | PBool b => inl (bool_value b)
  | PByte b => inl (16, le_bytes 4 (Z.of_N (b2n b)))
  | PVec2 x y => doubles [(lit "x", x); (lit "y", y)]
  | PVec3 x y z => doubles [(lit "x", x); (lit "y", y); (lit "z", z)]
  | PBlock m =>
      match (fix go (l : list (str * prop)) : bson bytes :=
               match l with
               | [] => inl []
               | kv :: l' =>
                   match bson_value (snd kv) with
                   | inr e => inr e
                   | inl tv =>
                       match element (fst kv) tv with
                       | inr e => inr e
                       | inl b => match go l' with inl t => inl (b ++ t) | inr e => inr e end
                       end
                   end
               end) m with
      | inr e => inr e
      | inl b => match finish 0 b with inl d => inl (3, d) | inr e => inr e end
      end
  | PTime us => inl (9, le_bytes 8 (bson_date us))
  | PArray _ ps =>
      match (fix go (l : list prop) : bson (list (N * bytes)) :=
               match l with
               | [] => inl []
               | v :: l' =>
                   match bson_value v with
                   | inr e => inr e
                   | inl tv => match go l' with inl t => inl (tv :: t) | inr e => inr e end
                   end
               end) ps with
      | inr e => inr e
      | inl l => array_value l
      end
  | PRaw base d =>
      match read_bytes_array flat d with
      | Ok (br, _, None, _) =>
          if base =? 5 then inl (5, le_bytes 4 (Z.of_N (lenN br)) ++ x00 :: br)
          else if base =? 3 then array_value (map (fun b => bool_value (b2n b mod 2 =? 1)) br)
          else inl (10, [])
      | _ => inr BadArray
      end
  | PNil => inl (10, [])
  end.

(** property.go:536  MetadataProperty.MarshalBSON: the document of a block *)
Definition marshal_bson (m : block) : bson bytes :=
  match bson_value (PBlock m) with
  | inl (_, d) => inl d
  | inr e => inr e
  end.
