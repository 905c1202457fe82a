(** Model of the String methods of format/metadata/property.go and of
    format/collection/*/capture.go. *)
From Coq Require Import Strings.String.
From Flocq Require Import Core.Zaux IEEE754.Binary.
From Verif Require Import Base Floats Metadata Recording Text ToJson.
Local Open Scope N_scope.

(** ** fmt's %.pf (standard library): exact decimal expansion, rounded to the
    nearest, the even one in the middle *)
Definition scaled (p : nat) (m : positive) (e : Z) : N :=
  if (0 <=? e)%Z then Npos m * 2 ^ Z.to_N e * 10 ^ N.of_nat p
  else div_even (Npos m * 10 ^ N.of_nat p) (2 ^ Z.to_N (- e)).
(** The last [p] decimal digits of [k]. *)
Fixpoint places (p : nat) (k : N) : str :=
  match p with
  | O => []
  | S p' => places p' (k / 10) ++ [n2b (48 + k mod 10)]
  end.
Definition fixed (p : nat) (x : f64) : str :=
  let put (s : bool) (n : N) :=
    (if s then lit "-" else []) ++ show_N (n / 10 ^ N.of_nat p) ++ lit "." ++ places p n in
  match x with
  | B754_zero _ _ s => put s 0
  | B754_finite _ _ s m e _ => put s (scaled p m e)
  | B754_infinity _ _ s => if s then lit "-Inf" else lit "+Inf"
  | B754_nan _ _ _ _ _ => lit "NaN"
  end.

(** format/metadata/property.go: the String methods (lines 45, 85, 138, 194,
    252, 313, 389, 469, 555, 614, 730).  The %f of a float32 is that of the
    float64 of the same value.  A block is shown key by key, in the order of
    the keys; String on a nil value panics.  Arrays do not look at their
    elements.  len(data)/division: the division is always 1, see [prop]. *)
Fixpoint prop_string (p : prop) : res str :=
  match p with
  | PString s => Ok s
  | PInt z => Ok (show_Z z)
  | PFloat f => Ok (fixed 6 (f64_of_f32 f))
  | PBool b => Ok (if b then lit "true" else lit "false")
  | PByte b => Ok (show_N (b2n b))
  | PVec2 x y => Ok (fixed 6 x ++ lit ", " ++ fixed 6 y)
  | PVec3 x y z => Ok (fixed 6 x ++ lit ", " ++ fixed 6 y ++ lit ", " ++ fixed 6 z)
  | PBlock m =>
      do body <- fold_right
          (fun (kt : str * res str) acc =>
             do t <- snd kt;
             do rest <- acc;
             Ok (bs [9] ++ lit """" ++ fst kt ++ lit """: " ++ t ++ lit ";" ++ nl ++ rest))
          (Ok [])
          (sort_keys ((fix go (l : list (str * prop)) : list (str * res str) :=
             match l with
             | [] => []
             | kv :: l' => let (k, v) := (kv : str * prop) in (k, prop_string v) :: go l'
             end) m));
      Ok (lit "{" ++ nl ++ body ++ lit "}")
  | PTime us => Ok (show_Z us ++ bs [32; 206; 188; 115])
  | PArray base ps => Ok (lit "Type " ++ show_N base ++ lit " Array of " ++ show_nat (List.length ps) ++ lit " elements")
  | PRaw base d => Ok (lit "Type " ++ show_N base ++ lit " Array of " ++ show_nat (List.length d) ++ lit " elements")
  | PNil => Panic
  end.

(** format/collection/{position,euler,enum,event,float}/capture.go (lines 25,
    29, 27, 35, 21): the String methods of captures.  Captures of foreign
    types are left out. *)
Definition stamp (t : f64) : str := lit "[" ++ fixed 2 t ++ lit "] ".
Definition three (v : vec) : str :=
  fixed 2 (vx v) ++ lit ", " ++ fixed 2 (vy v) ++ lit ", " ++ fixed 2 (vz v).
Definition position_string (c : f64 * vec) : str := stamp (fst c) ++ lit "- " ++ three (snd c).
Definition euler_string (c : f64 * vec) : str := stamp (fst c) ++ lit "Rotation - " ++ three (snd c).
Definition enum_string (c : f64 * Z) : str := stamp (fst c) ++ lit "Enum - " ++ show_Z (snd c).
Definition event_string (c : f64 * (str * block)) : str := stamp (fst c) ++ fst (snd c).
Definition float_string (c : f64 * f64) : str := stamp (fst c) ++ lit "- " ++ fixed 2 (snd c).
