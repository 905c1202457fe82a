(** What the texts shown to a user are supposed to say. *)
From Coq Require Import Strings.String Permutation Sorting.Sorted Reals.
From Flocq Require Import Core IEEE754.Binary.
From Verif Require Import Base Floats Metadata Recording SpecText SpecToJson.
Local Open Scope N_scope.

(** [decimal p t x]: the text [t] is a decimal number with [p] places, off
    from [x] by half a unit of the last place at most; the sign is the sign
    of [x], also when the digits are all zero. *)
Definition decimal (p : nat) (t : str) (x : f64) : Prop :=
  is_finite 53 1024 x = true /\
  exists i f n,
    t = (if Bsign 53 1024 x then lit "-" else []) ++ i ++ lit "." ++ f /\
    spells i n /\ length f = p /\ Forall digit f /\
    (Rabs ((if Bsign 53 1024 x then -1 else 1) * IZR (Z.of_N (text_val 0 (i ++ f))) / 10 ^ p - B2R 53 1024 x)
     <= / 2 / 10 ^ p)%R.
(** The text of any float64. *)
Definition decimals (p : nat) (t : str) (x : f64) : Prop :=
  decimal p t x \/
  (exists s, x = B754_infinity 53 1024 s /\ t = if s then lit "-Inf" else lit "+Inf") \/
  (is_nan 53 1024 x = true /\ t = lit "NaN").

(** The order of texts by their bytes: [a] is a proper prefix of [b], or has
    the smaller byte where they first differ. *)
Definition before (a b : str) : Prop :=
  exists p r, (a = p /\ exists c, b = p ++ c :: r) \/
              (exists x y s, a = p ++ x :: r /\ b = p ++ y :: s /\ b2n x < b2n y).

(** [displays p t]: the text that shows the property [p]. *)
Inductive displays : prop -> str -> Prop :=
| D_string : forall s, displays (PString s) s
| D_int : forall z t, tells t z -> displays (PInt z) t
| D_float : forall f t, decimals 6 t (f64_of_f32 f) -> displays (PFloat f) t
| D_bool : forall b : bool, displays (PBool b) (if b then lit "true" else lit "false")
| D_byte : forall b t, spells t (b2n b) -> displays (PByte b) t
| D_vec2 : forall x y a b, decimals 6 a x -> decimals 6 b y -> displays (PVec2 x y) (a ++ lit ", " ++ b)
| D_vec3 : forall x y z a b c, decimals 6 a x -> decimals 6 b y -> decimals 6 c z ->
    displays (PVec3 x y z) (a ++ lit ", " ++ b ++ lit ", " ++ c)
| D_time : forall us t, tells t us -> displays (PTime us) (t ++ bs [32; 206; 188; 115])
| D_array : forall base ps b n, spells b base -> spells n (N.of_nat (length ps)) ->
    displays (PArray base ps) (lit "Type " ++ b ++ lit " Array of " ++ n ++ lit " elements")
| D_bytes : forall d b n, spells b 5 -> spells n (N.of_nat (length d)) ->
    displays (new_binary_array d) (lit "Type " ++ b ++ lit " Array of " ++ n ++ lit " elements")
| D_bools : forall l b n, spells b 3 -> spells n (N.of_nat (length l)) ->
    displays (new_bool_array l) (lit "Type " ++ b ++ lit " Array of " ++ n ++ lit " elements")
(** A block: one line per entry, in the order of the keys. *)
| D_block : forall m l body, Permutation m l -> StronglySorted (fun a b => before (fst a) (fst b)) l ->
    lines l body -> displays (PBlock m) (bs [123; 10] ++ body ++ lit "}")
with lines : block -> str -> Prop :=
| L_nil : lines [] []
| L_cons : forall k v l t body, displays v t -> lines l body ->
    lines ((k, v) :: l) (bs [9] ++ lit """" ++ k ++ lit """: " ++ t ++ lit ";" ++ bs [10] ++ body).

(** Only what is shown counts: arrays hide their elements. *)
Inductive shows_nil : prop -> Prop :=
| N_nil : shows_nil PNil
| N_in : forall m k v, In (k, v) m -> shows_nil v -> shows_nil (PBlock m).
(** A byte array or bool array is shown. *)
Inductive shows_raw : prop -> Prop :=
| W_raw : forall base d, shows_raw (PRaw base d)
| W_in : forall m k v, In (k, v) m -> shows_raw v -> shows_raw (PBlock m).
(** The keys of every block are distinct (they are Go maps). *)
Inductive proper : prop -> Prop :=
| P_leaf : forall p, match p with PBlock _ => False | _ => True end -> proper p
| P_block : forall m, NoDup (map fst m) -> (forall k v, In (k, v) m -> proper v) -> proper (PBlock m).

(** A vector shown with two places. *)
Definition vector (t : str) (v : vec) : Prop :=
  exists a b c, decimals 2 a (vx v) /\ decimals 2 b (vy v) /\ decimals 2 c (vz v) /\
                t = a ++ lit ", " ++ b ++ lit ", " ++ c.
(** A line that starts with a time. *)
Definition at_time (t : str) (x : f64) (rest : str) : Prop :=
  exists a, decimals 2 a x /\ t = lit "[" ++ a ++ lit "] " ++ rest.
