(** Go's float64 and float32 on amd64, and their little-endian encodings. *)
From Verif Require Import Base.
From Flocq Require Import Core.Zaux IEEE754.BinarySingleNaN IEEE754.Binary IEEE754.Bits.
Local Open Scope Z_scope.

Definition f64 := binary64.
Definition f32 := binary32.

(** encoding/binary.LittleEndian: the [k] low-order bytes of [z]. *)
Fixpoint le_bytes (k : nat) (z : Z) : bytes :=
  match k with
  | O => []
  | S k' => n2b (Z.to_N (z mod 256)) :: le_bytes k' (z / 256)
  end.
Fixpoint le_val (l : bytes) : Z :=
  match l with
  | [] => 0
  | b :: r => Z.of_N (b2n b) + 256 * le_val r
  end.

(** math.Float64bits / Float64frombits and the 32-bit versions. *)
Definition f64_bytes (x : f64) : bytes := le_bytes 8 (bits_of_b64 x).
Definition f64_of_bytes (l : bytes) : f64 := b64_of_bits (le_val l).
Definition f32_bytes (x : f32) : bytes := le_bytes 4 (bits_of_b32 x).
Definition f32_of_bytes (l : bytes) : f32 := b32_of_bits (le_val l).

(** Go's [float32(x)] (CVTSD2SS): round to nearest even; a NaN keeps its sign
    and the high bits of its payload and becomes quiet. *)
Definition f32_of_f64 (x : f64) : f32 :=
  match x with
  | B754_zero _ _ s => B754_zero 24 128 s
  | B754_infinity _ _ s => B754_infinity 24 128 s
  | B754_nan _ _ s pl _ =>
      b32_of_bits ((if s then 2 ^ 31 else 0) + 255 * 2 ^ 23
                   + Z.lor (Z.shiftr (Zpos pl) 29) (2 ^ 22))
  | B754_finite _ _ s m e _ =>
      binary_normalize 24 128 (eq_refl _) (eq_refl _) mode_NE
                       (cond_Zopp s (Zpos m)) e s
  end.

(** Go's [float64(x)] of a float32 (CVTSS2SD): exact; a NaN becomes quiet. *)
Definition f64_of_f32 (x : f32) : f64 :=
  match x with
  | B754_zero _ _ s => B754_zero 53 1024 s
  | B754_infinity _ _ s => B754_infinity 53 1024 s
  | B754_nan _ _ s pl _ =>
      b64_of_bits ((if s then 2 ^ 63 else 0) + 2047 * 2 ^ 52
                   + Z.lor (Z.shiftl (Zpos pl) 29) (2 ^ 51))
  | B754_finite _ _ s m e _ =>
      binary_normalize 53 1024 (eq_refl _) (eq_refl _) mode_NE
                       (cond_Zopp s (Zpos m)) e s
  end.

(** Arithmetic: IEEE, round to nearest even.  (The payload of a NaN *created*
    by an operation follows Flocq's convention; no theorem depends on it.) *)
Definition fadd (x y : f64) : f64 := b64_plus mode_NE x y.
Definition fsub (x y : f64) : f64 := b64_minus mode_NE x y.
Definition fmul (x y : f64) : f64 := b64_mult mode_NE x y.
Definition fdiv (x y : f64) : f64 := b64_div mode_NE x y.
Definition fsub32 (x y : f32) : f32 := b32_minus mode_NE x y.

(** Comparisons: false as soon as an operand is a NaN. *)
Definition flt (x y : f64) : bool :=
  match b64_compare x y with Some Lt => true | _ => false end.
Definition fle (x y : f64) : bool :=
  match b64_compare x y with Some Lt | Some Eq => true | _ => false end.
(** [x > y] and [x >= y] *)
Definition fgt (x y : f64) : bool := flt y x.
Definition fge (x y : f64) : bool := fle y x.

(** math.Floor *)
Definition ffloor (x : f64) : f64 :=
  Bnearbyint 53 1024 (eq_refl _) unop_nan_pl64 mode_DN x.

Definition f64_of_Z (z : Z) : f64 :=
  binary_normalize 53 1024 (eq_refl _) (eq_refl _) mode_NE z 0 false.

(** math.Inf(1), math.Inf(-1), and the literals used in the code. *)
Definition fpinf : f64 := B754_infinity 53 1024 false.
Definition fminf : f64 := B754_infinity 53 1024 true.
Definition f0 : f64 := B754_zero 53 1024 false.
Definition f2 : f64 := f64_of_Z 2.
Definition f4 : f64 := f64_of_Z 4.
Definition f360 : f64 := f64_of_Z 360.
Definition f32_0 : f32 := B754_zero 24 128 false.
