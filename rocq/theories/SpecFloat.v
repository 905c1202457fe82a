(** Specification vocabulary for floats. *)
From Coq Require Import ZArith Reals.
From Flocq Require Import Core IEEE754.BinarySingleNaN IEEE754.Binary IEEE754.Bits.
From Verif Require Import Base Floats.
Local Open Scope R_scope.

Definition xinf : R := bpow radix2 1024.
(** The value of a float64 on the extended line: its real value when it is
    finite; the infinities are placed at +-2^1024, beyond every finite
    float64; NaN has none. *)
Definition xval (x : f64) : option R :=
  match x with
  | B754_nan _ _ _ _ _ => None
  | B754_infinity _ _ s => Some (if s then - xinf else xinf)
  | _ => Some (B2R 53 1024 x)
  end.
