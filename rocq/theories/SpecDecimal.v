(** Specification vocabulary for numbers written as text. *)
From Coq Require Import Strings.String Reals.
From Flocq Require Import Core IEEE754.Binary.
From Verif Require Import Base Floats Recording.
Local Open Scope R_scope.

(** The digits, and the number a sequence of them stands for. *)
Definition dec (c : byte) (v : Z) : Prop := (0 <= v < 10)%Z /\ Z.of_N (b2n c) = (48 + v)%Z.
Definition hex (c : byte) (v : Z) : Prop :=
  dec c v \/ (10 <= v < 16)%Z /\ (Z.of_N (b2n c) = 55 + v \/ Z.of_N (b2n c) = 87 + v)%Z.
Inductive numeral (digit : byte -> Z -> Prop) (base : Z) : str -> Z -> Prop :=
| D_none : numeral digit base [] 0
| D_more : forall s n c v, numeral digit base s n -> digit c v -> numeral digit base (s ++ [c]) (base * n + v).

(** An optional sign. *)
Inductive sign : str -> bool -> Prop :=
| S_none : sign [] false
| S_plus : sign (lit "+") false
| S_minus : sign (lit "-") true.
Definition signed (neg : bool) (x : R) : R := if neg then - x else x.
(** Digits, with or without a point among, before or behind them; [k] of them
    follow it. *)
Inductive with_point (digit : byte -> Z -> Prop) (base : Z) : str -> Z -> nat -> Prop :=
| P_without : forall d n, d <> [] -> numeral digit base d n -> with_point digit base d n 0
| P_with : forall d q n, d ++ q <> [] -> numeral digit base (d ++ q) n ->
    with_point digit base (d ++ lit "." ++ q) n (length q).
(** An exponent, introduced by one of the two letters. *)
Inductive exponent (small large : string) : str -> Z -> Prop :=
| E_written : forall l s neg d n, l = lit small \/ l = lit large -> sign s neg ->
    d <> [] -> numeral dec 10 d n -> exponent small large (l ++ s ++ d) (if neg then - n else n).

(** [literal s neg x e]: the text [s] is a number with the value [x], negative if [neg]
    (it says whether a zero is), written with the exponent [e]: decimal, or
    hexadecimal with a power of two. *)
Inductive literal : str -> bool -> R -> Z -> Prop :=
| L_decimal : forall s neg t n k, sign s neg -> with_point dec 10 t n k ->
    literal (s ++ t) neg (signed neg (IZR n / 10 ^ k)) 0
| L_exponent : forall s neg t n k u e, sign s neg -> with_point dec 10 t n k -> exponent "e" "E" u e ->
    literal (s ++ t ++ u) neg (signed neg (IZR n / 10 ^ k * powerRZ 10 e)) e
| L_hex : forall s neg x t n k u e, sign s neg -> x = lit "0x" \/ x = lit "0X" -> with_point hex 16 t n k ->
    exponent "p" "P" u e ->
    literal (s ++ x ++ t ++ u) neg (signed neg (IZR n / 16 ^ k * powerRZ 2 e)) e.

(** The words for numbers that are not finite, in any case. *)
Definition same_letter (c l : byte) : Prop := (b2n c = b2n l \/ b2n c + 32 = b2n l)%N.
Definition word (w : string) (s : str) : Prop := Forall2 same_letter s (lit w).

(** [nearest prec emax x neg f]: the finite float nearest to [x]; of two as near
    the one with the even significand; a zero with the sign [neg]. *)
Definition nearest (prec emax : Z) (x : R) (neg : bool) (f : binary_float prec emax) : Prop :=
  is_finite prec emax f = true /\ Bsign prec emax f = neg /\
  B2R prec emax f = round radix2 (FLT_exp (3 - emax - prec) prec) ZnearestE x.
(** Numbers from here on are out of range: half a step beyond the largest float. *)
Definition limit (prec emax : Z) : R := bpow radix2 emax - bpow radix2 (emax - prec - 1).
