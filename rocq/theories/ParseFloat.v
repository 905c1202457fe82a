(** Model of strconv.ParseFloat (go.mod asks for Go 1.18; strconv/atof.go), which
    reads the numbers of tables (cmd/rap-cli/csv.go:71-92), of JSON documents
    (encoding/json, called by format/parsing/json.go) and the metadata of version 1
    files (internal/io/rapv1/util.go:48,71).  The standard library is not part of
    the repository: the comments name its functions. *)
From Coq Require Import Strings.String.
From Flocq Require Import Core.Zaux Core.Digits Calc.Bracket IEEE754.BinarySingleNaN IEEE754.Binary IEEE754.Bits.
From Verif Require Import Base Floats Recording JsonText.
Local Open Scope N_scope.

(** lower: letters in either case. *)
Definition letter (c : byte) (l : N) : bool := (b2n c =? l) || (b2n c + 32 =? l).
Definition is_hex (c : byte) : bool :=
  is_digit c || ((97 <=? b2n c) && (b2n c <=? 102)) || ((65 <=? b2n c) && (b2n c <=? 70)).
Definition digit_value (c : byte) : Z :=
  Z.of_N (if b2n c <=? 57 then b2n c - 48 else if b2n c <=? 70 then b2n c - 55 else b2n c - 87).
Definition digits_value (base : Z) (d : str) : Z :=
  fold_left (fun a c => a * base + digit_value c)%Z d 0%Z.

(** readFloat: the digits of the exponent; once it has reached 10000
    further digits are ignored. *)
Definition capped (d : str) : Z :=
  fold_left (fun a c => if (a <? 10000)%Z then (a * 10 + digit_value c)%Z else a) d 0%Z.

(** readFloat: the sign. *)
Definition take_sign (s : str) : bool * str :=
  match s with
  | c :: t => if beqb c "+" then (false, t) else if beqb c "-" then (true, t) else (false, s)
  | [] => (false, s)
  end.

(** readFloat: the digits (as an integer), how many of them
    follow the point, and the rest of the text.  The code keeps 19 digits
    and a flag, or 800 digits and a flag, which is enough to round
    correctly; the model keeps them all. *)
Definition read_mantissa (f : byte -> bool) (base : Z) (s : str) : option (Z * Z * str) :=
  let (i, r) := span f s in
  let '(d, k, r) :=
    match r with
    | c :: r' => if beqb c "." then let (q, r'') := span f r' in (i ++ q, Z.of_N (lenN q), r'')
                 else (i, 0%Z, r)
    | [] => (i, 0%Z, r)
    end in
  if lenN d =? 0 then None else Some (digits_value base d, k, r).

(** readFloat: the exponent, which ends the text (ParseFloat rejects a
    text of which something is left).  Without one the result is [None]. *)
Definition read_exponent (l : N) (s : str) : option Z :=
  match s with
  | c :: t =>
      if letter c l then
        let (neg, t) := take_sign t in
        let (d, r) := span is_digit t in
        if (lenN d =? 0) || negb (lenN r =? 0) then None
        else Some (if neg then - capped d else capped d)%Z
      else None
  | [] => None
  end.

Section Format.
Context (prec emax : Z).
Definition emin : Z := (3 - emax - prec)%Z.
(** The float nearest to num/den (ties to even), [None] (ErrRange) if that is
    infinite.  strconv has three algorithms for this (atof64exact,
    eiselLemire64, decimal.floatBits) and atofHex; all are documented to
    yield this value and the model has it instead. *)
Definition to_float (neg : bool) (num den : Z) : option (binary_float prec emax) :=
  if (num =? 0)%Z then Some (B754_zero prec emax neg)
  else
    let scaled := (num * 2 ^ (- emin))%Z in
    let r := (scaled mod den)%Z in
    let loc := if (r =? 0)%Z then loc_Exact else loc_Inexact (2 * r ?= den)%Z in
    let z := binary_round_aux prec emax mode_NE neg (scaled / den) emin loc in
    match z with
    | F754_infinity _ => None
    | _ =>
        match Bool.bool_dec (valid_binary prec emax z) true with
        | left H => Some (FF2B prec emax z H)
        | right _ => None
        end
    end.
(** [m * base^e] as a fraction *)
Definition scale (m base e : Z) : Z * Z :=
  if (0 <=? e)%Z then (m * base ^ e, 1)%Z else (m, base ^ (- e))%Z.

(** readFloat and atof32/atof64 for a text without underscores. *)
Definition read_number (s : str) : option (binary_float prec emax) :=
  let (neg, t) := take_sign s in
  let decimal :=
    match read_mantissa is_digit 10 t with
    | None => None
    | Some (m, k, []) => let (n, d) := scale m 10 (- k) in to_float neg n d
    | Some (m, k, r) =>
        match read_exponent 101 r with
        | None => None
        | Some e => let (n, d) := scale m 10 (e - k) in to_float neg n d
        end
    end in
  match t with
  | z :: x :: ((_ :: _) as u) =>
      if beqb z "0" && letter x 120 then
        match read_mantissa is_hex 16 u with
        | None => None
        | Some (m, k, r) =>
            match read_exponent 112 r with
            | None => None
            | Some e => let (n, d) := scale m 2 (e - 4 * k) in to_float neg n d
            end
        end
      else decimal
  | _ => decimal
  end.

(** special *)
Definition is_word (w : string) (s : str) : bool :=
  (lenN s =? lenN (lit w)) && forallb (fun cl => letter (fst cl) (b2n (snd cl))) (combine s (lit w)).
Definition special (nan : binary_float prec emax) (s : str) : option (binary_float prec emax) :=
  if is_word "nan" s then Some nan
  else
    let (neg, t) := take_sign s in
    if is_word "inf" t || is_word "infinity" t then Some (B754_infinity prec emax neg) else None.

(** underscoreOK; [saw] is 0 for a digit or the base prefix, 1
    for an underscore, 2 for anything else. *)
Fixpoint underscores_from (hex : bool) (saw : N) (s : str) : bool :=
  match s with
  | [] => negb (saw =? 1)
  | c :: t =>
      if is_digit c || (hex && is_hex c) then underscores_from hex 0 t
      else if beqb c "_" then (saw =? 0) && underscores_from hex 1 t
      else negb (saw =? 1) && underscores_from hex 2 t
  end.
Definition underscores_ok (s : str) : bool :=
  let t := snd (take_sign s) in
  match t with
  | z :: x :: u =>
      if beqb z "0" && (letter x 98 || letter x 111 || letter x 120) then underscores_from (letter x 120) 0 u
      else underscores_from false 2 t
  | _ => underscores_from false 2 t
  end.

(** ParseFloat.  readFloat skips the underscores and looks
    afterwards whether they were in the right places. *)
Definition is_underscore (c : byte) : bool := beqb c "_".
Definition parse_number (nan : binary_float prec emax) (s : str) : option (binary_float prec emax) :=
  match special nan s with
  | Some x => Some x
  | None =>
      if existsb is_underscore s then
        if underscores_ok s then read_number (filter (fun c => negb (is_underscore c)) s) else None
      else read_number s
  end.
End Format.

(** ParseFloat(s, 64) and ParseFloat(s, 32) (math.NaN() and its conversion to float32) *)
Definition parse_float64 : str -> option f64 := parse_number 53 1024 (b64_of_bits (2047 * 2 ^ 52 + 2 ^ 51 + 1)).
Definition parse_float32 : str -> option f32 := parse_number 24 128 (b32_of_bits (255 * 2 ^ 23 + 2 ^ 22)).
