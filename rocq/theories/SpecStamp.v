(** Dates and times as people write them, without reference to how the library computes
    them: years and months are counted one by one. *)
From Coq Require Import ZArith Strings.String.
From Verif Require Import Base Recording SpecText.
Local Open Scope Z_scope.

(** The calendar. *)
Definition leap (y : Z) : Prop := (y mod 4 = 0 /\ y mod 100 <> 0) \/ y mod 400 = 0.
Inductive year_length : Z -> Z -> Prop :=
| Leap_year : forall y, leap y -> year_length y 366
| Common_year : forall y, ~ leap y -> year_length y 365.
Inductive month_length : Z -> Z -> Z -> Prop :=
| Long_month : forall y m, In m [1; 3; 5; 7; 8; 10; 12] -> month_length y m 31
| Short_month : forall y m, In m [4; 6; 9; 11] -> month_length y m 30
| February : forall y, ~ leap y -> month_length y 2 28
| Leap_february : forall y, leap y -> month_length y 2 29.
(** The number of a day: counting from the first of January of the year 0. *)
Inductive day_number : Z -> Z -> Z -> Z -> Prop :=
| First_day : day_number 0 1 1 0
| Next_year : forall y k n, day_number y 1 1 n -> year_length y k -> day_number (y + 1) 1 1 (n + k)
| Next_month : forall y m k n, 1 <= m < 12 -> day_number y m 1 n -> month_length y m k -> day_number y (m + 1) 1 (n + k)
| Within_month : forall y m d k n, day_number y m 1 n -> month_length y m k -> 1 <= d <= k -> day_number y m d (n + d - 1).

(** [nanos] nanoseconds after the beginning of 1970 in UTC it is this date and time at a
    place that is [off] seconds ahead. *)
Definition clock (nanos off y m d h mi s ns : Z) : Prop :=
  exists n epoch, day_number y m d n /\ day_number 1970 1 1 epoch /\
    0 <= h < 24 /\ 0 <= mi < 60 /\ 0 <= s < 60 /\ 0 <= ns < 10 ^ 9 /\
    nanos = ((n - epoch) * 86400 + h * 3600 + mi * 60 + s - off) * 10 ^ 9 + ns.

(** Texts.  A number in a fixed number of digits. *)
Definition value (t : str) : Z := fold_left (fun n b => n * 10 + Z.of_N (digit_val b)) t 0.
Definition padded (w : nat) (n : Z) (t : str) : Prop := List.length t = w /\ Forall digit t /\ value t = n.
(** A decimal fraction of a second: nothing, or a point and digits without needless zeros. *)
Definition fraction_text (ns : Z) (t : str) : Prop :=
  (ns = 0 /\ t = []) \/
  exists ds k, t = lit "." ++ ds /\ ds <> [] /\ Forall digit ds /\ (List.length ds + k = 9)%nat /\ value ds * 10 ^ Z.of_nat k = ns /\
    ~ (exists d, ds = d ++ lit "0").
(** An offset: Z, or a sign, hours and minutes. *)
Definition offset_text (off : Z) (t : str) : Prop :=
  (off = 0 /\ t = lit "Z") \/
  exists sign h mi a b, t = sign ++ a ++ lit ":" ++ b /\ padded 2 h a /\ padded 2 mi b /\ 0 <= h <= 24 /\ 0 <= mi < 60 /\
    ((sign = lit "+" /\ off = (h * 60 + mi) * 60) \/ (sign = lit "-" /\ off = - ((h * 60 + mi) * 60))).
Definition stamp_text (y m d h mi s ns off : Z) (t : str) : Prop :=
  exists ty tm td th tmi ts tf tz,
    t = ty ++ lit "-" ++ tm ++ lit "-" ++ td ++ lit "T" ++ th ++ lit ":" ++ tmi ++ lit ":" ++ ts ++ tf ++ tz /\
    padded 4 y ty /\ padded 2 m tm /\ padded 2 d td /\ padded 2 h th /\ padded 2 mi tmi /\ padded 2 s ts /\
    fraction_text ns tf /\ offset_text off tz.
(** What RFC 3339 calls a timestamp for the instant [nanos] shown at offset [off]. *)
Definition stamp (nanos off : Z) (t : str) : Prop :=
  exists y m d h mi s ns, clock nanos off y m d h mi s ns /\ stamp_text y m d h mi s ns off t.

(** What is accepted as a timestamp: also an hour of one digit, a comma, needless and
    further digits (ignored from the tenth on) and an offset of 60 minutes. *)
Definition loose_fraction (ns : Z) (t : str) : Prop :=
  (ns = 0 /\ t = []) \/
  exists p ds, t = p ++ ds /\ (p = lit "." \/ p = lit ",") /\ ds <> [] /\ Forall digit ds /\
    ns = value ds * 10 ^ 9 / 10 ^ Z.of_nat (List.length ds).
Definition loose_offset (off : Z) (t : str) : Prop :=
  (off = 0 /\ t = lit "Z") \/
  exists sign h mi a b, t = sign ++ a ++ lit ":" ++ b /\ padded 2 h a /\ padded 2 mi b /\ h <= 24 /\ mi <= 60 /\
    ((sign = lit "+" /\ off = (h * 60 + mi) * 60) \/ (sign = lit "-" /\ off = - ((h * 60 + mi) * 60))).
Definition loose_stamp (nanos : Z) (t : str) : Prop :=
  exists y m d h mi s ns off ty tm td th tmi ts tf tz,
    clock nanos off y m d h mi s ns /\
    t = ty ++ lit "-" ++ tm ++ lit "-" ++ td ++ lit "T" ++ th ++ lit ":" ++ tmi ++ lit ":" ++ ts ++ tf ++ tz /\
    padded 4 y ty /\ padded 2 m tm /\ padded 2 d td /\ (padded 2 h th \/ padded 1 h th) /\ padded 2 mi tmi /\ padded 2 s ts /\
    loose_fraction ns tf /\ loose_offset off tz.
