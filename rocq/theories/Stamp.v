(** How timestamps are written and read as text.  format/metadata/property.go:581-593
    uses time.Format and time.Parse with the layout time.RFC3339Nano,
    "2006-01-02T15:04:05.999999999Z07:00"; both are modelled for this layout from what is
    known of the source of the standard library (time/format.go, time/time.go). *)
From Coq Require Import ZArith Strings.String.
From Verif Require Import Base Recording ParseFloat.
Local Open Scope Z_scope.

(** int64 arithmetic *)
Definition wrap_i64 (z : Z) : Z := (z + 2 ^ 63) mod 2 ^ 64 - 2 ^ 63.

(** time.go  isLeap, daysBefore, daysIn *)
Definition is_leap (y : Z) : bool := (y mod 4 =? 0) && (negb (y mod 100 =? 0) || (y mod 400 =? 0)).
Definition days_before (m : Z) : Z := nth (Z.to_nat m) [0; 31; 59; 90; 120; 151; 181; 212; 243; 273; 304; 334; 365] 0.
Definition days_in (m y : Z) : Z :=
  if (m =? 2) && is_leap y then 29 else days_before m - days_before (m - 1).
(** time.go  absDate, the year: days since the first day of year 1 (Go counts from a year
    that is the first of a 400-year cycle too); gives the year and the day in the year *)
Definition year_of (d : Z) : Z * Z :=
  let n := d / 146097 in let y := 400 * n in let d := d - 146097 * n in
  let n := d / 36524 in let n := n - n / 4 in let y := y + 100 * n in let d := d - 36524 * n in
  let n := d / 1461 in let y := y + 4 * n in let d := d - 1461 * n in
  let n := d / 365 in let n := n - n / 4 in let y := y + n in let d := d - 365 * n in
  (y + 1, d).
(** time.go  absDate, month and day *)
Definition month_of (leap : bool) (yday : Z) : Z * Z :=
  if leap && (yday =? 59) then (2, 29)
  else
    let day := if leap && (59 <? yday) then yday - 1 else yday in
    let month := day / 31 in
    let e := days_before (month + 1) in
    if e <=? day then (month + 2, day - e + 1) else (month + 1, day - days_before month + 1).
(** time.go  daysSinceEpoch and Date: days since the first day of year 1 *)
Definition days_since (year month day : Z) : Z :=
  let y := year - 1 in
  let n := y / 400 in let y := y - 400 * n in let d := 146097 * n in
  let n := y / 100 in let y := y - 100 * n in let d := d + 36524 * n in
  let n := y / 4 in let y := y - 4 * n in let d := d + 1461 * n in
  let d := d + 365 * y in
  let d := d + days_before (month - 1) in
  let d := if is_leap year && (3 <=? month) then d + 1 else d in
  d + (day - 1).
(** the days from there to the first of January 1970 *)
Definition unix_days : Z := 719162.

Definition dig (n : Z) : byte := n2b (48 + Z.to_N n).
(** format.go  appendInt with two and four places *)
Definition two (n : Z) : str := [dig (n / 10); dig (n mod 10)].
Definition four (n : Z) : str := [dig (n / 1000); dig (n / 100 mod 10); dig (n / 10 mod 10); dig (n mod 10)].
Definition nine (n : Z) : str :=
  [dig (n / 100000000); dig (n / 10000000 mod 10); dig (n / 1000000 mod 10); dig (n / 100000 mod 10); dig (n / 10000 mod 10);
   dig (n / 1000 mod 10); dig (n / 100 mod 10); dig (n / 10 mod 10); dig (n mod 10)].
(** format.go  formatNano with trim: trailing zeros are left out, and the point too if
    nothing else is left *)
Fixpoint trim (l : str) : str :=
  match l with
  | [] => []
  | c :: l' => match trim l' with [] => if Byte.eqb c x30 then [] else [c] | t => c :: t end
  end.
Definition fraction (ns : Z) : str := match trim (nine ns) with [] => [] | t => x2e :: t end.
(** format.go  Z07:00: Z, or the offset in whole minutes *)
Definition zone_text (off : Z) : str :=
  if off =? 0 then [x5a]
  else
    let zone := Z.quot off 60 in
    if zone <? 0 then x2d :: two (- zone / 60) ++ x3a :: two (- zone mod 60)
    else x2b :: two (zone / 60) ++ x3a :: two (zone mod 60).
(** Time.Format for the instant [nanos] (nanoseconds since 1970) shown with the offset
    [off] (seconds east of UTC) *)
Definition format_stamp (nanos off : Z) : str :=
  let sec := nanos / 1000000000 + off in
  let (y, yday) := year_of (sec / 86400 + unix_days) in
  let (m, d) := month_of (is_leap y) yday in
  let s := sec mod 86400 in
  four y ++ x2d :: two m ++ x2d :: two d ++ x54 :: two (s / 3600) ++ x3a :: two (s mod 3600 / 60) ++ x3a :: two (s mod 60)
  ++ fraction (nanos mod 1000000000) ++ zone_text off.
(** property.go:589-591  TimeProperty.MarshalJSON: [zone] is the offset of the local time
    zone at an instant *)
Definition time_text (zone : Z -> Z) (us : Z) : str :=
  let nanos := wrap_i64 (us * 1000) in format_stamp nanos (zone nanos).

(** format.go  isDigit, getnum and leadingInt *)
Definition is_dig (c : byte) : bool := (48 <=? Z.of_N (b2n c)) && (Z.of_N (b2n c) <=? 57).
Definition val (c : byte) : Z := Z.of_N (b2n c) - 48.
Definition getnum (fixed : bool) (s : str) : option (Z * str) :=
  match s with
  | a :: s' =>
      if is_dig a then
        match s' with
        | b :: r => if is_dig b then Some (val a * 10 + val b, r) else if fixed then None else Some (val a, s')
        | [] => if fixed then None else Some (val a, s')
        end
      else None
  | [] => None
  end.
Definition get_year (s : str) : option (Z * str) :=
  match s with
  | a :: b :: c :: d :: r =>
      if is_dig a && is_dig b && is_dig c && is_dig d then Some (val a * 1000 + val b * 100 + val c * 10 + val d, r) else None
  | _ => None
  end.
Definition skip (c : byte) (s : str) : option str :=
  match s with a :: r => if Byte.eqb a c then Some r else None | [] => None end.
Definition guard (b : bool) : option unit := if b then Some tt else None.
Fixpoint span_digits (s : str) : str * str :=
  match s with
  | c :: r => if is_dig c then let (a, b) := span_digits r in (c :: a, b) else ([], s)
  | [] => ([], [])
  end.
Definition value_of (s : str) : Z := fold_left (fun n c => n * 10 + val c) s 0.
(** format.go  .999999999 in Parse, and parseNanoseconds: more than nine digits are cut *)
Definition get_fraction (s : str) : Z * str :=
  match s with
  | p :: (c :: _) as r =>
      if (Byte.eqb p x2e || Byte.eqb p x2c) && is_dig c then
        let (ds, rest) := span_digits r in
        let ds := firstn 9 ds in
        (value_of ds * 10 ^ (9 - Z.of_nat (length ds)), rest)
      else (0, s)
  | _ => (0, s)
  end.
Notation "'let?' x := m 'in' k" := (match m with Some x => k | None => None end) (at level 200, x pattern, m at level 100, k at level 200).
(** format.go  Z07:00 in Parse: the offset in seconds; the text ends behind it *)
Definition get_zone (s : str) : option Z :=
  match s with
  | [z] => if Byte.eqb z x5a then Some 0 else None
  | sign :: r =>
      let? (h, r) := getnum true r in
      let? r := skip x3a r in
      let? (m, r) := getnum true r in
      let? _ := guard ((h <=? 24) && (m <=? 60)) in
      match r with
      | [] => if Byte.eqb sign x2b then Some ((h * 60 + m) * 60) else if Byte.eqb sign x2d then Some (- ((h * 60 + m) * 60)) else None
      | _ => None
      end
  | [] => None
  end.
(** property.go:576-587  TimeProperty.UnmarshalJSON behind the quotes: time.Parse, then
    Time.UnixMicro (four-digit years are far from its limits) *)
Definition parse_time (s : str) : option Z :=
  let? (y, s) := get_year s in
  let? s := skip x2d s in
  let? (m, s) := getnum true s in
  let? _ := guard ((1 <=? m) && (m <=? 12)) in
  let? s := skip x2d s in
  let? (d, s) := getnum true s in
  let? s := skip x54 s in
  let? (h, s) := getnum false s in
  let? _ := guard (h <? 24) in
  let? s := skip x3a s in
  let? (mi, s) := getnum true s in
  let? _ := guard (mi <? 60) in
  let? s := skip x3a s in
  let? (sec, s) := getnum true s in
  let? _ := guard (sec <? 60) in
  let (ns, s) := get_fraction s in
  let? off := get_zone s in
  let? _ := guard ((1 <=? d) && (d <=? days_in m y)) in
  let unix := (days_since y m d - unix_days) * 86400 + h * 3600 + mi * 60 + sec - off in
  Some (unix * 1000000 + ns / 1000).
