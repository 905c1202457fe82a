(** The parts of Go's fmt, strings and strconv packages that the command line
    tools use. *)
From Coq Require Import Strings.String DecimalN Decimal.
From Verif Require Import Base Recording.
Local Open Scope N_scope.

(** Decimal digits of a number as ASCII text. *)
Fixpoint show_uint (d : uint) : str :=
  match d with
  | Nil => []
  | D0 d => "0"%byte :: show_uint d
  | D1 d => "1"%byte :: show_uint d
  | D2 d => "2"%byte :: show_uint d
  | D3 d => "3"%byte :: show_uint d
  | D4 d => "4"%byte :: show_uint d
  | D5 d => "5"%byte :: show_uint d
  | D6 d => "6"%byte :: show_uint d
  | D7 d => "7"%byte :: show_uint d
  | D8 d => "8"%byte :: show_uint d
  | D9 d => "9"%byte :: show_uint d
  end.
(** fmt's %d of a non-negative int *)
Definition show_N (n : N) : str := show_uint (N.to_uint n).
Definition show_nat (n : nat) : str := show_N (N.of_nat n).
(** fmt's %d of an int *)
Definition show_Z (z : Z) : str :=
  match z with
  | Zneg p => "-"%byte :: show_N (Npos p)
  | _ => show_N (Z.to_N z)
  end.

(** Does [l] start with [p]?  The rest if so. *)
Fixpoint strip (p l : str) : option str :=
  match p, l with
  | [], _ => Some l
  | x :: p', y :: l' => if beqb x y then strip p' l' else None
  | _, [] => None
  end.

(** unicode.IsSpace: the UTF-8 encodings of the code points with the
    White_Space property: U+0009-U+000D, U+0020, U+0085, U+00A0, U+1680,
    U+2000-U+200A, U+2028, U+2029, U+202F, U+205F, U+3000. *)
Definition spaces : list str :=
  map bs [[9]; [10]; [11]; [12]; [13]; [32]; [194;133]; [194;160]; [225;154;128];
          [226;128;128]; [226;128;129]; [226;128;130]; [226;128;131]; [226;128;132];
          [226;128;133]; [226;128;134]; [226;128;135]; [226;128;136]; [226;128;137];
          [226;128;138]; [226;128;168]; [226;128;169]; [226;128;175]; [226;129;159];
          [227;128;128]].
Fixpoint strip_any (ps : list str) (l : str) : option str :=
  match ps with
  | [] => None
  | p :: ps' => match strip p l with Some r => Some r | None => strip_any ps' l end
  end.
(** Remove the listed pieces from the front; [fuel] = length of the text. *)
Fixpoint trim_front (ps : list str) (fuel : nat) (l : str) : str :=
  match fuel with
  | O => l
  | S f => match strip_any ps l with Some r => trim_front ps f r | None => l end
  end.
(** strings.TrimSpace (standard library).  Removing white space at the end is
    removing the reversed encodings at the front of the reversed text: the
    bytes of a white space character at the very end are always that
    character (utf8.DecodeLastRune finds its first byte). *)
Definition trim_space (l : str) : str :=
  let l1 := trim_front spaces (List.length l) l in
  rev (trim_front (map (@rev _) spaces) (List.length l1) (rev l1)).
