(** Model of encoding/json's reading of a text into interface{} values, as
    gabs.ParseJSON (format/parsing/json.go:437) and the UnmarshalJSON methods of
    format/metadata/property.go use it.  The standard library is not part of the
    repository; the model follows scanner.go and decode.go of Go 1.18. *)
From Coq Require Import Strings.String.
From Verif Require Import Base Floats Metadata Recording Text Json Quote.
Local Open Scope N_scope.

(** scanner.go isSpace *)
Definition is_blank (c : byte) : bool :=
  let n := b2n c in (n =? 32) || (n =? 9) || (n =? 10) || (n =? 13).
Fixpoint skip (s : str) : str :=
  match s with
  | c :: s' => if is_blank c then skip s' else s
  | [] => []
  end.

(** scanner.go stateInString, stateInStringEsc: the text up to the quote that
    ends a string, and what follows.  (Which escapes there are is checked by
    [unquote].) *)
Fixpoint scan (s : str) : option (str * str) :=
  match s with
  | [] => None
  | c :: s' =>
      if beqb c """" then Some ([], s')
      else if beqb c "\" then
        match s' with
        | [] => None
        | e :: s'' => match scan s'' with Some (u, r) => Some (c :: e :: u, r) | None => None end
        end
      else match scan s' with Some (u, r) => Some (c :: u, r) | None => None end
  end.
(** A string whose first quote has been read. *)
Definition read_string (s : str) : option (str * str) :=
  match scan s with
  | Some (u, r) => match unquote u with Some t => Some (t, r) | None => None end
  | None => None
  end.

(** scanner.go stateNeg ... stateE0.  A number is followed by what can be no
    part of one. *)
Definition is_digit (c : byte) : bool := let n := b2n c in (48 <=? n) && (n <=? 57).
Definition number_char (c : byte) : bool :=
  is_digit c || beqb c "+" || beqb c "-" || beqb c "." || beqb c "e" || beqb c "E".
Fixpoint span (f : byte -> bool) (s : str) : str * str :=
  match s with
  | c :: s' => if f c then let (a, b) := span f s' in (c :: a, b) else ([], s)
  | [] => ([], [])
  end.
Definition exponent_ok (t : str) : bool :=
  match t with
  | [] => true
  | e :: t' =>
      (beqb e "e" || beqb e "E") &&
      (let t'' := match t' with
                  | c :: u => if beqb c "+" || beqb c "-" then u else t'
                  | [] => t'
                  end in
       let (d, r) := span is_digit t'' in
       negb (lenN d =? 0) && (lenN r =? 0))
  end.
Definition number_ok (t : str) : bool :=
  let t := match t with c :: u => if beqb c "-" then u else t | [] => t end in
  let (int, t) := span is_digit t in
  negb (lenN int =? 0) && (negb (beqb (hd x00 int) "0") || (lenN int =? 1)) &&
  match t with
  | c :: u =>
      if beqb c "." then
        let (d, r) := span is_digit u in negb (lenN d =? 0) && exponent_ok r
      else exponent_ok t
  | [] => true
  end.

(** Values of one kind, separated by commas, up to the closing bracket; [fuel] =
    length of the text. *)
Fixpoint items {A} (f : str -> option (A * str)) (close : byte) (fuel : nat) (s : str)
  : option (list A * str) :=
  match fuel with
  | O => None
  | S fuel' =>
      match f (skip s) with
      | None => None
      | Some (a, r) =>
          match skip r with
          | [] => None
          | c :: r' =>
              if beqb c "," then
                match items f close fuel' r' with Some (l, r'') => Some (a :: l, r'') | None => None end
              else if beqb c close then Some ([a], r')
              else None
          end
      end
  end.
Definition series {A} (f : str -> option (A * str)) (close : byte) (s : str) : option (list A * str) :=
  match skip s with
  | [] => None
  | c :: r => if beqb c close then Some ([], r) else items f close (length s) s
  end.
Definition entry (f : str -> option (tree * str)) (s : str) : option ((str * tree) * str) :=
  match s with
  | c :: s' =>
      if beqb c """" then
        match read_string s' with
        | Some (k, r) =>
            match skip r with
            | c :: r' =>
                if beqb c ":" then
                  match f (skip r') with Some (t, r'') => Some ((k, t), r'') | None => None end
                else None
            | [] => None
            end
        | None => None
        end
      else None
  | [] => None
  end.
(** scanner.go stateBeginValue; [n] is the number of levels that may still be
    opened *)
Fixpoint value (n : nat) (s : str) : option (tree * str) :=
  match s with
  | [] => None
  | c :: s' =>
      if beqb c """" then
        match read_string s' with Some (t, r) => Some (TStr t, r) | None => None end
      else if beqb c "[" then
        match n with
        | O => None
        | S n' => match series (value n') "]" s' with Some (l, r) => Some (TArr l, r) | None => None end
        end
      else if beqb c "{" then
        match n with
        | O => None
        | S n' => match series (entry (value n')) "}" s' with Some (l, r) => Some (TObj l, r) | None => None end
        end
      else
        match strip (lit "null") s, strip (lit "true") s, strip (lit "false") s with
        | Some r, _, _ => Some (TNull, r)
        | _, Some r, _ => Some (TBool true, r)
        | _, _, Some r => Some (TBool false, r)
        | _, _, _ =>
            let (t, r) := span number_char s in
            if number_ok t then Some (TNum t, r) else None
        end
  end.
(** scanner.go maxNestingDepth *)
Definition max_nesting : nat := N.to_nat 10000.
Definition parse_text (s : str) : option tree :=
  match value max_nesting (skip s) with
  | Some (t, r) => match skip r with [] => Some t | _ => None end
  | None => None
  end.

(** decode.go valueInterface: numbers become float64s by strconv.ParseFloat, an
    error of which ([None]: out of range) fails the whole; of equal keys the
    last one stays. *)
Fixpoint jput (k : str) (v : json) (m : list (str * json)) : list (str * json) :=
  match m with
  | [] => [(k, v)]
  | (k', v') :: m' => if str_eqb k k' then (k, v) :: m' else (k', v') :: jput k v m'
  end.
Section Values.
Context (parse64 : str -> option f64).
Fixpoint value_of (t : tree) : option json :=
  match t with
  | TNull => Some JNull
  | TBool b => Some (JBool b)
  | TNum t => match parse64 t with Some x => Some (JNum x) | None => None end
  | TStr s => Some (JStr s)
  | TArr l =>
      match (fix go (l : list tree) : option (list json) :=
               match l with
               | [] => Some []
               | x :: l' => match value_of x, go l' with Some v, Some r => Some (v :: r) | _, _ => None end
               end) l with
      | Some r => Some (JArr r)
      | None => None
      end
  | TObj m =>
      match (fix go (m : list (str * tree)) : option (list (str * json)) :=
               match m with
               | [] => Some []
               | kx :: m' => match value_of (snd kx), go m' with Some v, Some r => Some ((fst kx, v) :: r) | _, _ => None end
               end) m with
      | Some r => Some (JObj (fold_left (fun m kv => jput (fst kv) (snd kv) m) r []))
      | None => None
      end
  end.
(** json.Unmarshal(text, &v) for an interface{} v.  decode.go unquote replaces
    bytes that are no UTF-8; only strings can hold any, so replacing them in the
    whole text first is the same. *)
Definition unmarshal (s : str) : option json :=
  match parse_text (clean s) with Some t => value_of t | None => None end.
End Values.
(** format/parsing/json.go:441-447  FromJSON *)
Definition from_json_text (parse64 : str -> option f64) (parse_time : str -> option Z)
  (reparse32 : f64 -> option f32) (big_atoi : f64 -> option Z) (s : str) : res (option recording) :=
  from_json parse_time reparse32 big_atoi (unmarshal parse64 s).
(** format/metadata/property.go:515-530  MetadataProperty.UnmarshalJSON, after the
    text has been read: a null leaves the map nil, which has no entries. *)
Definition block_of_json (parse_time : str -> option Z) (reparse32 : f64 -> option f32) (j : json) : res (option block) :=
  match j with
  | JNull => ret []
  | JObj m =>
      do p <- get_properties parse_time reparse32 (JObj m);
      match p with Some (PBlock b) => ret b | _ => fail end
  | _ => fail
  end.
Definition unmarshal_block (parse64 : str -> option f64) (parse_time : str -> option Z)
  (reparse32 : f64 -> option f32) (s : str) : res (option block) :=
  match unmarshal parse64 s with Some j => block_of_json parse_time reparse32 j | None => fail end.
