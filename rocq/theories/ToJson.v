(** Model of cmd/rap-cli/json.go and of the MarshalJSON methods of
    format/metadata/property.go: writing a recording as JSON text. *)
From Coq Require Import Strings.String.
From Flocq Require Import Core.Zaux IEEE754.Binary.
From Verif Require Import Base IO Floats BinaryIO Metadata Recording Text.
Local Open Scope N_scope.

(** ** fmt and encoding/hex (standard library) *)
(** hex.EncodeToString *)
Definition hex_char (n : N) : byte := n2b (if n <? 10 then 48 + n else 87 + n).
Fixpoint hex_encode (d : bytes) : str :=
  match d with
  | [] => []
  | b :: d' => hex_char (b2n b / 16) :: hex_char (b2n b mod 16) :: hex_encode d'
  end.
(** The nearest integer to n / d, the even one in the middle. *)
Definition div_even (n d : N) : N :=
  let q := n / d in
  let r := n mod d in
  if 2 * r <? d then q else if d <? 2 * r then q + 1 else if N.even q then q else q + 1.
(** The nearest number of millionths to m * 2^e. *)
Definition millionths (m : positive) (e : Z) : N :=
  if (0 <=? e)%Z then Npos m * 2 ^ Z.to_N e * 10 ^ 6
  else div_even (Npos m * 10 ^ 6) (2 ^ Z.to_N (- e)).
Definition six_digits (k : N) : str :=
  bs [48 + k / 100000 mod 10; 48 + k / 10000 mod 10; 48 + k / 1000 mod 10;
      48 + k / 100 mod 10; 48 + k / 10 mod 10; 48 + k mod 10].
(** fmt's %f *)
Definition fixed6 (x : f64) : str :=
  let sign (s : bool) : str := if s then lit "-" else [] in
  let put (s : bool) (n : N) := sign s ++ show_N (n / 10 ^ 6) ++ lit "." ++ six_digits (n mod 10 ^ 6) in
  match x with
  | B754_zero _ _ s => put s 0
  | B754_finite _ _ s m e _ => put s (millionths m e)
  | B754_infinity _ _ s => if s then lit "-Inf" else lit "+Inf"
  | B754_nan _ _ _ _ _ => lit "NaN"
  end.

(** Go's order of strings, by bytes. *)
Fixpoint str_leb (a b : str) : bool :=
  match a, b with
  | [], _ => true
  | _ :: _, [] => false
  | x :: a', y :: b' => if b2n x <? b2n y then true else if b2n y <? b2n x then false else str_leb a' b'
  end.
Fixpoint insert_key {A} (kv : str * A) (l : list (str * A)) : list (str * A) :=
  match l with
  | [] => [kv]
  | h :: l' => if str_leb (fst kv) (fst h) then kv :: l else h :: insert_key kv l'
  end.
Fixpoint sort_keys {A} (l : list (str * A)) : list (str * A) :=
  match l with [] => [] | kv :: l' => insert_key kv (sort_keys l') end.

(** All of them, or [None]. *)
Fixpoint all_some {A B} (f : A -> option B) (l : list A) : option (list B) :=
  match l with
  | [] => Some []
  | x :: l' => match f x, all_some f l' with Some y, Some r => Some (y :: r) | _, _ => None end
  end.
Fixpoint commas (l : list str) : str :=
  match l with
  | [] => []
  | [t] => t
  | t :: l' => t ++ lit "," ++ commas l'
  end.

Section Export.
(** json.Marshal of a string, with its quotes *)
Context (quote : str -> str).
(** encoding/json's text of a finite float64 and of a finite float32 *)
Context (num64 : f64 -> str) (num32 : f32 -> str).
(** time.Unix(0, us*1000).Format(time.RFC3339Nano) *)
Context (time_text : Z -> str).

(** encoding/json reports an error for NaN and the infinities *)
Definition num64_of (x : f64) : option str := if is_finite 53 1024 x then Some (num64 x) else None.
Definition num32_of (x : f32) : option str := if is_finite 24 128 x then Some (num32 x) else None.
Definition member (kt : str * str) : str := quote (fst kt) ++ lit ":" ++ snd kt.
Definition braces (ms : list (str * str)) : str := lit "{" ++ commas (map member ms) ++ lit "}".
Definition brackets (ts : list str) : str := lit "[" ++ commas ts ++ lit "]".
Definition bool_text (b : bool) : str := if b then lit "true" else lit "false".

(** property.go:62, 115, 168, 229, 288, 348-357, 426-437, 532, 589, 654, 757-782:
    the MarshalJSON methods; [None] is an error.  json.Marshal sorts the keys of
    a map and writes null for a nil property.  (It also compacts what the
    methods return, which changes nothing here.)  Nothing at all, as for an
    unknown raw array, is an error.  A panic of the reading of a raw array, which
    only a hand-made array can cause, counts as an error, too. *)
Fixpoint marshal (p : prop) : option str :=
  match p with
  | PString s => Some (quote s)
  | PInt z => Some (show_Z z)
  | PFloat f => num32_of f
  | PBool b => Some (bool_text b)
  | PByte b => Some (quote (lit "0x" ++ hex_encode [b]))
  | PVec2 x y =>
      match num64_of x, num64_of y with
      | Some a, Some b => Some (braces [(lit "x", a); (lit "y", b)])
      | _, _ => None
      end
  | PVec3 x y z =>
      match num64_of x, num64_of y, num64_of z with
      | Some a, Some b, Some c => Some (braces [(lit "x", a); (lit "y", b); (lit "z", c)])
      | _, _, _ => None
      end
  | PBlock m =>
      match all_some (fun kt => match snd kt with Some t => Some (fst kt, t) | None => None end)
              (sort_keys ((fix go (l : list (str * prop)) : list (str * option str) :=
                             match l with
                             | [] => []
                             | kv :: l' => (fst kv, marshal (snd kv)) :: go l'
                             end) m)) with
      | Some ts => Some (braces ts)
      | None => None
      end
  | PTime us => Some (quote (time_text us))
  | PArray _ ps =>
      match all_some (fun o => o)
              ((fix go (l : list prop) : list (option str) :=
                  match l with [] => [] | v :: l' => marshal v :: go l' end) ps) with
      | Some ts => Some (brackets ts)
      | None => None
      end
  | PRaw base d =>
      match read_bytes_array flat d with
      | Ok (br, _, None, _) =>
          if base =? 5 then Some (quote (lit "0x" ++ hex_encode br))
          else if base =? 3 then Some (brackets (map (fun b => bool_text (b2n b mod 2 =? 1)) br))
          else None
      | _ => None
      end
  | PNil => Some (lit "null")
  end.

(** ** cmd/rap-cli/json.go *)
Definition nl : str := bs [10].
Definition tab : str := bs [9].
Fixpoint tabs (n : nat) : str := match n with O => [] | S n' => tab ++ tabs n' end.
Definition quoted (s : str) : str := lit """" ++ s ++ lit """".

(** lines 54-75: the captures of an event collection; the flag is set if the
    metadata of a capture cannot be written, where the function returns *)
Fixpoint events_text (ind : str) (l : list (f64 * (str * block))) : str * bool :=
  match l with
  | [] => ([], false)
  | (t, (name, md)) :: l' =>
      match marshal (PBlock md) with
      | None => ([], true)
      | Some d =>
          let (rest, e) := events_text ind l' in
          (ind ++ tab ++ tab ++ lit "{" ++ nl ++
           ind ++ tab ++ tab ++ tab ++ lit """time"": " ++ fixed6 t ++ lit "," ++ nl ++
           ind ++ tab ++ tab ++ tab ++ lit """name"": " ++ quoted name ++ lit "," ++ nl ++
           ind ++ tab ++ tab ++ tab ++ lit """data"": " ++ d ++ nl ++
           ind ++ tab ++ tab ++ lit "}" ++
           (match l' with [] => [] | _ => lit "," end) ++ nl ++ rest, e)
      end
  end.
(** lines 44-81: one collection.  A collection with the signature of events that
    is no event.Collection has its captures left out. *)
Definition coll_text (ind : str) (c : coll) : str * bool :=
  let head := ind ++ lit "{" ++ nl ++
              ind ++ tab ++ lit """name"": " ++ quoted (c_name c) ++ lit "," ++ nl ++
              ind ++ tab ++ lit """signature"" : " ++ quoted (c_sig c) ++ lit "," ++ nl ++
              ind ++ tab ++ lit """count"" : " ++ show_nat (length (c_times c)) in
  if str_eqb (c_sig c) sig_event then
    let (t, e) := match c_body c with BEvent l => events_text ind l | _ => ([], false) end in
    let front := head ++ lit "," ++ nl ++ ind ++ tab ++ lit """captures"": [" ++ nl ++ t in
    if e then (front, true)
    else (front ++ ind ++ tab ++ lit "]" ++ nl ++ ind ++ lit "}", false)
  else (head ++ nl ++ ind ++ lit "}", false).
(** lines 43-86: the loop; a nil collection panics *)
Fixpoint colls_text (ind : str) (l : list (option coll)) : res (str * bool) :=
  match l with
  | [] => Ok ([], false)
  | None :: _ => Panic
  | Some c :: l' =>
      let (t, e) := coll_text ind c in
      if e then Ok (t, true)
      else
        do (rest, e') <- colls_text ind l';
        Ok (t ++ (match l' with [] => [] | _ => lit "," ++ nl end) ++ rest, e')
  end.

(** lines 13-121  toJson: what it writes, and whether it returns an error.  The
    errors of the writer are ignored there; here everything is written.  The
    errors of the calls for the sub-recordings are ignored, too. *)
Fixpoint to_json (depth : nat) (r : recording) : res (str * bool) :=
  let 'mkRec id name colls recs md _ _ := r in
  let ind := tabs depth in
  let sub := ind ++ tab in
  let head := ind ++ lit "{" ++ nl ++
              sub ++ lit """id"": " ++ quoted id ++ lit "," ++ nl ++
              sub ++ lit """name"": " ++ quoted name ++ lit "," ++ nl in
  match marshal (PBlock md) with
  | None => Ok (head, true)
  | Some d =>
      let front := head ++ sub ++ lit """metadata"": " ++ d ++ lit "," ++ nl ++
                   sub ++ lit """collections"": [" ++ (match colls with [] => [] | _ => nl end) in
      do (ct, e) <- colls_text (sub ++ tab) colls;
      if e then Ok (front ++ ct, true)
      else
        do rt <- (fix go (l : list (option recording)) : res str :=
                    match l with
                    | [] => Ok []
                    | o :: l' =>
                        do t <- match o with
                                | None => Ok (lit "null")
                                | Some r' => do (t, _) <- to_json (depth + 2) r'; Ok t
                                end;
                        do u <- go l';
                        Ok (t ++ (match l' with [] => [] | _ => lit "," ++ nl end) ++ u)
                    end) recs;
        Ok (front ++ ct ++ (match colls with [] => [] | _ => nl ++ sub end) ++ lit "]," ++ nl ++
            sub ++ lit """recordings"": [" ++ (match recs with [] => [] | _ => nl end) ++ rt ++
            (match recs with [] => [] | _ => nl ++ sub end) ++ lit "]" ++ nl ++
            ind ++ lit "}", false)
  end.
End Export.
