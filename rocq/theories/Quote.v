(** Model of how encoding/json (Go 1.18, encode.go encodeState.string and
    decode.go unquote) treats bytes that are no UTF-8, and of how it writes
    strings.  The standard library is not part of the repository. *)
From Coq Require Import Strings.String.
From Verif Require Import Base Recording Text Json ToJson.
Local Open Scope N_scope.

Definition between (a b : N) (c : byte) : bool := (a <=? b2n c) && (b2n c <=? b).
(** utf8.DecodeRune: the number of bytes of the first code point, 0 for
    RuneError *)
Definition rune_size (s : str) : nat :=
  match s with
  | [] => O
  | a :: s =>
      if b2n a <? 128 then 1%nat
      else
        match s with
        | [] => O
        | b :: s =>
            if between 194 223 a && between 128 191 b then 2%nat
            else
              match s with
              | [] => O
              | c :: s =>
                  if ((between 224 224 a && between 160 191 b) || (between 225 236 a && between 128 191 b) ||
                      (between 237 237 a && between 128 159 b) || (between 238 239 a && between 128 191 b)) &&
                     between 128 191 c then 3%nat
                  else
                    match s with
                    | [] => O
                    | d :: _ =>
                        if ((between 240 240 a && between 144 191 b) || (between 241 243 a && between 128 191 b) ||
                            (between 244 244 a && between 128 143 b)) &&
                           between 128 191 c && between 128 191 d then 4%nat
                        else O
                    end
              end
        end
  end.

(** Every byte that begins no code point becomes U+FFFD; [k] bytes of a code
    point are still to come. *)
Fixpoint clean_from (k : nat) (s : str) : str :=
  match s with
  | [] => []
  | a :: s' =>
      match k with
      | S k' => a :: clean_from k' s'
      | O => match rune_size s with
             | O => utf8 65533 ++ clean_from 0 s'
             | S n => a :: clean_from n s'
             end
      end
  end.
Definition clean (s : str) : str := clean_from 0 s.

(** encode.go, for a byte below 128 *)
Definition escape_ascii (a : byte) : str :=
  if beqb a """" || beqb a "\" then ["\"%byte; a]
  else if b2n a =? 10 then lit "\n"
  else if b2n a =? 13 then lit "\r"
  else if b2n a =? 9 then lit "\t"
  else if (b2n a <? 32) || beqb a "<" || beqb a ">" || beqb a "&" then
    lit "\u00" ++ [hex_char (b2n a / 16); hex_char (b2n a mod 16)]
  else [a].
(** U+2028 and U+2029 *)
Definition separator (s : str) : option str :=
  match strip (bs [226; 128; 168]) s, strip (bs [226; 128; 169]) s with
  | Some _, _ => Some (lit "\u2028")
  | _, Some _ => Some (lit "\u2029")
  | _, _ => None
  end.
(** [k] bytes of a code point are still to come; [keep]: they are to be
    written *)
Fixpoint escape_from (keep : bool) (k : nat) (s : str) : str :=
  match s with
  | [] => []
  | a :: s' =>
      match k with
      | S k' => (if keep then [a] else []) ++ escape_from keep k' s'
      | O =>
          match rune_size s with
          | O => lit "\ufffd" ++ escape_from true 0 s'
          | S O => escape_ascii a ++ escape_from true 0 s'
          | S n =>
              match separator s with
              | Some e => e ++ escape_from false n s'
              | None => [a] ++ escape_from true n s'
              end
          end
      end
  end.
(** json.Marshal of a string *)
Definition json_quote (s : str) : str := quoted (escape_from true 0 s).
