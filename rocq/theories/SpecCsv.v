(** Specification vocabulary for tables. *)
From Coq Require Import Strings.String.
From Verif Require Import Base Floats Metadata Recording Text.

(** The code points that Unicode calls white space, and their UTF-8 encoding
    (none of them needs four bytes). *)
Definition white (c : N) : Prop :=
  (9 <= c <= 13 \/ In c [32; 133; 160; 5760] \/ 8192 <= c <= 8202 \/ In c [8232; 8233; 8239; 8287; 12288])%N.
Definition utf8 (c : N) : str :=
  (if c <? 128 then bs [c]
   else if c <? 2048 then bs [192 + c / 64; 128 + c mod 64]
   else bs [224 + c / 4096; 128 + c / 64 mod 64; 128 + c mod 64])%N.
Definition space (p : str) : Prop := exists c, white c /\ p = utf8 c.
Definition blank (w : str) : Prop := exists ps, Forall space ps /\ w = concat ps.
Definition starts_blank (t : str) : Prop := exists p r, space p /\ t = p ++ r.
Definition ends_blank (t : str) : Prop := exists p r, space p /\ t = r ++ p.

(** Column [i] is the last one with this title (white space around titles does
    not matter). *)
Definition titled (header : list str) (title : string) (i : nat) : Prop :=
  (exists s, nth_error header i = Some s /\ trim_space s = lit title) /\
  forall j s, nth_error header j = Some s -> trim_space s = lit title -> j <= i.
Record columns := mkColumns { in_time : nat; in_id : nat; in_name : nat;
                              in_x : nat; in_y : nat; in_z : nat }.
Definition six_columns (header : list str) (k : columns) : Prop :=
  titled header "time" (in_time k) /\ titled header "id" (in_id k) /\
  titled header "name" (in_name k) /\ titled header "x" (in_x k) /\
  titled header "y" (in_y k) /\ titled header "z" (in_z k).

(** One row of data: id, name, time and position. *)
Definition entry := (str * str * (f64 * vec))%type.
Definition key (e : entry) : str * str := fst e.
Section Rows.
Context (parse_float : str -> option f64).
(** Cell [i] of the row is the number [x]. *)
Definition number_at (row : list str) (i : nat) (x : f64) : Prop :=
  exists s, nth_error row i = Some s /\ parse_float (trim_space s) = Some x.
Definition not_number_at (row : list str) (i : nat) : Prop :=
  exists s, nth_error row i = Some s /\ parse_float (trim_space s) = None.
Definition row_says (k : columns) (row : list str) (e : entry) : Prop :=
  let '(id, name, (t, v)) := e in
  nth_error row (in_id k) = Some id /\ nth_error row (in_name k) = Some name /\
  number_at row (in_time k) t /\
  number_at row (in_x k) (vx v) /\ number_at row (in_y k) (vy v) /\ number_at row (in_z k) (vz v).
Definition bad_row (k : columns) (row : list str) : Prop :=
  not_number_at row (in_time k) \/ not_number_at row (in_x k) \/
  not_number_at row (in_y k) \/ not_number_at row (in_z k).
End Rows.

(** The captures of the rows with this id and name, in the order of the rows. *)
Definition key_eqb (a b : str * str) : bool := str_eqb (fst a) (fst b) && str_eqb (snd a) (snd b).
Definition rows_of (k : str * str) (l : list entry) : list (f64 * vec) :=
  map snd (filter (fun e => key_eqb k (key e)) l).
(** The sub-recording the table describes for this id and name. *)
Definition group (k : str * str) (l : list entry) : recording :=
  mkRec (fst k) (snd k) [Some (mkColl (lit "Position") (BPos (rows_of k l)))] [] [] [] [].
