(** What a text says as a table of comma-separated values. *)
From Verif Require Import Base Metadata.

Definition q : byte := "034"%byte.
Definition cm : byte := ","%byte.
Definition lf : byte := "010"%byte.
Definition cr : byte := "013"%byte.

(** [ends_lf t u]: [u] is [t] with every line ending "\r\n" written as "\n" and without
    a "\r" at the very end. *)
Inductive ends_lf : bytes -> bytes -> Prop :=
| E_nil : ends_lf [] []
| E_cr : ends_lf [cr] []
| E_crlf : forall t u, ends_lf t u -> ends_lf (cr :: lf :: t) (lf :: u)
| E_char : forall b t u, ends_lf t u -> (b = cr -> t <> [] /\ forall t', t <> lf :: t') -> ends_lf (b :: t) (b :: u).

(** A field: plain, or in quotes with its quotes doubled. *)
Definition doubled (v : str) : bytes := flat_map (fun b => if Byte.eqb b q then [q; q] else [b]) v.
Inductive field_text : str -> bytes -> Prop :=
| F_plain : forall v, (forall b, In b v -> b <> q /\ b <> cm /\ b <> lf) -> field_text v v
| F_quoted : forall v, field_text v (q :: doubled v ++ [q]).
(** A record: fields with commas between them. *)
Inductive row_text : list str -> bytes -> Prop :=
| R_one : forall v t, field_text v t -> row_text [v] t
| R_more : forall v t r u, field_text v t -> row_text r u -> row_text (v :: r) (t ++ cm :: u).
(** A table: records, one per line; the last line need not end with a line ending; empty
    lines do not count. *)
Inductive table_text : list (list str) -> bytes -> Prop :=
| T_end : table_text [] []
| T_blank : forall rows u, table_text rows u -> table_text rows (lf :: u)
| T_row : forall r t rows u, row_text r t -> t <> [] -> table_text rows u -> table_text (r :: rows) (t ++ lf :: u)
| T_last : forall r t, row_text r t -> t <> [] -> table_text [r] t.
Definition same_width (rows : list (list str)) : Prop :=
  forall r r', In r rows -> In r' rows -> length r = length r'.
Definition says_table (t : bytes) (rows : list (list str)) : Prop :=
  exists u, ends_lf t u /\ table_text rows u /\ same_width rows.
