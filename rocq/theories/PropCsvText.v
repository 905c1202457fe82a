(** Property C49: the text of tables. *)
From Coq Require Import Strings.String Permutation Lia.
From Verif Require Import Base BaseFacts IO Spec Floats Metadata SpecMeta Recording SpecRec Encoding.
From Verif Require Import Writer Reader SpecFile EncPosition BuiltinFacts Toy Demo PropFile.
From Verif Require Import IOFacts MetadataFacts Text Csv SpecCsv CsvFacts Tools PropCsv.
From Verif Require Import CsvText SpecCsvText CsvTextFacts.
Local Open Scope nat_scope.

(** ** C49 *)
(** The reader accepts exactly the texts that say a table, and hands out that table. *)
Theorem C49_reads : forall t rows, csv_read t None = (rows, None) <-> says_table t rows.
Proof. exact csv_read_iff. Qed.
Print Assumptions C49_reads.
Theorem C49_one_meaning : forall t rows rows', says_table t rows -> says_table t rows' -> rows = rows'.
Proof. intros t rows rows' H H'. apply C49_reads in H, H'. congruence. Qed.
Print Assumptions C49_one_meaning.

(** Every table without "\r" can be written: here with all fields in quotes, and either
    line ending. *)
Fixpoint quoted_row (r : list str) : bytes :=
  match r with
  | [] => []
  | [v] => q :: doubled v ++ [q]
  | v :: r' => q :: doubled v ++ q :: cm :: quoted_row r'
  end.
Definition quoted_table (eol : bytes) (rows : list (list str)) : bytes :=
  flat_map (fun r => quoted_row r ++ eol) rows.
Lemma quoted_row_ok : forall r, r <> [] -> row_text r (quoted_row r).
Proof.
  induction r as [|v r IH]; intro Hr; [congruence|]. destruct r as [|w r].
  - constructor. constructor.
  - change (quoted_row (v :: w :: r)) with (q :: doubled v ++ [q] ++ cm :: quoted_row (w :: r)).
    rewrite (app_assoc (doubled v)). apply (R_more v (q :: doubled v ++ [q])); [constructor | apply IH; discriminate].
Qed.
Lemma ends_keep : forall a t u, ~ In cr a -> ends_lf t u -> ends_lf (a ++ t) (a ++ u).
Proof.
  induction a as [|b a IH]; intros t u Ha H; [exact H|]. cbn [app]. apply E_char.
  - apply IH; auto. intro. apply Ha. now right.
  - intros ->. destruct Ha. now left.
Qed.
Lemma quoted_no_cr : forall r, (forall v, In v r -> ~ In cr v) -> ~ In cr (quoted_row r).
Proof.
  assert (D : forall v, ~ In cr v -> ~ In cr (doubled v)).
  { intros v Hv H. apply in_flat_map in H as (b & Hb & H). destruct (Byte.eqb b q).
    - destruct H as [H|[H|[]]]; discriminate.
    - destruct H as [->|[]]. auto. }
  induction r as [|v r IH]; intros Hr H; [destruct H|].
  assert (Hv : ~ In cr (doubled v)) by (apply D, Hr; now left).
  destruct r as [|w r].
  - destruct H as [H|H]; [discriminate|]. apply in_app_or in H as [H|[H|[]]]; [auto | discriminate].
  - change (quoted_row (v :: w :: r)) with (q :: doubled v ++ q :: cm :: quoted_row (w :: r)) in H.
    destruct H as [H|H]; [discriminate|]. apply in_app_or in H as [H|[H|[H|H]]]; [auto | discriminate | discriminate |].
    apply IH in H; [exact H|]. intros x Hx. apply Hr. now right.
Qed.
Theorem C49_writable : forall eol rows, eol = [lf] \/ eol = [cr; lf] ->
  same_width rows -> (forall r, In r rows -> r <> [] /\ forall v, In v r -> ~ In cr v) ->
  csv_read (quoted_table eol rows) None = (rows, None).
Proof.
  intros eol rows He Hw Hr. apply C49_reads. exists (quoted_table [lf] rows). split; [|split; [|exact Hw]].
  - clear Hw. induction rows as [|r rows IH]; [constructor|]. unfold quoted_table. cbn [flat_map].
    rewrite <- !app_assoc. apply ends_keep; [apply quoted_no_cr, Hr; now left|].
    assert (E : ends_lf (quoted_table eol rows) (quoted_table [lf] rows)) by (apply IH; intros; apply Hr; now right).
    destruct He as [-> | ->]; cbn [app]; [apply E_char; [exact E | discriminate] | now apply E_crlf].
  - clear Hw. induction rows as [|r rows IH]; [constructor|]. unfold quoted_table. cbn [flat_map]. rewrite <- app_assoc.
    apply T_row; [apply quoted_row_ok, Hr; now left | | apply IH; intros; apply Hr; now right].
    destruct r as [|v [|w r]]; [destruct (Hr [] (or_introl eq_refl)); congruence | discriminate | discriminate].
Qed.
Print Assumptions C49_writable.

(** The from-csv command from the bytes of its input to the bytes of its output: what
    the written file holds is what the text says. *)
Theorem C49_from_csv : forall parse_float outer inner t header rows k l Z IZ v1,
  (forall d, Permutation (outer d) d) -> (forall i m, Permutation (inner i m) m) ->
  says_table t (header :: rows) -> six_columns header k -> Forall2 (row_says parse_float k) rows l -> codec_ok Z IZ ->
  exists subs n file,
    let r := mkRec [] [] [] (map Some subs) [] [] [] in
    NoDup (map (fun r => (rec_id r, rec_name r)) subs) /\
    (forall r, In r subs <-> exists p, In p (map key l) /\ r = group p l) /\
    recording_from_csv parse_float outer inner (csv_read t None) = Ok (inl r) /\
    write_views from_csv_writer Z buffer r r r [] = Ok (n, None, file) /\
    ((n <= 2 ^ 40)%N ->
     forall S (R : Reader S) eager I, delivers R eager I -> forall s rest, I s (file ++ rest) ->
     exists s', read load_encoders v1 IZ R s = Ok (Some r, n, None, s')).
Proof.
  intros pf outer inner t header rows k l Z IZ v1 Ho Hi Ht Hk Hl HZ. apply C49_reads in Ht. rewrite Ht.
  now apply C42_from_csv_file with k.
Qed.
Print Assumptions C49_from_csv.
(** Nothing else is imported: if a recording comes out, the input was read to its end
    and its text says a table. *)
Lemma rows_stop : forall parse_float k rows stop d d', csv_rows parse_float k rows stop d = Ok (inl d') -> stop = None.
Proof.
  intros pf k rows. induction rows as [|row rows IH]; intros stop d d' H; cbn [csv_rows] in H.
  - destruct stop; congruence.
  - destruct (csv_row pf k row) as [[[[id name] c]|e]| |]; cbn [bind] in H; try discriminate. eauto.
Qed.
Theorem C49_rejects : forall parse_float outer inner t stop r,
  recording_from_csv parse_float outer inner (csv_read t stop) = Ok (inl r) ->
  stop = None /\ exists header rows, says_table t (header :: rows).
Proof.
  intros pf outer inner t stop r H. destruct (csv_read t stop) as [[|header rows] e] eqn:E.
  - destruct e; discriminate.
  - cbn [recording_from_csv] in H.
    destruct (csv_rows pf (find_cols 0 header (mkCols None None None None None None)) rows e []) as [[d|?]| |] eqn:Er; cbn [bind] in H; try discriminate.
    apply rows_stop in Er as ->. destruct stop as [e|].
    + destruct (read_stop (unix_lines t) e AtRecord [] [] 0). unfold csv_read in E. now rewrite E.
    + split; [reflexivity|]. exists header, rows. now apply C49_reads.
Qed.
Print Assumptions C49_rejects.

(** A text with both kinds of fields, both line endings and an empty line; the last line
    has no ending.  Line endings inside quotes are changed too. *)
Definition c49_text : bytes :=
  lit "name, z ,x,y,id,note,time " ++ [cr; lf] ++ lit "Bob,0,2,0,1,?, 0" ++ [lf; cr; lf] ++
  lit """Eve"",2,2,2,1,," ++ lit "0" ++ [lf] ++ lit "Bob,2,0,0,2,""x"",2" ++ [lf] ++ lit "Bob,inf,""0"",0,1,x,2 ".
Example C49_example :
  says_table c49_text (c33_header :: c33_rows) /\
  csv_read (lit "a,""b """"c""""," ++ [cr; lf] ++ lit "d""" ++ [cr; lf]) None = ([[lit "a"; lit "b ""c""," ++ [lf] ++ lit "d"]], None) /\
  csv_read (lit "a,b" ++ [lf] ++ lit "c") None = ([[lit "a"; lit "b"]], Some ECsvFieldCount) /\
  csv_read (lit "a""b") None = ([], Some ECsvBareQuote) /\
  csv_read (lit """a""b") None = ([], Some ECsvQuote) /\
  csv_read (lit """a" ++ [lf]) None = ([], Some ECsvQuote).
Proof. split; [apply C49_reads|]; repeat split. Qed.
Example C49_file_example : codec_ok toy_z toy_iz /\
  exists subs n file, recording_from_csv toy_parse rev_ids same_names (csv_read c49_text None) = Ok (inl (mkRec [] [] [] (map Some subs) [] [] [])) /\
    write_views from_csv_writer toy_z buffer (mkRec [] [] [] (map Some subs) [] [] []) (mkRec [] [] [] (map Some subs) [] [] [])
      (mkRec [] [] [] (map Some subs) [] [] []) [] = Ok (n, None, file).
Proof.
  split; [apply toy_ok|].
  destruct (C49_from_csv toy_parse rev_ids same_names c49_text c33_header c33_rows (mkColumns 6 4 0 2 3 1) c33_entries toy_z toy_iz no_v1)
    as (subs & n & file & _ & _ & E & Hw & _); auto using c33_columns, c33_says, toy_ok.
  { intro d. symmetry. apply Permutation_rev. }
  { apply C49_reads. reflexivity. }
  eauto.
Qed.
