(** Properties C33 and C42: importing tables. *)
From Coq Require Import Strings.String Permutation Lia.
From Verif Require Import Base BaseFacts IO Spec Floats Metadata SpecMeta Recording SpecRec Encoding.
From Verif Require Import Writer Reader SpecFile EncPosition BuiltinFacts Toy Demo PropFile.
From Verif Require Import IOFacts MetadataFacts Text Csv SpecCsv CsvFacts Tools.
From Flocq Require IEEE754.Binary.
Local Open Scope nat_scope.

(** C33: a table with the six columns, in any order and among others, whose
    numbers can all be parsed, yields one sub-recording per distinct pair of
    id and name.  Its single collection holds exactly the rows of that pair, in
    the order of the file.  This holds for every iteration order of the maps
    and whatever ParseFloat accepts. *)
Theorem C33_import : forall parse_float outer inner header rows k l,
  (forall d, Permutation (outer d) d) -> (forall i m, Permutation (inner i m) m) ->
  six_columns header k -> Forall2 (row_says parse_float k) rows l ->
  exists subs, recording_from_csv parse_float outer inner (header :: rows, None)
    = Ok (inl (mkRec [] [] [] (map Some subs) [] [] [])) /\
    NoDup (map (fun r => (rec_id r, rec_name r)) subs) /\
    (forall r, In r subs <-> exists p, In p (map key l) /\ r = group p l).
Proof. intros. now apply csv_import_ok with (k := k). Qed.
Print Assumptions C33_import.

(** C33: a cell that should be a number and is not, or an error while reading
    the table, aborts the import with an error. *)
Theorem C33_bad_number : forall parse_float outer inner header rows stop k,
  six_columns header k -> Forall (fun row => length row = length header) rows ->
  (exists row, In row rows /\ bad_row parse_float k row) \/ stop <> None ->
  exists e, recording_from_csv parse_float outer inner (header :: rows, stop) = Ok (inr e).
Proof. intros. now apply csv_import_fails with (k := k). Qed.
Print Assumptions C33_bad_number.

(** C33: these are the only two cases. *)
Theorem C33_or : forall parse_float header rows k,
  six_columns header k -> Forall (fun row => length row = length header) rows ->
  (exists l, Forall2 (row_says parse_float k) rows l) \/
  (exists row, In row rows /\ bad_row parse_float k row).
Proof.
  intros parse_float header rows k Hk Hr. induction Hr as [|row rows Hrow _ IH].
  - left. exists []. constructor.
  - destruct (row_dec parse_float _ _ _ Hk Hrow) as [(e & He)|(Hb & _)].
    + destruct IH as [(l & Hl)|(row' & Hin & Hb)]; [left; exists (e :: l); now constructor|].
      right. exists row'. split; [now right|exact Hb].
    + right. exists row. split; [now left|exact Hb].
Qed.
Print Assumptions C33_or.

(** C33: if a recording with data comes out at all, the six columns were
    there: with a column missing the tool panics or fails. *)
Theorem C33_needs_columns : forall parse_float outer inner header row rows stop r,
  recording_from_csv parse_float outer inner (header :: row :: rows, stop) = Ok (inl r) ->
  exists k, six_columns header k.
Proof. exact csv_missing_column. Qed.
Print Assumptions C33_needs_columns.

(** C33: what "white space around it does not matter" means. *)
Theorem C33_trim : forall s, exists w1 w2,
  s = w1 ++ trim_space s ++ w2 /\ blank w1 /\ blank w2 /\
  ~ starts_blank (trim_space s) /\ ~ ends_blank (trim_space s).
Proof. exact trim_space_spec. Qed.
Print Assumptions C33_trim.

(** No row is lost or duplicated: the captures of all sub-recordings are as
    many as the rows. *)
Lemma group_count : forall (l : list entry) ks, NoDup ks -> (forall e, In e l -> In (key e) ks) ->
  length (flat_map (fun k => rows_of k l) ks) = length l.
Proof.
  induction l as [|e l IH]; intros ks Hn Hk.
  - clear. induction ks as [|k ks IH]; [reflexivity|]. exact IH.
  - cbn [length]. rewrite <- (IH ks Hn) by (intros; apply Hk; now right). clear IH.
    assert (Hin : In (key e) ks) by (apply Hk; now left). clear Hk.
    induction ks as [|k ks IHk]; [destruct Hin|]. inversion_clear Hn as [|? ? Hk0 Hks]. cbn [flat_map].
    rewrite !app_length. unfold rows_of at 1. cbn [filter]. destruct (key_eqb k (key e)) eqn:E.
    + apply key_eqb_eq in E. subst k. cbn [map length].
      assert (H : flat_map (fun k => rows_of k (e :: l)) ks = flat_map (fun k => rows_of k l) ks).
      { clear -Hk0. induction ks as [|k ks IH]; [reflexivity|]. cbn [flat_map].
        rewrite IH by (intro; apply Hk0; now right). f_equal. unfold rows_of. cbn [filter].
        destruct (key_eqb k (key e)) eqn:E; [|reflexivity]. apply key_eqb_eq in E. destruct Hk0. now left. }
      rewrite H. reflexivity.
    + destruct Hin as [->|Hin]; [|rewrite (IHk Hks Hin); fold (rows_of k l); lia].
      now rewrite (proj2 (key_eqb_eq _ _) eq_refl) in E.
Qed.
Theorem C33_nothing_lost : forall parse_float outer inner header rows k l subs,
  (forall d, Permutation (outer d) d) -> (forall i m, Permutation (inner i m) m) ->
  six_columns header k -> Forall2 (row_says parse_float k) rows l ->
  recording_from_csv parse_float outer inner (header :: rows, None)
    = Ok (inl (mkRec [] [] [] (map Some subs) [] [] [])) ->
  length (flat_map captures (flat_map tree_colls subs)) = length rows.
Proof.
  intros parse_float outer inner header rows k l subs Ho Hi Hk Hl E.
  destruct (csv_import_ok parse_float outer inner Ho Hi header rows k l Hk Hl) as (subs' & E' & Hn & Hs).
  rewrite E in E'. injection E' as E'. assert (subs = subs').
  { clear -E'. revert subs' E'. induction subs as [|a s IH]; intros [|b s'] H; try discriminate H; [reflexivity|].
    cbn in H. injection H as -> H. f_equal. auto. }
  subst subs'. clear E E'.
  assert (El : length rows = length l) by (clear -Hl; induction Hl; cbn; congruence). rewrite El. clear El.
  rewrite <- (group_count l (map (fun r => (rec_id r, rec_name r)) subs) Hn).
  - assert (G : forall r, In r subs -> r = group (rec_id r, rec_name r) l).
    { intros r Hr. apply Hs in Hr as ((i & n) & _ & ->). reflexivity. }
    clear Hn Hs. induction subs as [|r subs IH]; [reflexivity|]. cbn [flat_map map].
    rewrite flat_map_app, !app_length, IH by (intros; apply G; now right). f_equal.
    rewrite (G r (or_introl eq_refl)) at 1. unfold group. cbn. rewrite !app_nil_r, map_length. reflexivity.
  - intros e He. apply in_map_iff. exists (group (key e) l). split; [now destruct (key e)|].
    apply Hs. exists (key e). split; [now apply in_map|reflexivity].
Qed.
Print Assumptions C33_nothing_lost.

(** ** C42: the from-csv command *)

Lemma from_csv_valid : valid_config 0 0 0 from_csv_writer.
Proof.
  unfold valid_config. cbn [w_time w_encs from_csv_writer]. repeat split; try reflexivity.
  - repeat constructor; unfold builtin; tauto.
  - repeat constructor; cbn; intuition discriminate.
Qed.
Lemma from_csv_load : forall e, In e (w_encs from_csv_writer) -> can_read load_encoders e.
Proof.
  intros e [<-|[]]. apply can_read_builtin with 0%N 0%N 0%N 2%N 1%N 0%N.
  - unfold builtin. tauto.
  - apply default_valid.
  - exists (position_encoder 2). split; [cbn; tauto|reflexivity].
Qed.
Lemma nil_block : built_block [].
Proof. split; [constructor|exact I]. Qed.
Lemma block_equiv_nil : forall m, block_equiv [] m -> m = [].
Proof.
  intros m H. inversion H as [? m' ? Hp He]; subst. apply Permutation_nil in Hp. subst m'. now inversion He.
Qed.
Lemma group_wf : forall k l, wf_rec (group k l).
Proof.
  intros. unfold group. constructor; try constructor; try constructor; try apply nil_block.
  eexists. split; [reflexivity|exact I].
Qed.
Lemma group_equiv : forall k l r, rec_equiv (group k l) r -> r = group k l.
Proof.
  intros k l r H. unfold group in *. inversion H as [? ? ? ? ? ? ? ? ? ? ? ? Hc Hr Hm Hb Hf]; subst.
  inversion Hr; subst. inversion Hb; subst. inversion Hf; subst. apply block_equiv_nil in Hm. subst.
  inversion Hc as [|? ? ? ? Hx Hrest]; subst. inversion Hrest; subst.
  destruct Hx as (c & d & E & -> & Hcd). injection E as <-. cbn in Hcd. now subst.
Qed.

(** C42: what the from-csv command writes, read by Load, is exactly the
    imported recording, times and coordinates included. *)
Theorem C42_from_csv_file : forall parse_float outer inner header rows k l Z IZ v1,
  (forall d, Permutation (outer d) d) -> (forall i m, Permutation (inner i m) m) ->
  six_columns header k -> Forall2 (row_says parse_float k) rows l -> codec_ok Z IZ ->
  exists subs n file,
    let r := mkRec [] [] [] (map Some subs) [] [] [] in
    NoDup (map (fun r => (rec_id r, rec_name r)) subs) /\
    (forall r, In r subs <-> exists p, In p (map key l) /\ r = group p l) /\
    recording_from_csv parse_float outer inner (header :: rows, None) = Ok (inl r) /\
    write_views from_csv_writer Z buffer r r r [] = Ok (n, None, file) /\
    ((n <= 2 ^ 40)%N ->
     forall S (R : Reader S) eager I, delivers R eager I -> forall s rest, I s (file ++ rest) ->
     exists s', read load_encoders v1 IZ R s = Ok (Some r, n, None, s')).
Proof.
  intros parse_float outer inner header rows k l Z IZ v1 Ho Hi Hk Hl HZ.
  destruct (csv_import_ok parse_float outer inner Ho Hi header rows k l Hk Hl) as (subs & E & Hn & Hs).
  set (r := mkRec [] [] [] (map Some subs) [] [] []) in *.
  assert (G : forall x, In x subs -> exists p, x = group p l).
  { intros x Hx. apply Hs in Hx as (p & _ & ->). eauto. }
  assert (Hwf : wf_rec r).
  { constructor; try constructor; try constructor; try apply nil_block.
    apply Forall_forall. intros o Ho'. apply in_map_iff in Ho' as (x & <- & Hx). exists x. split; [reflexivity|].
    destruct (G x Hx) as (p & ->). apply group_wf. }
  assert (Hacc : ~ unaccepted (w_encs from_csv_writer) r).
  { apply accepted_by. intros c Hc. unfold r in Hc. cbn [tree_colls flat_map app] in Hc.
    apply in_flat_map in Hc as (o & Ho' & Hc). apply in_map_iff in Ho' as (x & <- & Hx).
    destruct (G x Hx) as (p & ->). cbn in Hc. destruct Hc as [<-|[]]. reflexivity. }
  destruct (C18_lossless_roundtrip from_csv_writer Z IZ load_encoders v1 r r r) as (n & file & Hw & Hr);
    auto using from_csv_valid, from_csv_load, rec_equiv_refl.
  exists subs, n, file. fold r. cbn zeta. split; [exact Hn|]. split; [exact Hs|]. split; [exact E|].
  split; [exact Hw|]. intro Hsz. destruct (Hr Hsz) as (r' & Heq & Hread).
  enough (r' = r) by (subst r'; exact Hread). clear -Heq G. unfold r in *.
  inversion Heq as [? ? ? ? ? ? ? ? ? ? ? ? Hc Hr Hm Hb Hf]; subst.
  inversion Hc; subst. inversion Hb; subst. inversion Hf; subst. apply block_equiv_nil in Hm. subst.
  f_equal. clear -Hr G. revert recs' Hr. induction subs as [|x subs IH]; intros recs' Hr.
  - now inversion Hr.
  - cbn [map] in Hr. inversion Hr as [|? o ? l' Ho Hl]; subst. cbn [map]. f_equal.
    + destruct Ho as (c & d & Ec & -> & Hcd). injection Ec as <-. destruct (G x (or_introl eq_refl)) as (p & ->).
      f_equal. now apply group_equiv.
    + apply IH; auto. intros y Hy. apply G. now right.
Qed.
Print Assumptions C42_from_csv_file.

(** A table: columns in another order, one unknown column, white space around
    titles and numbers; two ids, one of them with two names. *)
Definition two : f64 := Binary.B754_finite 53 1024 false 4503599627370496 (-51) eq_refl.
Definition rev_ids (d : csv_data) : csv_data := rev d.
Definition same_names (_ : str) (m : csv_names) : csv_names := m.
Definition toy_parse (s : str) : option f64 :=
  if str_eqb s (lit "0") then Some f0
  else if str_eqb s (lit "inf") then Some fpinf
  else if str_eqb s (lit "2") then Some two else None.
Definition c33_header : list str := map lit ["name"; " z "; "x"; "y"; "id"; "note"; "time "]%string.
Definition c33_rows : list (list str) := map (map lit)
  [["Bob"; "0"; "2"; "0"; "1"; "?"; " 0"];
   ["Eve"; "2"; "2"; "2"; "1"; ""; "0"];
   ["Bob"; "2"; "0"; "0"; "2"; "x"; "2"];
   ["Bob"; "inf"; "0"; "0"; "1"; "x"; "2 "]]%string.
Definition c33_entries : list entry :=
  [(lit "1", lit "Bob", (f0, mkVec two f0 f0)); (lit "1", lit "Eve", (f0, mkVec two two two));
   (lit "2", lit "Bob", (two, mkVec f0 f0 two)); (lit "1", lit "Bob", (two, mkVec f0 f0 fpinf))].
Lemma c33_columns : six_columns c33_header (mkColumns 6 4 0 2 3 1).
Proof.
  repeat (split; [apply last_titled_iff; vm_compute; reflexivity|]).
  apply last_titled_iff. vm_compute. reflexivity.
Qed.
Lemma c33_says : Forall2 (row_says toy_parse (mkColumns 6 4 0 2 3 1)) c33_rows c33_entries.
Proof.
  unfold c33_rows, c33_entries. cbn [map].
  repeat (apply Forall2_cons || apply Forall2_nil);
    (split; [reflexivity|]; split; [reflexivity|]; repeat split; eexists; (split; [reflexivity|vm_compute; reflexivity])).
Qed.
Example C33_example :
  six_columns c33_header (mkColumns 6 4 0 2 3 1) /\
  Forall2 (row_says toy_parse (mkColumns 6 4 0 2 3 1)) c33_rows c33_entries /\
  (forall d, Permutation (rev_ids d) d) /\
  recording_from_csv toy_parse rev_ids same_names (c33_header :: c33_rows, None)
  = Ok (inl (mkRec [] [] []
      [Some (mkRec (lit "2") (lit "Bob") [Some (mkColl (lit "Position") (BPos [(two, mkVec f0 f0 two)]))] [] [] [] []);
       Some (mkRec (lit "1") (lit "Bob")
         [Some (mkColl (lit "Position") (BPos [(f0, mkVec two f0 f0); (two, mkVec f0 f0 fpinf)]))] [] [] [] []);
       Some (mkRec (lit "1") (lit "Eve") [Some (mkColl (lit "Position") (BPos [(f0, mkVec two two two)]))] [] [] [] [])]
      [] [] [])) /\
  bad_row toy_parse (mkColumns 6 4 0 2 3 1) (map lit ["B"; "0"; "2"; "x"; "1"; "2"; "0"]%string) /\
  recording_from_csv toy_parse rev_ids same_names (c33_header :: [map lit ["B"; "0"; "2"; "x"; "1"; "2"; "0"]%string], None)
  = Ok (inr CsvY) /\
  recording_from_csv toy_parse rev_ids same_names ([[lit "time"]; [lit "0"]], None) = Panic.
Proof.
  split; [apply c33_columns|]. split; [apply c33_says|]. split; [intro d; symmetry; apply Permutation_rev|].
  split; [vm_compute; reflexivity|]. split.
  - right. right. left. eexists. split; [reflexivity|]. vm_compute. reflexivity.
  - split; vm_compute; reflexivity.
Qed.

Example C42_example : codec_ok toy_z toy_iz /\
  exists r n file s', recording_from_csv toy_parse rev_ids same_names (c33_header :: c33_rows, None) = Ok (inl r) /\
    write_views from_csv_writer toy_z buffer r r r [] = Ok (n, None, file) /\
    read load_encoders no_v1 toy_iz flat file = Ok (Some r, n, None, s').
Proof.
  split; [apply toy_ok|].
  destruct (C42_from_csv_file toy_parse rev_ids same_names c33_header c33_rows (mkColumns 6 4 0 2 3 1) c33_entries toy_z toy_iz no_v1)
    as (subs & n & file & _ & _ & E & Hw & Hr); auto using c33_columns, c33_says, toy_ok.
  { intro d. symmetry. apply Permutation_rev. }
  assert (En : (n <= 2 ^ 40)%N).
  { assert (Ec : match recording_from_csv toy_parse rev_ids same_names (c33_header :: c33_rows, None) with
                 | Ok (inl r) => match write_views from_csv_writer toy_z buffer r r r [] with
                                 | Ok (n, _, _) => n | _ => 0%N end | _ => 0%N end = 234%N) by (vm_compute; reflexivity).
    rewrite E, Hw in Ec. subst n. discriminate. }
  destruct (Hr En _ flat false _ (flat_delivers false) file []) as (s' & Er); [now rewrite app_nil_r|].
  exists (mkRec [] [] [] (map Some subs) [] [] []), n, file, s'. auto.
Qed.
