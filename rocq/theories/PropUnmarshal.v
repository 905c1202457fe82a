(** C47: reading a JSON text as a property of a given type. *)
From Coq Require Import Strings.String Permutation Lia.
From Flocq Require Import IEEE754.Binary IEEE754.Bits.
From Verif Require Import Base BaseFacts Floats Metadata SpecMeta MetadataFacts Recording SpecRec.
From Verif Require Import Text SpecText TextFacts Json SpecJson JsonFacts SpecToJson Quote JsonText SpecJsonText QuoteFacts JsonTextFacts JsonOrderFacts.
From Verif Require Import Near32Facts ToJson ToJsonFacts MarshalFacts Unmarshal SpecUnmarshal UnmarshalFacts PropMarshal.
Local Open Scope N_scope.

(** The value read is one the text stands for; a text that stands for a value is
    read as it, up to the order of the entries of blocks; a panic comes from a
    pitfall, and every other text is an error. *)
Theorem C47_reads : forall parse64 parse32 parse_time reparse32 k s,
  let got := unmarshal_as parse64 parse32 parse_time reparse32 k s in
  let reads := reads_as parse64 parse32 parse_time reparse32 k in
  (forall p, got = Ok (Some p) -> exists t, content s t /\ reads t p) /\
  (forall t p, content s t -> reads t p -> exists p', got = Ok (Some p') /\ prop_equiv p p') /\
  (got = Panic -> exists t, content s t /\ pitfall parse64 k t) /\
  ((forall t, content s t -> ~ pitfall parse64 k t /\ forall p, ~ reads t p) -> got = Ok None).
Proof.
  intros p6 p3 pt r k s got reads. unfold got, unmarshal_as. destruct (parse_text (clean s)) as [t|] eqn:E.
  - assert (Hc : content s t) by now apply content_parse. split; [|split; [|split]].
    + intros p H. exists t. split; [exact Hc|]. exact (tree_sound _ _ _ _ _ _ _ _ Hc H).
    + intros t' p Ht Hp. apply content_parse in Ht. rewrite E in Ht. injection Ht as <-. now apply tree_complete.
    + intro H. exists t. split; [exact Hc|]. now apply tree_panic in H.
    + intro H. destruct (H t Hc) as [H1 H2]. destruct (unmarshal_tree p6 p3 pt r k t) as [[p|]| |] eqn:Eu.
      * exfalso. exact (H2 p (tree_sound _ _ _ _ _ _ _ _ Hc Eu)).
      * reflexivity.
      * exfalso. exact (H1 (tree_panic _ _ _ _ _ _ Eu)).
      * exfalso. exact (tree_not_stuck _ _ _ _ _ _ Eu).
  - split; [discriminate|]. split; [|split; [discriminate|reflexivity]].
    intros t p Ht _. apply content_parse in Ht. congruence.
Qed.
Print Assumptions C47_reads.

(** What a property writes its own type reads again.  The strconv functions read
    the float32 that they wrote. *)
Theorem C47_round_trip : forall parse64 parse32 reparse32 num64 num32 time_text parse_time,
  number_text parse64 reparse32 num64 num32 ->
  (forall f, is_finite 24 128 f = true -> parse32 (num32 f) = Some f) ->
  forall k p, own time_text parse_time k p -> (levels p <= N.to_nat 10000)%nat ->
  exists text p', marshal json_quote num64 num32 time_text p = Some text /\
    unmarshal_as parse64 parse32 parse_time reparse32 k text = Ok (Some p') /\ prop_equiv p p'.
Proof.
  intros p6 p3 r n6 n3 tt pt HN H32 k p Ho Hl.
  assert (Hp : printable p) by (destruct Ho; try (constructor; auto; fail); eapply faithful_printable; eauto).
  destruct (marshal_reads _ clean _ _ tt (go_writer _ _ (written64 _ _ _ _ HN) (written32 _ _ _ _ HN)) p Hp) as (text & t & E & Hr & Hs).
  assert (Hc : content text t).
  { exists text. split; [|split].
    - pose proof (clean_repaired text) as H. rewrite (clean_valid_id text) in H; [exact H|]. eapply marshal_valid; [exact HN|exact E].
    - exists [], text, []. rewrite app_nil_r. repeat split; [constructor|exact Hr|constructor].
    - exact (shown_nesting _ _ _ pt _ _ _ Hs Hl). }
  assert (Hx : exists p', reads_as p6 p3 pt r k t p' /\ prop_equiv p p').
  { destruct Ho as [s Hu|z Hz|f Hf|b|b|x y Hx Hy|x y z Hx Hy Hz|us Hu Ht|m Hf|c ps Hf|c d Hf].
    - inversion Hs; subst. rewrite clean_valid_id by exact Hu. eexists. split; constructor.
    - inversion Hs; subst. exists (PInt z). split; [now apply D_int|constructor].
    - inversion Hs; subst. exists (PFloat f). split; [constructor; now apply H32|constructor].
    - inversion Hs; subst. eexists. split; constructor.
    - inversion Hs as [| | | |? s [Hh _]| | | | | | | |]; subst. eexists. split; [eapply D_byte; exact Hh|constructor].
    - inversion Hs; subst. exists (PVec2 x y). split; [|constructor]. pose proof (reads64 _ _ _ _ HN x Hx) as Rx. pose proof (reads64 _ _ _ _ HN y Hy) as Ry.
      constructor; apply coordinate_iff; cbn [field is_field]; [rewrite Rx|rewrite Ry]; reflexivity.
    - inversion Hs; subst. exists (PVec3 x y z). split; [|constructor]. pose proof (reads64 _ _ _ _ HN x Hx) as Rx. pose proof (reads64 _ _ _ _ HN y Hy) as Ry.
      pose proof (reads64 _ _ _ _ HN z Hz) as Rz.
      constructor; apply coordinate_iff; cbn [field is_field]; [rewrite Rx|rewrite Ry|rewrite Rz]; reflexivity.
    - inversion Hs; subst. rewrite clean_valid_id by exact Hu. exists (PTime us). split; [now constructor|constructor].
    - destruct (shown_back _ _ _ _ _ _ HN _ _ Hf Hs) as (j0 & p0 & Hm & Hy & He). exists p0. split; [|exact He].
      inversion He; subst; now apply D_block with j0.
    - destruct (shown_back _ _ _ _ _ _ HN _ _ Hf Hs) as (j0 & p0 & Hm & Hy & He). exists p0. split; [|exact He].
      inversion He; subst; now apply D_array with j0.
    - destruct (shown_back _ _ _ _ _ _ HN _ _ Hf Hs) as (j0 & p0 & Hm & Hy & He). exists p0. split; [|exact He].
      inversion He; subst; now apply D_raw with j0. }
  destruct Hx as (p' & Hx & He). destruct (C47_reads p6 p3 pt r k text) as (_ & H & _). destruct (H t p' Hc Hx) as (p2 & E2 & He2).
  exists text, p2. eauto using prop_equiv_trans.
Qed.
Print Assumptions C47_round_trip.

(** The methods for bytes and arrays panic on ordinary JSON. *)
Theorem C47_panic_refuted : forall parse64 parse32 parse_time reparse32,
  let got := unmarshal_as parse64 parse32 parse_time reparse32 in
  got KByte (lit "null") = Panic /\ got KByte (lit """""") = Panic /\ got KByte (lit """0x""") = Panic /\
  got KArray (lit "null") = Panic /\ got KArray (lit "[]") = Panic /\ got KArray (lit "[null]") = Panic.
Proof. intros p6 p3 pt r got. unfold got. repeat split; reflexivity. Qed.
Print Assumptions C47_panic_refuted.
(** An array without elements and an array of one byte are written as texts that
    their own types do not read. *)
Theorem C47_own_refuted : forall parse64 parse32 reparse32 num64 num32 time_text parse_time,
  (forall c, exists text, marshal json_quote num64 num32 time_text (PArray c []) = Some text /\
     unmarshal_as parse64 parse32 parse_time reparse32 KArray text = Panic) /\
  (forall b, exists text, marshal json_quote num64 num32 time_text (new_binary_array [b]) = Some text /\
     unmarshal_as parse64 parse32 parse_time reparse32 KRaw text = Ok None).
Proof.
  intros p6 p3 r n6 n3 tt pt. split.
  - intro c. exists (lit "[]"). split; reflexivity.
  - intro b. assert (Hw : marshal json_quote n6 n3 tt (new_binary_array [b]) = Some (lit """0x" ++ hex_encode [b] ++ lit """")).
    { destruct b; reflexivity. }
    eexists. split; [exact Hw|]. destruct b; reflexivity.
Qed.
Print Assumptions C47_own_refuted.

(** ** Examples *)
Definition toy_parse32 (t : str) : option f32 := option_map f32_of_f64 (toy_parse t).
Lemma toy_reads32 : forall f, is_finite 24 128 f = true -> toy_parse32 (toy_num32 f) = Some f.
Proof.
  intros f Hf. unfold toy_parse32, toy_num32. rewrite toy_reads. cbn [option_map]. f_equal. apply f32_f64_f32.
  destruct f; try reflexivity; discriminate Hf.
Qed.
(** Values that do not survive inside of metadata (C45) survive here: a large
    integer, a text with a quote, and a text that looks like hexadecimal. *)
Example own_examples : forall time_text parse_time,
  own time_text parse_time KInt (PInt 2147483647) /\
  own time_text parse_time KString (PString (lit "say ""hi""")) /\
  own time_text parse_time KString (PString (lit "0xff")) /\
  own time_text parse_time KArray (PArray 1 [PInt 1; PInt (-2)]) /\
  own time_text parse_time KRaw (new_bool_array [true; false; true]).
Proof.
  intros tt pt. repeat split; try (constructor; try (split; lia); fail).
  - constructor. now apply lit_valid.
  - constructor. now apply lit_valid.
  - constructor. constructor; try discriminate; try reflexivity; repeat constructor; lia.
  - apply O_raw. apply (A_bools _ _ [true; false; true]); [discriminate|reflexivity].
Qed.
Example large_int_survives : exists text p', marshal json_quote toy_num64 toy_num32 (fun _ => []) (PInt 2147483647) = Some text /\
  unmarshal_as toy_parse toy_parse32 (fun _ => None) (fun x => Some (f32_of_f64 x)) KInt text = Ok (Some p') /\ prop_equiv (PInt 2147483647) p'.
Proof.
  apply C47_round_trip; [apply toy_numbers|apply toy_reads32|apply (proj1 (own_examples _ _))|cbn [levels]; lia].
Qed.
(** Null is a zero, "-0" is 0, "1.0" is no integer and "2147483648" no int32; the
    names of coordinates may be upper case, and the last one counts. *)
Example typed_reads : forall parse64 parse32 parse_time reparse32,
  let got := unmarshal_as parse64 parse32 parse_time reparse32 in
  got KInt (lit " null ") = Ok (Some (PInt 0)) /\ got KInt (lit "-0") = Ok (Some (PInt 0)) /\
  got KInt (lit "-2147483648") = Ok (Some (PInt (-2147483648))) /\
  got KInt (lit "2147483648") = Ok None /\ got KInt (lit "1.0") = Ok None /\ got KInt (lit "07") = Ok None /\
  got KByte (lit """0xfF12""") = Ok (Some (PByte "255"%byte)) /\ got KByte (lit """1""") = Ok None /\
  got KString (lit "1") = Ok None /\ got KBool (lit "true") = Ok (Some (PBool true)) /\
  got KBlock (lit "null") = Ok (Some (PBlock [])) /\ got KArray (lit "[true,false]") = Ok None /\
  got KRaw (lit "[true,false]") = Ok (Some (new_bool_array [true; false])).
Proof. intros p6 p3 pt r got. unfold got. repeat split; reflexivity. Qed.
Example last_coordinate : forall parse64 x y z, parse64 (lit "1") = Some x -> parse64 (lit "2") = Some y -> parse64 (lit "3") = Some z ->
  forall parse32 parse_time reparse32,
  unmarshal_as parse64 parse32 parse_time reparse32 KVec2 (lit "{""x"":1,""Y"":2,""w"":true,""X"":3,""x"":null}") = Ok (Some (PVec2 z y)).
Proof.
  intros p6 x y z Hx Hy Hz p3 pt r. unfold unmarshal_as.
  replace (parse_text (clean _)) with (Some (TObj [(lit "x", TNum (lit "1")); (lit "Y", TNum (lit "2")); (lit "w", TBool true); (lit "X", TNum (lit "3")); (lit "x", TNull)]))
    by (symmetry; reflexivity).
  cbn [unmarshal_tree as_field].
  assert (E1 : field p6 "x" [(lit "x", TNum (lit "1")); (lit "Y", TNum (lit "2")); (lit "w", TBool true); (lit "X", TNum (lit "3")); (lit "x", TNull)] Floats.f0 = Some z).
  { change (match p6 (lit "1") with Some v => match p6 (lit "3") with Some v => Some v | None => None end | None => None end = Some z). now rewrite Hx, Hz. }
  assert (E2 : field p6 "y" [(lit "x", TNum (lit "1")); (lit "Y", TNum (lit "2")); (lit "w", TBool true); (lit "X", TNum (lit "3")); (lit "x", TNull)] Floats.f0 = Some y).
  { change (match p6 (lit "2") with Some v => Some v | None => None end = Some y). now rewrite Hy. }
  rewrite E1, E2. reflexivity.
Qed.
