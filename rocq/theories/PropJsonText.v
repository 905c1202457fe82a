(** C44 and C37 for JSON texts, and C46: the order in which Go visits a map does
    not matter. *)
From Coq Require Import Strings.String Permutation Lia.
From Flocq Require Import IEEE754.Binary.
From Verif Require Import Base BaseFacts Floats Metadata SpecMeta Recording SpecRec SpecFile.
From Verif Require Import Text SpecText Json SpecJson JsonFacts SpecToJson Quote JsonText SpecJsonText QuoteFacts JsonTextFacts JsonOrderFacts.
From Verif Require Import ToJson ToJsonFacts MarshalFacts PropToJson PropJson.
Local Open Scope N_scope.

(** ** Texts *)
Lemma unmarshal_decodes : forall parse64 s j, unmarshal parse64 s = Some j -> decodes parse64 s j.
Proof.
  intros p s j H. apply unmarshal_iff in H as (t & Hd & Hn & Hm). exists (clean s), t. auto using clean_repaired.
Qed.
Lemma decodes_unmarshal : forall parse64 s j, decodes parse64 s j -> exists j', unmarshal parse64 s = Some j' /\ same_json j j'.
Proof.
  intros p s j (u & t & Hu & Hd & Hn & Hm). rewrite (repaired_inj _ _ _ Hu (clean_repaired s)) in Hd.
  destruct (proj2 (unmarshal_iff p s) t j Hd Hn Hm) as (j' & E & Hm'). exists j'. split; [exact E|]. now apply means_same with p t.
Qed.
Lemma decodes_wf : forall parse64 s j, decodes parse64 s j -> jwf j.
Proof. intros p s j (u & t & _ & _ & _ & Hm). now apply means_wf with p t. Qed.

(** A text has one value, up to the order of members. *)
Theorem C44_one_meaning : forall parse64 s j j', decodes parse64 s j -> decodes parse64 s j' -> same_json j j'.
Proof.
  intros p s j j' (u & t & Hu & Hd & _ & Hm) (u' & t' & Hu' & Hd' & _ & Hm').
  rewrite (repaired_inj _ _ _ Hu' Hu) in Hd'. rewrite (document_unique _ _ _ Hd' Hd) in Hm'. now apply means_same with p t.
Qed.
Print Assumptions C44_one_meaning.
(** From any bytes FromJSON builds the recording that the value of the text
    describes; if the bytes are no JSON text, or their value describes no
    recording, it reports an error. *)
Theorem C44_text : forall parse64 parse_time reparse32 big_atoi s,
  (forall r, from_json_text parse64 parse_time reparse32 big_atoi s = Ok (Some r) ->
     exists j, decodes parse64 s j /\ describes parse_time reparse32 big_atoi j r) /\
  (forall j, decodes parse64 s j -> (forall t, ~ risk t j) ->
     (forall r, describes parse_time reparse32 big_atoi j r ->
        exists r', from_json_text parse64 parse_time reparse32 big_atoi s = Ok (Some r') /\ rec_equiv r r') /\
     ((forall r, ~ describes parse_time reparse32 big_atoi j r) ->
        from_json_text parse64 parse_time reparse32 big_atoi s = Ok None)) /\
  (from_json_text parse64 parse_time reparse32 big_atoi s = Panic ->
     exists j t, decodes parse64 s j /\ risk t j) /\
  ((forall j, ~ decodes parse64 s j) -> from_json_text parse64 parse_time reparse32 big_atoi s = Ok None).
Proof.
  intros p pt r32 at_ s. unfold from_json_text. destruct (C44_from_json pt r32 at_) as (Hs & Hc & Hp & _ & H0). split; [|split; [|split]].
  - intros r H. destruct (unmarshal p s) as [j|] eqn:E; [|discriminate H]. exists j. split; [now apply unmarshal_decodes|now apply Hs].
  - intros j Hj Ht. destruct (decodes_unmarshal _ _ _ Hj) as (j' & E & Sj). rewrite E.
    pose proof (risk_same _ _ Sj Ht) as Ht'. destruct (Hc j' Ht') as [H1 H2]. split.
    + intros r Hr. destruct (describes_same pt r32 at_ j j' r (decodes_wf _ _ _ Hj) Sj Hr) as (r' & Hr' & Er). exists r'. auto.
    + intro Hn. apply H2. intros r' Hr'. apply same_sym in Sj.
      destruct (describes_same pt r32 at_ j' j r') as (r & Hr & _); auto. { now apply decodes_wf with p s, unmarshal_decodes. } now elim (Hn r).
  - intro H. destruct (unmarshal p s) as [j|] eqn:E; [|discriminate H]. destruct (Hp j H) as (t & Ht).
    exists j, t. split; [now apply unmarshal_decodes|auto].
  - intro Hn. destruct (unmarshal p s) as [j|] eqn:E; [|exact H0]. elim (Hn j). now apply unmarshal_decodes.
Qed.
Print Assumptions C44_text.

(** ** C46 *)
(** Go visits the members of a decoded object in any order it likes: [j] and [j']
    stand for two runs on the same text.  If both return a recording it is the
    same one; and without metadata on which the import panics both return a
    recording or both report an error. *)
Theorem C46_order : forall parse64 parse_time reparse32 big_atoi s j j',
  decodes parse64 s j -> decodes parse64 s j' ->
  (forall r r', from_json parse_time reparse32 big_atoi (Some j) = Ok (Some r) ->
     from_json parse_time reparse32 big_atoi (Some j') = Ok (Some r') -> rec_equiv r r') /\
  ((forall t, ~ risk t j) ->
     (forall r, from_json parse_time reparse32 big_atoi (Some j) = Ok (Some r) ->
        exists r', from_json parse_time reparse32 big_atoi (Some j') = Ok (Some r') /\ rec_equiv r r') /\
     (from_json parse_time reparse32 big_atoi (Some j) = Ok None ->
        from_json parse_time reparse32 big_atoi (Some j') = Ok None)).
Proof.
  intros p pt r32 at_ s j j' Hj Hj'. pose proof (C44_one_meaning _ _ _ _ Hj Hj') as Sj. pose proof (decodes_wf _ _ _ Hj) as W.
  pose proof (decodes_wf _ _ _ Hj') as W'.
  destruct (C44_from_json pt r32 at_) as (Hs & Hc & _). split.
  - intros r r' H H'. apply Hs in H, H'. destruct (describes_same pt r32 at_ j j' r W Sj H) as (r1 & H1 & E1).
    now rewrite (describes_inj pt r32 at_ j' r' r1 H' H1).
  - intro Ht. pose proof (risk_same _ _ Sj Ht) as Ht'. split.
    + intros r H. apply Hs in H. destruct (describes_same pt r32 at_ j j' r W Sj H) as (r1 & H1 & E1). exists r1. split; [|exact E1].
      now apply Hc.
    + intro H. apply Hc; [exact Ht'|]. intros r' Hr'. destruct (describes_same pt r32 at_ j' j r' W' (same_sym _ _ Sj) Hr') as (r & Hr & _).
      apply Hc in Hr; [|exact Ht]. rewrite H in Hr. discriminate Hr.
Qed.
Print Assumptions C46_order.
(** Otherwise the outcome is a matter of luck: if the metadata holds both an empty
    array and a value that cannot be converted, one order panics and the other
    returns a recording (without the metadata). *)
Lemma unreadable_fails : forall pt r32 v, unreadable v -> get_properties pt r32 v = Ok None \/ get_properties pt r32 v = Panic.
Proof.
  intros pt r32 v Hv. destruct (get_properties pt r32 v) as [[p|]| |] eqn:E; auto.
  - exfalso. apply get_sound in E. destruct Hv as [(s & t & -> & Hs & Hn)|(x & z & -> & Hz & Hr)].
    + pose proof (quote_stops s t Hs) as Hu. remember (JStr (s ++ """"%byte :: t)) as q eqn:Eq.
      destruct E as [| | | |? ? ? ?|? ? ? ?|s' t' us' Hn' _ Hu' _|s' t' Hn' _ Hu'| | | | |]; try discriminate Eq;
        apply (f_equal (fun j => match j with JStr s => s | _ => [] end)) in Eq; cbv beta iota in Eq.
      * apply Hn. rewrite <- Eq. eexists. reflexivity.
      * apply Hn. rewrite <- Eq. eexists. reflexivity.
      * subst s'. congruence.
      * subst s'. congruence.
    + inversion E as [| |? z' Hz' Hr'|? f Hno _| | | | | | | | |]; subst.
      * pose proof (integral_inj _ _ _ Hz Hz') as ->. change (10 ^ 6)%Z with 1000000%Z in *. lia.
      * now elim (Hno z).
  - now apply get_not_stuck in E.
Qed.
Lemma unreadable_no_trap : forall pt r32 v, unreadable v -> get_properties pt r32 v = Ok None.
Proof.
  intros pt r32 v Hv. destruct (unreadable_fails pt r32 v Hv) as [E|E]; [exact E|]. exfalso. apply get_panic in E as (t & Hw & Ht).
  destruct Hv as [(a & b & -> & _)|(x & z & -> & _)]; inversion Hw; subst; inversion Ht.
Qed.
Definition one_note (id name : str) (m : list (str * json)) : json :=
  JObj [(lit "id", JStr id); (lit "name", JStr name); (lit "metadata", JObj m)].
Lemma note_md : forall pt r32 at_ id name m, from_json pt r32 at_ (Some (one_note id name m)) =
  do p <- get_properties pt r32 (JObj m);
  Ok (Some (mkRec id name [] [] match p with Some (PBlock b) => b | _ => [] end [] [])).
Proof.
  intros pt r32 at_ id name m. unfold from_json, one_note. rewrite precord_eq. unfold string_key, parse_array, parse_metadata.
  change (path (lit "id") (JObj [(lit "id", JStr id); (lit "name", JStr name); (lit "metadata", JObj m)])) with (Some (JStr id)).
  change (path (lit "name") (JObj [(lit "id", JStr id); (lit "name", JStr name); (lit "metadata", JObj m)])) with (Some (JStr name)).
  change (path (lit "metadata") (JObj [(lit "id", JStr id); (lit "name", JStr name); (lit "metadata", JObj m)])) with (Some (JObj m)).
  change (path (lit "recordings") (JObj [(lit "id", JStr id); (lit "name", JStr name); (lit "metadata", JObj m)])) with (@None json).
  change (path (lit "references") (JObj [(lit "id", JStr id); (lit "name", JStr name); (lit "metadata", JObj m)])) with (@None json).
  change (path (lit "collections") (JObj [(lit "id", JStr id); (lit "name", JStr name); (lit "metadata", JObj m)])) with (@None json).
  generalize (eq_refl (get_properties pt r32 (JObj m))). generalize (get_properties pt r32 (JObj m)) at 1 3. intros g E.
  match goal with |- context [bind (get_properties pt r32 ?j) ?k] => replace (get_properties pt r32 j) with g by exact E end.
  destruct g as [[p|]| |]; try reflexivity. destruct p; reflexivity.
Qed.
Lemma block_props : forall pt r32 m, ~ is_vector m ->
  get_properties pt r32 (JObj m) = obind (each (entry_of pt r32) m) (fun b => ret (PBlock b)).
Proof.
  intros pt r32 m H. rewrite get_obj. unfold is_vector in H. rewrite two_keys, three_keys in H.
  destruct (lenN m =? 2) eqn:E2.
  - destruct (jlookup (lit "x") m) eqn:Ex; [|reflexivity]. destruct (jlookup (lit "y") m) eqn:Ey; [|reflexivity].
    elim H. left. repeat split; discriminate.
  - destruct (lenN m =? 3) eqn:E3; [|reflexivity].
    destruct (jlookup (lit "x") m) eqn:Ex; [|reflexivity]. destruct (jlookup (lit "y") m) eqn:Ey; [|reflexivity].
    destruct (jlookup (lit "z") m) eqn:Ez; [|reflexivity]. elim H. right. repeat split; discriminate.
Qed.
Theorem C46_luck_refuted : forall parse_time reparse32 big_atoi id name k1 k2 v,
  ~ is_vector [(k1, JArr []); (k2, v)] -> unreadable v ->
  same_json (one_note id name [(k1, JArr []); (k2, v)]) (one_note id name [(k2, v); (k1, JArr [])]) /\
  from_json parse_time reparse32 big_atoi (Some (one_note id name [(k1, JArr []); (k2, v)])) = Panic /\
  from_json parse_time reparse32 big_atoi (Some (one_note id name [(k2, v); (k1, JArr [])])) = Ok (Some (mkRec id name [] [] [] [] [])).
Proof.
  intros pt r32 at_ id name k1 k2 v Hvec Hv. pose proof (unreadable_no_trap pt r32 v Hv) as Ev.
  assert (Sm : same_json (JObj [(k1, JArr []); (k2, v)]) (JObj [(k2, v); (k1, JArr [])])).
  { apply J_obj with [(k2, v); (k1, JArr [])]; [constructor|]. repeat constructor; cbn [fst snd]; auto using same_refl. }
  assert (Hvec' : ~ is_vector [(k2, v); (k1, JArr [])]).
  { intro H. apply Hvec. eapply vector_same; [apply same_sym, Sm|exact H]. }
  split; [|split].
  - eapply J_obj; [reflexivity|]. repeat constructor; cbn [fst snd]; auto using same_refl.
  - rewrite note_md, block_props by exact Hvec. reflexivity.
  - rewrite note_md, block_props by exact Hvec'. cbn [each]. unfold entry_of. cbn [fst snd]. rewrite Ev. reflexivity.
Qed.
Print Assumptions C46_luck_refuted.

(** ** C37 with Go's own string writer *)
(** With encoding/json's string writer only the notation of numbers is left to
    assume. *)
Theorem C37_go : forall num64 num32 time_text,
  (forall x, is_finite 53 1024 x = true -> number (num64 x)) ->
  (forall f, is_finite 24 128 f = true -> number (num32 f)) -> forall r, exportable r ->
  exists text t repair,
    (forall s, repaired s (repair s)) /\ (forall s, valid_utf8 s -> repair s = s) /\
    to_json json_quote num64 num32 time_text 0 r = Ok (text, false) /\
    document text t /\ exported repair num64 num32 time_text r t.
Proof.
  intros num64 num32 time_text H64 H32 r Hr.
  destruct (C37_valid json_quote clean num64 num32 time_text (go_writer _ _ H64 H32) r Hr) as (text & t & E & Hd & Hx).
  exists text, t, clean. auto using clean_repaired, clean_valid_id.
Qed.
Print Assumptions C37_go.

(** ** Examples *)
Definition no_number (s : str) : option f64 := None.
Definition luck_text : str := lit "{""id"": ""r"", ""name"": ""n"",
  ""metadata"": {""a"": [], ""b"": ""say \""hi\""""}} ".
Definition hi : str := lit "say ""hi""".
Example luck_decodes :
  decodes no_number luck_text (one_note (lit "r") (lit "n") [(lit "a", JArr []); (lit "b", JStr hi)]) /\
  decodes no_number luck_text (one_note (lit "r") (lit "n") [(lit "b", JStr hi); (lit "a", JArr [])]).
Proof.
  assert (E : parse_text (clean luck_text) = Some (TObj [(lit "id", TStr (lit "r")); (lit "name", TStr (lit "n"));
     (lit "metadata", TObj [(lit "a", TArr []); (lit "b", TStr hi)])])) by (vm_compute; reflexivity).
  apply parse_text_iff in E as [Hd Hn].
  assert (HM : forall m, NoDup (map fst m) -> (forall k, jlookup k m = jlookup k (rev [(lit "a", JArr []); (lit "b", JStr hi)])) ->
    decodes no_number luck_text (one_note (lit "r") (lit "n") m)).
  { intros m Hm HL. do 2 eexists. split; [apply clean_repaired|]. split; [exact Hd|]. split; [exact Hn|].
    apply N_obj with [(lit "id", JStr (lit "r")); (lit "name", JStr (lit "n")); (lit "metadata", JObj m)].
    - repeat constructor; cbn [fst snd]. apply N_obj with [(lit "a", JArr []); (lit "b", JStr hi)]; [|exact Hm|exact HL].
      repeat constructor.
    - cbn. repeat constructor; cbn; intuition discriminate.
    - intro k. cbn [rev app jlookup]. repeat match goal with |- context [str_eqb k ?x] => destruct (str_eqb k x) eqn:? end; try reflexivity;
        repeat match goal with H : str_eqb _ _ = true |- _ => apply str_eqb_eq in H; subst; try discriminate end. }
  split; apply HM.
  - cbn. repeat constructor; cbn; intuition discriminate.
  - intro k. cbn [rev app jlookup]. destruct (str_eqb k (lit "a")) eqn:Ea, (str_eqb k (lit "b")) eqn:Eb; try reflexivity.
    apply str_eqb_eq in Ea, Eb. subst k. discriminate Eb.
  - cbn. repeat constructor; cbn; intuition discriminate.
  - reflexivity.
Qed.
Example luck_unreadable : unreadable (JStr hi) /\ ~ is_vector [(lit "a", JArr []); (lit "b", JStr hi)].
Proof.
  split.
  - left. exists (lit "say "), (lit "hi"""). split; [reflexivity|]. split; [plain_txt|]. intros (r & E). discriminate E.
  - intros [[_ H]|[H _]]; [|discriminate H]. destruct (H "x"%string (or_introl eq_refl)) as [E|[E|[]]]; discriminate E.
Qed.
Example luck_runs : let run m := from_json toy_time toy_32 toy_atoi (Some (one_note (lit "r") (lit "n") m)) in
  run [(lit "a", JArr []); (lit "b", JStr hi)] = Panic /\
  run [(lit "b", JStr hi); (lit "a", JArr [])] = Ok (Some (mkRec (lit "r") (lit "n") [] [] [] [] [])).
Proof.
  cbv zeta. destruct luck_unreadable as [H1 H2].
  exact (proj2 (C46_luck_refuted toy_time toy_32 toy_atoi (lit "r") (lit "n") (lit "a") (lit "b") (JStr hi) H2 H1)).
Qed.
(** A text with a byte that is no UTF-8, a duplicate key and a surrogate pair; and
    texts that are no documents. *)
Example text_runs : let run s := from_json_text no_number toy_time toy_32 toy_atoi s in
  run (lit "{""id"":""x"",""name"":""n" ++ [xff] ++ lit "\ud83d\ude00"",""metadata"":{""k"":true},""id"":""y""}")
    = Ok (Some (mkRec (lit "y") (lit "n" ++ bs [239; 191; 189; 240; 159; 152; 128]) [] [] [(lit "k", PBool true)] [] [])) /\
  Forall (fun s => run (lit s) = Ok None)
    ["{""id"":""x"",""name"":""n"",}"; "{""id"":""x"",""name"":""n""} x"; "{""id"":""x"",""name"":01}"; ""; "{""id"":""x"" ""name"":""n""}"]%string.
Proof. split; [vm_compute; reflexivity|]. repeat (apply Forall_cons; [vm_compute; reflexivity|]). apply Forall_nil. Qed.
