(** C50: the document that the to-json command writes, given to the from-json
    command. *)
From Coq Require Import Strings.String Permutation Lia.
From Flocq Require Import IEEE754.Binary.
From Verif Require Import Base BaseFacts Floats Metadata SpecMeta MetadataFacts Recording SpecRec SpecFile.
From Verif Require Import Text SpecText TextFacts Json SpecJson JsonFacts SpecToJson Quote JsonText SpecJsonText QuoteFacts JsonTextFacts JsonOrderFacts.
From Verif Require Import ToJson ToJsonFacts MarshalFacts SpecPipe PipeFacts PropToJson PropJson PropJsonText PropMarshal.
Local Open Scope N_scope.

Lemma pipe_value : forall parse64 reparse32 num64 num32 time_text, number_text parse64 reparse32 num64 num32 ->
  forall r, exportable r -> utf8_rec r ->
  exists text t, to_json json_quote num64 num32 time_text 0 r = Ok (text, false) /\
    document (clean text) t /\ exported clean num64 num32 time_text r t /\
    (forall j, unmarshal parse64 text = Some j -> means parse64 t j).
Proof.
  intros p6 r32 n6 n3 tt HN r Hr Hu.
  destruct (C37_valid json_quote clean n6 n3 tt (go_writer _ _ (written64 _ _ _ _ HN) (written32 _ _ _ _ HN)) r Hr) as (text & t & E & Hd & Hx).
  exists text, t. split; [exact E|].
  assert (Hc : document (clean text) t).
  { rewrite clean_valid_id; [exact Hd|]. eapply to_json_valid; eauto. }
  split; [exact Hc|]. split; [exact Hx|]. intros j Hj. apply unmarshal_iff in Hj as (t' & Hd' & _ & Hm).
  now rewrite (document_unique _ _ _ Hc Hd').
Qed.

Lemma from_json_text_eq : forall p pt r32 a s, from_json_text p pt r32 a s = from_json pt r32 a (unmarshal p s).
Proof. reflexivity. Qed.

(** Only trees without collections and without nil sub-recordings come back: a
    collection is written with the key "signature" and read with the key "type",
    and a nil sub-recording is written as null. *)
Theorem C50_only_bare : forall parse64 reparse32 num64 num32 time_text parse_time big_atoi,
  number_text parse64 reparse32 num64 num32 -> forall r text r', exportable r -> utf8_rec r ->
  to_json json_quote num64 num32 time_text 0 r = Ok (text, false) ->
  from_json_text parse64 parse_time reparse32 big_atoi text = Ok (Some r') -> bare r.
Proof.
  intros p6 r32 n6 n3 tt pt at_ HN r text r' Hr Hu E H.
  destruct (pipe_value _ _ _ _ tt HN r Hr Hu) as (text' & t & E' & Hd & Hx & Hm). rewrite E in E'. injection E' as <-.
  rewrite from_json_text_eq in H. destruct (unmarshal p6 text) as [j|] eqn:Ej; [|discriminate H]. apply built_describes in H.
  exact (only_bare _ _ _ _ _ _ _ _ _ _ _ Hx (Hm j eq_refl) H).
Qed.
Print Assumptions C50_only_bare.

(** If the metadata of the recordings is faithful, such a tree comes back without
    its binaries and references, and every other one is an error. *)
Theorem C50_pipe : forall parse64 reparse32 num64 num32 time_text parse_time big_atoi,
  number_text parse64 reparse32 num64 num32 -> forall r, exportable r -> utf8_rec r -> faithful_rec time_text parse_time r ->
  exists text, to_json json_quote num64 num32 time_text 0 r = Ok (text, false) /\
    (bare r -> depth_at_most (N.to_nat 10000) r ->
       exists r', from_json_text parse64 parse_time reparse32 big_atoi text = Ok (Some r') /\ rec_equiv (without_binaries r) r') /\
    (~ bare r -> from_json_text parse64 parse_time reparse32 big_atoi text = Ok None).
Proof.
  intros p6 r32 n6 n3 tt pt at_ HN r Hr Hu Hf.
  destruct (pipe_value _ _ _ _ tt HN r Hr Hu) as (text & t & E & Hd & Hx & Hm). exists text. split; [exact E|]. setoid_rewrite from_json_text_eq. split.
  - intros Hb Hl. destruct (bare_means _ _ _ _ _ _ HN _ _ _ Hx Hf Hb Hl) as ((j & Hj) & Hn).
    destruct (proj2 (unmarshal_iff p6 text) t j Hd Hn Hj) as (j' & Ej & Hj'). rewrite Ej. cbn [from_json].
    destruct (export_back _ _ _ _ _ _ at_ HN _ _ _ Hx Hf Hj') as (_ & [(_ & r' & Er & He)|(Hnb & _)]); [eauto|contradiction].
  - intro Hb. destruct (unmarshal p6 text) as [j|] eqn:Ej; [|reflexivity]. cbn [from_json].
    destruct (export_back _ _ _ _ _ _ at_ HN _ _ _ Hx Hf (Hm j eq_refl)) as (_ & [(Hb' & _)|(_ & Er)]); [contradiction|exact Er].
Qed.
Print Assumptions C50_pipe.

(** ** The hypotheses can be met *)
Definition pipe_leaf : recording := mkRec (lit "leaf") (lit "f") [] [] notes [Some (mkBin (lit "b") [x01] 1 [])] [].
Definition pipe_tree : recording := mkRec (lit "tree") (lit "t") [] [Some pipe_leaf; Some pipe_leaf] notes [] [].
Definition pipe_full (c : list (option coll)) (s : list (option recording)) : recording := mkRec (lit "full") (lit "t") c (Some pipe_leaf :: s) notes [] [].
Lemma leaf_ok : exportable pipe_leaf /\ utf8_rec pipe_leaf /\ faithful_rec toy_clock toy_time pipe_leaf.
Proof.
  split; [|split].
  - constructor; [plain_tac|plain_tac|eapply faithful_printable, notes_faithful|intros o []|intros r []].
  - constructor; [now apply lit_valid|now apply lit_valid|intros c []|intros r []].
  - constructor; [apply notes_faithful|intros r []].
Qed.
Example pipe_tree_ok : exportable pipe_tree /\ utf8_rec pipe_tree /\ faithful_rec toy_clock toy_time pipe_tree /\ bare pipe_tree /\
  depth_at_most (N.to_nat 10000) pipe_tree.
Proof.
  destruct leaf_ok as (H1 & H2 & H3). unfold pipe_tree. split; [|split; [|split; [|split]]].
  - constructor; [plain_tac|plain_tac|eapply faithful_printable, notes_faithful|intros o []|intros r [E|[E|[]]]; injection E as <-; exact H1].
  - constructor; [now apply lit_valid|now apply lit_valid|intros c []|intros r [E|[E|[]]]; injection E as <-; exact H2].
  - constructor; [apply notes_faithful|intros r [E|[E|[]]]; injection E as <-; exact H3].
  - assert (Hb : bare pipe_leaf) by (constructor; constructor). constructor. repeat constructor; exists pipe_leaf; auto.
  - replace (N.to_nat 10000) with (S (S (S (S (N.to_nat 9996))))) by lia. assert (HL : (levels (PBlock notes) <= 3)%nat) by (vm_compute; lia).
    constructor; [lia|]. intros r [E|[E|[]]]; injection E as <-; (constructor; [lia|intros r []]).
Qed.
Example pipe_full_ok : Forall (fun r => exportable r /\ utf8_rec r /\ faithful_rec toy_clock toy_time r /\ ~ bare r)
  [pipe_full [] [None]; pipe_full [Some (mkColl (lit "p") (BPos []))] []].
Proof.
  destruct leaf_ok as (H1 & H2 & H3). unfold pipe_full. repeat apply Forall_cons; try apply Forall_nil; (split; [|split; [|split]]).
  - constructor; [plain_tac|plain_tac|eapply faithful_printable, notes_faithful|intros o []|intros r [E|[E|[]]]; [injection E as <-; exact H1|discriminate E]].
  - constructor; [now apply lit_valid|now apply lit_valid|intros c []|intros r [E|[E|[]]]; [injection E as <-; exact H2|discriminate E]].
  - constructor; [apply notes_faithful|intros r [E|[E|[]]]; [injection E as <-; exact H3|discriminate E]].
  - intro H. inversion H as [? ? ? ? ? ? HF]; subst. inversion HF as [|? ? _ HF']; subst. inversion HF' as [|? ? (r & E & _) _]; discriminate E.
  - constructor; [plain_tac|plain_tac|eapply faithful_printable, notes_faithful| |intros r [E|[]]; injection E as <-; exact H1].
    intros o [<-|[]]. eexists. split; [reflexivity|]. split; [plain_tac|]. split; [plain_tac|exact I].
  - constructor; [now apply lit_valid|now apply lit_valid| |intros r [E|[]]; injection E as <-; exact H2].
    intros c [E|[]]. injection E as <-. split; [now apply lit_valid|]. split; [now apply lit_valid|exact I].
  - constructor; [apply notes_faithful|intros r [E|[]]; injection E as <-; exact H3].
  - intro H. inversion H.
Qed.
Example pipe_runs : exists text r', to_json json_quote toy_num64 toy_num32 toy_clock 0 pipe_tree = Ok (text, false) /\
  from_json_text toy_parse toy_time (fun x => Some (f32_of_f64 x)) toy_atoi text = Ok (Some r') /\ rec_equiv (without_binaries pipe_tree) r'.
Proof.
  destruct pipe_tree_ok as (H1 & H2 & H3 & H4 & H5).
  destruct (C50_pipe _ _ _ _ toy_clock toy_time toy_atoi toy_numbers pipe_tree H1 H2 H3) as (text & E & H & _).
  destruct (H H4 H5) as (r' & Er & He). eauto.
Qed.
