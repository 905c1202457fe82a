(** The to-json command followed by the from-json command. *)
From Coq Require Import Strings.String Permutation Lia.
From Flocq Require Import IEEE754.Binary.
From Verif Require Import Base BaseFacts Floats Metadata SpecMeta MetadataFacts Recording SpecRec SpecFile.
From Verif Require Import Text SpecText TextFacts Json SpecJson JsonFacts SpecToJson Quote JsonText SpecJsonText QuoteFacts JsonTextFacts JsonOrderFacts.
From Verif Require Import ToJson ToJsonFacts MarshalFacts SpecPipe.
Local Open Scope N_scope.

(** ** The text is UTF-8 *)
Lemma fixed6_valid : forall x, valid_utf8 (fixed6 x).
Proof.
  intro x. destruct (is_finite 53 1024 x) eqn:E.
  - eapply number_valid, decimal6_number, fixed6_decimal, E.
  - destruct x as [s|s|s pl H|s m e H]; try discriminate E; [destruct s|]; now apply lit_valid.
Qed.
Lemma nat_valid : forall n, valid_utf8 (show_nat n).
Proof. intro n. destruct (count_reads n) as (t & -> & Ht & _). eapply number_valid, spells_number, Ht. Qed.
Lemma quoted_valid : forall s, valid_utf8 s -> valid_utf8 (quoted s).
Proof. intros s H. apply valid_app; [now apply lit_valid|]. apply valid_app; [exact H|now apply lit_valid]. Qed.
Lemma tab_valid : valid_utf8 tab.
Proof. apply ascii_valid. repeat constructor. Qed.
Lemma nl_valid : valid_utf8 nl.
Proof. apply ascii_valid. repeat constructor. Qed.
Lemma tabs_valid : forall n, valid_utf8 (tabs n).
Proof. induction n; [constructor|]. apply valid_app; [apply tab_valid|assumption]. Qed.
Ltac valid := repeat first
  [ assumption | apply U_nil | apply tab_valid | apply nl_valid | apply tabs_valid | apply fixed6_valid | apply nat_valid
  | apply quoted_valid | apply valid_app | apply lit_valid; reflexivity ].
Ltac said H := first
  [ apply (f_equal fst) in H; cbn [fst] in H; rewrite <- H; clear H
  | apply (f_equal (fun x => match x with Ok p => fst p | _ => [] end)) in H; cbv beta iota delta [fst] in H; rewrite <- H; clear H
  | apply (f_equal (fun x => match x with Ok p => p | _ => [] end)) in H; cbv beta iota in H; rewrite <- H; clear H ].

Section Pipe.
Context (parse64 : str -> option f64) (reparse32 : f64 -> option f32) (num64 : f64 -> str) (num32 : f32 -> str)
  (time_text : Z -> str) (parse_time : str -> option Z) (big_atoi : f64 -> option Z).
Notation marshal := (marshal json_quote num64 num32 time_text).
Notation to_json := (to_json json_quote num64 num32 time_text).
Notation shown := (shown clean num64 num32 time_text).
Notation coll_shown := (coll_shown clean num64 num32 time_text).
Notation exported := (exported clean num64 num32 time_text).
Notation means := (means parse64).
Notation says := (says parse_time reparse32).
Notation faithful := (faithful time_text parse_time).
Notation faithful_rec := (faithful_rec time_text parse_time).
Notation precord := (parse_recording parse_time reparse32 big_atoi).
Notation pcoll := (parse_collection parse_time reparse32).
Notation pref := (parse_reference parse_time reparse32 big_atoi).
Notation pmeta := (parse_metadata parse_time reparse32).
Notation describes := (describes parse_time reparse32 big_atoi).

Lemma events_valid : number_text parse64 reparse32 num64 num32 -> forall ind l text e,
  valid_utf8 ind -> Forall (fun e => valid_utf8 (fst (snd e))) l ->
  events_text json_quote num64 num32 time_text ind l = (text, e) -> valid_utf8 text.
Proof.
  intros HN ind l. induction l as [|[t [name md]] l IH]; intros text e Hi HF H; cbn [events_text] in H.
  - said H. constructor.
  - inversion HF as [|? ? Hn HF']; subst. cbn [fst snd] in Hn. destruct (marshal (PBlock md)) as [d|] eqn:Ed; [|said H; constructor].
    destruct (events_text _ _ _ _ ind l) as [rest e'] eqn:E. said H.
    pose proof (IH rest e' Hi HF' eq_refl) as Hr. pose proof (marshal_valid _ _ _ _ _ HN _ _ Ed) as Hd. destruct l; valid.
Qed.
Lemma coll_valid : number_text parse64 reparse32 num64 num32 -> forall ind c text e,
  valid_utf8 ind -> utf8_coll c -> coll_text json_quote num64 num32 time_text ind c = (text, e) -> valid_utf8 text.
Proof.
  intros HN ind c text e Hi (H1 & H2 & H3) H. unfold coll_text in H. destruct (str_eqb (c_sig c) sig_event); [|said H; valid].
  destruct (match c_body c with BEvent l => _ | _ => _ end) as [t e'] eqn:Et.
  assert (Ht : valid_utf8 t).
  { revert H3 Et. destruct (c_body c); intros H3 Et; try (said Et; constructor). exact (events_valid HN _ _ _ _ Hi H3 Et). }
  destruct e'; said H; valid.
Qed.
Lemma colls_valid : number_text parse64 reparse32 num64 num32 -> forall ind l text e,
  valid_utf8 ind -> (forall c, In (Some c) l -> utf8_coll c) ->
  colls_text json_quote num64 num32 time_text ind l = Ok (text, e) -> valid_utf8 text.
Proof.
  intros HN ind l. induction l as [|[c|] l IH]; intros text e Hi HF H; cbn [colls_text] in H; [said H; constructor| |discriminate H].
  destruct (coll_text _ _ _ _ ind c) as [t e1] eqn:Ec. pose proof (coll_valid HN _ _ _ _ Hi (HF c (or_introl eq_refl)) Ec) as Ht.
  destruct e1; [said H; exact Ht|]. apply bind_ok in H as ([rest e2] & Hr & H). said H.
  assert (Hv : valid_utf8 rest) by (eapply IH; eauto; intros x Hx; apply HF; now right). destruct l; valid.
Qed.
Lemma to_json_valid : number_text parse64 reparse32 num64 num32 -> forall r depth text e,
  utf8_rec r -> to_json depth r = Ok (text, e) -> valid_utf8 text.
Proof.
  intros HN r. induction r as [id name colls recs md bins refs IH] using recording_ind'. intros depth text e Hu H.
  inversion Hu as [? ? ? ? ? ? ? Hid Hname Hc Hr]; subst. rewrite to_json_eq in H. cbv zeta in H. unfold head_text in H.
  destruct (marshal (PBlock md)) as [d|] eqn:Ed; [|said H; valid]. pose proof (marshal_valid _ _ _ _ _ HN _ _ Ed) as Hd.
  apply bind_ok in H as ([ct e1] & Hct & H). apply colls_valid in Hct; [|exact HN|valid|exact Hc].
  destruct e1; [said H; destruct colls; valid|].
  apply bind_ok in H as (rt & Hrt & H). said H.
  assert (Hv : valid_utf8 rt).
  { clear -IH Hr Hrt. revert rt Hrt. induction recs as [|o recs IHr]; intros rt H; unfold recs_text in H; [said H; constructor|].
    apply bind_ok in H as (t & Ht & H). apply bind_ok in H as (u & Hu & H). said H.
    assert (Vt : valid_utf8 t).
    { destruct o as [r|]; [|said Ht; valid]. apply bind_ok in Ht as ([t' e'] & Ht & H). said H.
      eapply IH; [now left|apply Hr; now left|exact Ht]. }
    assert (Vu : valid_utf8 u). { apply IHr; auto; intros c Hc; [apply IH|apply Hr]; now right. }
    destruct recs; valid. }
  destruct colls, recs; valid.
Qed.

(** ** Members of an object *)
Lemma means_lookup : forall m o, means (TObj m) (JObj o) -> NoDup (map fst m) -> forall k,
  (forall t, In (k, t) m -> exists j, jlookup k o = Some j /\ means t j) /\
  (~ In k (map fst m) -> jlookup k o = None).
Proof.
  intros m o H Hn k. inversion H as [| | | | |? r ? HF No HL]; subst. rewrite HL.
  assert (Em : map fst m = map fst r).
  { clear -HF. induction HF as [|a b m r [E _] _ IH]; [reflexivity|]. cbn [map]. now rewrite E, IH. }
  rewrite <- (jlookup_perm r (rev r) k); [|rewrite <- Em; exact Hn|apply Permutation_rev]. split.
  - intros t Hin. clear HL H. induction HF as [|[k1 t1] [k2 j2] m r [E Hm] _ IH]; [destruct Hin|]. cbn [fst snd] in *. subst k2.
    cbn [jlookup]. cbn [map fst] in Hn, Em. inversion Hn as [|? ? Hni Hn']; subst. destruct Hin as [E|Hin].
    + injection E as -> ->. rewrite str_eqb_refl. eauto.
    + destruct (str_eqb k k1) eqn:Ek; [|apply IH; auto; now injection Em].
      apply str_eqb_eq in Ek. subst k1. elim Hni. apply in_map_iff. now exists (k, t).
  - intro Hni. rewrite Em in Hni. clear -Hni. induction r as [|[k1 j1] r IH]; [reflexivity|]. cbn [jlookup].
    destruct (str_eqb k k1) eqn:Ek; [apply str_eqb_eq in Ek; subst k1; elim Hni; now left|]. apply IH. intro. apply Hni. now right.
Qed.
Lemma means_object : forall m j, means (TObj m) j -> exists o, j = JObj o.
Proof. intros m j H. inversion H; subst. eauto. Qed.
Lemma means_array : forall l j, means (TArr l) j -> exists r, j = JArr r /\ Forall2 means l r.
Proof. intros l j H. inversion H; subst. eauto. Qed.
Definition rec_tree (id name : str) (mt : tree) (cts rts : list tree) : list (str * tree) :=
  [key "id" (TStr id); key "name" (TStr name); key "metadata" mt; key "collections" (TArr cts); key "recordings" (TArr rts)].
Lemma rec_tree_keys : forall id name mt cts rts, NoDup (map fst (rec_tree id name mt cts rts)).
Proof. intros. unfold rec_tree, key. cbn [map fst]. repeat constructor; cbn; intuition discriminate. Qed.
Lemma rec_fields : forall id name mt cts rts o, means (TObj (rec_tree id name mt cts rts)) (JObj o) ->
  field o "id" (JStr id) /\ field o "name" (JStr name) /\ no_field o "references" /\
  (exists mj, field o "metadata" mj /\ means mt mj) /\
  (exists cl, field o "collections" (JArr cl) /\ Forall2 means cts cl) /\
  (exists rl, field o "recordings" (JArr rl) /\ Forall2 means rts rl).
Proof.
  intros id name mt cts rts o H. pose proof (means_lookup _ _ H (rec_tree_keys _ _ _ _ _)) as HL. unfold field, no_field.
  split; [|split; [|split; [|split; [|split]]]].
  - destruct (proj1 (HL (lit "id")) (TStr id)) as (j & E & Hj); [cbn; auto|]. now inversion Hj; subst.
  - destruct (proj1 (HL (lit "name")) (TStr name)) as (j & E & Hj); [cbn; auto|]. now inversion Hj; subst.
  - apply HL. cbn. intuition discriminate.
  - apply HL. cbn. auto.
  - destruct (proj1 (HL (lit "collections")) (TArr cts)) as (j & E & Hj); [cbn; auto 6|].
    apply means_array in Hj as (cl & -> & Hc). eauto.
  - destruct (proj1 (HL (lit "recordings")) (TArr rts)) as (j & E & Hj); [cbn; auto 7|].
    apply means_array in Hj as (cl & -> & Hc). eauto.
Qed.

(** ** Exported collections have no type *)
Lemma untyped : forall m o, means (TObj m) (JObj o) -> NoDup (map fst m) -> ~ In (lit "type") (map fst m) -> pcoll (JObj o) = Ok None.
Proof.
  intros m o H Hn Ht. rewrite pcoll_eq. destruct (string_key (JObj o) "name") as [[name|]| |] eqn:E; try reflexivity.
  - cbn [obind bind]. unfold string_key. cbn [path]. rewrite (proj2 (means_lookup _ _ H Hn _) Ht). reflexivity.
  - now apply skey_ends in E.
  - now apply skey_ends in E.
Qed.
Lemma coll_rejected : forall c t j, coll_shown c t -> means t j -> is_obj j = true /\ pcoll j = Ok None.
Proof.
  intros c t j Hc Hj. destruct Hc; destruct (means_object _ _ Hj) as (o & ->); (split; [reflexivity|]);
    (eapply untyped; [exact Hj| |]); unfold key; cbn [map fst]; try (repeat constructor; cbn; intuition discriminate); cbn; intuition discriminate.
Qed.
(** ** A recording survives if it is bare *)
Lemma metadata_back : number_text parse64 reparse32 num64 num32 -> forall md mt mj o,
  faithful (PBlock md) -> shown (PBlock md) mt -> field o "metadata" mj -> means mt mj ->
  exists md', pmeta (JObj o) = Ok (Some md') /\ block_equiv md md'.
Proof.
  intros HN md mt mj o Hf Hs Ho Hm. destruct (shown_back _ _ _ _ _ _ HN _ _ Hf Hs) as (j0 & p0 & Hm0 & Hs0 & He0).
  pose proof (means_same _ _ _ _ Hm0 Hm) as Sj. destruct (says_same _ _ _ _ _ (means_wf _ _ _ Hm0) Sj Hs0) as (p & Hp & He).
  pose proof (prop_equiv_trans _ _ _ He0 He) as HE. assert (exists md', p = PBlock md' /\ block_equiv md md') as (md' & -> & Hb)
    by (inversion HE as [|? m2 Hb|]; subst; [exists md|exists m2]; auto using block_equiv_refl).
  exists md'. split; [|exact Hb].
  inversion Hs as [| | | | | | |? m' l _ _| | | | |]; subst. destruct (means_object _ _ Hm) as (m & ->).
  unfold parse_metadata. cbn [path]. rewrite Ho. apply get_complete in Hp. now rewrite Hp.
Qed.
Lemma subs_back : forall recs rts rl,
  Forall2 (fun o t => (o = None /\ t = TNull) \/ (exists r, o = Some r /\ exported r t)) recs rts -> Forall2 means rts rl ->
  (forall r t j, In (Some r) recs -> exported r t -> means t j ->
     is_obj j = true /\
     ((bare r /\ exists r', precord j = Ok (Some r') /\ rec_equiv (without_binaries r) r') \/ (~ bare r /\ precord j = Ok None))) ->
  let all := Forall (fun o => exists r, o = Some r /\ bare r) recs in
  let got := each (fun x => if is_obj x then precord x else fail) rl in
  (all /\ exists rs, got = Ok (Some rs) /\
     Forall2 (both rec_equiv) (map (fun o => match o with Some x => Some (without_binaries x) | None => None end) recs) (map Some rs)) \/
  (~ all /\ got = Ok None).
Proof.
  intros recs rts rl H. revert rl. induction H as [|o t recs rts Ho _ IH]; intros rl Hl HI; inversion Hl as [|? j ? rl' Hj Hl']; subst.
  - left. split; [constructor|]. exists []. split; [reflexivity|constructor].
  - cbv zeta. cbn [each]. destruct Ho as [(-> & ->)|(r & -> & Hx)].
    + inversion Hj; subst. right. split; [|reflexivity]. intro HF. inversion HF as [|? ? (r & E & _) _]; discriminate E.
    + destruct (HI r t j (or_introl eq_refl) Hx Hj) as (-> & [(Hb & r' & Er & He)|(Hb & Er)]); rewrite Er; cbn [obind bind].
      * destruct (IH rl' Hl') as [(Ha & rs & Es & HF)|(Ha & Es)]; [intros; apply HI with t0; auto; now right| |]; rewrite Es; cbn [obind bind].
        -- left. split; [constructor; eauto|]. exists (r' :: rs). split; [reflexivity|]. cbn [map]. constructor; [|exact HF]. now exists (without_binaries r), r'.
        -- right. split; [|reflexivity]. intro HF. apply Ha. now inversion HF.
      * right. split; [|reflexivity]. intro HF. inversion HF as [|? ? (x & E & Hx') _]; subst. injection E as <-. contradiction.
Qed.
Lemma colls_back : forall colls cts cl, Forall2 coll_shown colls cts -> Forall2 means cts cl ->
  each (fun x => if is_obj x then pcoll x else fail) cl = match colls with [] => Ok (Some []) | _ => Ok None end.
Proof.
  intros colls cts cl H Hm. destruct H as [|c t colls cts Hc _]; inversion Hm as [|? j ? cl' Hj _]; subst; [reflexivity|].
  destruct (coll_rejected _ _ _ Hc Hj) as [E1 E2]. cbn [each]. rewrite E1, E2. reflexivity.
Qed.
Theorem export_back : number_text parse64 reparse32 num64 num32 -> forall r t j,
  exported r t -> faithful_rec r -> means t j ->
  is_obj j = true /\
  ((bare r /\ exists r', precord j = Ok (Some r') /\ rec_equiv (without_binaries r) r') \/ (~ bare r /\ precord j = Ok None)).
Proof.
  intros HN r. induction r as [id name colls recs md bins refs IH] using recording_ind'. intros t j Hx Hf Hm.
  inversion Hx as [? ? ? ? ? ? ? mt cts rts Hmt Hcts Hrts]; subst. inversion Hf as [? ? ? ? ? ? ? Hfm Hfr]; subst.
  change [key "id" (TStr id); key "name" (TStr name); key "metadata" mt; key "collections" (TArr cts); key "recordings" (TArr rts)]
    with (rec_tree id name mt cts rts) in Hm.
  destruct (means_object _ _ Hm) as (o & ->). split; [reflexivity|].
  destruct (rec_fields _ _ _ _ _ _ Hm) as (Fid & Fn & Fr & (mj & Fm & Hmj) & (cl & Fc & Hcl) & (rl & Frs & Hrl)).
  rewrite precord_eq. rewrite (obind_ret _ _ id) by (apply skey_some; eauto). rewrite (obind_ret _ _ name) by (apply skey_some; eauto).
  destruct (metadata_back HN _ _ _ _ Hfm Hmt Fm Hmj) as (md' & Emd & Hmd).
  pose proof (colls_back _ _ _ Hcts Hcl) as Ec.
  destruct (subs_back recs rts rl Hrts Hrl) as [(Ha & rs & Es & HF)|(Ha & Es)].
  { intros r t j Hin Ht Hj. exact (IH r Hin t j Ht (Hfr r Hin) Hj). }
  - assert (E1 : parse_array "recordings" precord (JObj o) = Ok (Some (map Some rs))).
    { unfold parse_array. cbn [path]. rewrite Frs. now rewrite (obind_ret _ _ rs). }
    rewrite (obind_ret _ _ _ E1), (obind_ret _ _ _ Emd).
    assert (E2 : parse_array "references" pref (JObj o) = Ok (Some [])).
    { unfold parse_array. cbn [path]. now rewrite Fr. }
    rewrite (obind_ret _ _ _ E2).
    assert (E3 : parse_array "collections" pcoll (JObj o) = match colls with [] => Ok (Some []) | _ => Ok None end).
    { unfold parse_array. cbn [path]. rewrite Fc, Ec. destruct colls; reflexivity. }
    rewrite E3. destruct colls as [|c colls].
    + left. split; [now constructor|]. eexists. split; [reflexivity|]. cbn [without_binaries]. constructor; auto; constructor.
    + right. split; [|reflexivity]. intro Hb. inversion Hb.
  - right. split.
    + intro Hb. inversion Hb; subst. contradiction.
    + unfold parse_array at 1. cbn [path]. rewrite Frs, Es. reflexivity.
Qed.

(** ** The text of a bare recording has a value *)
Lemma bare_means : number_text parse64 reparse32 num64 num32 -> forall r t n,
  exported r t -> faithful_rec r -> bare r -> depth_at_most n r -> (exists j, means t j) /\ (nesting t <= n)%nat.
Proof.
  intros HN r. induction r as [id name colls recs md bins refs IH] using recording_ind'. intros t n Hx Hf Hb Hn.
  inversion Hx as [? ? ? ? ? ? ? mt cts rts Hmt Hcts Hrts]; subst. inversion Hf as [? ? ? ? ? ? ? Hfm Hfr]; subst.
  inversion Hb as [? ? ? ? ? ? Hbs]; subst. inversion Hn as [n' ? ? ? ? ? ? ? Hl Hln]; subst. inversion Hcts; subst.
  destruct (shown_back _ _ _ _ _ _ HN _ _ Hfm Hmt) as (mj & _ & Hmj & _ & _).
  assert (HR : (exists rl, Forall2 means rts rl) /\ Forall (fun t => (nesting t <= n')%nat) rts).
  { clear -IH Hfr Hln Hbs Hrts. induction Hrts as [|o t recs rts Ho _ IHr]; [split; [exists []|]; constructor|].
    inversion Hbs as [|? ? (r & -> & Hr) Hbs']; subst. destruct Ho as [(E & _)|(r' & E & Hx)]; [discriminate E|]. injection E as <-.
    destruct (IH r (or_introl eq_refl) t n' Hx) as ((j & Hj) & Hnt); [apply Hfr; now left|exact Hr|apply Hln; now left|].
    destruct IHr as ((rl & Hrl) & Hall); [intros c Hc; apply IH; now right|intros; apply Hfr; now right|exact Hbs'|intros; apply Hln; now right|].
    split; [exists (j :: rl)|]; now constructor. }
  destruct HR as ((rl & Hrl) & Hall). split.
  - set (l := [(lit "id", JStr id); (lit "name", JStr name); (lit "metadata", mj); (lit "collections", JArr []); (lit "recordings", JArr rl)]).
    assert (Hnd : NoDup (map fst l)) by (cbn [map fst l]; repeat constructor; cbn; intuition discriminate).
    exists (JObj l). apply N_obj with l; [|exact Hnd|].
    + unfold key, l. repeat apply Forall2_cons; try apply Forall2_nil; cbn [fst snd]; (split; [reflexivity|]); try constructor; auto.
    + intro k. apply jlookup_perm; [exact Hnd|apply Permutation_rev].
  - pose proof (shown_nesting _ _ _ parse_time _ _ _ Hmt Hl) as Hmn. unfold key. cbn [nesting fold_right snd].
    apply (proj2 (max_le nesting rts n')) in Hall. apply le_n_S. repeat apply Nat.max_lub; lia.
Qed.
Theorem only_bare : forall r t j r', exported r t -> means t j -> describes j r' -> bare r.
Proof.
  intro r. induction r as [id name colls recs md bins refs IH] using recording_ind'. intros t j r' Hx Hm Hd.
  inversion Hx as [? ? ? ? ? ? ? mt cts rts Hmt Hcts Hrts]; subst.
  change [key "id" (TStr id); key "name" (TStr name); key "metadata" mt; key "collections" (TArr cts); key "recordings" (TArr rts)]
    with (rec_tree id name mt cts rts) in Hm.
  destruct (means_object _ _ Hm) as (o & ->).
  destruct (rec_fields _ _ _ _ _ _ Hm) as (_ & _ & _ & _ & (cl & Fc & Hcl) & (rl & Frs & Hrl)).
  inversion Hd as [m' id' name' cs colls' rs subs fs refs' md' Hid Hn Hcs Hcolls Hrs Hsubs Hfs Hrefs Hmd]; subst.
  assert (cs = cl) as -> by (destruct Hcs as [H|[H _]]; unfold field, no_field in *; congruence).
  assert (rs = rl) as -> by (destruct Hrs as [H|[H _]]; unfold field, no_field in *; congruence).
  destruct Hcts as [|c t colls cts Hc Hcts].
  - constructor. clear -IH Hrts Hrl Hsubs. revert rl subs Hrl Hsubs.
    induction Hrts as [|x t recs rts Hxt _ IHr]; intros rl subs Hrl Hsubs; [constructor|].
    inversion Hrl as [|? j ? rl' Hj Hrl']; subst. inversion Hsubs as [|? s ? subs' (r1 & -> & Hr1) Hsubs']; subst. constructor.
    + destruct Hxt as [(-> & ->)|(r & -> & Hr)]; [inversion Hj; subst; inversion Hr1|]. exists r. split; [reflexivity|].
      apply (IH r (or_introl eq_refl) t j r1); auto.
    + apply (IHr ltac:(intros; eapply IH; eauto; now right) rl' subs'); auto.
  - exfalso. inversion Hcl as [|? j ? cl' Hj _]; subst. inversion Hcolls as [|? k ? ? Hk _]; subst.
    destruct (coll_rejected _ _ _ Hc Hj) as [_ E]. inversion Hk as [m nm ty l b Hnm Hty Hl Hb]; subst.
    rewrite pcoll_eq in E. rewrite (obind_ret _ _ nm) in E by (apply skey_some; eauto).
    destruct Hc; destruct (means_object _ _ Hj) as (o' & E'); injection E' as ->;
      (assert (HT : jlookup (lit "type") o' = None) by
         (eapply (means_lookup _ _ Hj); unfold key; cbn [map fst]; [repeat constructor; cbn; intuition discriminate|cbn; intuition discriminate]));
      unfold field in Hty; congruence.
Qed.
End Pipe.
