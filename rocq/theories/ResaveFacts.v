(** Facts about saving a recording again and again. *)
From Coq Require Import ZArith Lia Permutation.
From Verif Require Import Base BaseFacts IO Spec IOFacts Floats ByteFacts BinaryIO BinaryIOFacts.
From Verif Require Import Metadata SpecMeta MetadataFacts Recording SpecRec RecordingFacts Encoding SpecEnc.
From Verif Require Import EncEvent EncEventFacts EncEnum EncEnumFacts EncPosition EncEuler EncFloat EncLawful.
From Verif Require Import EncNumFacts OctFacts StreamFacts TimeIO TimeFacts Near32Facts.
From Verif Require Import Writer Reader SpecFile WriterFacts KeyFacts PlanFacts ReaderFacts FileFacts BuiltinFacts SpecResave.
Local Open Scope N_scope.

(** ** Equality of properties is transitive *)
Definition entry_equiv (a b : str * prop) : Prop := fst a = fst b /\ prop_equiv (snd a) (snd b).
Lemma entries_iff : forall m n, entries_equiv m n <-> Forall2 entry_equiv m n.
Proof.
  split.
  - induction 1 as [|k v w m n Hvw H IH]; constructor; [split; auto|exact IH].
  - induction 1 as [|[k v] [k' w] m n [E Hvw] H IH]; [constructor|]. cbn [fst snd] in *. subst k'. now constructor.
Qed.
Lemma props_iff : forall m n, props_equiv m n <-> Forall2 prop_equiv m n.
Proof. split; induction 1; constructor; auto. Qed.
Lemma Forall2_perm : forall A B (R : A -> B -> Prop) l l' k, Forall2 R l l' -> Permutation l' k ->
  exists j, Permutation l j /\ Forall2 R j k.
Proof.
  intros A B R l l' k H HP. revert l H. induction HP as [|x l1 l2 HP IH|x y l1|l1 l2 l3 HP1 IH1 HP2 IH2]; intros l H.
  - inversion H; subst. exists []. auto.
  - inversion H as [|a ? j ? Ha Hj]; subst. destruct (IH j Hj) as (j' & Hp & Hj'). exists (a :: j'). auto.
  - inversion H as [|a ? j ? Ha Hj]; subst. inversion Hj as [|b ? i ? Hb Hi]; subst. exists (b :: a :: i). split; [apply perm_swap|auto].
  - destruct (IH1 l H) as (j & Hp & Hj). destruct (IH2 j Hj) as (i & Hp' & Hi). exists i. split; [now transitivity j|exact Hi].
Qed.
Lemma Forall2_trans_in : forall A (R : A -> A -> Prop) l m n, Forall2 R l m -> Forall2 R m n ->
  (forall x, In x l -> forall y z, R x y -> R y z -> R x z) -> Forall2 R l n.
Proof.
  intros A R l m n H. revert n. induction H as [|x y l m Hxy H IH]; intros n Hn Ht; inversion Hn; subst; constructor.
  - eapply Ht; [now left|eassumption|assumption].
  - apply IH; auto. intros z Hz. apply Ht. now right.
Qed.
Lemma prop_equiv_trans : forall p q s, prop_equiv p q -> prop_equiv q s -> prop_equiv p s.
Proof.
  induction p as [p Hp | m IH | b ps IH] using prop_ind'; intros q s H1 H2.
  - inversion H1; subst; try contradiction. exact H2.
  - inversion H1 as [|? m2 B1|]; subst; [exact H2|]. inversion H2 as [|? m3 B2|]; subst; [exact H1|].
    apply PE_block. inversion B1 as [? n1 ? P1 E1]; subst. inversion B2 as [? n2 ? P2 E2]; subst.
    apply entries_iff in E1. destruct (Forall2_perm _ _ _ _ _ _ E1 P2) as (j & Pj & Ej).
    apply BE with j; [now transitivity n1|]. apply entries_iff in E2. apply entries_iff.
    eapply Forall2_trans_in; [exact Ej|exact E2|]. intros [k v] Hv [k2 v2] [k3 v3] [Ea Ha] [Eb Hb]. cbn [fst snd] in *.
    split; [cbn [fst]; congruence|]. cbn [snd]. rewrite Forall_forall in IH. apply (IH (k, v)) with v2; auto.
    eapply Permutation_in; [|exact Hv]. apply Permutation_sym. now transitivity n1.
  - inversion H1 as [| |? ? qs B1]; subst; [exact H2|]. inversion H2 as [| |? ? ss B2]; subst; [exact H1|].
    apply PE_array. apply props_iff in B1, B2. apply props_iff. eapply Forall2_trans_in; [exact B1|exact B2|].
    rewrite Forall_forall in IH. intros v Hv y z. now apply IH.
Qed.
Lemma block_equiv_trans : forall a b c, block_equiv a b -> block_equiv b c -> block_equiv a c.
Proof.
  intros a b c H1 H2. assert (H : prop_equiv (PBlock a) (PBlock c)) by (eapply prop_equiv_trans; apply PE_block; eassumption).
  inversion H; subst; [apply block_equiv_refl|assumption].
Qed.
Lemma coll_equiv_trans : forall a b c, coll_equiv a b -> coll_equiv b c -> coll_equiv a c.
Proof.
  intros a b c H1 H2. unfold coll_equiv in *.
  destruct (c_body a) as [| | |la| |] eqn:Ea; try (subst b; rewrite Ea in H2; exact H2).
  destruct (c_body b) as [| | |lb| |] eqn:Eb; try (subst b; congruence).
  destruct (c_body c) as [| | |lc| |] eqn:Ec; try (subst c; congruence).
  destruct H1 as [N1 F1]. destruct H2 as [N2 F2]. split; [congruence|].
  eapply Forall2_trans_in; [exact F1|exact F2|]. intros x _ y z (A1 & A2 & A3) (B1 & B2 & B3).
  repeat split; [congruence|congruence|]. eapply block_equiv_trans; eassumption.
Qed.

(** ** Relations between recordings, composed *)
Lemma Forall2_comp : forall A (R S T : A -> A -> Prop) l m n, Forall2 R l m -> Forall2 S m n ->
  (forall x y z, In x l -> R x y -> S y z -> T x z) -> Forall2 T l n.
Proof.
  intros A R S T l m n H. revert n. induction H as [|x y l m Hxy H IH]; intros n Hn Ht; inversion Hn; subst; constructor.
  - eapply Ht; [now left|eassumption|assumption].
  - apply IH; auto. intros a b c Ha. apply Ht. now right.
Qed.
Lemma rec_rel_comp : forall (EB : block -> block -> Prop) (RC SC TC : coll -> coll -> Prop),
  (forall a b c, EB a b -> EB b c -> EB a c) -> (forall a b c, RC a b -> SC b c -> TC a c) ->
  forall r s t, rec_rel EB RC r s -> rec_rel EB SC s t -> rec_rel EB TC r t.
Proof.
  intros EB RC SC TC HB HC. induction r as [id name colls recs md bins refs IH] using recording_ind'.
  intros s t H1 H2. inversion H1 as [? ? ? ? ? ? ? ? ? ? ? ? C1 R1 M1 B1 F1]; subst.
  inversion H2 as [? ? ? ? ? ? ? ? ? ? ? ? C2 R2 M2 B2 F2]; subst. constructor.
  - eapply Forall2_comp; [exact C1|exact C2|]. intros x y z _ (a & b & -> & -> & Hab) (b' & c & E & -> & Hbc).
    injection E as <-. exists a, c. repeat split; auto. eapply HC; eassumption.
  - eapply Forall2_comp; [exact R1|exact R2|]. intros x y z Hx (a & b & -> & -> & Hab) (b' & c & E & -> & Hbc).
    injection E as <-. exists a, c. repeat split; auto. eapply IH; eassumption.
  - eapply HB; eassumption.
  - eapply Forall2_comp; [exact B1|exact B2|]. intros x y z _ (a & b & -> & -> & P1 & P2 & P3 & P4) (b' & c & E & -> & Q1 & Q2 & Q3 & Q4).
    injection E as <-. exists a, c. repeat split; auto; try congruence. eapply HB; eassumption.
  - eapply Forall2_comp; [exact F1|exact F2|]. intros x y z _ (a & b & -> & -> & P1 & P2 & P3 & P4) (b' & c & E & -> & Q1 & Q2 & Q3 & Q4).
    injection E as <-. exists a, c. repeat split; auto; try congruence. eapply HB; eassumption.
Qed.
Lemma rec_rel_refl : forall (EB : block -> block -> Prop) (RC : coll -> coll -> Prop), (forall m, EB m m) ->
  forall r, wf_rec r -> (forall c, In c (tree_colls r) -> RC c c) -> rec_rel EB RC r r.
Proof.
  intros EB RC HB r Hw HC. eapply rec_rel_mono with (EB := fun a b => a = b) (RC := fun a b => a = b /\ RC a b).
  - intros m n ->. apply HB.
  - intros c d _ [_ H]. exact H.
  - revert Hw HC. induction r as [id name colls recs md bins refs IH] using recording_ind'. intros Hw HC. rewrite tree_colls_eq in HC.
    inversion Hw as [? ? ? ? ? ? ? Hcolls Hrecs _ Hbins Hrefs]; subst. constructor; auto.
    + assert (HC' : forall c, In c (opt_colls colls) -> RC c c) by (intros; apply HC, in_or_app; auto).
      clear -Hcolls HC'. induction Hcolls as [|o l (x & -> & _) H IHl]; constructor.
      * exists x, x. repeat split; auto. apply HC'. now left.
      * apply IHl. intros c Hc. apply HC'. now right.
    + assert (HC' : forall c, In c (recs_colls recs) -> RC c c) by (intros; apply HC, in_or_app; auto).
      clear -Hrecs HC' IH. induction Hrecs as [|o l (x & -> & Hx) H IHl]; constructor.
      * exists x, x. repeat split; auto. apply IH; [now left|exact Hx|]. intros c Hc. apply HC'.
        unfold recs_colls. cbn [flat_map]. apply in_or_app. now left.
      * apply IHl; [intros c Hc; apply IH; now right|]. intros c Hc. apply HC'. unfold recs_colls. cbn [flat_map]. apply in_or_app. now right.
    + clear -Hbins. induction Hbins as [|o l (x & -> & _) H IHl]; constructor; auto. exists x, x. repeat split.
    + clear -Hrefs. induction Hrefs as [|o l (x & -> & _) H IHl]; constructor; auto. exists x, x. repeat split.
Qed.
Lemma rec_rel_wf : forall (EB : block -> block -> Prop) (RC : coll -> coll -> Prop),
  (forall m n, EB m n -> built_block m -> built_block n) ->
  forall r r', (forall c d, In c (tree_colls r) -> RC c d -> wf_coll c -> wf_coll d) -> rec_rel EB RC r r' -> wf_rec r -> wf_rec r'.
Proof.
  intros EB RC HB. induction r as [id name colls recs md bins refs IH] using recording_ind'. intros r' HC H Hw.
  rewrite tree_colls_eq in HC. inversion Hw as [? ? ? ? ? ? ? Hcolls Hrecs Hmd Hbins Hrefs]; subst.
  inversion H as [? ? ? colls' ? recs' ? ? ? ? ? ? Hc Hr Hm Hb Hf]; subst. constructor; [| |now apply (HB _ _ Hm)| |].
  - assert (HC' : forall c d, In c (opt_colls colls) -> RC c d -> wf_coll c -> wf_coll d) by (intros c d Hi; apply HC, in_or_app; auto).
    clear -Hcolls HC' Hc. induction Hc as [|o o' l l' (x & y & -> & -> & Hxy) Hl IHl]; [constructor|].
    inversion Hcolls as [|? ? (x0 & E & Hx) Hcl]; subst. injection E as <-. constructor.
    + exists y. split; [reflexivity|]. apply (HC' x y); auto. now left.
    + apply IHl; auto. intros c d Hi. apply HC'. now right.
  - assert (HC' : forall c d, In c (recs_colls recs) -> RC c d -> wf_coll c -> wf_coll d) by (intros c d Hi; apply HC, in_or_app; auto).
    clear -Hrecs HC' Hr IH. induction Hr as [|o o' l l' (x & y & -> & -> & Hxy) Hl IHl]; [constructor|].
    inversion Hrecs as [|? ? (x0 & E & Hx) Hcl]; subst. injection E as <-. constructor.
    + exists y. split; [reflexivity|]. apply (IH x (or_introl eq_refl)); auto. intros c d Hi. apply HC'.
      unfold recs_colls. cbn [flat_map]. apply in_or_app. now left.
    + apply IHl; auto; [intros c Hc; apply IH; now right|]. intros c d Hi. apply HC'.
      unfold recs_colls. cbn [flat_map]. apply in_or_app. now right.
  - clear -Hbins Hb HB. induction Hb as [|o o' l l' (x & y & -> & -> & P1 & P2 & P3 & P4) Hl IHl]; [constructor|].
    inversion Hbins as [|? ? (x0 & E & Hx1 & Hx2) Hcl]; subst. injection E as <-. constructor; [|now apply IHl].
    exists y. split; [reflexivity|]. split; [now apply (HB _ _ P4)|congruence].
  - clear -Hrefs Hf HB. induction Hf as [|o o' l l' (x & y & -> & -> & P1 & P2 & P3 & P4) Hl IHl]; [constructor|].
    inversion Hrefs as [|? ? (x0 & E & Hx1 & Hx2) Hcl]; subst. injection E as <-. constructor; [|now apply IHl].
    exists y. split; [reflexivity|]. split; [now apply (HB _ _ P4)|congruence].
Qed.

(** ** One save *)
Section Step.
Context (Z : compressor) (IZ : inflater) (reg : list encoder) (v1 : v1_reader).

Lemma step : forall tp te tf cfg a aA aE, valid_config tp te tf cfg -> (w_compress cfg = true -> codec_ok Z IZ) ->
  (forall e, In e (w_encs cfg) -> can_read reg e) -> ~ unaccepted (w_encs cfg) a ->
  wf_rec a -> rec_equiv a aA -> rec_equiv a aE ->
  exists n file, write_views cfg Z buffer aA aE a [] = Ok (n, None, file) /\
    (n <= 2 ^ 40 -> exists b s, read reg v1 IZ flat file = Ok (Some b, n, None, s) /\
      rec_rel eq (decoded (w_encs cfg) (fun _ => num_post tp te tf) (w_time cfg)) a b).
Proof.
  intros tp te tf cfg a aA aE (Hp & He & Hf & Ht & Hes & Hs) Hz Hreg Hacc Hwf HA HE.
  destruct (builtin_round_trip tp te tf cfg Z a aA aE reg v1 IZ) as (n & file & Hw & _ & Hr); auto.
  exists n, file. split; [apply (Hw [])|]. intro Hn. destruct (Hr Hn Hz) as (b & Hrel & Hread).
  destruct (Hread _ flat false _ (flat_delivers false) file []) as (s & E & _); [now rewrite app_nil_r|].
  exists b, s. split; [exact E|exact Hrel].
Qed.

Lemma same_sig : forall c d, same_but_numbers c d -> c_sig c = c_sig d.
Proof.
  intros [n b] [n' b'] (_ & _ & H). cbn [c_body] in H. unfold c_sig. cbn [c_body].
  destruct b, b'; try contradiction; reflexivity.
Qed.
Lemma same_trans : forall a b c, same_but_numbers a b -> same_but_numbers b c -> same_but_numbers a c.
Proof.
  intros [na a] [nb b] [nc c] (N1 & L1 & H1) (N2 & L2 & H2). cbn [c_body c_name] in *.
  split; [cbn [c_name]; congruence|]. split; [congruence|]. cbn [c_body].
  destruct a, b; try contradiction; destruct c; try contradiction; auto.
  - eapply Forall2_trans_in; [exact H1|exact H2|]. intros x _ y z (A & B) (A' & B'). split; [congruence|].
    eapply block_equiv_trans; eassumption.
  - destruct H1, H2. split; congruence.
Qed.
Lemma same_wf : forall c d, same_but_numbers c d -> wf_coll c -> wf_coll d.
Proof.
  intros [n b] [n' b'] (_ & _ & H) Hw. unfold wf_coll in *. cbn [c_body] in *.
  destruct b, b'; try contradiction; auto.
  - induction H as [|x y l l' (_ & Hb) H IH]; [constructor|]. inversion Hw; subst. constructor; auto.
    eapply equiv_built; [apply PE_block; exact Hb|assumption].
  - destruct H as [_ H]. rewrite <- (Forall_map snd (fun z => (- 2 ^ 63 <= z < 2 ^ 63)%Z)) in *. now rewrite <- H.
Qed.
Lemma unaccepted_sig : forall tp te tf es (RC : coll -> coll -> Prop) EB r r', Forall (builtin tp te tf) es ->
  (forall c d, RC c d -> c_sig c = c_sig d) -> rec_rel EB RC r r' -> unaccepted es r' -> unaccepted es r.
Proof.
  intros tp te tf es RC EB r r' Hes HS H (c' & x' & Hc & Hx & Hno).
  destruct (rel_inside _ _ _ _ H c' Hc) as (c & Hic & Hcc).
  inversion Hcc as [? ? colls colls' ? ? ? ? ? ? ? ? Hco _ _ _ _]; subst. cbn [rec_colls] in Hx.
  assert (exists x, In (Some x) colls /\ RC x x') as (x & Hx0 & Hxx).
  { clear -Hco Hx. induction Hco as [|o o' l l' (a & b & -> & -> & Hab) Hl IHl]; [destruct Hx|].
    destruct Hx as [E|Hx]; [injection E as ->; exists a; split; [now left | exact Hab]|].
    destruct (IHl Hx) as (y & Hy & Hyx). exists y. split; [now right | exact Hyx]. }
  eexists _, x. split; [exact Hic|]. split; [exact Hx0|]. intros e He. specialize (Hno e He).
  rewrite Forall_forall in Hes. apply HS in Hxx. destruct (Hes e He) as [-> | [-> | [-> | [-> | ->]]]]; cbn in *; now rewrite Hxx.
Qed.

(** The recording after a save is the same but for numbers. *)
Lemma step_same : forall tp te tf cfg a b, valid_config tp te tf cfg -> wf_rec a ->
  rec_rel eq (decoded (w_encs cfg) (fun _ => num_post tp te tf) (w_time cfg)) a b ->
  rec_rel block_equiv same_but_numbers a b /\ wf_rec b.
Proof.
  intros tp te tf cfg a b (Hp & He & Hf & Ht & Hes & Hs) Hwf H.
  assert (R : rec_rel block_equiv same_but_numbers a b).
  { eapply rec_rel_mono; [| |exact H]; [intros m ? <-; apply block_equiv_refl|].
    intros c d Hc Hd. pose proof (wf_tree_colls _ Hwf) as Hwc. rewrite Forall_forall in Hwc.
    exact (proj1 (decoded_same tp te tf cfg Hp He Hf Ht Hes c d (Hwc c Hc) Hd)). }
  split; [exact R|]. eapply rec_rel_wf; [|intros c d _; apply same_wf|exact R|exact Hwf].
  intros m n Hmn. apply equiv_built. now apply PE_block.
Qed.

Lemma history_same : forall r h a, saved Z IZ reg v1 r h a -> wf_rec r -> Forall (usable Z IZ reg r) h -> h <> [] ->
  rec_rel block_equiv same_but_numbers r a /\ wf_rec a.
Proof.
  intros r h a H Hwf. induction H as [|h a cfg aA aE n ew file b m er s H IH HA HE Hw Hn Hr]; intros Hu Hne; [now elim Hne|].
  inversion Hu as [|? ? ((tp & te & tf & V) & Hz & Hreg & Hacc) Hu']; subst.
  assert (P : (h = [] /\ a = r) \/ (rec_rel block_equiv same_but_numbers r a /\ wf_rec a)).
  { destruct h as [|c h]; [left; inversion H; auto|right]. apply IH; auto. discriminate. }
  assert (Hwa : wf_rec a) by (destruct P as [[_ ->]|[_ P]]; auto).
  assert (Hacca : ~ unaccepted (w_encs cfg) a).
  { destruct P as [[_ ->]|[P _]]; [exact Hacc|]. intro U. apply Hacc.
    destruct V as (_ & _ & _ & _ & Hes & _). eapply unaccepted_sig; eauto using same_sig. }
  destruct (step tp te tf cfg a aA aE) as (n0 & f0 & Ew & Er); auto.
  rewrite Ew in Hw. injection Hw as <- <- <-. destruct (Er Hn) as (b0 & s0 & Eb & Hrel).
  rewrite Eb in Hr. injection Hr as <- <- <- <-. destruct (step_same _ _ _ _ _ _ V Hwa Hrel) as [R Wb].
  split; [|exact Wb]. destruct P as [[_ ->]|[P _]]; [exact R|].
  eapply rec_rel_comp; [exact block_equiv_trans|exact same_trans|exact P|exact R].
Qed.
Lemma history_wf : forall r h a, saved Z IZ reg v1 r h a -> wf_rec r -> Forall (usable Z IZ reg r) h ->
  wf_rec a /\ forall cfg, usable Z IZ reg r cfg -> usable Z IZ reg a cfg.
Proof.
  intros r h a H Hwf Hu. destruct h as [|c h]; [inversion H; subst; auto|].
  destruct (history_same _ _ _ H Hwf Hu) as [R W]; [discriminate|]. split; [exact W|].
  intros cfg ((tp & te & tf & V) & Hz & Hreg & Hacc). split; [now exists tp, te, tf|]. split; [exact Hz|]. split; [exact Hreg|]. intro U. apply Hacc.
  destruct V as (_ & _ & _ & _ & Hes & _). eapply unaccepted_sig; eauto using same_sig.
Qed.
(** Any save in a history is a step. *)
Lemma save_step : forall a cfg aA aE n ew file b m er s, wf_rec a -> usable Z IZ reg a cfg -> rec_equiv a aA -> rec_equiv a aE ->
  write_views cfg Z buffer aA aE a [] = Ok (n, ew, file) -> n <= 2 ^ 40 ->
  read reg v1 IZ flat file = Ok (Some b, m, er, s) ->
  forall tp te tf, valid_config tp te tf cfg ->
  ew = None /\ er = None /\ m = n /\ rec_rel eq (decoded (w_encs cfg) (fun _ => num_post tp te tf) (w_time cfg)) a b.
Proof.
  intros a cfg aA aE n ew file b m er s Hwf (_ & Hz & Hreg & Hacc) HA HE Hw Hn Hr tp te tf V.
  destruct (step tp te tf cfg a aA aE) as (n0 & f0 & Ew & Er); auto.
  rewrite Ew in Hw. injection Hw as <- <- <-. destruct (Er Hn) as (b0 & s0 & Eb & Hrel).
  rewrite Eb in Hr. injection Hr as <- <- <- <-. auto.
Qed.

(** ** Raw techniques *)
Lemma kept_refl : forall x, kept x x. Proof. now left. Qed.
Lemma kept_trans : forall x y z, kept x y -> kept y z -> kept x z.
Proof. intros x y z [-> | ->] [-> | ->]; unfold kept; rewrite ?near32_idem; auto. Qed.
Lemma kept_all : forall l, Forall2 kept l l.
Proof. induction l; constructor; auto using kept_refl. Qed.
Lemma kept_near : forall l, Forall2 kept l (map near32 l).
Proof. induction l; constructor; auto. now right. Qed.
Lemma vkept_all : forall l, Forall2 vec_kept l l.
Proof. induction l; constructor; auto. repeat split; apply kept_refl. Qed.
Lemma vkept_near : forall l, Forall2 vec_kept l (map (vmap near32) l).
Proof. induction l; constructor; auto. repeat split; now right. Qed.
Lemma raw_times : forall tt l, tt < 2 -> Forall2 kept l (time_values tt l) /\ time_values tt (time_values tt l) = time_values tt l.
Proof.
  intros tt l H. destruct (N.eq_dec tt 0) as [->|N]; [split; [apply kept_all|reflexivity]|].
  replace tt with 1 by lia. cbn [time_values]. split; [apply kept_near|]. rewrite map_map. apply map_ext. apply near32_idem.
Qed.
Lemma raw_pos : forall t l, t < 2 -> Forall2 vec_kept l (pos_values t l) /\ pos_values t (pos_values t l) = pos_values t l.
Proof.
  intros t l H. destruct (N.eq_dec t 0) as [->|N]; [split; [apply vkept_all|reflexivity]|].
  replace t with 1 by lia. cbn [pos_values]. split; [apply vkept_near|]. rewrite map_map. apply map_ext.
  intros [x y z]. unfold vmap. cbn [vx vy vz]. now rewrite !near32_idem.
Qed.
Lemma raw_euler : forall t l, t < 2 -> Forall2 vec_kept l (euler_values t l) /\ euler_values t (euler_values t l) = euler_values t l.
Proof.
  intros t l H. destruct (N.eq_dec t 0) as [->|N]; [split; [apply vkept_all|reflexivity]|].
  replace t with 1 by lia. cbn [euler_values]. split; [apply vkept_near|]. rewrite map_map. apply map_ext.
  intros [x y z]. unfold vmap. cbn [vx vy vz]. now rewrite !near32_idem.
Qed.
Lemma raw_float : forall t l, t < 2 -> Forall2 kept l (float_values t l) /\ float_values t (float_values t l) = float_values t l.
Proof.
  intros t l H. destruct (N.eq_dec t 0) as [->|N]; [split; [apply kept_all|reflexivity]|].
  replace t with 1 by lia. cbn [float_values]. split; [apply kept_near|]. rewrite map_map. apply map_ext. apply near32_idem.
Qed.
Lemma rounded_trans : forall a b c, rounded_once a b -> rounded_once b c -> rounded_once a c.
Proof.
  intros a b c (S1 & T1 & V1) (S2 & T2 & V2). split; [now apply same_trans with b|].
  split; [eapply Forall2_trans_in; [exact T1|exact T2|]; intros x _ y z; apply kept_trans|].
  destruct S1 as (_ & _ & S1). destruct S2 as (_ & _ & S2).
  assert (VT : forall x y z, vec_kept x y -> vec_kept y z -> vec_kept x z).
  { intros x y z (A1 & A2 & A3) (B1 & B2 & B3). repeat split; eapply kept_trans; eassumption. }
  destruct (c_body a), (c_body b); try contradiction; destruct (c_body c); try contradiction; auto.
  - eapply Forall2_trans_in; [exact V1|exact V2|]; intros x _; apply VT.
  - eapply Forall2_trans_in; [exact V1|exact V2|]; intros x _; apply VT.
  - eapply Forall2_trans_in; [exact V1|exact V2|]; intros x _; apply kept_trans.
Qed.

(** A collection that storing does not change any more. *)
Definition settled (tp te tf tt : N) (c : coll) : Prop :=
  time_values tt (c_times c) = c_times c /\ num_post tp te tf (c_times c) c = c.
Lemma raw_post : forall tp te tf tt c, tp < 2 -> te < 2 -> tf < 2 -> tt < 2 ->
  forall d, d = num_post tp te tf (time_values tt (c_times c)) c ->
  (same_but_numbers c d -> rounded_once c d) /\ settled tp te tf tt d.
Proof.
  intros tp te tf tt c H1 H2 H3 H4 d Hd.
  assert (Ht : c_times d = time_values tt (c_times c)) by (subst d; apply num_post_times, time_values_len).
  destruct (raw_times tt (c_times c) H4) as [Tk Ti]. split.
  - intro HS. split; [exact HS|]. rewrite Ht. split; [exact Tk|]. subst d. destruct c as [n b].
    pose proof (time_values_len tt (c_times (mkColl n b))) as L.
    unfold num_post, pos_post, euler_post, float_post, retime, c_times in *. cbn [c_name c_body] in *.
    destruct b; cbn [c_name c_body]; auto; rewrite map_length in L.
    + rewrite combine_snd by (rewrite pos_values_len, map_length; exact L). now apply raw_pos.
    + rewrite combine_snd by (rewrite euler_values_len, map_length; exact L). now apply raw_euler.
    + rewrite combine_snd by (rewrite float_values_len, map_length; exact L). now apply raw_float.
  - unfold settled. rewrite Ht, Ti. split; [reflexivity|]. subst d. destruct c as [n b].
    pose proof (time_values_len tt (c_times (mkColl n b))) as L.
    unfold num_post, pos_post, euler_post, float_post, retime, c_times in *. cbn [c_name c_body] in *.
    destruct b; cbn [c_name c_body]; auto; rewrite map_length in L; f_equal; f_equal; f_equal.
    + rewrite combine_snd by (rewrite pos_values_len, map_length; exact L). now apply raw_pos.
    + rewrite combine_snd by (rewrite euler_values_len, map_length; exact L). now apply raw_euler.
    + rewrite combine_snd by (rewrite float_values_len, map_length; exact L). now apply raw_float.
    + apply combine_snd. rewrite map_length. exact L.
    + apply combine_snd. rewrite map_length. exact L.
Qed.
Lemma settled_kept : forall es tp te tf tt c d, settled tp te tf tt c ->
  decoded es (fun _ => num_post tp te tf) tt c d -> coll_equiv c d.
Proof.
  intros es tp te tf tt c d [S1 S2] (cE & e & Heq & _ & ->). rewrite S1.
  assert (E : num_post tp te tf (c_times c) cE = cE).
  { pose proof Heq as Hq. unfold coll_equiv in Hq. destruct (c_body c) as [| | |l| |] eqn:Ec; try (subst cE; exact S2).
    destruct (c_body cE) as [| | |l'| |] eqn:EE; try (subst cE; exact S2).
    rewrite (coll_equiv_times _ _ Heq). unfold num_post. rewrite EE. apply retime_self. }
  rewrite E. exact Heq.
Qed.
Lemma decoded_settled : forall es tp te tf tt c d, tp < 2 -> te < 2 -> tf < 2 -> tt < 2 ->
  decoded es (fun _ => num_post tp te tf) tt c d -> settled tp te tf tt d.
Proof.
  intros es tp te tf tt c d H1 H2 H3 H4 (cE & e & Heq & _ & ->). rewrite (coll_equiv_times _ _ Heq).
  now apply (raw_post tp te tf tt cE H1 H2 H3 H4).
Qed.
Lemma decoded_rounded : forall es tp te tf tt c d, tp < 2 -> te < 2 -> tf < 2 -> tt < 2 ->
  same_but_numbers c d -> decoded es (fun _ => num_post tp te tf) tt c d -> rounded_once c d.
Proof.
  intros es tp te tf tt c d H1 H2 H3 H4 HS (cE & e & Heq & _ & ->).
  assert (Hc : (c = cE) \/ exists l l', c_body c = BEvent l /\ c_body cE = BEvent l').
  { unfold coll_equiv in Heq. destruct (c_body c) as [| | |l| |] eqn:Ec; auto. destruct (c_body cE) eqn:EE; auto. right. eauto. }
  destruct Hc as [->|(l & l' & Ec & EE)]; [now apply (raw_post tp te tf tt cE H1 H2 H3 H4)|].
  destruct (raw_times tt (c_times c) H4) as [Tk _]. split; [exact HS|]. split.
  - rewrite num_post_times; [exact Tk|]. rewrite time_values_len. f_equal. now apply coll_equiv_times.
  - now rewrite Ec.
Qed.
End Step.
