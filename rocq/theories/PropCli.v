(** C57: what the commands of the command line tool do to files and to standard
    output. *)
From Coq Require Import ZArith Lia Permutation Strings.String.
From Verif Require Import Base BaseFacts IO Spec IOFacts Floats BinaryIO Metadata SpecMeta Recording SpecRec RecordingFacts Text Encoding SpecEnc Writer Reader SpecFile.
From Verif Require Import Tools Summarize Csv CsvText SpecCsv SpecCsvText Json SpecJson JsonText SpecJsonText ToJson RapV1 SpecV1.
From Verif Require Import PlanFacts FileFacts SpecAccept AcceptFacts ResaveFacts JsonFacts JsonTextFacts Toy Demo PropFile PropRead PropV1 PropAccept PropUse PropCsv PropCsvText PropJson PropJsonText.
From Verif Require Import BuiltinFacts EncEvent EncEnum EncPosition EncEuler Quote Cli SpecCli CliFacts.
Local Open Scope N_scope.

(** C57: Write to a destination that takes everything returns an error only if
    it has written nothing. *)
Theorem C57_write : forall tp te tf cfg Z S (W : Writer S) rA rE r out n e s, takes_all W ->
  Forall (builtin tp te tf) (w_encs cfg) -> NoDup (map e_sig (w_encs cfg)) ->
  (forall c x, inside c rE -> In (Some x) (rec_colls c) -> genuine x) ->
  write_views cfg Z W rA rE r out = Ok (n, Some e, s) -> n = 0 /\ s = out.
Proof.
  intros tp te tf cfg Z S W rA rE r out n e s HW B Nd G E.
  apply (easy_write tp te tf cfg Z S W (fun _ => True) rA rE r out n e s); auto.
  - intros p s0 _. destruct (HW p s0) as (s' & E'). eauto.
  - clear - G. rewrite Forall_forall. revert G. induction rE as [id name colls recs md bins refs IH] using recording_ind'.
    intros G c Hc. rewrite tree_colls_eq in Hc. apply in_app_or in Hc as [Hc|Hc].
    + unfold opt_colls in Hc. apply in_flat_map in Hc as ([x|] & Ho & Hc); [|destruct Hc]. destruct Hc as [ -> |[]]. eapply G; [constructor|exact Ho].
    + unfold recs_colls in Hc. apply in_flat_map in Hc as ([x|] & Ho & Hc); [|destruct Hc]. eapply IH; [exact Ho| |exact Hc].
      intros c0 y Hi Hy. eapply G; [|exact Hy]. eapply InsideSub; [|exact Hi]. exact Ho.
Qed.
Print Assumptions C57_write.

(** C57: a command touches no file, except that from-json writes the file it is told
    to, and only after its input has been read and describes a recording. *)
Theorem C57_touches : forall rt sys c w p, changed w (run rt sys c w) p ->
  exists inp d r, c = FromJson inp (Some p) /\ input sys w inp d /\
    from_json_text (rt_parse64 rt) (rt_parse_time rt) (rt_reparse32 rt) (rt_atoi rt) d = Ok (Some r).
Proof.
  intros rt sys c w p H.
  assert (Pr : forall cfg r, ~ changed w (print_rap rt cfg w r) p).
  { intros cfg [r|]; cbn [print_rap].
    - destruct (write_out rt cfg r) as [[[e|] file]| |]; cbn [changed print files]; intuition discriminate.
    - cbn [changed]. intuition discriminate. }
  assert (L : forall d k, (forall r, ~ changed w (k r) p) -> ~ changed w (load rt w d k) p).
  { intros d k Hk. unfold load. destruct (read load_encoders (rt_v1 rt) (rt_iz rt) flat d) as [[[[r n] [e|]] s]| |]; cbn [changed].
    - congruence.
    - apply Hk.
    - intuition discriminate.
    - auto. }
  destruct c as [f|f|inp out|f|f]; cbn [run] in H.
  - exfalso. unfold run_summarize in H. destruct (files w f) as [d|]; [|now apply H]. destruct (open_file sys w f) as [d'|]; [|now apply H].
    revert H. apply L. intros [r|]; [|cbn [changed]; intuition discriminate].
    destruct (print_summary _ r _) as [t| |]; cbn [changed print files]; intuition discriminate.
  - exfalso. unfold run_to_json in H. destruct (match f with Some p => open_file sys w p | None => Some (stdin w) end) as [d|]; [|now apply H].
    revert H. apply L. intros [r|]; [|cbn [changed]; congruence].
    destruct (to_json _ _ _ _ 0 r) as [[t b]| |]; cbn [changed print files]; intuition discriminate.
  - unfold run_from_json in H.
    destruct (match inp with Some p => open_file sys w p | None => Some (stdin w) end) as [d|] eqn:Ed; [|exfalso; now apply H].
    destruct (from_json_text _ _ _ _ d) as [[r|]| |] eqn:Ej; try (exfalso; cbn [changed] in H; intuition discriminate).
    destruct out as [q|]; [|destruct (Pr _ _ H)].
    assert (Eq : q = p).
    { destruct (str_eqb p q) eqn:E; [now apply str_eqb_eq in E|]. exfalso. revert H.
      assert (F : forall x y f, set_file q x (set_file q y f) p = f p) by (intros; unfold set_file; now rewrite E).
      assert (F1 : forall x f, set_file q x f p = f p) by (intros; unfold set_file; now rewrite E).
      apply str_eqb_neq in E.
      assert (D : match files w q, may_remove sys q with Some _, false => True | _, _ => False end \/
                  forall a b : outcome, match files w q, may_remove sys q with Some _, false => a | _, _ => b end = b).
      { destruct (files w q), (may_remove sys q); auto. }
      destruct D as [D|D].
      - destruct (files w q), (may_remove sys q); try contradiction; cbn [changed]; congruence.
      - rewrite D. destruct (may_create sys q); [|cbn [changed files]; rewrite F1; congruence].
        destruct (write_out rt upgrade_writer r) as [[e file]| |]; cbn [changed files]; rewrite ?F.
        + congruence.
        + intros [X|X]; congruence.
        + auto. }
    subst q. exists inp, d, r. split; [reflexivity|]. split; [|exact Ej].
    destruct inp as [q|]; cbn [input]; [|congruence]. unfold open_file in Ed. destruct (may_open sys q); [auto|discriminate].
  - exfalso. unfold run_upgrade in H. destruct (open_file sys w f) as [d|]; [|now apply H]. revert H. apply L. intro r. apply Pr.
  - exfalso. unfold run_from_csv in H. destruct (open_file sys w f) as [d|]; [|now apply H].
    destruct (recording_from_csv _ _ _ _) as [[r|e]| |]; try (cbn [changed] in H; intuition discriminate). exact (Pr _ _ H).
Qed.
Print Assumptions C57_touches.

(** What is opened, imported or described consists of genuine collections. *)
Lemma equiv_genuine : forall c d, coll_equiv c d -> genuine c -> genuine d.
Proof.
  intros c d H G. unfold coll_equiv in H. unfold genuine in *.
  destruct (c_body c) eqn:Ec; try (subst d; rewrite Ec; exact G). destruct (c_body d) eqn:Ed; try exact Logic.I. subst d. congruence.
Qed.
Lemma view_genuine : forall r r', rec_view r r' -> (forall c x, inside c r -> In (Some x) (rec_colls c) -> genuine x) ->
  forall c x, inside c r' -> In (Some x) (rec_colls c) -> genuine x.
Proof.
  intros r r' H G c' x' Hc Hx. destruct (view_inside r r' H c' Hc) as (c & Hi & Hv).
  inversion Hv as [? ? colls colls' ? ? ? ? ? ? ? ? H1 _ _ _ _]; subst. cbn [rec_colls] in Hx.
  assert (exists x, In (Some x) colls /\ coll_equiv x x') as (x & Hin & Hxx).
  { clear -H1 Hx. induction H1 as [|o o' l l' Ho Hl IH]; [destruct Hx|]. destruct Hx as [-> |Hx].
    - destruct Ho as [[_ Ho]|(a & b & -> & Eb & Hab)]; [discriminate|]. injection Eb as <-. exists a. split; [now left|exact Hab].
    - destruct (IH Hx) as (a & Ha & Hab). exists a. split; [now right|exact Hab]. }
  eapply equiv_genuine; [exact Hxx|]. eapply G; [exact Hi|exact Hin].
Qed.
Lemma wf_genuine : forall x, wf_coll x -> genuine x.
Proof. intros x H. unfold wf_coll, genuine in *. destruct (c_body x); auto. Qed.
Lemma but_inside : forall r c, wf_but_colls r -> inside c r -> wf_but_colls c.
Proof.
  intros r c H Hi. induction Hi as [r|r c d Hd Hi IH]; [exact H|]. apply IH.
  inversion H as [? ? ? ? ? ? ? _ Hr _ _ _]; subst. cbn [rec_recs] in Hd. rewrite Forall_forall in Hr.
  destruct (Hr _ Hd) as (x & E & Hx). injection E as ->. exact Hx.
Qed.
Lemma but_genuine : forall r, wf_but_colls r -> forall c x, inside c r -> In (Some x) (rec_colls c) -> genuine x.
Proof.
  intros r H c x Hi Hx. pose proof (but_inside r c H Hi) as Hc. inversion Hc as [? ? ? ? ? ? ? Hf _ _ _ _]; subst. cbn [rec_colls] in Hx.
  rewrite Forall_forall in Hf. destruct (Hf _ Hx) as [E|(y & E & Hy)]; [discriminate|]. injection E as ->. now apply wf_genuine.
Qed.
Lemma inside_tree : forall r c x, inside c r -> In (Some x) (rec_colls c) -> In x (tree_colls r).
Proof.
  intros r c x Hi Hx. induction Hi as [r|r c d Hd Hi IH].
  - destruct r. rewrite tree_colls_eq. apply in_or_app. left. unfold opt_colls. apply in_flat_map. exists (Some x). split; [exact Hx|now left].
  - destruct r. cbn [rec_recs] in Hd. rewrite tree_colls_eq. apply in_or_app. right. unfold recs_colls. apply in_flat_map.
    exists (Some d). split; [exact Hd|]. now apply IH.
Qed.
Lemma described_genuine : forall pt r32 at_ r j, describes pt r32 at_ j r -> forall c, In c (tree_colls r) -> genuine c.
Proof.
  intros pt r32 at_. induction r as [id name colls recs md bins refs IH] using recording_ind'. intros j H.
  inversion H as [m ? ? cs ? rs ? fs ? ? Hid Hn Hcs Hcolls Hrs Hsubs Hfs Hrefs Hmd]. subst. clear H.
  intros c Hc. cbn [tree_colls] in Hc. apply in_app_or in Hc as [Hc|Hc].
  - apply in_flat_map in Hc as (o & Ho & Hc).
    clear -Hcolls Ho Hc. induction Hcolls as [|x y cs colls Hx Hcs IHc]; [destruct Ho|]. destruct Ho as [->|Ho]; [|auto].
    destruct Hx as [m n ty l b Hn Hty Hl Hb]. cbn in Hc. destruct Hc as [<-|[]]. destruct Hb; exact Logic.I.
  - apply in_flat_map in Hc as (o & Ho & Hc).
    clear -IH Hsubs Ho Hc. induction Hsubs as [|x y rs recs (r & -> & Hr) Hs IHs]; [destruct Ho|].
    destruct Ho as [<-|Ho]; [|apply IHs; [intros; eapply IH; eauto; now right|exact Ho]].
    now apply (IH r (or_introl eq_refl) x).
Qed.
Lemma buffer_takes : takes_all buffer.
Proof. intros p s. eexists. reflexivity. Qed.

Section Usual.
Context (rt : runtime) (sys : system) (parse_f32 : str -> option f32) (inflate : bytes -> option bytes)
  (unmarshal : bytes -> option v1_rec) (HU : usual rt parse_f32 inflate unmarshal).
Lemma loads_opened : forall d r n s, read load_encoders (rt_v1 rt) (rt_iz rt) flat d = Ok (Some r, n, None, s) ->
  opened load_encoders (read_v1 parse_f32 inflate unmarshal) (rt_iz rt) d r.
Proof.
  intros d r n s E. rewrite (usual_v1 _ _ _ _ HU) in E. exists bytes, flat, false, eq, d, n, s. split; [apply flat_delivers|]. auto.
Qed.
Lemma silent_write : forall tp te tf cfg r e file, Forall (builtin tp te tf) (w_encs cfg) -> NoDup (map e_sig (w_encs cfg)) ->
  (forall c x, inside c r -> In (Some x) (rec_colls c) -> genuine x) ->
  write_out rt cfg r = Ok (Some e, file) -> file = [].
Proof.
  intros tp te tf cfg r e file B Nd G E. unfold write_out in E. destruct (usual_orders _ _ _ _ HU r) as [_ HE].
  destruct (rt_orders rt r) as [rA rE]. cbn [snd] in HE.
  destruct (write_views cfg (rt_z rt) buffer rA rE r []) as [[[n x] f]| |] eqn:Ew; cbn [bind] in E; try discriminate.
  apply ok_inj in E. cbn [snd] in E. assert (x = Some e) by congruence. assert (f = file) by congruence. subst x f.
  eapply C57_write in Ew; [apply Ew|exact buffer_takes|exact B|exact Nd|exact (view_genuine _ _ HE G)].
Qed.
(** C57: a command that fails has printed nothing, except for an export that
    found something it could not export. *)
Theorem C57_silent : forall c w f w', run rt sys c w = Exit (Some f) w' -> f <> FExport -> stdout w' = stdout w.
Proof.
  intros c w f w' H Hf.
  assert (Pr : forall cfg r, (exists tp te tf, Forall (builtin tp te tf) (w_encs cfg)) -> NoDup (map e_sig (w_encs cfg)) ->
    (forall q, r = Some q -> forall c x, inside c q -> In (Some x) (rec_colls c) -> genuine x) ->
    print_rap rt cfg w r = Exit (Some f) w' -> stdout w' = stdout w).
  { intros cfg [r|] (tp & te & tf & B) Nd G E; cbn [print_rap] in E; [|discriminate].
    destruct (write_out rt cfg r) as [[[e|] file]| |] eqn:Ew; try discriminate.
    apply (silent_write tp te tf) in Ew; auto; [|now apply G]. subst file. injection E as _ <-. cbn [print stdout]. apply app_nil_r. }
  assert (Bu : (exists tp te tf, Forall (builtin tp te tf) (w_encs upgrade_writer)) /\ NoDup (map e_sig (w_encs upgrade_writer))).
  { destruct upgrade_valid as (_ & _ & _ & _ & B & Nd). split; [exists 3, 2, 0; exact B|exact Nd]. }
  assert (L : forall d k, (forall r n s, read load_encoders (rt_v1 rt) (rt_iz rt) flat d = Ok (r, n, None, s) ->
     k r = Exit (Some f) w' -> stdout w' = stdout w) -> load rt w d k = Exit (Some f) w' -> stdout w' = stdout w).
  { intros d k Hk. unfold load. destruct (read load_encoders (rt_v1 rt) (rt_iz rt) flat d) as [[[[r n] [e|]] s]| |] eqn:E; try discriminate.
    - intro X. injection X as _ <-. reflexivity.
    - apply (Hk r n s). reflexivity. }
  destruct c as [p|p|inp out|p|p]; cbn [run] in H.
  - unfold run_summarize in H. destruct (files w p) as [d|]; [|injection H as _ <-; reflexivity].
    destruct (open_file sys w p) as [d'|]; [|injection H as _ <-; reflexivity].
    revert H. apply L. intros [r|] n s _ H; [|discriminate]. destruct (print_summary _ r _) as [t| |]; discriminate.
  - unfold run_to_json in H. destruct (match p with Some p => open_file sys w p | None => Some (stdin w) end) as [d|]; [|injection H as _ <-; reflexivity].
    revert H. apply L. intros [r|] n s _ H; [|injection H as _ <-; reflexivity].
    destruct (to_json _ _ _ _ 0 r) as [[t [|]]| |]; try discriminate. injection H as <- _. now destruct Hf.
  - unfold run_from_json in H.
    destruct (match inp with Some p => open_file sys w p | None => Some (stdin w) end) as [d|]; [|injection H as _ <-; reflexivity].
    destruct (from_json_text _ _ _ _ d) as [[r|]| |] eqn:Ej; try discriminate; [|injection H as _ <-; reflexivity].
    destruct out as [q|].
    + destruct (files w q), (may_remove sys q); try (injection H as _ <-; reflexivity);
        (destruct (may_create sys q); [|injection H as _ <-; reflexivity]);
        (destruct (write_out rt upgrade_writer r) as [[e file]| |]; try discriminate; injection H as _ <-; reflexivity).
    + revert H. apply Pr; [apply Bu|apply Bu|]. intros q E. injection E as <-. intros c x Hi Hx.
      destruct (proj1 (C44_text _ _ _ _ d) r Ej) as (j & _ & Hj). eapply described_genuine; [exact Hj|]. eapply inside_tree; eauto.
  - unfold run_upgrade in H. destruct (open_file sys w p) as [d|]; [|injection H as _ <-; reflexivity].
    revert H. apply L. intros r n s Er. apply Pr; [apply Bu|apply Bu|]. intros q ->. apply but_genuine.
    eapply C53_shape; [exact load_library|exact (usual_ends _ _ _ _ HU)|exact (usual_messages _ _ _ _ HU)|exact (loads_opened _ _ _ _ Er)].
  - unfold run_from_csv in H. destruct (open_file sys w p) as [d|]; [|injection H as _ <-; reflexivity].
    destruct (recording_from_csv _ _ _ _) as [[r|e]| |] eqn:Er; try discriminate; [|injection H as _ <-; reflexivity].
    destruct from_csv_valid as (_ & _ & _ & _ & B & Nd).
    revert H. apply Pr; [exists 0, 0, 0; exact B|exact Nd|]. intros q E. injection E as <-. intros c x Hi Hx.
    unfold recording_from_csv in Er. destruct (csv_read d None) as [[|h rows] stop]; [destruct stop; discriminate|].
    match type of Er with bind ?a _ = _ => destruct a as [[dd|e]| |] end; cbn [bind] in Er; try discriminate.
    apply ok_inj in Er. injection Er as <-.
    inversion Hi as [|? ? d' Hd Hi']; subst; [destruct Hx|]. cbn [rec_recs] in Hd. apply in_map_iff in Hd as (s & Es & Hs). injection Es as <-.
    unfold csv_subs in Hs. apply in_flat_map in Hs as (e & _ & Hs). apply in_map_iff in Hs as (nc & <- & _).
    unfold csv_sub in Hi'. inversion Hi' as [|? ? d'' Hd' _]; subst; [|destruct Hd']. cbn [rec_colls] in Hx. destruct Hx as [E|[]]. injection E as <-. exact Logic.I.
Qed.
Lemma upgrade_takes : forall x, taken load_encoders x \/ old_kind x -> taken (w_encs upgrade_writer) x.
Proof.
  assert (T : forall e x, In e (w_encs upgrade_writer) -> e_accepts e x = true -> taken (w_encs upgrade_writer) x) by (intros e x He Ha; exists e; auto).
  intros x [(e & He & Ha)|H].
  - cbn in He. destruct He as [<-|[<-|[<-|[<-|[]]]]].
    + apply (T event_encoder); [cbn; auto 10|exact Ha].
    + apply (T (position_encoder 3)); [cbn; auto 10|exact Ha].
    + apply (T (euler_encoder 2)); [cbn; auto 10|exact Ha].
    + apply (T enum_encoder); [cbn; auto 10|exact Ha].
  - unfold old_kind in H. destruct H as [H|[H|[H|[H|[]]]]].
    + apply (T (position_encoder 3)); [cbn; auto 10|]. cbn. rewrite <- H. apply str_eqb_refl.
    + apply (T (euler_encoder 2)); [cbn; auto 10|]. cbn. rewrite <- H. apply str_eqb_refl.
    + apply (T event_encoder); [cbn; auto 10|]. cbn. rewrite <- H. apply str_eqb_refl.
    + apply (T enum_encoder); [cbn; auto 10|]. cbn. rewrite <- H. apply str_eqb_refl.
Qed.
Lemma opens : forall w p d, input sys w (Some p) d -> open_file sys w p = Some d.
Proof. intros w p d [H1 H2]. unfold open_file. now rewrite H1. Qed.
Lemma takes_in : forall w inp d, input sys w inp d -> match inp with Some p => open_file sys w p | None => Some (stdin w) end = Some d.
Proof. intros w [p|] d H; [now apply opens|]. cbn in H. now rewrite H. Qed.
Lemma loading : forall w d r k, loads rt d r -> load rt w d k = k (Some r).
Proof. intros w d r k (n & s & E). unfold load. now rewrite E. Qed.
Lemma loads_open : forall d r, loads rt d r -> opened load_encoders (read_v1 parse_f32 inflate unmarshal) (rt_iz rt) d r.
Proof. intros d r (n & s & E). eapply loads_opened. exact E. Qed.
Lemma print_printed : forall w t, printed w t (print w t).
Proof. intros. split; [|split]; reflexivity. Qed.
Let Wr (cfg : wconfig) (r : recording) (n : N) (file : bytes) : Prop :=
  write_views cfg (rt_z rt) buffer (fst (rt_orders rt r)) (snd (rt_orders rt r)) r [] = Ok (n, None, file).
Lemma writing : forall cfg r n file, Wr cfg r n file -> write_out rt cfg r = Ok (None, file).
Proof. intros cfg r n file H. unfold write_out. unfold Wr in H. destruct (rt_orders rt r). cbn [fst snd] in H. now rewrite H. Qed.

(** C57: upgrade prints a file that loads as the recording of the file it is
    given, whichever version that has, up to the numbers the encodings store; if
    the recording lacks a collection it prints nothing and fails. *)
Theorem C57_upgrade : forall p d r w, codec_ok (rt_z rt) (rt_iz rt) -> input sys w (Some p) d -> loads rt d r ->
  (~ coll_missing r -> exists n file w', run rt sys (Upgrade p) w = Exit None w' /\ printed w file w' /\
     write_views upgrade_writer (rt_z rt) buffer (fst (rt_orders rt r)) (snd (rt_orders rt r)) r [] = Ok (n, None, file) /\
     (n <= 2 ^ 40 -> exists r', loads rt file r' /\ rec_rel block_equiv same_but_numbers r r')) /\
  (coll_missing r -> exists e w', run rt sys (Upgrade p) w = Exit (Some (FWrite e)) w' /\ printed w [] w').
Proof.
  intros p d r w HZ Hi Hl. pose proof (loads_open d r Hl) as Ho. destruct (usual_orders _ _ _ _ HU r) as [HA HE].
  cbn [run]. unfold run_upgrade. rewrite (opens _ _ _ Hi), (loading _ _ _ _ Hl). cbn [print_rap]. split; intro Hm.
  - destruct (C53_same_encoders load_encoders (rt_iz rt) parse_f32 inflate unmarshal d r upgrade_writer (rt_z rt) (fst (rt_orders rt r)) (snd (rt_orders rt r))
      load_library (usual_ends _ _ _ _ HU) (usual_messages _ _ _ _ HU) Ho)
      as (n & file & Ew & Er); auto.
    + exists 3, 2, 0. exact upgrade_valid.
    + exact upgrade_load.
    + exact upgrade_takes.
    + exists n, file, (print w file). rewrite (writing _ _ _ _ Ew). split; [reflexivity|]. split; [apply print_printed|]. split; [exact Ew|].
      intro Hn. destruct (Er Hn) as (b & s & Eb & Hb). exists b. split; [|exact Hb]. exists n, s. rewrite (usual_v1 _ _ _ _ HU). exact Eb.
  - pose proof (C53_shape load_encoders (rt_iz rt) parse_f32 inflate unmarshal d r load_library (usual_ends _ _ _ _ HU) (usual_messages _ _ _ _ HU) Ho) as Hw.
    assert (D : rejected (w_encs upgrade_writer) r (snd (rt_orders rt r))) by (left; now apply wf_but_nil).
    apply (reject_iff upgrade_writer r _ HE) in D. unfold write_out. destruct (rt_orders rt r) as [rA rE]. cbn [fst snd] in D. unfold write_views.
    destruct D as [(e & ->)|(-> & e & ->)]; cbn [bind snd]; exists e, (print w []); (split; [reflexivity|apply print_printed]).
Qed.

(** C57: summarize prints the summary of what it loads; if a collection is
    missing it never returns (it panics). *)
Theorem C57_summarize : forall p d r w, input sys w (Some p) d -> loads rt d r ->
  (~ coll_missing r -> exists t w', run rt sys (Summarize p) w = Exit None w' /\ printed w t w' /\
     print_summary (rt_fmt2 rt) r (Z.of_N (lenN d)) = Ok t) /\
  (coll_missing r -> forall e w', run rt sys (Summarize p) w <> Exit e w').
Proof.
  intros p d r w Hi Hl. pose proof (loads_open d r Hl) as Ho.
  cbn [run]. unfold run_summarize. rewrite (proj2 Hi), (opens _ _ _ Hi), (loading _ _ _ _ Hl). split; intro Hm.
  - destruct (C55_tools load_encoders (rt_iz rt) parse_f32 inflate unmarshal load_library (usual_ends _ _ _ _ HU) (usual_messages _ _ _ _ HU) d r Ho Hm)
      as (_ & _ & _ & H & _). destruct (H (rt_fmt2 rt) (Z.of_N (lenN d))) as (t & E). rewrite E. exists t, (print w t).
    split; [reflexivity|]. split; [apply print_printed|reflexivity].
  - destruct (C55_missing_panics load_encoders (rt_iz rt) parse_f32 inflate unmarshal load_library (usual_ends _ _ _ _ HU) (usual_messages _ _ _ _ HU) d r Ho Hm)
      as (_ & _ & H). intros e w'. destruct (print_summary _ r _) as [t| |] eqn:E; [destruct (H _ _ _ E)|discriminate|discriminate].
Qed.
(** C57: to-json prints the export of what it loads. *)
Theorem C57_to_json : forall inp d r w, input sys w inp d -> loads rt d r -> ~ coll_missing r ->
  exists t failed w', to_json (rt_quote rt) (rt_num64 rt) (rt_num32 rt) (rt_time rt) 0 r = Ok (t, failed) /\
    run rt sys (ToJson inp) w = Exit (if failed then Some FExport else None) w' /\ printed w t w'.
Proof.
  intros inp d r w Hi Hl Hm. pose proof (loads_open d r Hl) as Ho.
  destruct (C55_tools load_encoders (rt_iz rt) parse_f32 inflate unmarshal load_library (usual_ends _ _ _ _ HU) (usual_messages _ _ _ _ HU) d r Ho Hm)
    as (_ & _ & _ & _ & H & _). destruct (H (rt_quote rt) (rt_num64 rt) (rt_num32 rt) (rt_time rt)) as (t & failed & E). exists t, failed, (print w t). split; [exact E|].
  cbn [run]. unfold run_to_json. rewrite (takes_in _ _ _ Hi), (loading _ _ _ _ Hl), E. split; [reflexivity|apply print_printed].
Qed.

Lemma text_value : forall p pt r32 at_ d r, from_json_text p pt r32 at_ d = Ok (Some r) ->
  exists j, JsonText.unmarshal p d = Some j /\ from_json pt r32 at_ (Some j) = Ok (Some r).
Proof.
  intros p pt r32 at_ d r. unfold from_json_text. destruct (JsonText.unmarshal p d) as [j|]; intro H.
  - exists j. split; [reflexivity|exact H].
  - exfalso. destruct (C44_from_json pt r32 at_) as (_ & _ & _ & _ & H0). rewrite H0 in H. discriminate H.
Qed.
Lemma described_written : forall d r, codec_ok (rt_z rt) (rt_iz rt) -> (forall x z, rt_atoi rt x = Some z -> (z < 2 ^ 63)%Z) ->
  (forall j, decodes (rt_parse64 rt) d j -> plain_document (rt_parse_time rt) (rt_reparse32 rt) j) ->
  from_json_text (rt_parse64 rt) (rt_parse_time rt) (rt_reparse32 rt) (rt_atoi rt) d = Ok (Some r) ->
  exists n file, Wr upgrade_writer r n file /\
    (n <= 2 ^ 40 -> exists r', loads rt file r' /\ rec_rel block_equiv same_but_numbers r r').
Proof.
  intros d r HZ Hat Hp Ej.
  destruct (text_value _ _ _ _ _ _ Ej) as (j & Eu & Ef).
  specialize (Hp j (unmarshal_decodes _ _ _ Eu)).
  assert (Hwf : wf_rec r) by (eapply document_wf; [exact Hat|exact Hp|now apply built_describes]).
  assert (Hn : ~ has_nil r) by exact (rec_rel_no_nil _ _ _ _ (rec_equiv_refl r Hwf)).
  destruct (usual_orders _ _ _ _ HU r) as [HA HE].
  destruct (C44_end_to_end _ _ _ (rt_v1 rt) (rt_iz rt) (rt_z rt) j r _ _ Hat HZ Hp Ef (view_equiv _ _ Hn HA) (view_equiv _ _ Hn HE)) as (n & file & Ew & Er).
  exists n, file. split; [exact Ew|].
  intro Hle. destruct (Er Hle) as (r' & Hrel & Hl). exists r'. split.
  - destruct (Hl _ flat false _ (flat_delivers false) file []) as (s' & Es); [now rewrite app_nil_r|]. exists n, s'. exact Es.
  - eapply rec_rel_mono; [| |exact Hrel]; [auto|]. intros c d0 _ H. apply H.
Qed.
(** C57: from-json prints, or writes to the file it is told to, even if that is
    its input, a file that loads as the described recording (see C44_text) up to
    the numbers the encodings store. *)
Theorem C57_from_json : forall inp d r w, codec_ok (rt_z rt) (rt_iz rt) -> (forall x z, rt_atoi rt x = Some z -> (z < 2 ^ 63)%Z) ->
  input sys w inp d -> (forall j, decodes (rt_parse64 rt) d j -> plain_document (rt_parse_time rt) (rt_reparse32 rt) j) ->
  from_json_text (rt_parse64 rt) (rt_parse_time rt) (rt_reparse32 rt) (rt_atoi rt) d = Ok (Some r) ->
  exists n file,
    write_views upgrade_writer (rt_z rt) buffer (fst (rt_orders rt r)) (snd (rt_orders rt r)) r [] = Ok (n, None, file) /\
    (n <= 2 ^ 40 -> exists r', loads rt file r' /\ rec_rel block_equiv same_but_numbers r r') /\
    (exists w', run rt sys (FromJson inp None) w = Exit None w' /\ printed w file w') /\
    (forall p, (files w p = None \/ may_remove sys p = true) -> may_create sys p = true ->
       exists w', run rt sys (FromJson inp (Some p)) w = Exit None w' /\ written w p (Some file) w').
Proof.
  intros inp d r w HZ Hat Hi Hp Ej.
  destruct (described_written d r HZ Hat Hp Ej) as (n & file & Ew & Er).
  exists n, file. split; [exact Ew|]. split; [|split].
  - exact Er.
  - exists (print w file). cbn [run]. unfold run_from_json. rewrite (takes_in _ _ _ Hi), Ej. cbn [print_rap]. rewrite (writing _ _ _ _ Ew).
    split; [reflexivity|apply print_printed].
  - intros p Hrm Hcr. exists (mkWorld (set_file p (Some file) (set_file p None (files w))) (stdin w) (stdout w)).
    cbn [run]. unfold run_from_json. rewrite (takes_in _ _ _ Hi), Ej, (writing _ _ _ _ Ew), Hcr. split.
    + destruct (files w p), (may_remove sys p); try reflexivity. destruct Hrm; discriminate.
    + unfold written, set_file. cbn [files stdin stdout]. rewrite str_eqb_refl. split; [reflexivity|]. split; [|auto].
      intros q Hq. apply str_eqb_neq in Hq. now rewrite Hq.
Qed.

Lemma csv_view : forall subs l r', (forall x, In x subs -> exists p, x = group p l) ->
  rec_view (mkRec [] [] [] (map Some subs) [] [] []) r' -> r' = mkRec [] [] [] (map Some subs) [] [] [].
Proof.
  intros subs l r' G H. inversion H as [? ? ? ? ? ? ? ? ? ? ? ? Hc Hr Hm Hb Hf]; subst.
  inversion Hc; subst. inversion Hb; subst. inversion Hf; subst. apply block_equiv_nil in Hm. subst.
  f_equal. clear -Hr G. revert recs' Hr. induction subs as [|x subs IH]; intros recs' Hr.
  - now inversion Hr.
  - cbn [map] in Hr. inversion Hr as [|? o ? l' Ho Hl]; subst. cbn [map]. f_equal.
    + destruct Ho as [[E _]|(c & d & Ec & -> & Hcd)]; [discriminate|]. injection Ec as <-. destruct (G x (or_introl eq_refl)) as (p & ->).
      f_equal. apply group_equiv. apply view_equiv; [|exact Hcd]. exact (rec_rel_no_nil _ _ _ _ (rec_equiv_refl _ (group_wf p l))).
    + apply IH; auto. intros y Hy. apply G. now right.
Qed.
(** C57: from-csv prints a file that loads as exactly what the text says. *)
Theorem C57_from_csv : forall p t header rows k l w, codec_ok (rt_z rt) (rt_iz rt) ->
  (forall d, Permutation (rt_outer rt d) d) -> (forall i m, Permutation (rt_inner rt i m) m) ->
  input sys w (Some p) t -> says_table t (header :: rows) -> six_columns header k -> Forall2 (row_says (rt_parse64 rt) k) rows l ->
  exists subs n file w',
    let r := mkRec [] [] [] (map Some subs) [] [] [] in
    NoDup (map (fun r => (rec_id r, rec_name r)) subs) /\
    (forall r, In r subs <-> exists p, In p (map key l) /\ r = group p l) /\
    run rt sys (FromCsv p) w = Exit None w' /\ printed w file w' /\
    write_views from_csv_writer (rt_z rt) buffer (fst (rt_orders rt r)) (snd (rt_orders rt r)) r [] = Ok (n, None, file) /\
    (n <= 2 ^ 40 -> loads rt file r).
Proof.
  intros p t header rows k l w HZ Ho Hin Hi Ht Hk Hl.
  destruct (C49_from_csv (rt_parse64 rt) (rt_outer rt) (rt_inner rt) t header rows k l (rt_z rt) (rt_iz rt) (rt_v1 rt) Ho Hin Ht Hk Hl HZ)
    as (subs & n & file & Hd & Hs & Er & Ew & Hld). cbv zeta in *. set (r := mkRec [] [] [] (map Some subs) [] [] []) in *.
  destruct (usual_orders _ _ _ _ HU r) as [HA HE].
  apply (csv_view subs l) in HA; [|intros x Hx; apply Hs in Hx as (q & _ & ->); eauto].
  apply (csv_view subs l) in HE; [|intros x Hx; apply Hs in Hx as (q & _ & ->); eauto].
  fold r in HA, HE. assert (Ew' : Wr from_csv_writer r n file) by (unfold Wr; rewrite HA, HE; exact Ew).
  exists subs, n, file, (print w file). cbv zeta. fold r. split; [exact Hd|]. split; [exact Hs|]. split; [|split; [apply print_printed|split; [exact Ew'|]]].
  - cbn [run]. unfold run_from_csv. rewrite (opens _ _ _ Hi), Er. cbn [print_rap]. now rewrite (writing _ _ _ _ Ew').
  - intro Hle. destruct (Hld Hle _ flat false _ (flat_delivers false) file []) as (s' & Es); [now rewrite app_nil_r|]. exists n, s'. exact Es.
Qed.
End Usual.
Print Assumptions C57_silent.
Print Assumptions C57_upgrade.
Print Assumptions C57_summarize.
Print Assumptions C57_to_json.
Print Assumptions C57_from_json.
Print Assumptions C57_from_csv.

(** C57: a user who has from-json write over a file would expect to keep it if the
    command fails.  The file is removed first, so it is lost when the new file can
    not be created ... *)
Theorem C57_replaced_refuted : forall rt sys inp d r w p, input sys w inp d ->
  from_json_text (rt_parse64 rt) (rt_parse_time rt) (rt_reparse32 rt) (rt_atoi rt) d = Ok (Some r) ->
  may_remove sys p = true ->
  (may_create sys p = false -> exists w', run rt sys (FromJson inp (Some p)) w = Exit (Some FSystem) w' /\ written w p None w') /\
  (may_create sys p = true -> write_out rt upgrade_writer r = Panic ->
     exists f, run rt sys (FromJson inp (Some p)) w = Crashed f (Some p) /\ f p = Some []).
Proof.
  intros rt sys inp d r w p Hi Ej Hr. cbn [run]. unfold run_from_json.
  assert (Ei : match inp with Some p => open_file sys w p | None => Some (stdin w) end = Some d).
  { destruct inp as [q|]; cbn [input] in Hi; [|now rewrite Hi]. unfold open_file. now rewrite (proj1 Hi), (proj2 Hi). }
  rewrite Ei, Ej, Hr. assert (D : forall a b : outcome, match files w p with Some _ => b | None => b end = b) by (intros; now destruct (files w p)).
  rewrite (D Hung). split; intro Hc; rewrite Hc.
  - eexists. split; [reflexivity|]. unfold written, set_file. cbn [files stdin stdout]. rewrite str_eqb_refl. split; [reflexivity|]. split; [|auto].
    intros q Hq. apply str_eqb_neq in Hq. now rewrite Hq.
  - intro Ew. rewrite Ew. eexists. split; [reflexivity|]. unfold set_file. now rewrite str_eqb_refl.
Qed.
Print Assumptions C57_replaced_refuted.

(** C57: a command whose input is not there, can not be opened, or is refused by
    Load, FromJSON or RecordingFromCSV, and from-json when the file to replace can not
    be removed, fail with nothing changed. *)
Definition reads_from (c : command) : option str :=
  match c with
  | Summarize p | Upgrade p | FromCsv p => Some p
  | ToJson f => f
  | FromJson inp _ => inp
  end.
Theorem C57_refuses : forall rt sys c w,
  (forall p, reads_from c = Some p -> files w p = None \/ may_open sys p = false -> run rt sys c w = Exit (Some FSystem) w) /\
  (forall d, input sys w (reads_from c) d ->
     match c with
     | Summarize _ | Upgrade _ | ToJson _ => forall r n e s,
         read load_encoders (rt_v1 rt) (rt_iz rt) flat d = Ok (r, n, Some e, s) -> run rt sys c w = Exit (Some (FLoad e)) w
     | FromJson _ out =>
         (from_json_text (rt_parse64 rt) (rt_parse_time rt) (rt_reparse32 rt) (rt_atoi rt) d = Ok None -> run rt sys c w = Exit (Some FJson) w) /\
         (forall r p, from_json_text (rt_parse64 rt) (rt_parse_time rt) (rt_reparse32 rt) (rt_atoi rt) d = Ok (Some r) ->
            out = Some p -> files w p <> None -> may_remove sys p = false -> run rt sys c w = Exit (Some FSystem) w)
     | FromCsv _ => forall e, recording_from_csv (rt_parse64 rt) (rt_outer rt) (rt_inner rt) (csv_read d None) = Ok (inr e) ->
         run rt sys c w = Exit (Some (FCsv e)) w
     end).
Proof.
  intros rt sys c w. split.
  - intros p Hp Hn. assert (Ho : open_file sys w p = None) by (unfold open_file; destruct Hn as [ -> | -> ]; [now destruct (may_open sys p)|reflexivity]).
    destruct c; cbn [reads_from] in Hp; cbn [run]; unfold run_summarize, run_to_json, run_from_json, run_upgrade, run_from_csv; try injection Hp as ->; subst; rewrite ?Ho; try reflexivity.
    now destruct (files w p).
  - intros d Hi.
    assert (Ho : match reads_from c with Some p => open_file sys w p | None => Some (stdin w) end = Some d).
    { destruct (reads_from c) as [q|]; cbn [input] in Hi; [|now rewrite Hi]. unfold open_file. now rewrite (proj1 Hi), (proj2 Hi). }
    assert (L : forall k r n e s, read load_encoders (rt_v1 rt) (rt_iz rt) flat d = Ok (r, n, Some e, s) -> load rt w d k = Exit (Some (FLoad e)) w).
    { intros k r n e s E. unfold load. now rewrite E. }
    destruct c as [p|p|inp out|p|p]; cbn [reads_from] in Ho, Hi; cbn [run].
    + intros r n e s E. unfold run_summarize. rewrite (proj2 Hi), Ho. eauto.
    + intros r n e s E. unfold run_to_json. rewrite Ho. eauto.
    + unfold run_from_json. rewrite Ho. split; [intro E; now rewrite E|]. intros r q E -> Hq Hr. rewrite E, Hr. destruct (files w q); [reflexivity|congruence].
    + intros r n e s E. unfold run_upgrade. rewrite Ho. eauto.
    + intros e E. unfold run_from_csv. rewrite Ho. now rewrite E.
Qed.
Print Assumptions C57_refuses.

(** ** Examples *)
Definition toy_rt : runtime := mkRuntime toy_v1 toy_iz toy_z (fun r => (r, r)) (fun _ => lit "1.00"%string)
  json_quote (fun _ => lit "1"%string) (fun _ => lit "1"%string) (fun _ => lit "noon"%string)
  toy_parse toy_time toy_32 toy_atoi rev_ids same_names.
Definition toy_sys : system := mkSystem (fun _ => true) (fun _ => true) (fun p => negb (str_eqb p (lit "/locked"%string))).
Definition toy_world : world := mkWorld
  (fun p => if str_eqb p (lit "/a.rap"%string) then Some foreign_file
            else if str_eqb p (lit "/a.csv"%string) then Some c49_text
            else if str_eqb p (lit "/a.json"%string) then Some (lit "{""id"": ""x"", ""name"": ""n"", ""metadata"": {""k"": true}}"%string)
            else if str_eqb p (lit "/null.json"%string) then Some (lit "{""id"": ""x"", ""name"": ""n"", ""metadata"": {""k"": null}}"%string)
            else if str_eqb p (lit "/locked"%string) then Some (bs [1; 2; 3]) else None)
  [] (bs [9]).
Definition toy_run (c : command) : outcome := run toy_rt toy_sys c toy_world.
Lemma toy_usual : usual toy_rt toy_f32 toy_inflate toy_unmarshal.
Proof. split; [reflexivity|exact toy_v1_wf|exact toy_ends|intro r; split; apply view_refl]. Qed.
(** What the commands do in this world: no errors, and the new files are loadable. *)
Definition opens_again (d : option bytes) : Prop :=
  match d with
  | Some d => match read load_encoders toy_v1 toy_iz flat d with Ok (Some _, _, None, _) => True | _ => False end
  | None => False
  end.
Example C57_example_run :
  match toy_run (Upgrade (lit "/a.rap"%string)) with Exit None w => stdout w <> bs [9] /\ opens_again (Some (skipn 1 (stdout w))) | _ => False end /\
  match toy_run (Summarize (lit "/a.rap"%string)) with Exit None w => lenN (stdout w) = 250 | _ => False end /\
  match toy_run (ToJson (Some (lit "/a.rap"%string))) with Exit None w => lenN (stdout w) = 180 | _ => False end /\
  match toy_run (FromCsv (lit "/a.csv"%string)) with Exit None w => opens_again (Some (skipn 1 (stdout w))) | _ => False end /\
  match toy_run (FromJson (Some (lit "/a.json"%string)) None) with Exit None w => opens_again (Some (skipn 1 (stdout w))) | _ => False end /\
  match toy_run (FromJson (Some (lit "/a.json"%string)) (Some (lit "/a.json"%string))) with
  | Exit None w => stdout w = bs [9] /\ opens_again (files w (lit "/a.json"%string)) /\ opens_again (files w (lit "/a.rap"%string)) | _ => False end.
Proof. vm_compute. repeat split; discriminate. Qed.
Example C57_example_fail :
  match toy_run (Upgrade (lit "/a.csv"%string)) with Exit (Some (FLoad _)) w => stdout w = bs [9] | _ => False end /\
  match toy_run (FromCsv (lit "/none"%string)) with Exit (Some FSystem) w => stdout w = bs [9] | _ => False end /\
  match toy_run (FromJson (Some (lit "/a.csv"%string)) (Some (lit "/a.rap"%string))) with
  | Exit (Some FJson) w => files w (lit "/a.rap"%string) = Some foreign_file | _ => False end.
Proof. vm_compute. repeat split; reflexivity. Qed.
(** The file is gone, or empty. *)
Example C57_example_replaced :
  match toy_run (FromJson (Some (lit "/a.json"%string)) (Some (lit "/locked"%string))) with
  | Exit (Some FSystem) w => files toy_world (lit "/locked"%string) = Some (bs [1; 2; 3]) /\ files w (lit "/locked"%string) = None | _ => False end /\
  match toy_run (FromJson (Some (lit "/null.json"%string)) (Some (lit "/a.rap"%string))) with
  | Crashed f (Some p) => p = lit "/a.rap"%string /\ f p = Some [] | _ => False end.
Proof. vm_compute. repeat split; reflexivity. Qed.
Example C57_example_hypotheses : usual toy_rt toy_f32 toy_inflate toy_unmarshal /\ codec_ok (rt_z toy_rt) (rt_iz toy_rt) /\
  input toy_sys toy_world (Some (lit "/a.rap"%string)) foreign_file /\
  exists r, loads toy_rt foreign_file r /\ ~ coll_missing r /\ List.length (rec_colls r) = 1%nat.
Proof.
  split; [exact toy_usual|]. split; [exact toy_ok|]. split; [split; reflexivity|].
  assert (H : match read load_encoders toy_v1 toy_iz flat foreign_file with
    | Ok (Some r, _, None, _) => rec_recs r = [] /\ match rec_colls r with [Some _] => True | _ => False end
    | _ => False end) by (vm_compute; auto).
  destruct (read load_encoders toy_v1 toy_iz flat foreign_file) as [[[[[r|] n] [e|]] s']| |] eqn:E; try contradiction.
  destruct H as (Hr & Hc). exists r. split; [exists n, s'; exact E|]. split.
  - intros (c & Hi & Hn). inversion Hi as [|? ? d Hd _]; subst; [|rewrite Hr in Hd; destruct Hd].
    destruct (rec_colls r) as [|[c0|] [|]]; try contradiction. destruct Hn as [Hn|[]]. discriminate Hn.
  - destruct (rec_colls r) as [|[c0|] [|]]; try contradiction. reflexivity.
Qed.
