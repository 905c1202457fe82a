(** C55: the tools work on whatever opens. *)
From Coq Require Import ZArith Lia Strings.String.
From Verif Require Import Base BaseFacts IO Spec IOFacts Floats Metadata SpecMeta MetadataFacts Recording SpecRec RecordingFacts.
From Verif Require Import Encoding SpecEnc TimeIO Writer Reader SpecFile PlanFacts FileFacts BuiltinFacts.
From Verif Require Import EncEvent EncEnum EncPosition EncEuler EncFloat RapV1 SpecV1 V1Facts SpecAccept AcceptFacts ResaveFacts PropAccept.
From Verif Require Import Text Summarize SummarizeFacts ToJson ToJsonFacts Tools Benchmark Toy Demo PropRead PropV1.
Local Open Scope N_scope.

Lemma wf_but_no_nil : forall r, wf_but_colls r -> (no_nil r <-> ~ coll_missing r).
Proof.
  induction r as [id name colls recs md bins refs IH] using recording_ind'. intro H.
  inversion H as [? ? ? ? ? ? ? Hc Hr _ _ _]; subst. rewrite Forall_forall in Hc, Hr. split.
  - intros Hn (c & Hi & Hx). inversion Hn as [? ? ? ? ? ? ? Nc Nr]; subst. inversion Hi as [|? ? d Hd Hcd]; subst.
    + exact (Nc None Hx eq_refl).
    + cbn [rec_recs] in Hd. destruct (Nr _ Hd) as (d' & E & Hd'). injection E as <-.
      destruct (Hr _ Hd) as (d' & E & Hw). injection E as <-. apply (proj1 (IH d Hd Hw) Hd'). exists c. auto.
  - intro Hm. constructor.
    + intros o Ho ->. apply Hm. eexists. split; [apply InsideSelf|exact Ho].
    + intros o Ho. destruct (Hr o Ho) as (d & -> & Hw). exists d. split; [reflexivity|]. apply (IH d Ho Hw).
      intros (c & Hi & Hx). apply Hm. exists c. split; [econstructor; [exact Ho|exact Hi]|exact Hx].
Qed.
Lemma to_json_runs : forall quote num64 num32 time_text r depth, no_nil r ->
  exists t e, to_json quote num64 num32 time_text depth r = Ok (t, e).
Proof.
  intros q n6 n3 tt. induction r as [id name colls recs md bins refs IH] using recording_ind'. intros depth Hn.
  inversion Hn as [? ? ? ? ? ? ? Nc Nr]; subst. rewrite to_json_eq. cbv zeta.
  destruct (marshal q n6 n3 tt (PBlock md)) as [d|]; [|eauto].
  assert (Hc : forall ind, exists t e, colls_text q n6 n3 tt ind colls = Ok (t, e)).
  { intro ind. clear -Nc. induction colls as [|[c|] l IHl]; cbn [colls_text]; [eauto| |].
    - destruct (coll_text q n6 n3 tt ind c) as [t [|]]; [eauto|].
      destruct IHl as (t' & e' & ->); [intros o Ho; apply Nc; now right|]. cbn [bind]. eauto.
    - exfalso. exact (Nc None (or_introl eq_refl) eq_refl). }
  destruct (Hc ((tabs depth ++ tab) ++ tab)) as (ct & [|] & ->); cbn [bind]; [eauto|].
  assert (Hr : exists t, recs_text q n6 n3 tt depth recs = Ok t).
  { clear -IH Nr. induction recs as [|o l IHl]; cbn [recs_text]; [eauto|].
    destruct (Nr o (or_introl eq_refl)) as (c & -> & Hc). destruct (IH c (or_introl eq_refl) (depth + 2)%nat Hc) as (t & e & ->). cbn [bind].
    destruct IHl as (u & ->); [intros x Hx; apply IH; now right|intros x Hx; apply Nr; now right|]. cbn [bind]. eauto. }
  destruct Hr as (t & ->). cbn [bind]. eauto.
Qed.
Lemma print_runs : forall r, no_nil r -> exists t, print_recording r = Ok t.
Proof.
  intros [id name colls recs md bins refs] Hn. inversion Hn as [? ? ? ? ? ? ? Nc _]; subst. unfold print_recording. cbn [rec_colls].
  assert (H : exists l, map_res print_coll colls = Ok l).
  { clear -Nc. induction colls as [|[c|] l IH]; cbn [map_res]; [eauto| |exfalso; exact (Nc None (or_introl eq_refl) eq_refl)].
    cbn [print_coll bind]. destruct IH as (x & ->); [intros o Ho; apply Nc; now right|]. cbn [bind]. eauto. }
  destruct H as (l & ->). cbn [bind]. eauto.
Qed.
Lemma print_same : forall r b, rec_rel block_equiv same_but_numbers r b -> print_recording r = print_recording b.
Proof.
  intros r b H. inversion H as [? ? cs cs' ? rs rs' ? ? ? ? ? Hc Hr _ _ _]; subst. unfold print_recording. cbn [rec_colls rec_name rec_recs].
  rewrite (Forall2_len Hc), (Forall2_len Hr).
  assert (E : map_res print_coll cs = map_res print_coll cs'); [|now rewrite E].
  clear -Hc. induction Hc as [|x y l l' (c & d & -> & -> & Hs) Hl IH]; [reflexivity|]. cbn [map_res]. rewrite IH. f_equal.
  unfold print_coll. pose proof (same_sig _ _ Hs) as E. destruct Hs as (N1 & L1 & _). rewrite N1, E. unfold c_length. now rewrite L1.
Qed.

Section C55.
Context (reg : list encoder) (IZ : inflater) (parse_f32 : str -> option f32) (inflate : bytes -> option bytes)
  (unmarshal : bytes -> option v1_rec).
Let v1 := read_v1 parse_f32 inflate unmarshal.
Hypothesis Hreg : Forall library reg.
Hypothesis Hends : inflation_ends IZ.
Hypothesis Hum : forall x m, unmarshal x = Some m -> v1_wf m.

(** C55: on whatever Read accepts, none of the tools panics, provided that no
    collection is missing; and otherwise summarizing and slicing do. *)
Theorem C55_tools : forall d r, opened reg v1 IZ d r -> ~ coll_missing r ->
  (forall opts, exists r', slice opts r = Ok r') /\
  (forall opts, exists b, validate opts r = Ok b) /\
  (exists x y z, rec_start r = Ok x /\ rec_end r = Ok y /\ rec_duration r = Ok z) /\
  (forall fmt2 size, exists t, print_summary fmt2 r size = Ok t) /\
  (forall quote num64 num32 time_text, exists t e, to_json quote num64 num32 time_text 0 r = Ok (t, e)) /\
  (exists t, print_recording r = Ok t).
Proof.
  intros d r Ho Hm. pose proof (C53_shape reg IZ parse_f32 inflate unmarshal d r Hreg Hends Hum Ho) as Hw.
  apply (wf_but_no_nil r Hw) in Hm. destruct (start_end_exist r Hm) as (x & y & Hx & Hy).
  assert (Hd : exists z, rec_duration r = Ok z) by (unfold rec_duration; rewrite Hx; cbn [bind]; rewrite Hy; cbn [bind]; eauto).
  destruct Hd as (z & Hz). split; [|split; [|split; [|split; [|split]]]].
  - intro opts. destruct (slice_ok opts r Hm) as (r' & E & _). eauto.
  - intro opts. destruct (validate_spec opts r Hm) as (b & E & _). eauto.
  - exists x, y, z. auto.
  - intros fmt2 size. unfold print_summary. rewrite Hz. cbn [bind]. rewrite (summarize_ok r Hm). cbn [bind]. eauto.
  - intros. now apply to_json_runs.
  - now apply print_runs.
Qed.
Theorem C55_missing_panics : forall d r, opened reg v1 IZ d r -> coll_missing r ->
  (forall opts r', slice opts r <> Ok r') /\ (forall s, summarize r <> Ok s) /\
  (forall fmt2 size t, print_summary fmt2 r size <> Ok t).
Proof.
  intros d r Ho Hm. pose proof (C53_shape reg IZ parse_f32 inflate unmarshal d r Hreg Hends Hum Ho) as Hw.
  assert (Hs : forall s, summarize r <> Ok s).
  { intros s E. apply summarize_nil in E. exact (proj1 (wf_but_no_nil r Hw) E Hm). }
  split; [|split; [exact Hs|]].
  - intros opts r' E. apply slice_nil_panics in E. exact (proj1 (wf_but_no_nil r Hw) E Hm).
  - intros fmt2 size t. unfold print_summary. destruct (rec_duration r); cbn [bind]; try discriminate.
    destruct (summarize r) as [s| |] eqn:E; cbn [bind]; try discriminate. destruct (Hs s eq_refl).
Qed.
End C55.
Print Assumptions C55_tools.
Print Assumptions C55_missing_panics.

Section Benchmark.
Context (IZ : inflater) (Z : compressor) (parse_f32 : str -> option f32) (inflate : bytes -> option bytes)
  (unmarshal : bytes -> option v1_rec).
Let v1 := read_v1 parse_f32 inflate unmarshal.

Lemma load_library : Forall library load_encoders.
Proof. repeat constructor; exists 2, 1, 0; unfold builtin; tauto. Qed.
Lemma load_takes : forall x, taken load_encoders x \/ old_kind x -> taken (w_encs benchmark_writer) x.
Proof.
  intros x [H|H]; [exact H|]. unfold old_kind in H.
  assert (T : forall e, In e load_encoders -> e_accepts e x = true -> taken (w_encs benchmark_writer) x) by (intros e He Ha; exists e; auto).
  destruct H as [H|[H|[H|[H|[]]]]].
  - apply (T (position_encoder 2)); [cbn; auto 10|]. cbn. rewrite <- H. apply str_eqb_refl.
  - apply (T (euler_encoder 1)); [cbn; auto 10|]. cbn. rewrite <- H. apply str_eqb_refl.
  - apply (T event_encoder); [cbn; auto 10|]. cbn. rewrite <- H. apply str_eqb_refl.
  - apply (T enum_encoder); [cbn; auto 10|]. cbn. rewrite <- H. apply str_eqb_refl.
Qed.

(** C55: the benchmark prints the same summary before and after, for any bytes
    over any transport that Load opens with nothing missing; it panics if Load
    fails or the top level of the recording lacks a collection. *)
Theorem C55_benchmark : forall S (R : Reader S) eager I s d r n s' took orders,
  inflation_ends IZ -> codec_ok Z IZ -> (forall x m, unmarshal x = Some m -> v1_wf m) ->
  delivers R eager I -> I s d -> (forall q, rec_view q (fst (orders q)) /\ rec_view q (snd (orders q))) ->
  read load_encoders v1 IZ R s = Ok (Some r, n, None, s') -> ~ coll_missing r ->
  exists summary m file, print_recording r = Ok summary /\
    write_views benchmark_writer Z buffer (fst (orders r)) (snd (orders r)) r [] = Ok (m, None, file) /\
    (m <= 2 ^ 40 ->
     run_benchmark v1 IZ Z took orders R s =
     Ok (line (lit "Time to read in: " ++ took) ++ summary ++
         line (line (lit "Original Size: " ++ kb n)) ++ summary ++
         line (lit "New Size: " ++ kb (lenN file)))).
Proof.
  intros S R eager I s d r n s' took orders HIZ Hz Hum HR HI Hord E Hm.
  assert (Ho : opened load_encoders v1 IZ d r) by (exists S, R, eager, I, s, n, s'; auto).
  destruct (C55_tools load_encoders IZ parse_f32 inflate unmarshal load_library HIZ Hum d r Ho Hm) as (_ & _ & _ & _ & _ & summary & Ep).
  destruct (Hord r) as [HA HE].
  destruct (C53_same_encoders load_encoders IZ parse_f32 inflate unmarshal d r benchmark_writer Z (fst (orders r)) (snd (orders r))
    load_library HIZ Hum Ho) as (m & file & Ew & Er); auto.
  - exists 2, 1, 0. apply default_valid.
  - exact can_load.
  - exact load_takes.
  - exists summary, m, file. split; [exact Ep|]. split; [exact Ew|]. intro Hle. destruct (Er Hle) as (b & s2 & Eb & Hrel).
    unfold run_benchmark. rewrite E. cbn [bind]. rewrite Ep. cbn [bind]. destruct (orders r) as [rA rE]. cbn [fst snd] in Ew. rewrite Ew. cbn [bind].
    change (w_encs benchmark_writer) with load_encoders. fold v1 in Eb. rewrite Eb. cbn [bind].
    rewrite <- (print_same _ _ Hrel), Ep. cbn [bind]. reflexivity.
Qed.
Theorem C55_benchmark_panics : forall S (R : Reader S) s took orders,
  (forall r n s', read load_encoders v1 IZ R s = Ok (Some r, n, None, s') -> In None (rec_colls r)) ->
  forall t, run_benchmark v1 IZ Z took orders R s <> Ok t.
Proof.
  intros S R s took orders H t. unfold run_benchmark.
  destruct (read load_encoders v1 IZ R s) as [[[[[r|] n] [e|]] s']| |] eqn:E; cbn [bind]; try discriminate.
  specialize (H _ _ _ eq_refl). assert (P : print_recording r = Panic).
  { unfold print_recording. assert (P : map_res print_coll (rec_colls r) = Panic); [|now rewrite P].
    clear -H. induction (rec_colls r) as [|[c|] l IH]; [destruct H| |reflexivity].
    cbn [map_res print_coll bind]. destruct H as [H|H]; [discriminate|]. now rewrite (IH H). }
  rewrite P. discriminate.
Qed.
End Benchmark.
Print Assumptions C55_benchmark.
Print Assumptions C55_benchmark_panics.

(** A file that no writer made is opened with nothing missing, and the benchmark
    shows the same summary twice. *)
Example C55_tools_example : exists r, opened load_encoders toy_v1 toy_iz foreign_file r /\ ~ coll_missing r /\ List.length (rec_colls r) = 1%nat.
Proof.
  assert (H : match read load_encoders toy_v1 toy_iz flat foreign_file with
    | Ok (Some r, _, None, _) => rec_recs r = [] /\ match rec_colls r with [Some _] => True | _ => False end
    | _ => False end) by (vm_compute; auto).
  destruct (read load_encoders toy_v1 toy_iz flat foreign_file) as [[[[[r|] n] [e|]] s']| |] eqn:E; try contradiction.
  destruct H as (Hr & Hc). exists r. split; [|split].
  - exists bytes, flat, false, (fun s d => s = d), foreign_file, n, s'. split; [apply flat_delivers|]. split; [reflexivity|exact E].
  - intros (c & Hi & Hn). inversion Hi as [|? ? d Hd _]; subst; [|rewrite Hr in Hd; destruct Hd].
    destruct (rec_colls r) as [|[c0|] [|]]; try contradiction. destruct Hn as [Hn|[]]. discriminate Hn.
  - destruct (rec_colls r) as [|[c0|] [|]]; try contradiction. reflexivity.
Qed.
Definition foreign_summary : str :=
  line (lit "Name: d") ++ line (lit "Collections: 1") ++ line (lit "  Name: P") ++
  line (lit "  Signature: recolude.position") ++ line (lit "  Captures: 1") ++ line (lit "Sub Recordings: 0").
Example C55_benchmark_example :
  run_benchmark toy_v1 toy_iz toy_z (lit "1s") (fun r => (r, r)) flat foreign_file =
  Ok (line (lit "Time to read in: 1s") ++ foreign_summary ++ line (line (lit "Original Size: 0 kb")) ++
      foreign_summary ++ line (lit "New Size: 0 kb")).
Proof. vm_compute. reflexivity. Qed.
(** A file with an undecodable collection is opened, and the tools panic. *)
Example C55_missing_example : exists r, opened (w_encs (raw_config false)) toy_v1 toy_iz (small_file 9 0) r /\
  coll_missing r /\ summarize r = Panic.
Proof.
  assert (H : match read (w_encs (raw_config false)) toy_v1 toy_iz flat (small_file 9 0) with
    | Ok (Some r, _, None, _) => rec_colls r = [None] /\ summarize r = Panic
    | _ => False end) by (vm_compute; auto).
  destruct (read (w_encs (raw_config false)) toy_v1 toy_iz flat (small_file 9 0)) as [[[[[r|] n] [e|]] s']| |] eqn:E; try contradiction.
  destruct H as (Hc & Hs). exists r. split; [|split; [|exact Hs]].
  - exists bytes, flat, false, (fun s d => s = d), (small_file 9 0), n, s'. split; [apply flat_delivers|]. split; [reflexivity|exact E].
  - exists r. split; [constructor|]. rewrite Hc. now left.
Qed.
Example C55_benchmark_panics_example :
  run_benchmark toy_v1 toy_iz toy_z (lit "1s") (fun r => (r, r)) flat (bs [2; 1]) = Panic.
Proof. vm_compute. reflexivity. Qed.
