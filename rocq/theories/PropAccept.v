(** Property C53: whatever Read accepts can be saved again. *)
From Coq Require Import ZArith Lia.
From Verif Require Import Base BaseFacts IO Spec IOFacts Floats Metadata SpecMeta MetadataFacts Recording SpecRec RecordingFacts.
From Verif Require Import Encoding SpecEnc TimeIO TimeFacts Writer Reader SpecFile PlanFacts FileFacts BuiltinFacts StreamFacts.
From Verif Require Import EncEvent EncEnum EncPosition EncEuler EncFloat RapV1 SpecV1 V1Facts Toy Demo SpecResave ResaveFacts SpecAccept AcceptFacts.
From Verif Require Import PropRead PropV1.
Local Open Scope N_scope.

Section C53.
(** the registered encoders, the inflaters of both versions, and the decoder of
    protobuf messages, whose results are maps and int32 numbers *)
Context (reg : list encoder) (IZ : inflater) (parse_f32 : str -> option f32) (inflate : bytes -> option bytes)
  (unmarshal : bytes -> option v1_rec).
Let v1 := read_v1 parse_f32 inflate unmarshal.

(** C53: what Read accepts is well formed: nothing but collections can be
    missing, every metadata block is a map of complete properties. *)
Theorem C53_shape : forall d r, Forall library reg -> inflation_ends IZ -> (forall x m, unmarshal x = Some m -> v1_wf m) ->
  opened reg v1 IZ d r -> wf_but_colls r.
Proof.
  intros d r Hreg HIZ Hum (S & R & eager & I & s & n & s' & HR & HI & E).
  destruct (read_post reg v1 IZ S R eager I s d r n s') as [[H _]|(s0 & d0 & m & s1 & _ & H)]; auto.
  apply wf_wf_but. revert H. apply read_v1_wf. exact Hum.
Qed.

(** C53: every collection that is there is one that a registered encoder
    accepts, or one of the kinds of version 1. *)
Theorem C53_kinds : forall d r, Forall library reg -> inflation_ends IZ -> opened reg v1 IZ d r ->
  kinds (taken reg) r \/ kinds old_kind r.
Proof.
  intros d r Hreg HIZ (S & R & eager & I & s & n & s' & HR & HI & E).
  destruct (read_post reg v1 IZ S R eager I s d r n s') as [[_ H]|(s0 & d0 & m & s1 & _ & H)]; auto.
  right. revert H. apply read_v1_kinds.
Qed.

(** C53: so saving it either fails before anything is written, because a
    collection is missing or has no encoder, or it succeeds and reading the
    new file gives the same recording up to numbers.  It does not panic. *)
Theorem C53_saved_again : forall d r cfg Z rA rE, Forall library reg -> inflation_ends IZ -> (forall x m, unmarshal x = Some m -> v1_wf m) ->
  opened reg v1 IZ d r ->
  (exists tp te tf, valid_config tp te tf cfg) -> (w_compress cfg = true -> codec_ok Z IZ) ->
  (forall e, In e (w_encs cfg) -> can_read reg e) -> rec_view r rA -> rec_view r rE ->
  ((coll_missing r \/ unaccepted (w_encs cfg) rE) /\
   forall S (W : Writer S) out, exists e, write_views cfg Z W rA rE r out = Ok (0, Some e, out)) \/
  (exists n file, write_views cfg Z buffer rA rE r [] = Ok (n, None, file) /\
    (n <= 2 ^ 40 -> exists b s, read reg v1 IZ flat file = Ok (Some b, n, None, s) /\
       opened reg v1 IZ file b /\ rec_rel block_equiv same_but_numbers r b)).
Proof.
  intros d r cfg Z rA rE Hreg HIZ Hum Ho (tp & te & tf & V) Hz Hcr HA HE. pose proof (C53_shape d r Hreg HIZ Hum Ho) as Hw.
  assert (D : rejected (w_encs cfg) r rE \/ ~ rejected (w_encs cfg) r rE).
  { rewrite (reject_iff cfg r rE HE). destruct (check_nil r) as [e|]; [left; left; eauto|].
    destruct (evaluate (w_encs cfg) rE 0) as [x|e]; [right|left; right; eauto].
    intros [[e H]|[_ [e H]]]; discriminate. }
  destruct D as [D|D].
  - left. split; [destruct D as [D|D]; [left; now apply wf_but_nil|now right]|]. intros S W out.
    apply (reject_iff cfg r rE HE) in D. unfold write_views. destruct D as [(e & ->)|(-> & e & ->)]; eauto.
  - right. assert (Hn : ~ has_nil r) by (intro H; apply D; now left).
    assert (Hwf : wf_rec r) by (apply wf_but_wf; [exact Hw|intro H; apply Hn; now apply wf_but_nil]).
    pose proof (view_equiv _ _ Hn HA) as QA. pose proof (view_equiv _ _ Hn HE) as QE.
    assert (Hacc : ~ unaccepted (w_encs cfg) r).
    { intro H. apply D. right. destruct V as (_ & _ & _ & _ & Hes & _). eapply unaccepted_equiv; eauto. }
    destruct (step Z IZ reg v1 tp te tf cfg r rA rE V Hz Hcr Hacc Hwf QA QE) as (n & file & Ew & Er).
    exists n, file. split; [exact Ew|]. intro Hle. destruct (Er Hle) as (b & s & Eb & Hrel). exists b, s. split; [exact Eb|].
    split; [|exact (proj1 (step_same tp te tf cfg r b V Hwf Hrel))].
    exists bytes, flat, false, (fun s d => s = d), file, n, s. split; [apply flat_delivers|]. split; [reflexivity|exact Eb].
Qed.

(** C53: with encoders for what the registered ones accept and for the kinds of
    version 1, only a missing collection stops Write. *)
Theorem C53_same_encoders : forall d r cfg Z rA rE, Forall library reg -> inflation_ends IZ -> (forall x m, unmarshal x = Some m -> v1_wf m) ->
  opened reg v1 IZ d r ->
  (exists tp te tf, valid_config tp te tf cfg) -> (w_compress cfg = true -> codec_ok Z IZ) ->
  (forall e, In e (w_encs cfg) -> can_read reg e) -> rec_view r rA -> rec_view r rE ->
  (forall x, taken reg x \/ old_kind x -> taken (w_encs cfg) x) -> ~ coll_missing r ->
  exists n file, write_views cfg Z buffer rA rE r [] = Ok (n, None, file) /\
    (n <= 2 ^ 40 -> exists b s, read reg v1 IZ flat file = Ok (Some b, n, None, s) /\
       rec_rel block_equiv same_but_numbers r b).
Proof.
  intros d r cfg Z rA rE Hreg HIZ Hum Ho V Hz Hcr HA HE Ht Hm.
  destruct (C53_saved_again d r cfg Z rA rE Hreg HIZ Hum Ho V Hz Hcr HA HE) as [[[H|H] _]|(n & file & Ew & Er)].
  - contradiction.
  - exfalso. pose proof (C53_shape d r Hreg HIZ Hum Ho) as Hw.
    assert (Hn : ~ has_nil r) by (intro Hx; apply Hm; now apply wf_but_nil).
    destruct V as (tp & te & tf & _ & _ & _ & _ & Hes & _).
    assert (Hu : unaccepted (w_encs cfg) r).
    { eapply (unaccepted_sig tp te tf); [exact Hes|exact equiv_sig|exact (view_equiv _ _ Hn HE)|exact H]. }
    destruct Hu as (c & x & Hc & Hx & Hno).
    assert (Hk : taken (w_encs cfg) x) by (apply Ht; destruct (C53_kinds d r Hreg HIZ Ho) as [K|K]; [left|right]; eapply K; eauto).
    destruct Hk as (e & He & Ha). rewrite (Hno e He) in Ha. discriminate Ha.
  - exists n, file. split; [exact Ew|]. intro Hle. destruct (Er Hle) as (b & s & Eb & _ & Hrel). eauto.
Qed.
End C53.
Print Assumptions C53_kinds.
Print Assumptions C53_same_encoders.
Print Assumptions C53_shape.
Print Assumptions C53_saved_again.

(** A file that no writer made: the bytes of its bool array are 7 and 0. *)
Definition foreign_file : bytes :=
  bs ([2; 1; 17; 114; 101; 99; 111; 108; 117; 100; 101; 46; 112; 111; 115;
       105; 116; 105; 111; 110; 0; 0; 0; 1; 1; 107; 1; 99; 1; 100; 1; 0; 16; 2; 7; 0; 1; 0; 1; 80;
       0; 1; 0; 0; 0; 0; 0; 0; 240; 63; 25; 0; 0; 0; 0; 0; 0; 0; 240; 63; 0;
       0; 0; 0; 0; 0; 8; 64; 0; 0; 0; 0; 0; 0; 240; 63; 0; 0; 0]).
Lemma toy_v1_wf : forall x m, toy_unmarshal x = Some m -> v1_wf m.
Proof.
  intros x m. unfold toy_unmarshal. destruct (str_eqb x _); [|discriminate]. intro E. injection E as <-. exact old_demo_wf.
Qed.
Lemma raw_library : Forall library (w_encs (raw_config false)).
Proof.
  destruct (raw_valid false) as (_ & _ & _ & _ & H & _). eapply Forall_impl; [|exact H]. intros e He. exists 0, 0, 0. exact He.
Qed.
Lemma view_refl : forall r, rec_view r r.
Proof.
  assert (L : forall A (P : A -> A -> Prop) l, (forall a, In (Some a) l -> P a a) -> Forall2 (nil_or P) l l).
  { intros A P l H. induction l as [|o l IH]; constructor; [|apply IH; intros a Ha; apply H; now right].
    destruct o as [a|]; [right|now left]. exists a, a. repeat split; auto. apply H. now left. }
  induction r as [id name colls recs md bins refs IH] using recording_ind'. constructor.
  - apply L. intros c _. apply coll_equiv_refl.
  - apply L. exact IH.
  - apply block_equiv_refl.
  - apply L. intros b _. repeat split. apply block_equiv_refl.
  - apply L. intros b _. repeat split. apply block_equiv_refl.
Qed.
Definition foreign_fits (r : recording) : bool :=
  match write_views (raw_config false) toy_z buffer r r r [] with Ok (n, None, _) => n <=? 2 ^ 40 | _ => false end.
Lemma foreign_opens :
  match read (w_encs (raw_config false)) toy_v1 toy_iz flat foreign_file with
  | Ok (Some r, _, None, _) =>
      rec_md r = [(bs [107], PRaw 3 (bs [2; 7; 0]))] /\ foreign_fits r = true
  | _ => False
  end.
Proof. vm_compute. auto. Qed.
(** It is opened, saved and opened again. *)
Example C53_example : exists r n file b s,
  opened (w_encs (raw_config false)) toy_v1 toy_iz foreign_file r /\ rec_md r = [(bs [107], PRaw 3 (bs [2; 7; 0]))] /\
  write_views (raw_config false) toy_z buffer r r r [] = Ok (n, None, file) /\
  read (w_encs (raw_config false)) toy_v1 toy_iz flat file = Ok (Some b, n, None, s) /\
  rec_rel block_equiv same_but_numbers r b.
Proof.
  pose proof foreign_opens as H.
  destruct (read (w_encs (raw_config false)) toy_v1 toy_iz flat foreign_file) as [[[[[r|] n] [e|]] s']| |] eqn:E; try contradiction.
  destruct H as (Hm & Hw). unfold foreign_fits in Hw.
  assert (Ho : opened (w_encs (raw_config false)) toy_v1 toy_iz foreign_file r).
  { exists bytes, flat, false, (fun s d => s = d), foreign_file, n, s'. split; [apply flat_delivers|]. split; [reflexivity|exact E]. }
  destruct (C53_saved_again (w_encs (raw_config false)) toy_iz toy_f32 toy_inflate toy_unmarshal foreign_file r (raw_config false) toy_z r r
    raw_library toy_ends toy_v1_wf Ho) as [(_ & Hno)|(m & file & Ew & Er)].
  - exists 0, 0, 0. apply raw_valid.
  - intros _. apply toy_ok.
  - apply (can_read_self false).
  - apply view_refl.
  - apply view_refl.
  - destruct (Hno _ buffer []) as (e & Ee). rewrite Ee in Hw. discriminate Hw.
  - rewrite Ew in Hw. apply N.leb_le in Hw. destruct (Er Hw) as (b & s & Eb & _ & Hrel).
    exists r, m, file, b, s. auto.
Qed.
(** The encoders of the example take all kinds; nothing is missing in it. *)
Lemma raw_takes : forall x, taken (w_encs (raw_config false)) x \/ old_kind x -> taken (w_encs (raw_config false)) x.
Proof.
  intros x [H|H]; [exact H|]. unfold old_kind in H.
  assert (T : forall e, In e (w_encs (raw_config false)) -> e_accepts e x = true -> taken (w_encs (raw_config false)) x) by (intros e He Ha; exists e; auto).
  destruct H as [H|[H|[H|[H|[]]]]].
  - apply (T (position_encoder 0)); [cbn; auto 10|]. cbn. rewrite <- H. apply str_eqb_refl.
  - apply (T (euler_encoder 0)); [cbn; auto 10|]. cbn. rewrite <- H. apply str_eqb_refl.
  - apply (T event_encoder); [cbn; auto 10|]. cbn. rewrite <- H. apply str_eqb_refl.
  - apply (T enum_encoder); [cbn; auto 10|]. cbn. rewrite <- H. apply str_eqb_refl.
Qed.
Example C53_same_encoders_example : exists r, opened (w_encs (raw_config false)) toy_v1 toy_iz foreign_file r /\
  ~ coll_missing r /\ rec_colls r <> [] /\
  exists n file, write_views (raw_config false) toy_z buffer r r r [] = Ok (n, None, file).
Proof.
  assert (H : match read (w_encs (raw_config false)) toy_v1 toy_iz flat foreign_file with
    | Ok (Some r, _, None, _) => rec_recs r = [] /\ match rec_colls r with [Some _] => True | _ => False end
    | _ => False end) by (vm_compute; auto).
  destruct (read (w_encs (raw_config false)) toy_v1 toy_iz flat foreign_file) as [[[[[r|] n] [e|]] s']| |] eqn:E; try contradiction.
  assert (Ho : opened (w_encs (raw_config false)) toy_v1 toy_iz foreign_file r).
  { exists bytes, flat, false, (fun s d => s = d), foreign_file, n, s'. split; [apply flat_delivers|]. split; [reflexivity|exact E]. }
  destruct H as (Hr & Hc). assert (Hm : ~ coll_missing r).
  { intros (c & Hi & Hn). inversion Hi as [|? ? d Hd _]; subst; [|rewrite Hr in Hd; destruct Hd].
    destruct (rec_colls r) as [|[c0|] [|]]; try contradiction. destruct Hn as [Hn|[]]. discriminate Hn. }
  exists r. split; [exact Ho|]. split; [exact Hm|]. split; [intro C; rewrite C in Hc; exact Hc|].
  destruct (C53_same_encoders (w_encs (raw_config false)) toy_iz toy_f32 toy_inflate toy_unmarshal foreign_file r (raw_config false) toy_z r r
    raw_library toy_ends toy_v1_wf Ho) as (m & file & Ew & _); [| | | | | | |eauto].
  - exists 0, 0, 0. apply raw_valid.
  - intros _. apply toy_ok.
  - apply (can_read_self false).
  - apply view_refl.
  - apply view_refl.
  - exact raw_takes.
  - exact Hm.
Qed.
(** A file whose collection cannot be decoded is opened without an error, and
    cannot be saved. *)
Example C53_missing_example : exists r e,
  opened (w_encs (raw_config false)) toy_v1 toy_iz (small_file 9 0) r /\ coll_missing r /\
  write_views (raw_config false) toy_z buffer r r r [] = Ok (0, Some e, []).
Proof.
  assert (H : match read (w_encs (raw_config false)) toy_v1 toy_iz flat (small_file 9 0) with
    | Ok (Some r, _, None, _) => rec_colls r = [None] /\
  match write_views (raw_config false) toy_z buffer r r r [] with Ok (0, Some _, []) => True | _ => False end
    | _ => False end) by (vm_compute; auto).
  destruct (read (w_encs (raw_config false)) toy_v1 toy_iz flat (small_file 9 0)) as [[[[[r|] n] [e|]] s']| |] eqn:E; try contradiction.
  destruct H as (Hc & Hw).
  destruct (write_views (raw_config false) toy_z buffer r r r []) as [[[[|p] [e|]] [|]]| |] eqn:Ew; try contradiction.
  exists r, e. split; [|split; [|exact Ew]].
  - exists bytes, flat, false, (fun s d => s = d), (small_file 9 0), n, s'. split; [apply flat_delivers|]. split; [reflexivity|exact E].
  - exists r. split; [constructor|]. rewrite Hc. now left.
Qed.
