(** C56: version 1 messages are read as the protobuf format says. *)
From Coq Require Import ZArith Lia Strings.String.
From Verif Require Import Base BaseFacts IO Spec IOFacts Floats BinaryIO Metadata SpecMeta Recording SpecRec Text SpecText Encoding SpecEnc Writer Reader SpecFile.
From Verif Require Import SpecJsonText RapV1 SpecV1 V1Facts Proto SpecProto ProtoFacts SpecAccept AcceptFacts ResaveFacts Toy Demo PropRead PropV1 PropAccept PropUse.
From Verif Require Import Tools Summarize ToJson Benchmark.
Local Open Scope N_scope.

(** C56: the bytes that are read as a message are exactly its encodings, and
    whatever is read is what they encode (maps have no order). *)
Theorem C56_reads : forall b,
  (forall m, proto_unmarshal b = Some m -> encodes b m) /\
  (forall m, encodes b m -> exists m', proto_unmarshal b = Some m' /\ same_message m m').
Proof.
  intro b. split.
  - intros m H. exact (dec_sound _ _ recording_decoder b m H).
  - intros m (fs & Hf & Hm). destruct (dec_total _ _ recording_decoder b fs m Hf Hm) as (m' & E). exists m'. split; [exact E|].
    destruct (dec_sound _ _ recording_decoder b m' E) as (gs & Hg & Hm'). rewrite (message_unique _ _ _ Hg Hf) in Hm'.
    exact (recording_unique _ _ _ Hm Hm').
Qed.
Print Assumptions C56_reads.
(** C56: bytes encode at most one message. *)
Theorem C56_one_meaning : forall b m m', encodes b m -> encodes b m' -> same_message m m'.
Proof.
  intros b m m' (fs & Hf & Hm) (gs & Hg & Hm'). rewrite (message_unique _ _ _ Hg Hf) in Hm'. exact (recording_unique _ _ _ Hm Hm').
Qed.
Print Assumptions C56_one_meaning.
(** C56: every message whose texts are UTF-8 has an encoding, the usual one. *)
Theorem C56_written : forall m, v1_wf m -> utf8_message m -> lenN (put_recording m) < 2 ^ 64 -> encodes (put_recording m) m.
Proof. exact put_recording_ok. Qed.
Print Assumptions C56_written.

(** C56: fields that this version does not know, wherever they stand, change
    nothing; nor do fields of another wire type. *)
Definition known (num : N) (v : wire) : Prop := 1 <= num <= 4 /\ exists b, v = WLen b.
Theorem C56_unknown : forall a c fs gs t num typ v b m,
  wire_message fs a -> wire_message gs c -> tag t num typ -> num < 2 ^ 29 -> value 10001 num typ v b -> ~ known num v ->
  (encodes (a ++ t ++ b ++ c) m <-> encodes (a ++ c) m).
Proof.
  intros a c fs gs t num typ v b m Ha Hc Ht Hn Hv Hk.
  assert (H1 : wire_message (fs ++ gs) (a ++ c)) by (now apply message_app).
  assert (H2 : wire_message (fs ++ (num, v) :: gs) (a ++ t ++ b ++ c)) by (apply message_app; [exact Ha|]; now apply M_field with typ).
  assert (E : forall n, 1 <= n <= 4 -> lens n (fs ++ (num, v) :: gs) = lens n (fs ++ gs)).
  { intros n Hb. rewrite !lens_app. f_equal. change ((num, v) :: gs) with ([(num, v)] ++ gs). rewrite lens_app. unfold lens at 1.
    cbn [flat_map fst snd]. destruct v as [| |p| |]; try reflexivity. destruct (N.eqb_spec num n) as [->|]; [|reflexivity].
    destruct Hk. split; [exact Hb|eauto]. }
  assert (S : recording_says (fs ++ (num, v) :: gs) m <-> recording_says (fs ++ gs) m).
  { unfold recording_says, text_is, map_is, all_are. rewrite !E by lia. tauto. }
  split; intros (hs & Hh & Hm).
  - rewrite (message_unique _ _ _ Hh H2) in Hm. exists (fs ++ gs). split; [exact H1|now apply S].
  - rewrite (message_unique _ _ _ Hh H1) in Hm. exists (fs ++ (num, v) :: gs). split; [exact H2|now apply S].
Qed.
Print Assumptions C56_unknown.

(** Equal messages are converted to the same recording. *)
Lemma same_keys_map : forall f a b out, same_map a b -> same_keys f b out -> same_keys f a out.
Proof. intros f a b out (_ & _ & E) [H1 H2]. split; [exact H1|]. intro k. rewrite E. apply H2. Qed.
Lemma same_nil : forall a b, same_map a b -> a = [] -> b = [].
Proof.
  intros a [|[k v] b] (_ & _ & E) ->; [reflexivity|]. specialize (E k). cbn [assoc] in E. rewrite str_eqb_refl in E. discriminate.
Qed.
Lemma same_map_sym : forall a b, same_map a b -> same_map b a.
Proof. intros a b (H & G & E). repeat split; auto. Qed.
Lemma event_kept_same : forall a b d, same_event a b -> event_kept b d -> event_kept a d.
Proof.
  intros a b d (Et & En & Ec & Em) (H1 & H2 & H3). unfold event_kept. rewrite Et, En. split; [exact H1|]. split; [exact H2|].
  pose proof (same_nil _ _ Em) as N1. pose proof (same_nil _ _ (same_map_sym _ _ Em)) as N2.
  destruct (ve_data a) as [|x l], (ve_data b) as [|y l'].
  - rewrite Ec. exact H3.
  - discriminate (N1 eq_refl).
  - discriminate (N2 eq_refl).
  - eapply same_keys_map; [exact Em|exact H3].
Qed.
Lemma Forall2_comp : forall A B C (P : A -> B -> Prop) (Q : B -> C -> Prop) (R : A -> C -> Prop) l m n,
  (forall a b c, P a b -> Q b c -> R a c) -> Forall2 P l m -> Forall2 Q m n -> Forall2 R l n.
Proof.
  intros A B C P Q R l m n H HP. revert n. induction HP; intros n HQ; inversion HQ; subst; constructor; eauto.
Qed.
Lemma recording_kept_same : forall f a b r, same_message a b -> recording_kept f b r -> recording_kept f a r.
Proof.
  intros f a b r (En & Em & Es & Ee) (events & subs & md & -> & (l & -> & Hl) & Hs & Hmd).
  exists (Some (mkColl (lit "Custom Event") (BEvent l))), subs, md. rewrite En. split; [reflexivity|].
  split; [exists l; split; [reflexivity|]; exact (Forall2_comp _ _ _ _ _ _ _ _ _ event_kept_same Ee Hl)|].
  split; [|exact (same_keys_map _ _ _ _ Em Hmd)].
  refine (Forall2_comp _ _ _ _ _ _ _ _ _ _ Es Hs). clear.
  intros a b o (Hi & Hn & Hm & He & H1 & H2 & H3) (id & pos & rot & life & ev & md & -> & G1 & G2 & G3 & (l & -> & Hl) & G5 & G6).
  exists id, pos, rot, life, (Some (mkColl (lit "Custom Event") (BEvent l))), md. rewrite Hi, Hn, H1, H2, H3.
  split; [reflexivity|]. split; [exact G1|]. split; [exact G2|]. split; [exact G3|].
  split; [exists l; split; [reflexivity|]; exact (Forall2_comp _ _ _ _ _ _ _ _ _ event_kept_same He Hl)|].
  split; [exact G5|exact (same_keys_map _ _ _ _ Hm G6)].
Qed.

Lemma ok3 : forall (a a' : bytes) (b b' : option err) (c c' : list byte), Ok (a, b, c) = Ok (a', b', c') -> a = a' /\ c = c'.
Proof. intros a a' b b' c c' H. inversion H. auto. Qed.
Section Files.
Context (parse_f32 : str -> option f32) (inflate : bytes -> option bytes).
Let v1 := read_v1 parse_f32 inflate proto_unmarshal.
(** C56: a version 1 file whose payload inflates to any encoding of a message
    opens as the recording of that message; if it inflates to anything else,
    opening it is an error. *)
Theorem C56_file : forall reg IZ payload rest d, payload <> [] -> lenN payload <= 2 ^ 48 -> inflate payload = Some d ->
  (forall m, encodes d m -> exists r,
     read reg v1 IZ flat (x01 :: v1_frame payload ++ rest) = Ok (Some r, 13 + lenN payload, None, inl rest) /\
     recording_kept parse_f32 m r) /\
  ((forall m, ~ encodes d m) -> forall r n e t,
     read reg v1 IZ flat (x01 :: v1_frame payload ++ rest) <> Ok (Some r, n, e, t)).
Proof.
  intros reg IZ payload rest d Hp Hl Ei. split.
  - intros m Hm. destruct (proj2 (C56_reads d) m Hm) as (m' & E & Hs). exists (v1_to_std parse_f32 m').
    split; [now apply C38_in_memory with d|]. eapply recording_kept_same; [exact Hs|]. apply C34_import.
    destruct (proj1 (C56_reads d) m' E) as (fs & _ & Hm'). exact (says_wf _ _ Hm').
  - intros Hn r n e t H.
    destruct (proto_unmarshal d) as [m|] eqn:E; [exact (Hn m (proj1 (C56_reads d) m E))|].
    apply (C38_accepts _ _ _ _ _ _ _ _ (v1_frame payload ++ rest)) in H; [|reflexivity].
    destruct H as (c & s1 & s2 & s3 & d' & m & E4 & E8 & Ec & Lc & Ei' & Eu & _).
    assert (E4' : rread flat 4 (v1_frame payload ++ rest) = Ok (bs [1; 0; 0; 0], None, le_bytes 8 (Z.of_N (lenN payload)) ++ payload ++ rest)).
    { unfold v1_frame. rewrite <- !app_assoc. apply (flat_read (bs [1; 0; 0; 0])). left. discriminate. }
    assert (Es1 : s1 = le_bytes 8 (Z.of_N (lenN payload)) ++ payload ++ rest) by (exact (eq_sym (proj2 (ok3 _ _ _ _ _ _ (eq_trans (eq_sym E4') E4))))). subst s1. clear E4 E4'.
    assert (E8' : rread flat 8 (le_bytes 8 (Z.of_N (lenN payload)) ++ payload ++ rest) = Ok (le_bytes 8 (Z.of_N (lenN payload)), None, payload ++ rest)).
    { apply (flat_read (le_bytes 8 (Z.of_N (lenN payload)))). left. discriminate. }
    assert (El : le_bytes 8 (Z.of_N (lenN payload)) = le_bytes 8 (Z.of_N (lenN c))) by (exact (proj1 (ok3 _ _ _ _ _ _ (eq_trans (eq_sym E8') E8)))).
    assert (Es : s2 = payload ++ rest) by (exact (eq_sym (proj2 (ok3 _ _ _ _ _ _ (eq_trans (eq_sym E8') E8))))). subst s2. clear E8 E8'.
    apply (f_equal le_val) in El. rewrite !ByteFacts.le_val_bytes in El. change (256 ^ Z.of_nat 8)%Z with (2 ^ 64)%Z in El.
    change (2 ^ 48) with 281474976710656 in *. rewrite !Z.mod_small in El by lia.
    assert (Elen : lenN c = lenN payload) by lia. rewrite Elen in Ec. 
    assert (c = payload) by (exact (eq_sym (proj1 (ok3 _ _ _ _ _ _ (eq_trans (eq_sym (flat_read payload rest (or_introl Hp))) Ec))))). subst c. rewrite Ei in Ei'. injection Ei' as <-. congruence.
Qed.
(** C56: with this decoder the theorems about whatever opens need no assumption
    on messages. *)
Theorem C56_opened : forall reg IZ d r, Forall library reg -> inflation_ends IZ -> opened reg v1 IZ d r ->
  wf_but_colls r /\ (kinds (taken reg) r \/ kinds old_kind r) /\
  (~ coll_missing r ->
     (forall opts, exists r', slice opts r = Ok r') /\ (forall opts, exists b, validate opts r = Ok b) /\
     (exists x y z, rec_start r = Ok x /\ rec_end r = Ok y /\ rec_duration r = Ok z) /\
     (forall fmt2 size, exists t, print_summary fmt2 r size = Ok t) /\
     (forall quote num64 num32 time_text, exists t e, to_json quote num64 num32 time_text 0 r = Ok (t, e))).
Proof.
  assert (W : forall x m, proto_unmarshal x = Some m -> v1_wf m).
  { intros x m E. destruct (proj1 (C56_reads x) m E) as (fs & _ & Hm). exact (says_wf _ _ Hm). }
  intros reg IZ d r Hreg Hends Ho. split; [exact (C53_shape reg IZ parse_f32 inflate proto_unmarshal d r Hreg Hends W Ho)|].
  split; [exact (C53_kinds reg IZ parse_f32 inflate proto_unmarshal d r Hreg Hends Ho)|]. intro Hm.
  destruct (C55_tools reg IZ parse_f32 inflate proto_unmarshal Hreg Hends W d r Ho Hm) as (H1 & H2 & H3 & H4 & H5 & _). auto.
Qed.
End Files.
Print Assumptions C56_file.
Print Assumptions C56_opened.

(** The message of C34's example in its usual encoding. *)
Example C56_example_written : v1_wf old_demo /\ utf8_message old_demo /\ lenN (put_recording old_demo) < 2 ^ 64 /\
  option_map put_recording (proto_unmarshal (put_recording old_demo)) = Some (put_recording old_demo).
Proof.
  assert (U : forall s, utf8_from 0 s = true -> valid_utf8 s) by (intros s H; now apply utf8_iff).
  split; [exact old_demo_wf|]. split.
  - unfold utf8_message, utf8_subject, utf8_event, utf8_map, old_demo.
    cbn [vr_name vr_md vr_subjects vr_events vs_name vs_md vs_events ve_name ve_contents ve_data].
    repeat first [apply conj | apply Forall_cons | apply Forall_nil]; apply U; vm_compute; reflexivity.
  - split; vm_compute; reflexivity.
Qed.
(** Another encoding of the same message: first a name that is overridden, an
    unknown varint, a group with a member, 8 and 4 byte values, the number of a
    known field with another wire type, and a length with a redundant byte. *)
Definition odd_prefix : bytes :=
  put_len 1 (lit "young") ++ bs [80; 1] ++ bs [91; 8; 5; 92] ++ bs [97; 1; 2; 3; 4; 5; 6; 7; 8] ++ bs [109; 1; 2; 3; 4] ++ bs [8; 9] ++
  bs [10; 131; 0] ++ lit "old".
Example C56_example_odd :
  option_map put_recording (proto_unmarshal (odd_prefix ++ put_recording old_demo)) = Some (put_recording old_demo) /\
  option_map vr_name (proto_unmarshal odd_prefix) = Some (lit "old").
Proof. vm_compute. split; reflexivity. Qed.
(** A text that is not UTF-8, a number that ends in the middle, an end of a group
    that was not begun and field 0 are errors. *)
Example C56_example_errors :
  map proto_unmarshal [put_len 1 (bs [255]); bs [8; 128]; bs [12]; bs [0; 0]; bs [10; 5; 65]] = [None; None; None; None; None].
Proof. vm_compute. reflexivity. Qed.
(** The hypotheses of [C56_unknown] for field 10 with the value 1. *)
Example C56_example_unknown : wire_message [] [] /\ tag (bs [80]) 10 0 /\ value 10001 10 0 (WVar 1) (bs [1]) /\ ~ known 10 (WVar 1) /\
  proto_unmarshal (bs [80; 1]) = proto_unmarshal [].
Proof.
  assert (V : forall b n, consume_varint 10 b = Some (n, []) -> varint b n).
  { intros b n H. apply varint_iff in H. destruct H as (p & -> & Hp). now rewrite app_nil_r. }
  split; [constructor|]. split; [split; [lia|]; split; [lia|]; apply V; vm_compute; reflexivity|].
  split; [constructor; apply V; vm_compute; reflexivity|]. split; [|reflexivity]. intros [H _]. lia.
Qed.
(** A file with this payload, stored without compression. *)
Example C56_example_file : exists r,
  read [] (read_v1 toy_f32 (fun b => Some b) proto_unmarshal) toy_iz flat (x01 :: v1_frame (put_recording old_demo) ++ lit "tail")
    = Ok (Some r, 13 + lenN (put_recording old_demo), None, inl (lit "tail")) /\ recording_kept toy_f32 old_demo r.
Proof.
  destruct C56_example_written as (H1 & H2 & H3 & _).
  apply (C56_file toy_f32 (fun b => Some b) [] toy_iz (put_recording old_demo) (lit "tail") (put_recording old_demo)).
  - vm_compute. discriminate.
  - vm_compute. discriminate.
  - reflexivity.
  - now apply C56_written.
Qed.
