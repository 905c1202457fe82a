(** Properties C04 (arbitrary bytes), C25, C26, C27 and C39: reading files
    that are truncated, damaged or not made by Write at all. *)
From Coq Require Import ZArith Lia Permutation.
From Verif Require Import Base BaseFacts IO Spec IOFacts Floats ByteFacts BinaryIO BinaryIOFacts.
From Verif Require Import Metadata SpecMeta MetadataFacts Recording SpecRec RecordingFacts Encoding SpecEnc.
From Verif Require Import EncEvent EncEnum EncPosition EncEuler EncFloat EncTableFacts StreamFacts TimeIO TimeFacts.
From Verif Require Import Writer Reader SpecFile WriterFacts KeyFacts PlanFacts ReaderFacts FileFacts BuiltinFacts Toy Demo.
From Verif Require Import SafeFacts TruncFacts SchedFacts QuietFacts CalmFacts PropFile.
Local Open Scope N_scope.

(** ** C04, for any bytes at all: two transports that deliver the same bytes,
    in whatever pieces, give the same recording, the same count and the same
    error, or both make Read panic.  (Version 1 files are read by a single
    call of Read; see PropV1.v.) *)
Theorem C04_any_bytes : forall reg v1 IZ, Forall ends reg -> inflation_ends IZ -> inflation_uniform IZ ->
  forall S1 S2 (R1 : Reader S1) (R2 : Reader S2) I1 I2, delivers R1 false I1 -> delivers R2 false I2 ->
  forall s1 s2 d, I1 s1 d -> I2 s2 d -> (forall d', d <> x01 :: d') ->
  (read reg v1 IZ R1 s1 = Panic /\ read reg v1 IZ R2 s2 = Panic) \/
  exists result t1 t2, read reg v1 IZ R1 s1 = Ok (result, t1) /\ read reg v1 IZ R2 s2 = Ok (result, t2).
Proof. exact read_schedule. Qed.
Print Assumptions C04_any_bytes.

Lemma builtin_ends : forall tp te tf e, builtin tp te tf e -> ends e.
Proof.
  intros tp te tf e [ -> |[ -> |[ -> |[ -> | -> ]]]];
    auto using event_ends, enum_ends, pos_ends, euler_ends, float_ends.
Qed.
Lemma raw_ends : forall b, Forall ends (w_encs (raw_config b)).
Proof.
  intro b. destruct (raw_valid b) as (_ & _ & _ & _ & H & _).
  rewrite Forall_forall in *. intros e He. eapply builtin_ends; eauto.
Qed.

(** A small file, and a damaged copy: the technique byte (offset 44) of its only
    stream is unknown. *)
Definition small : recording :=
  mkRec (bs [99]) (bs [100]) [Some (mkColl (bs [80]) (BPos [(d_one, mkVec d_one d_three d_one)]))] [] [] [] [].
Definition small_file (technique encoder : N) : bytes :=
  bs ([2; 1; 17; 114; 101; 99; 111; 108; 117; 100; 101; 46; 112; 111; 115;
       105; 116; 105; 111; 110; 0; 0; 0; 0; 1; 99; 1; 100; 0; 1; encoder; 1; 80;
       0; 1; 0; 0; 0; 0; 0; 0; 240; 63; 25; technique; 0; 0; 0; 0; 0; 0; 240; 63; 0;
       0; 0; 0; 0; 0; 8; 64; 0; 0; 0; 0; 0; 0; 240; 63; 0; 0; 0]).
Example small_file_written :
  match write_views (raw_config false) toy_z buffer small small small [] with
  | Ok (_, None, f) => map b2n f = map b2n (small_file 0 0) | _ => False end.
Proof. vm_compute. reflexivity. Qed.

(** the damaged file, all at once and one byte at a time *)
Example C04_any_bytes_example :
  exists result t1 t2,
    read (w_encs (raw_config false)) no_v1 toy_iz flat (small_file 9 0) = Ok (result, t1) /\
    read (w_encs (raw_config false)) no_v1 toy_iz (chunked false) (bytewise (small_file 9 0)) = Ok (result, t2).
Proof.
  destruct (C04_any_bytes (w_encs (raw_config false)) no_v1 toy_iz (raw_ends false) toy_ends toy_uniform
    _ _ flat (chunked false) _ _ (flat_delivers false) (chunked_delivers false)
    (small_file 9 0) (bytewise (small_file 9 0)) (small_file 9 0) eq_refl (bytewise_ok _)) as [[E _]|H]; [|exfalso |exact H].
  - discriminate.
  - assert (E' : match read (w_encs (raw_config false)) no_v1 toy_iz flat (small_file 9 0) with Panic => 1 | _ => 0 end = 0)
      by (vm_compute; reflexivity).
    rewrite E in E'. discriminate.
Qed.

(** ** C27 *)
Theorem C27_read_ends : forall tp te tf reg (v1 : v1_reader) IZ S (R : Reader S) eager (I : S -> bytes -> Prop) s d,
  Forall (builtin tp te tf) reg -> (forall s d, I s d -> v1 S R s <> Stuck) -> inflation_ends IZ ->
  delivers R eager I -> I s d ->
  (exists rec n e s', read reg v1 IZ R s = Ok (rec, n, e, s')) \/ read reg v1 IZ R s = Panic.
Proof.
  intros tp te tf reg v1 IZ S R eager I s d Hreg Hv1 HIZ HR HI.
  assert (He : Forall ends reg).
  { rewrite Forall_forall in *. intros e He. eapply builtin_ends; eauto. }
  pose proof (read_ends reg v1 IZ S R eager I s d He Hv1 HIZ HR HI) as H.
  destruct (read reg v1 IZ R s) as [[[[rec n] e] s']| |]; [left; eauto | now right | congruence].
Qed.
Print Assumptions C27_read_ends.
Example C27_example : forall d : bytes,
  (exists rec n e s', read (w_encs (raw_config false)) no_v1 toy_iz (chunked true) (bytewise d) = Ok (rec, n, e, s')) \/
  read (w_encs (raw_config false)) no_v1 toy_iz (chunked true) (bytewise d) = Panic.
Proof.
  intro d. destruct (raw_valid false) as (_ & _ & _ & _ & H & _).
  eapply C27_read_ends; [exact H | intros; discriminate | apply toy_ends | apply (chunked_delivers true) | apply (bytewise_ok d)].
Qed.
(** Hostile bytes can make it panic: here a stream refers to an encoder that the
    file does not list. *)
Theorem C27_no_panic_refuted :
  exists d, read (w_encs (raw_config false)) no_v1 toy_iz flat d = Panic.
Proof. exists (small_file 0 1). vm_compute. reflexivity. Qed.
Print Assumptions C27_no_panic_refuted.

(** ** C39 *)
Lemma rec_rel_no_nil : forall EB RC r r', rec_rel EB RC r r' -> ~ has_nil r'.
Proof.
  intros EB RC r r' H (c & Hin & Hc). revert r H. induction Hin as [c | c' c d Hd Hin IH]; intros r H.
  - inversion H as [? ? colls colls' recs recs' ? ? bins bins' refs refs' H1 H2 _ H3 H4]; subst. cbn in Hc.
    assert (HN : forall A (P : A -> A -> Prop) l l', Forall2 (both P) l l' -> ~ In None l').
    { intros A P l l' HF. induction HF as [|x y l l' (a & b & -> & -> & _) HF IHF]; cbn; [auto|]. intros [E|E]; [discriminate|auto]. }
    destruct Hc as [Hc|[Hc|[Hc|Hc]]]; eapply HN in Hc; eauto.
  - inversion H as [? ? colls colls' recs recs' ? ? bins bins' refs refs' H1 H2 _ H3 H4]; subst. cbn in Hd.
    assert (HN : forall l l', Forall2 (both (rec_rel EB RC)) l l' -> In (Some d) l' -> exists x, rec_rel EB RC x d).
    { intros l l' HF. induction HF as [|x y l l' (a & b & -> & -> & Hab) HF IHF]; cbn; [contradiction|].
      intros [E|E]; [injection E as <-; eauto | auto]. }
    destruct (HN _ _ H2 Hd) as (x & Hx). exact (IH Hc x Hx).
Qed.
Theorem C39_written_files_decode : forall tp te tf cfg Z IZ reg v1 r rA rE,
  valid_config tp te tf cfg -> (w_compress cfg = true -> codec_ok Z IZ) ->
  (forall e, In e (w_encs cfg) -> can_read reg e) ->
  wf_rec r -> ~ unaccepted (w_encs cfg) r -> rec_equiv r rA -> rec_equiv r rE ->
  exists n file, write_views cfg Z buffer rA rE r [] = Ok (n, None, file) /\
    (n <= 2 ^ 40 ->
     forall S (R : Reader S) eager I, delivers R eager I -> forall s rest, I s (file ++ rest) ->
     exists r' s', read reg v1 IZ R s = Ok (Some r', n, None, s') /\ ~ has_nil r').
Proof.
  intros tp te tf cfg Z IZ reg v1 r rA rE (Hp & He & Hf & Ht & Hes & Hs) Hz Hreg Hwf Hacc HA HE.
  destruct (builtin_round_trip tp te tf cfg Z r rA rE reg v1 IZ) as (n & file & Hw & _ & Hr); auto.
  exists n, file. split; [apply (Hw [])|]. intro Hn. destruct (Hr Hn Hz) as (r' & Hrel & Hread).
  intros S R eager I HR s rest HI. destruct (Hread S R eager I HR s rest HI) as (s' & E & _).
  exists r', s'. split; [exact E|]. eapply rec_rel_no_nil; eauto.
Qed.
Print Assumptions C39_written_files_decode.
Example C39_example :
  exists file r' s', write_views (raw_config false) toy_z buffer demoA demoE demo [] = Ok (345, None, file) /\
    read (w_encs (raw_config false)) no_v1 toy_iz flat file = Ok (Some r', 345, None, s') /\ ~ has_nil r'.
Proof.
  destruct (C39_written_files_decode 0 0 0 (raw_config false) toy_z toy_iz (w_encs (raw_config false)) no_v1 demo demoA demoE)
    as (n & file & Hw & Hr); auto using raw_valid, toy_ok, can_read_self, demo_wf, demo_accepted, demoA_equiv, demoE_equiv.
  destruct (C18_example false) as (_ & _ & _ & _ & _ & _ & file' & r0 & Hw' & _).
  rewrite Hw in Hw'. apply ok_inj in Hw'. injection Hw' as -> <-.
  destruct (Hr ltac:(discriminate) _ flat false _ (flat_delivers false) file []) as (r' & s' & E & Hnil).
  { now rewrite app_nil_r. }
  exists file, r', s'. auto.
Qed.
(** For other files a nil error means little: decoding errors are dropped and
    leave a nil collection behind. *)
Theorem C39_nil_error_refuted :
  exists d r n s', read (w_encs (raw_config false)) no_v1 toy_iz flat d = Ok (Some r, n, None, s') /\ has_nil r.
Proof.
  exists (small_file 9 0).
  assert (H : match read (w_encs (raw_config false)) no_v1 toy_iz flat (small_file 9 0) with
              | Ok (Some r, _, None, _) => rec_colls r = [None] | _ => False end) by (vm_compute; reflexivity).
  destruct (read (w_encs (raw_config false)) no_v1 toy_iz flat (small_file 9 0)) as [[[[[r|] n] [e|]] s']| |]; try contradiction.
  exists r, n, s'. split; [reflexivity|]. exists r. split; [constructor|]. rewrite H. cbn. auto.
Qed.
Print Assumptions C39_nil_error_refuted.

(** ** C25 *)
(** Reading the payload from a reader that has only a part of it *)
Lemma payload_part : forall S (R : Reader S) I xs r' payload,
  breaks R I -> Forall ends xs ->
  (forall k, read_payload flat xs k payload = Ok (Some r', k + lenN payload, None, [])) ->
  (forall m hs q t, read_headers flat (length xs) m payload = Ok (hs, q, None, t) -> all_calm xs hs) ->
  forall s d rest k, I s d -> payload = d ++ rest ->
  read_payload R xs k s <> Panic /\
  forall rec m s', read_payload R xs k s = Ok (rec, m, None, s') -> rec = Some r' /\ m = k + lenN payload /\ rest = [].
Proof.
  intros S R I xs r' payload HB Hends Hread Hcalm s d rest k HI Ep.
  assert (HC : cut I (fun s d => s = d) rest s payload) by (exists d; auto). split.
  - eapply (still_payload R flat false I _ rest HB (flat_delivers false) (or_introl eq_refl)); eauto.
  - intros rec m s' E. pose proof (payload_cut R flat false I _ rest HB (flat_delivers false) (or_introl eq_refl) xs k Hends s payload HC) as H.
    rewrite E, Hread in H. destruct H as [H|(s2 & E2 & (d' & _ & Hd'))]; [congruence|].
    apply ok_inj in E2. injection E2 as <- <- <-. symmetry in Hd'. apply app_eq_nil in Hd' as [_ ->]. auto.
Qed.
(** Read on the beginning of a written file *)
Lemma read_part : forall tp te tf cfg Z IZ reg v1 r rA rE,
  valid_config tp te tf cfg ->
  (forall e, In e (w_encs cfg) -> can_read reg e) -> Forall ends reg ->
  wf_rec r -> ~ unaccepted (w_encs cfg) r -> rec_equiv r rA -> rec_equiv r rE ->
  exists n file, write_views cfg Z buffer rA rE r [] = Ok (n, None, file) /\ (exists d, file = x02 :: d) /\
    (n <= 2 ^ 40 -> exists r',
     ((w_compress cfg = true -> codec_ok Z IZ) ->
      forall S (R : Reader S) eager I, delivers R eager I -> forall s, I s file ->
      exists s', read reg v1 IZ R s = Ok (Some r', n, None, s')) /\
     forall part missing, file = part ++ missing -> missing <> [] -> (w_compress cfg = true -> inflation_cut Z IZ) ->
     forall S (R : Reader S) eager I, delivers R eager I -> forall s, I s part ->
     read reg v1 IZ R s <> Panic /\
     forall rec m s', read reg v1 IZ R s = Ok (rec, m, None, s') -> w_compress cfg = true /\ rec = Some r' /\ m = n).
Proof.
  intros tp te tf cfg Z IZ reg v1 r rA rE Hval Hreg Hends Hwf Hacc HA HE.
  destruct (file_open tp te tf cfg Z reg r rA rE) as (n & file & payload & Hw & H2 & Hall); auto.
  pose proof Hval as (Hp & He & Hf & Ht & Hes & Hs).
  destruct (builtin_round_trip tp te tf cfg Z r rA rE reg v1 IZ) as (n2 & file2 & Hw2 & _ & Hr); auto.
  specialize (Hw2 []). rewrite (Hw []) in Hw2. apply ok_inj in Hw2. injection Hw2 as <- <-.
  exists n, file. split; [apply (Hw [])|]. split; [exact H2|]. intro Hn.
  destruct (Hall Hn) as (xs & k & s1 & s2 & r' & E1 & E2 & E3 & En & _ & Hread & Hcalm).
  assert (Hxs : Forall ends xs).
  { rewrite Forall_forall in *. intros x Hx. apply Hends. exact (read_encoders_in _ _ _ _ _ _ _ E2 x Hx). }
  assert (Hflat : forall k, read_payload flat xs k (concat payload) = Ok (Some r', k + lenN (concat payload), None, [])).
  { intro k0. destruct (Hread _ flat false _ (delivers_serves _ _ _ (flat_delivers false)) k0 (concat payload) []) as (s' & E & ->); [now rewrite app_nil_r|exact E]. }
  exists r'. split.
  - intros Hcodec S R eager I HR s HI. destruct Hr as (r2 & _ & Hr2); [exact Hn | exact Hcodec|].
    assert (E : exists s', read reg v1 IZ flat file = Ok (Some r', n, None, s')).
    { unfold read. rewrite E1. cbn [bind]. change (2 =? 1) with false. change (negb (2 =? 2)) with false. cbv iota.
      rewrite E2. cbn [bind]. rewrite E3. cbn [bind hd]. rewrite En. destruct (w_compress cfg).
      - change (b2n x01 =? 1) with true. cbv iota. change (lenN [x01]) with 1.
        destruct (proj2 (Hcodec eq_refl) _ flat false _ (flat_delivers false)) as (J & HJ & Hnew).
        specialize (Hnew (squeeze Z payload) payload []). rewrite app_nil_r in Hnew. specialize (Hnew eq_refl).
        rewrite <- (app_nil_r (concat _)) in Hnew.
        destruct (Hread _ _ _ _ (delivers_serves _ _ _ HJ) (1 + k + 1) _ _ Hnew) as (s4 & -> & _). cbn [bind]. eauto.
      - change (b2n x00 =? 1) with false. cbv iota. change (lenN [x00]) with 1. rewrite Hflat. cbn [bind]. eauto. }
    destruct E as (sf & E). destruct (Hr2 _ flat false _ (flat_delivers false) file []) as (sf2 & E' & _); [now rewrite app_nil_r|].
    rewrite E in E'. apply ok_inj in E'. injection E' as <- _.
    destruct (Hr2 S R eager I HR s []) as (s' & Es & _); [now rewrite app_nil_r|]. eauto.
  - intros part missing Ef Hm Hcut S R eager I HR s HI.
    assert (HC : cut I (fun s d => s = d) missing s file) by (exists part; auto).
    destruct (open_cut R flat false I _ missing (delivers_breaks _ _ _ _ HR) (flat_delivers false) (or_introl eq_refl) reg v1 IZ
      s file _ _ _ _ _ _ _ HC E1 E2 E3) as [(rec & m & e & s' & ->)|[-> |(c1 & (d & HI1 & Ed) & ->)]];
      [split; discriminate | split; discriminate |]. cbn [hd]. change (lenN [if w_compress cfg then x01 else x00]) with 1.
    destruct (w_compress cfg) eqn:Ec.
    + change (b2n x01 =? 1) with true. cbv iota. destruct (Hcut eq_refl S R eager I HR) as (J & HJ & Hnew).
      specialize (Hnew c1 payload d missing HI1 Ed).
      destruct (payload_part _ _ J xs r' (concat payload) HJ Hxs Hflat Hcalm _ _ [] (1 + k + 1) Hnew (eq_sym (app_nil_r _))) as [HP HO].
      destruct (read_payload (iz_read IZ S R) xs (1 + k + 1) (iz_new IZ S c1)) as [[[[rec m] e] s']| |]; cbn [bind]; [|congruence|split; discriminate].
      split; [discriminate|]. intros rec0 m0 s0 E. apply ok_inj in E. injection E as -> -> -> _.
      destruct (HO _ _ _ eq_refl) as (-> & -> & _). auto.
    + change (b2n x00 =? 1) with false. cbv iota.
      destruct (payload_part _ R I xs r' (concat payload) (delivers_breaks _ _ _ _ HR) Hxs Hflat Hcalm c1 d missing (1 + k + 1) HI1 Ed) as [HP HO].
      destruct (read_payload R xs (1 + k + 1) c1) as [[[[rec m] e] s']| |]; cbn [bind]; [|congruence|split; discriminate].
      split; [discriminate|]. intros rec0 m0 s0 E. apply ok_inj in E. injection E as -> -> -> _.
      destruct (HO _ _ _ eq_refl) as (_ & _ & ->). congruence.
Qed.
Theorem C25_truncated : forall tp te tf cfg Z IZ reg v1 r rA rE,
  valid_config tp te tf cfg -> w_compress cfg = false ->
  (forall e, In e (w_encs cfg) -> can_read reg e) -> Forall ends reg ->
  wf_rec r -> ~ unaccepted (w_encs cfg) r -> rec_equiv r rA -> rec_equiv r rE ->
  exists n file, write_views cfg Z buffer rA rE r [] = Ok (n, None, file) /\
    (n <= 2 ^ 40 ->
     forall part missing, file = part ++ missing -> missing <> [] ->
     forall S (R : Reader S) eager I, delivers R eager I -> forall s, I s part ->
     forall rec m s', read reg v1 IZ R s <> Ok (rec, m, None, s')).
Proof.
  intros tp te tf cfg Z IZ reg v1 r rA rE Hval Hc Hreg Hends Hwf Hacc HA HE.
  destruct (read_part tp te tf cfg Z IZ reg v1 r rA rE) as (n & file & Hw & _ & Hr); auto.
  exists n, file. split; [exact Hw|]. intro Hn. destruct (Hr Hn) as (r' & _ & Hp).
  intros part missing Ef Hm S R eager I HR s HI rec m s' E.
  destruct (Hp part missing Ef Hm ltac:(congruence) S R eager I HR s HI) as [_ H]. destruct (H _ _ _ E). congruence.
Qed.
Print Assumptions C25_truncated.
(** And Read neither panics nor runs on: what it returns is an error. *)
Lemma read_skips_v1 : forall reg (v1 v1' : v1_reader) IZ S (R : Reader S) eager I s d,
  delivers R eager I -> I s d -> (forall d', d <> x01 :: d') -> read reg v1 IZ R s = read reg v1' IZ R s.
Proof.
  intros reg v1 v1' IZ S R eager I s d HR HI Hd. unfold read, get_version.
  destruct d as [|b d].
  - destruct (d_eof _ _ _ HR s 1 HI) as (s' & -> & _); [discriminate|]. reflexivity.
  - destruct (d_more _ _ _ HR s (b :: d) 1 HI) as (p & q & e & s' & -> & Epq & Hp & Hl & _ & _); try discriminate.
    cbn [bind]. destruct e; cbn [bind]; [reflexivity|].
    destruct p as [|b' p]; [congruence|]. injection Epq as <- _. cbn [hd].
    destruct (b2n b =? 1) eqn:E; [|reflexivity].
    exfalso. apply (Hd d). f_equal. apply N.eqb_eq in E. apply b2n_inj. exact E.
Qed.
Lemma part_ends : forall reg v1 IZ S (R : Reader S) eager I s part missing d, inflation_ends IZ -> Forall ends reg ->
  delivers R eager I -> I s part -> part ++ missing = x02 :: d -> read reg v1 IZ R s <> Stuck.
Proof.
  intros reg v1 IZ S R eager I s part missing d HIZ Hends HR HI Ef.
  rewrite (read_skips_v1 reg v1 (fun _ _ _ => Panic) IZ S R eager I s part HR HI).
  - eapply read_ends; eauto. discriminate.
  - intros d' ->. discriminate.
Qed.
Theorem C25_error : forall tp te tf cfg Z IZ reg v1 r rA rE,
  valid_config tp te tf cfg -> w_compress cfg = false ->
  (forall e, In e (w_encs cfg) -> can_read reg e) -> Forall ends reg -> inflation_ends IZ ->
  wf_rec r -> ~ unaccepted (w_encs cfg) r -> rec_equiv r rA -> rec_equiv r rE ->
  exists n file, write_views cfg Z buffer rA rE r [] = Ok (n, None, file) /\
    (n <= 2 ^ 40 ->
     forall part missing, file = part ++ missing -> missing <> [] ->
     forall S (R : Reader S) eager I, delivers R eager I -> forall s, I s part ->
     exists rec m e s', read reg v1 IZ R s = Ok (rec, m, Some e, s')).
Proof.
  intros tp te tf cfg Z IZ reg v1 r rA rE Hval Hc Hreg Hends HIZ Hwf Hacc HA HE.
  destruct (read_part tp te tf cfg Z IZ reg v1 r rA rE) as (n & file & Hw & (d & Ed) & Hr); auto.
  exists n, file. split; [exact Hw|]. intro Hn. destruct (Hr Hn) as (r' & _ & Hp).
  intros part missing Ef Hm S R eager I HR s HI.
  destruct (Hp part missing Ef Hm ltac:(congruence) S R eager I HR s HI) as [HP H].
  pose proof (part_ends reg v1 IZ S R eager I s part missing d HIZ Hends HR HI (eq_trans (eq_sym Ef) Ed)) as HS.
  destruct (read reg v1 IZ R s) as [[[[rec m] [e|]] s']| |] eqn:E; try congruence; [eauto|].
  destruct (H _ _ _ eq_refl). congruence.
Qed.
Print Assumptions C25_error.
(** With compression: an error, or exactly what the whole file holds (the last bytes
    of a compressed stream need not be needed).  Never another recording. *)
Theorem C25_compressed : forall tp te tf cfg Z IZ reg v1 r rA rE,
  valid_config tp te tf cfg ->
  (forall e, In e (w_encs cfg) -> can_read reg e) -> Forall ends reg ->
  codec_ok Z IZ -> inflation_cut Z IZ -> inflation_ends IZ ->
  wf_rec r -> ~ unaccepted (w_encs cfg) r -> rec_equiv r rA -> rec_equiv r rE ->
  exists n file, write_views cfg Z buffer rA rE r [] = Ok (n, None, file) /\
    (n <= 2 ^ 40 -> exists whole,
     (forall S (R : Reader S) eager I, delivers R eager I -> forall s, I s file ->
      exists s', read reg v1 IZ R s = Ok (Some whole, n, None, s')) /\
     forall part missing, file = part ++ missing -> missing <> [] ->
     forall S (R : Reader S) eager I, delivers R eager I -> forall s, I s part ->
     exists rec m e s', read reg v1 IZ R s = Ok (rec, m, e, s') /\ (e <> None \/ (rec = Some whole /\ m = n))).
Proof.
  intros tp te tf cfg Z IZ reg v1 r rA rE Hval Hreg Hends HZ Hcut HIZ Hwf Hacc HA HE.
  destruct (read_part tp te tf cfg Z IZ reg v1 r rA rE) as (n & file & Hw & (d & Ed) & Hr); auto.
  exists n, file. split; [exact Hw|]. intro Hn. destruct (Hr Hn) as (r' & Hfull & Hp). exists r'. split; [exact (Hfull (fun _ => HZ))|].
  intros part missing Ef Hm S R eager I HR s HI.
  destruct (Hp part missing Ef Hm (fun _ => Hcut) S R eager I HR s HI) as [HP H].
  pose proof (part_ends reg v1 IZ S R eager I s part missing d HIZ Hends HR HI (eq_trans (eq_sym Ef) Ed)) as HS.
  destruct (read reg v1 IZ R s) as [[[[rec m] e] s']| |] eqn:E; try congruence. exists rec, m, e, s'. split; [reflexivity|].
  destruct e; [left; discriminate|]. right. now destruct (H _ _ _ eq_refl).
Qed.
Print Assumptions C25_compressed.
Lemma small_wf : wf_rec small.
Proof. constructor; try each; auto using built_nil. eexists; split; [reflexivity|]. exact I. Qed.
Lemma small_accepted : forall b, ~ unaccepted (w_encs (raw_config b)) small.
Proof.
  intros b (c & x & Hin & Hx & H). inversion Hin as [| ? ? d Hd]; subst; [|contradiction].
  destruct Hx as [Hx|[]]. injection Hx as <-.
  specialize (H (position_encoder 0)). cbn in H. assert (false = true -> False) by discriminate.
  destruct (H0 (eq_sym (H ltac:(auto)))).
Qed.
Lemma short_part : forall (file : bytes) k m, lenN file = m -> (k < N.to_nat m)%nat -> skipn k file <> [].
Proof. intros file k m El Hk E. apply (f_equal (@length byte)) in E. rewrite skipn_length in E. unfold lenN in El. cbn in E. unfold bytes in *. lia. Qed.
Example C25_example : forall k, (k < 72)%nat ->
  exists file, write_views (raw_config false) toy_z buffer small small small [] = Ok (72, None, file) /\
    exists rec m e s', read (w_encs (raw_config false)) no_v1 toy_iz (chunked true) (bytewise (firstn k file)) = Ok (rec, m, Some e, s').
Proof.
  intros k Hk.
  destruct (C25_error 0 0 0 (raw_config false) toy_z toy_iz (w_encs (raw_config false)) no_v1 small small small)
    as (n & file & Hw & Hr); auto using raw_valid, can_read_self, raw_ends, toy_ends, small_wf, small_accepted, rec_equiv_refl.
  assert (En : n = 72 /\ lenN file = 72).
  { assert (E : match write_views (raw_config false) toy_z buffer small small small [] with
                | Ok (n, _, f) => (n, lenN f) | _ => (0, 0) end = (72, 72)) by (vm_compute; reflexivity).
    rewrite Hw in E. now injection E as -> ->. }
  destruct En as [-> El]. exists file. split; [exact Hw|].
  apply (Hr ltac:(discriminate) (firstn k file) (skipn k file)) with (eager := true) (I := fun cs d => ~ In [] cs /\ d = concat cs);
    auto using chunked_delivers, bytewise_ok; [now rewrite firstn_skipn|].
  apply (short_part file k 72 El). exact Hk.
Qed.
(** Both outcomes happen: without the last byte of the compressed file the recording
    still comes out, without the last two there is an error. *)
Definition outcome {T} (r : res (option recording * N * option err * T)) : N :=
  match r with Ok (Some _, _, None, _) => 0 | Ok (_, _, Some _, _) => 1 | _ => 2 end.
Example C25_compressed_example : exists file whole,
  write_views (raw_config true) toy_z buffer small small small [] = Ok (72, None, file) /\ lenN file = 123 /\
  (forall k, (k < 123)%nat -> exists rec m e s',
     read (w_encs (raw_config true)) no_v1 toy_iz (chunked true) (bytewise (firstn k file)) = Ok (rec, m, e, s') /\
     (e <> None \/ (rec = Some whole /\ m = 72))) /\
  outcome (read (w_encs (raw_config true)) no_v1 toy_iz (chunked true) (bytewise (firstn 122 file))) = 0 /\
  outcome (read (w_encs (raw_config true)) no_v1 toy_iz (chunked true) (bytewise (firstn 121 file))) = 1.
Proof.
  destruct (C25_compressed 0 0 0 (raw_config true) toy_z toy_iz (w_encs (raw_config true)) no_v1 small small small)
    as (n & file & Hw & Hr); auto using raw_valid, can_read_self, raw_ends, toy_ends, toy_ok, toy_cut, small_wf, small_accepted, rec_equiv_refl.
  assert (En : n = 72 /\ lenN file = 123 /\
    outcome (read (w_encs (raw_config true)) no_v1 toy_iz (chunked true) (bytewise (firstn 122 file))) = 0 /\
    outcome (read (w_encs (raw_config true)) no_v1 toy_iz (chunked true) (bytewise (firstn 121 file))) = 1).
  { assert (E : match write_views (raw_config true) toy_z buffer small small small [] with
                | Ok (n, _, f) => (n, lenN f,
                    outcome (read (w_encs (raw_config true)) no_v1 toy_iz (chunked true) (bytewise (firstn 122 f))),
                    outcome (read (w_encs (raw_config true)) no_v1 toy_iz (chunked true) (bytewise (firstn 121 f)))) | _ => (0, 0, 0, 0) end = (72, 123, 0, 1))
      by (vm_compute; reflexivity).
    rewrite Hw in E. injection E as -> -> E1 E2. auto. }
  destruct En as (-> & El & E0 & E1). destruct (Hr ltac:(discriminate)) as (whole & _ & Hp).
  exists file, whole. split; [exact Hw|]. split; [exact El|]. split; [|split; assumption].
  intros k Hk. apply (Hp (firstn k file) (skipn k file)) with (eager := true) (I := fun cs d => ~ In [] cs /\ d = concat cs);
    auto using chunked_delivers, bytewise_ok; [now rewrite firstn_skipn|].
  apply (short_part file k 123 El). exact Hk.
Qed.

(** ** C26 *)
Theorem C26_unknown_version : forall reg v1 IZ S (R : Reader S) eager I, delivers R eager I ->
  forall s b rest, I s (b :: rest) -> b2n b <> 1 -> b2n b <> 2 ->
  exists n e s', read reg v1 IZ R s = Ok (None, n, Some e, s').
Proof.
  intros reg v1 IZ S R eager I HR s b rest HI H1 H2. unfold read, get_version.
  destruct (d_more _ _ _ HR s (b :: rest) 1 HI) as (p & q & e & s' & -> & Epq & Hp & Hl & _ & _); try discriminate.
  cbn [bind]. destruct e; cbn [bind]; [eauto|].
  destruct p as [|b' p]; [congruence|]. injection Epq as <- _. cbn [hd].
  apply N.eqb_neq in H1, H2. rewrite H1, H2. cbn [negb]. eauto.
Qed.
Print Assumptions C26_unknown_version.

Lemma find_encoder_iff : forall reg sig v found,
  (forall f, found = Some f -> e_sig f = sig /\ v <= e_version f) ->
  match find_encoder reg sig v found with
  | inl x => (In x reg \/ found = Some x) /\ e_sig x = sig /\ v <= e_version x /\
             forall y, In y reg -> e_sig y = sig -> v <= e_version y
  | inr _ => (found = None /\ forall y, In y reg -> e_sig y <> sig) \/
             exists y, In y reg /\ e_sig y = sig /\ e_version y < v
  end.
Proof.
  induction reg as [|x reg IH]; intros sig v found Hf; cbn [find_encoder].
  - destruct found as [f|]; [destruct (Hf f eq_refl); cbn; intuition auto | left; cbn; auto].
  - destruct (str_eqb (e_sig x) sig) eqn:Es.
    + apply str_eqb_eq in Es. destruct (N.leb_spec v (e_version x)) as [Hv|Hv].
      * specialize (IH sig v (Some x)). destruct (find_encoder reg sig v (Some x)).
        -- destruct IH as ([H|H] & H1 & H2 & H3); [intros f E; injection E as <-; auto | |];
             repeat split; auto; cbn; auto; try (intros y [<-|Hy]; auto).
           injection H as <-. auto.
        -- right. destruct IH as [[H _]|(y & Hy & H)]; [intros f E; injection E as <-; auto | discriminate|].
           exists y. cbn. auto.
      * right. exists x. cbn. auto.
    + assert (Hx : e_sig x <> sig) by (intro E; apply str_eqb_eq in E; congruence).
      specialize (IH sig v found Hf). destruct (find_encoder reg sig v found).
      * destruct IH as ([H|H] & H1 & H2 & H3); repeat split; auto; cbn; auto; intros y [<-|Hy]; auto; contradiction.
      * destruct IH as [[H H']|(y & Hy & H)]; [left; split; auto; intros y [<-|Hy]; auto | right; exists y; cbn; auto].
Qed.
Lemma find_encoders_iff : forall reg l,
  match find_encoders reg l with
  | inl es => Forall2 (fun w x => In x reg /\ e_sig x = fst w /\ snd w <= e_version x) l es /\ Forall (serves_version reg) l
  | inr _ => ~ Forall (serves_version reg) l
  end.
Proof.
  intros reg. induction l as [|[sig v] l IH]; cbn [find_encoders]; [split; constructor|].
  pose proof (find_encoder_iff reg sig v None ltac:(discriminate)) as H.
  destruct (find_encoder reg sig v None) as [x|].
  - destruct H as ([H|H] & H1 & H2 & H3); [|discriminate]. destruct (find_encoders reg l) as [es|].
    + destruct IH as [IH1 IH2]. split; constructor; auto. split; [exists x; auto | exact H3].
    + intro HF. inversion HF; auto.
  - intro HF. inversion HF as [|? ? [(x & Hx & Es) Hall] _]; subst. cbn in *.
    destruct H as [[_ H]|(y & Hy & Ey & Hv)]; [exact (H x Hx Es)|]. specialize (Hall y Hy Ey). lia.
Qed.

(** [sigs] and [versions] are what the file lists; the flag and everything
    behind it is in [rest]. *)
Theorem C26_encoders_resolved : forall reg v1 IZ S (R : Reader S) eager I, delivers R eager I ->
  forall sigs versions rest s, length versions = length sigs -> Forall (fun v => v < 2 ^ 64) versions ->
  let table := string_array_to_bytes sigs ++ concat (map put_uvarint versions) in
  lenN table <= 2 ^ 40 -> rest <> [] -> I s ([x02] ++ table ++ rest) ->
  (Forall (serves_version reg) (combine sigs versions) ->
   exists s1 es s2, get_version R s = Ok (2, 1, None, s1) /\ read_encoders R reg s1 = Ok (es, lenN table, None, s2) /\ I s2 rest /\
     Forall2 (fun w x => In x reg /\ e_sig x = fst w /\ snd w <= e_version x) (combine sigs versions) es) /\
  (~ Forall (serves_version reg) (combine sigs versions) ->
   exists n e s', read reg v1 IZ R s = Ok (None, n, Some e, s')).
Proof.
  intros reg v1 IZ S R eager I HR sigs versions rest s Hlen Hv table Hsize Hrest HI.
  pose proof (delivers_serves _ _ _ HR) as HS.
  pose proof (find_encoders_iff reg (combine sigs versions)) as HF.
  assert (Hg : exists s1, get_version R s = Ok (2, 1, None, s1) /\ I s1 (table ++ rest)).
  { unfold get_version. destruct (read_byte_raw R eager I HS x02 s (table ++ rest) HI) as (s1 & -> & HI1).
    - right. intro E. apply app_eq_nil in E as [_ E]. now apply Hrest.
    - exists s1. split; [reflexivity | exact HI1]. }
  destruct Hg as (s1 & Eg & HI1). unfold table in HI1. rewrite <- app_assoc in HI1.
  assert (Hm2 : more eager rest) by now right.
  assert (Hm1 : more eager (concat (map put_uvarint versions) ++ rest)).
  { right. intro E. apply app_eq_nil in E as [_ ->]. now apply Hrest. }
  assert (Hl : lenN sigs <= 2 ^ 40 /\ Forall (fun x => lenN x <= 2 ^ 40) sigs).
  { assert (H : lenN (string_array_to_bytes sigs) <= 2 ^ 40) by (unfold table in Hsize; rewrite lenN_app in Hsize; lia).
    destruct (string_array_len sigs) as [H1 H2]. split; [unfold str, bytes in *; lia|].
    eapply Forall_impl; [|exact H2]. cbv beta. intros a Ha. unfold str, bytes in *; lia. }
  destruct Hl as [Hl1 Hl2].
  assert (He : exists s2, I s2 rest /\ read_encoders R reg s1 =
     match find_encoders reg (combine sigs versions) with
     | inl es => Ok (es, lenN table, None, s2) | inr e => Ok ([], lenN table, Some e, s2) end).
  { unfold read_encoders.
    destruct (read_string_array_ok HS sigs) with (s := s1) (rest := concat (map put_uvarint versions) ++ rest) as (a & -> & HIa); auto.
    { eapply N.le_trans; [exact Hl1 | discriminate]. }
    { eapply Forall_impl; [|exact Hl2]. cbv beta. intros x Hx. eapply N.le_lt_trans; [exact Hx | reflexivity]. }
    cbn [bind].
    destruct (read_versions_ok R eager I HS versions (lenN (string_array_to_bytes sigs)) Hv a rest HIa Hm2) as (b & Eb & HIb).
    rewrite <- Hlen, Eb. cbn [bind]. exists b. split; [assumption|]. unfold table. rewrite lenN_app.
    destruct (find_encoders reg (combine sigs versions)); reflexivity. }
  destruct He as (s2 & HI2 & He). split.
  - intro Hok. destruct (find_encoders reg (combine sigs versions)) as [es|]; [|contradiction].
    exists s1, es, s2. repeat split; auto. now destruct HF.
  - intro Hbad. destruct (find_encoders reg (combine sigs versions)) as [es|x]; [now destruct HF|].
    unfold read. rewrite Eg. cbn [bind]. change (2 =? 1) with false. change (2 =? 2) with true. cbv beta iota delta [negb].
    rewrite He. cbn [bind]. eauto.
Qed.
Print Assumptions C26_encoders_resolved.

(** ** Without a version 1 file, an error comes without a recording. *)
Theorem C26_error_no_recording : forall reg v1 IZ S (R : Reader S) eager I, delivers R eager I ->
  forall s d, I s d -> (forall d', d <> x01 :: d') ->
  forall rec n e s', read reg v1 IZ R s = Ok (rec, n, Some e, s') -> rec = None.
Proof.
  intros reg v1 IZ S R eager I HR s d HI Hd rec n e s'.
  rewrite (read_v1_unused reg v1 (fun _ _ _ => Panic) IZ S R eager I HR s d HI Hd).
  assert (HP : forall T (Q : Reader T) es k t a b x t', read_payload Q es k t = Ok (a, b, Some x, t') -> a = None).
  { intros T Q es k t a b x t'. unfold read_payload.
    destruct (read_headers Q (length es) k t) as [[[[hs m] [y|]] t1]| |]; cbn [bind]; try discriminate.
    { intro E. now injection E as <- _ _ _. }
    destruct (read_string_array Q t1) as [[[[ks m'] [y|]] t2]| |]; cbn [bind]; try discriminate.
    { intro E. now injection E as <- _ _ _. }
    destruct (build (build_fuel Q t2) ks es hs Q t2) as [[[[r m''] [y|]] t3]| |]; cbn [bind]; try discriminate.
    intro E. now injection E as <- _ _ _. }
  unfold read.
  destruct (get_version R s) as [[[[v k] [x|]] s1]| |]; cbn [bind]; try discriminate.
  { intro E. now injection E as <- _ _ _. }
  destruct (v =? 1); [discriminate|]. destruct (negb (v =? 2)); [intro E; now injection E as <- _ _ _|].
  destruct (read_encoders R reg s1) as [[[[es m] [x|]] s2]| |]; cbn [bind]; try discriminate.
  { intro E. now injection E as <- _ _ _. }
  destruct (rread R 1 s2) as [[[p [x|]] s3]| |]; cbn [bind]; try discriminate.
  { intro E. now injection E as <- _ _ _. }
  destruct (b2n (hd x00 p) =? 1).
  - match goal with |- bind ?m _ = _ -> _ => destruct m as [[[[a b] x] t]| |] eqn:Ep end; cbn [bind]; try discriminate.
    intro E. apply ok_inj in E. injection E as -> -> -> _. eauto.
  - match goal with |- bind ?m _ = _ -> _ => destruct m as [[[[a b] x] t]| |] eqn:Ep end; cbn [bind]; try discriminate.
    intro E. apply ok_inj in E. injection E as -> -> -> _. eauto.
Qed.
Print Assumptions C26_error_no_recording.

Example C26_example :
  (* version 3 *)
  (exists n e s', read (w_encs (raw_config false)) no_v1 toy_iz flat [x03; x00] = Ok (None, n, Some e, s')) /\
  (* Load does not know the encoder of float streams (load.go) *)
  (exists n e s', read load_encoders no_v1 toy_iz flat
     ([x02] ++ (string_array_to_bytes [e_sig event_encoder; e_sig (float_encoder 0)] ++ concat (map put_uvarint [0; 0])) ++ [x00])
     = Ok (None, n, Some e, s')) /\
  (* a newer position encoder than the registered one *)
  (exists n e s', read load_encoders no_v1 toy_iz flat
     ([x02] ++ (string_array_to_bytes [e_sig (position_encoder 0)] ++ concat (map put_uvarint [7])) ++ [x00])
     = Ok (None, n, Some e, s')) /\
  (* and a table that Load accepts *)
  Forall (serves_version load_encoders) (combine [e_sig event_encoder; e_sig enum_encoder] [0; 0]).
Proof.
  split; [|split; [|split]].
  - apply (C26_unknown_version _ _ _ _ flat false _ (flat_delivers false) _ x03 [x00]); [reflexivity | discriminate | discriminate].
  - apply (C26_encoders_resolved load_encoders no_v1 toy_iz _ flat false _ (flat_delivers false)
      [e_sig event_encoder; e_sig (float_encoder 0)] [0; 0] [x00]);
      try reflexivity; try (repeat constructor; fail); try discriminate.
    intro H. inversion H as [|? ? _ H2]; subst. inversion H2 as [|? ? [(x & Hx & Es) _] _]; subst.
    cbn in Hx. repeat (destruct Hx as [<-|Hx]; [discriminate|]). contradiction.
  - apply (C26_encoders_resolved load_encoders no_v1 toy_iz _ flat false _ (flat_delivers false)
      [e_sig (position_encoder 0)] [7] [x00]);
      try reflexivity; try (repeat constructor; fail); try discriminate.
    intro H. inversion H as [|? ? [_ H1] _]; subst. specialize (H1 (position_encoder 2)).
    apply H1; [cbn; auto | reflexivity|]. reflexivity.
  - constructor; [|constructor; [|constructor]]; (split; [eexists; split; [|reflexivity]; cbn; auto|]);
      intros x _ _; destruct x; cbn; apply N.le_0_l.
Qed.
