(** The decoders on the beginning of what was encoded. *)
From Coq Require Import Lia.
From Verif Require Import Base BaseFacts IO Spec IOFacts Floats ByteFacts BinaryIO BinaryIOFacts.
From Verif Require Import Metadata SpecMeta MetadataFacts Recording SpecRec RecordingFacts Encoding SpecEnc.
From Verif Require Import EncEvent EncEnum EncPosition EncEuler EncFloat EncTableFacts StreamFacts EncEventFacts EncEnumFacts EncNumFacts EncLawful.
From Verif Require Import Reader SpecFile LinkFacts SafeFacts SchedFacts TruncFacts QuietFacts CalmFacts CutFacts.
Local Open Scope N_scope.

Definition ever {S} (s : S) : Prop := True.

(** ** Properties *)
Lemma property_cut : forall p part missing, built p -> write_property p = Ok (part ++ missing) -> missing <> [] ->
  lenN (part ++ missing) <= 2 ^ 44 ->
  forall S (R : Reader S) eager I, delivers R eager I -> forall s, I s part ->
  exists x e s', read_property R s = Ok (x, Some e, s').
Proof.
  intros p part missing Hp Hw Hm Hl S R eager I HR s HI.
  pose proof (flat_delivers false) as HF.
  destruct (read_property_ok (delivers_serves _ _ _ HF) p (part ++ missing) Hp Hw Hl (part ++ missing) []) as (t & Et & Ht);
    [now rewrite app_nil_r | now left |].
  pose proof (property_c R flat false I (fun s d => s = d) missing (delivers_breaks _ _ _ _ HR) HF (or_introl eq_refl) ever
    (fun _ _ _ _ _ => Logic.I) (fun _ _ _ _ _ _ => Logic.I) s (part ++ missing) _ _ _ (ex_intro _ part (conj HI eq_refl)) Et) as H.
  pose proof (read_property_safe R _ (delivers_finite _ _ _ _ HR) (length part) s (length part) (ex_intro _ part (conj HI eq_refl)) (le_n _)) as Hs.
  destruct (read_property R s) as [[[x [e|]] s']| |]; [eauto | | contradiction | contradiction].
  destruct H as (_ & _ & d & _ & E). rewrite Ht in E. symmetry in E. apply app_eq_nil in E as [_ E]. congruence.
Qed.

(** ** Events *)
Notation bcsim m := (csim bufI bufI m (@ever (bytes * bytes))).
Lemma dec_block_c : forall m keys is acc, bcsim m (dec_block keys is acc) (dec_block keys is acc).
Proof.
  intros m keys. pose proof (property_c bufio bufio false bufI bufI m (delivers_breaks _ _ _ _ bufio_delivers) bufio_delivers (or_introl eq_refl) ever
    (fun _ _ _ _ _ => Logic.I) (fun _ _ _ _ _ _ => Logic.I)) as Hp.
  induction is as [|i is IH]; intro acc; cbn [dec_block]; [apply csim_ret|].
  apply csim_bind; [exact Hp | | reflexivity | reflexivity]. intro v. destruct (nthN keys i); [apply IH | apply csim_panic].
Qed.
Lemma dec_block_ends : forall keys is acc s, dec_block keys is acc s <> Stuck.
Proof.
  intros keys is acc. apply safe_bufio. intro N. revert acc. pose proof (read_property_safe _ _ bufio_finite N) as Hp.
  induction is as [|i is IH]; intro acc; cbn [dec_block]; [apply safe_ret|].
  apply safe_bind; [auto|]. intros [p [e|]]; [apply safe_ret|]. destruct (nthN keys i); [apply IH | apply safe_panic].
Qed.
Lemma dec_events_cut : forall NA KA l b, stream_of NA KA l b ->
  Forall (fun x => built_block (snd (snd x))) l ->
  lenN NA <= 2 ^ 44 -> lenN KA <= 2 ^ 44 -> lenN b <= 2 ^ 44 ->
  forall times s part missing, length times = length l -> b = part ++ missing -> missing <> [] -> bufI s part ->
  exists x e, dec_events NA KA times s = Ok (x, Some e).
Proof.
  intros NA KA l b H. induction H as [|t n m l ni is vs rest' Hni Hs Ed H IH];
    intros Hb HN HK Hl times s part missing Ht Eb Hm HI.
  - symmetry in Eb. apply app_eq_nil in Eb as [_ Eb]. congruence.
  - destruct times as [|t' times]; [discriminate|]. cbn [length] in Ht. injection Ht as Ht.
    inversion Hb as [|? ? Hmd Hb']; subst. cbn [snd] in Hmd. apply built_block_iff in Hmd as [Hnd Hmd].
    assert (HB : delivers bufio false bufI) by exact bufio_delivers.
    pose proof (delivers_breaks _ _ _ _ HB) as HBr.
    set (b := put_uvarint ni ++ uvarint_array_to_bytes is ++ vs ++ rest') in *.
    assert (HI0 : bufI (new_bufio b) b) by reflexivity.
    assert (C0 : TruncFacts.cut bufI bufI missing s (new_bufio b)) by (exists part; split; [exact HI | rewrite <- Eb; exact HI0]).
    unfold b in Hl. rewrite !lenN_app in Hl. pose proof (uvarint_array_len is) as Hlis.
    cbn [dec_events].
    destruct (read_uvarint_ok buf_serves ni) with (s := new_bufio b)
      (rest := uvarint_array_to_bytes is ++ vs ++ rest') as (t1 & E1 & HI1); auto with more.
    { apply nthN_some_lt in Hni. eapply N.lt_le_trans; [exact Hni|].
      eapply N.le_trans; [exact HN | discriminate]. }
    pose proof (uvarint_c bufio bufio false bufI bufI missing HBr HB (or_introl eq_refl) ever
      (fun _ _ _ _ _ => Logic.I) _ _ _ _ _ C0 E1) as C1.
    pose proof (safe_bufio _ _ (fun N => read_uvarint_safe _ _ bufio_finite N) s) as Q1.
    destruct (read_uvarint bufio s) as [[[[v1 n1] [e1|]] s1]| |]; cbn [bind]; [eauto| |contradiction|congruence].
    destruct C1 as (V1 & _ & C1). injection V1 as -> ->.
    destruct (read_uvarint_array_ok buf_serves is) with (s := t1) (rest := vs ++ rest')
      as (t2 & E2 & HI2); auto with more.
    { eapply N.le_trans; [exact Hlis|]. eapply N.le_trans with (2 ^ 44); [lia | discriminate]. }
    { clear -Hs HK. induction Hs as [|i kv is m Hi Hs IHs]; constructor; auto.
      apply nthN_some_lt in Hi. eapply N.lt_le_trans; [exact Hi|].
      eapply N.le_trans; [exact HK | discriminate]. }
    pose proof (uvarints_c bufio bufio false bufI bufI missing HBr HB (or_introl eq_refl) ever
      (fun _ _ _ _ _ => Logic.I) _ _ _ _ _ C1 E2) as C2.
    pose proof (safe_bufio _ _ (fun N => eats_safe _ _ _ N _ (read_uvarint_array_eats _ _ bufio_finite)) s1) as Q2.
    destruct (read_uvarint_array bufio s1) as [[[[v2 n2] [e2|]] s2]| |]; cbn [bind]; [eauto| |contradiction|congruence].
    destruct C2 as (V2 & _ & C2). injection V2 as -> ->.
    destruct (dec_block_ok KA is m [] vs Hs Ed) with (s := t2) (rest := rest')
      as (t3 & E3 & HI3); auto with more; [lia|].
    pose proof (dec_block_c missing KA is [] _ _ _ _ _ C2 E3) as C3.
    pose proof (dec_block_ends KA is [] s2) as Q3.
    destruct (dec_block KA is [] s2) as [[[v3 [e3|]] s3]| |]; cbn [bind]; [eauto| |contradiction|congruence].
    destruct C3 as (V3 & _ & d & HIs & HIt). rewrite Hni.
    unfold bufI in HI3, HIt. rewrite <- HI3 in HIt.
    destruct (IH Hb' HN HK ltac:(lia) times s3 d missing Ht (eq_sym HIt) Hm HIs) as (x & e & ->). cbn [bind]. eauto.
Qed.

Lemma flat_over1 : forall s p e s', rread flat 1 s = Ok (p, Some e, s') -> s' = [].
Proof. intros s p e s' E. cbn [rread flat] in E. destruct s; apply ok_inj in E; congruence. Qed.
Lemma flat_over : forall n s p e s', read_full flat n s = Ok (p, Some e, s') -> s' = [].
Proof.
  intros n s p e s'. unfold read_full.
  assert (H : forall f need acc s, read_at_least flat f need acc s = Ok (p, Some e, s') -> s' = []).
  { induction f as [|f IH]; intros need acc s0; cbn [read_at_least]; destruct (N.eqb_spec need 0) as [H0|H0]; try discriminate.
    - cbn [rread flat]. destruct s0 as [|b s0]; cbn [bind].
      + destruct (need - lenN (@nil Coq.Init.Byte.byte) =? 0); [discriminate|]. intro E. destruct (acc ++ []); apply ok_inj in E; congruence.
      + apply IH. }
  apply H.
Qed.
Notation fcsim m := (csim (fun s d : bytes => s = d) (fun s d : bytes => s = d) m (fun s => s = [])).
Lemma flat_strings_c : forall m, fcsim m (read_string_array flat) (read_string_array flat).
Proof.
  intro m. apply (strings_c flat flat false _ _ m (delivers_breaks _ _ _ _ (flat_delivers false)) (flat_delivers false) (or_introl eq_refl)).
  - exact flat_over1.
  - exact flat_over.
Qed.
Lemma no_strings : exists v e, read_string_array flat [] = Ok (v, Some e, []).
Proof. eexists _, _. vm_compute. reflexivity. Qed.
Lemma strings_ends : forall d, read_string_array flat d <> Stuck.
Proof. exact (safe_flat _ _ (fun N => read_string_array_safe _ _ flat_finite N)). Qed.
(** one table, cut *)
Lemma table_cut : forall l rest part missing, lenN (string_array_to_bytes l) <= 2 ^ 44 ->
  string_array_to_bytes l ++ rest = part ++ missing ->
  (exists v e, read_string_array flat part = Ok (v, Some e, [])) \/
  (exists n d, read_string_array flat part = Ok ((l, n), None, d) /\ rest = d ++ missing).
Proof.
  intros l rest part missing Hl E. destruct (flat_array l rest Hl) as [Er _].
  pose proof (flat_strings_c missing part (string_array_to_bytes l ++ rest) _ _ _ (ex_intro _ part (conj eq_refl E)) Er) as H.
  pose proof (strings_ends part) as Hs. destruct (read_string_array flat part) as [[[v [e|]] s]| |]; [| |contradiction|congruence].
  - left. rewrite (H eq_refl). eauto.
  - right. destruct H as (-> & _ & d & -> & Ed). eauto.
Qed.

Lemma event_payload_cut : forall cs h ss, Forall (fun c => wf_coll c /\ e_accepts event_encoder c = true) cs ->
  event_encode cs = Ok (h, ss, None) -> lenN h <= 2 ^ 44 ->
  forall i c part missing, nth_error cs i = Some c -> nth_error ss i = Some (part ++ missing) -> missing <> [] ->
  lenN (part ++ missing) <= 2 ^ 44 -> forall name times, length times = c_length c ->
  exists e, event_decode name h part times = Ok (None, Some e).
Proof.
  intros cs h ss Hcs E Hh i c part missing Hc Hs Hm Hl name times Ht.
  assert (Hall : Forall (fun c => exists l, c_body c = BEvent l /\
            Forall (fun x => built_block (snd (snd x))) l) cs).
  { eapply Forall_impl; [|exact Hcs]. intros c' [H1 H2]. now apply accepts_event. }
  destruct (enc_event_streams_ok cs [] [] (NoDup_nil _) (NoDup_nil _) Hall)
    as (ss' & NA & KA & E' & HN & HK & H2). cbn [app number] in *.
  unfold event_encode in E. rewrite E' in E. cbn [bind] in E. rewrite !tbl_array_number in E. cbn [bind] in E.
  apply ok_inj in E. injection E as <- <-. rewrite lenN_app in Hh.
  destruct (string_array_len NA) as [LN1 LN2]. destruct (string_array_len KA) as [LK1 LK2].
  unfold event_decode, event_header.
  destruct (flat_array NA (string_array_to_bytes KA)) as [E1 _]; [lia|].
  rewrite E1. cbn [bind].
  destruct (flat_array KA []) as [E2 _]; [lia|].
  rewrite app_nil_r in E2. rewrite E2. cbn [bind].
  pose proof (RecordingFacts.Forall2_nth _ _ _ _ _ H2 i c _ Hc Hs) as (l & El & Hso).
  rewrite Forall_forall in Hall. destruct (Hall c) as (l' & El' & Hwl);
    [eapply nth_error_In; eauto|]. rewrite El in El'. injection El' as <-.
  destruct (dec_events_cut NA KA l _ Hso Hwl ltac:(lia) ltac:(lia) Hl times (new_bufio part) part missing) as (x & e & ->); auto.
  - unfold c_length, c_times in Ht. rewrite El, map_length in Ht. assumption.
  - reflexivity.
  - cbn [bind]. eauto.
Qed.
Lemma event_header_cut : forall cs part missing ss, event_encode cs = Ok (part ++ missing, ss, None) -> missing <> [] ->
  lenN (part ++ missing) <= 2 ^ 44 -> forall name data times,
  exists e, event_decode name part data times = Ok (None, Some e).
Proof.
  intros cs part missing ss E Hm Hl name data times. unfold event_encode in E.
  destruct (enc_event_streams cs [] []) as [[[[bs' tn] tk] [e|]]| |]; cbn [bind] in E; try discriminate.
  destruct (tbl_array tn) as [NA| |]; cbn [bind] in E; try discriminate.
  destruct (tbl_array tk) as [KA| |]; cbn [bind] in E; try discriminate.
  apply ok_inj in E. injection E as E _. rewrite <- E, lenN_app in Hl.
  unfold event_decode, event_header.
  destruct (table_cut NA (string_array_to_bytes KA) part missing ltac:(lia) E) as [(v & e & ->)|(n & d & -> & Ed)]; cbn [bind].
  - destruct v as [v m]. cbn [bind]. destruct no_strings as ([w k] & x & ->). cbn [bind]. eauto.
  - rewrite <- (app_nil_r (string_array_to_bytes KA)) in Ed.
    destruct (table_cut KA [] d missing ltac:(lia) Ed) as [([w k] & e & ->)|(n' & d' & _ & Ed')]; cbn [bind]; [eauto|].
    symmetry in Ed'. apply app_eq_nil in Ed' as [_ Ed']. congruence.
Qed.

(** ** Enums and numbers: through an ErrReader *)
Notation flatR := (fun s d : bytes => s = d).
Notation elink m P Q := (linked (er_cut flatR flatR m) er_failed False P Q).
Lemma elink_read : forall m n, elink m (rread (err_reader flat) n) (rread (err_reader flat) n).
Proof. intros m n. apply (er_cut_link flat flat false _ _ m (delivers_breaks _ _ _ _ (flat_delivers false)) (flat_delivers false)). Qed.
Lemma elink_full : forall m n, elink m (read_full (err_reader flat) n) (read_full (err_reader flat) n).
Proof. intros m n. eapply full_tame_link. apply (cut_tame flat flat false _ _ m (delivers_breaks _ _ _ _ (flat_delivers false)) (flat_delivers false)). Qed.
Lemma dec_enums_link : forall m times, elink m (dec_enums times) (dec_enums times).
Proof.
  intros m. pose proof (read_uvarint_link _ _ _ er_failed False (fun _ _ f => f) (elink_read m 1)) as Hu.
  induction times as [|t ts IH]; cbn [dec_enums]; [apply link_ret|].
  apply link_bind; [auto|exact Hu|]. intros [[v n] e]. apply link_bind; [auto|exact IH|]. intro l. apply link_ret.
Qed.
Lemma start_cut : forall part missing, er_cut flatR flatR missing (@new_er bytes part) (@new_er bytes (part ++ missing)).
Proof. intros part missing. repeat split. exists part. auto. Qed.
(** all of the whole is read, so part of it does not do *)
Lemma all_read : forall A (P1 : er bytes -> res (A * er bytes)) (v w : A) part missing s1 s2 k, elink missing P1 P1 -> missing <> [] ->
  P1 (@new_er bytes part) = Ok (v, s1) -> P1 (@new_er bytes (part ++ missing)) = Ok (w, s2) -> flatI k s2 [] -> er_err s1 <> None.
Proof.
  intros A P1 v w part missing s1 s2 k [HL _] Hm E1 E2 HI. specialize (HL _ _ (start_cut part missing)). rewrite E1, E2 in HL. cbn in HL.
  destruct HL as [H|(t & E & _ & _ & _ & d & _ & Hd)]; [exact H|]. apply ok_inj in E. injection E as _ <-.
  destruct HI as (_ & HI & _). rewrite HI in Hd. symmetry in Hd. apply app_eq_nil in Hd as [_ Hd]. congruence.
Qed.

Lemma uvarints_empty : forall S (R : Reader S) s v n e s', read_uvarint_array R s = Ok ((v, n), Some e, s') -> v = [].
Proof.
  intros S R s v n e s' E. unfold read_uvarint_array in E.
  destruct (read_uvarint R s) as [[[[x m] [y|]] t]| |]; cbn [bind] in E; try discriminate; [apply ok_inj in E; congruence|].
  unfold go_make in E. destruct (make_ok 8 x); [|discriminate]. revert m t E.
  induction (N.to_nat x) as [|k IH]; intros m t E; cbn [read_uvarints] in E; [discriminate|].
  destruct (read_uvarint R t) as [[[[x' m'] [y|]] t']| |]; cbn [bind] in E; try discriminate; [apply ok_inj in E; congruence|].
  destruct (read_uvarints R k (m + m') t') as [[[[xs q] [y|]] t'']| |]; cbn [bind] in E; try discriminate. apply ok_inj in E. congruence.
Qed.
Lemma dec_enums_ends : forall times s, dec_enums times s <> Stuck.
Proof.
  intro times. apply safe_er. intro N. pose proof (read_uvarint_safe _ _ er_flat N).
  induction times as [|t0 ts0 IH]; cbn [dec_enums]; [apply safe_ret|].
  apply safe_bind; [auto|]. intros [[? ?] ?]. apply safe_bind; [auto|]. intro. apply safe_ret.
Qed.
(** the indices and the values of a stream *)
Definition enum_parts (times : list f64) (s : er bytes) : res (list N * list (f64 * Z) * er bytes) :=
  do (r2, s1) <- read_uvarint_array (err_reader flat) s;
  let '(is, _, _) := r2 in
  do (l, s2) <- dec_enums times s1; Ok ((is, l), s2).
Lemma enum_parts_link : forall m times, elink m (enum_parts times) (enum_parts times).
Proof.
  intros m times. unfold enum_parts.
  apply link_bind; [auto| |].
  - apply (read_uvarint_array_link _ _ _ er_failed False (fun _ _ f => f) (elink_read m 1)).
  - intros [[is n] e]. apply link_bind; [auto|apply dec_enums_link|]. intro l. apply link_ret.
Qed.
Lemma enum_payload_cut : forall cs h ss, Forall (fun c => wf_coll c /\ e_accepts enum_encoder c = true) cs ->
  enum_encode cs = Ok (h, ss, None) -> lenN h <= 2 ^ 44 ->
  forall i c part missing, nth_error cs i = Some c -> nth_error ss i = Some (part ++ missing) -> missing <> [] ->
  lenN (part ++ missing) <= 2 ^ 44 -> forall name times, length times = c_length c ->
  exists x e, enum_decode name h part times = Ok (x, Some e).
Proof.
  intros cs h ss Hcs E Hh i c part missing Hc Hs Hm Hl name times Ht.
  assert (Hall : Forall (fun c => exists ms l, c_body c = BEnum ms l) cs).
  { eapply Forall_impl; [|exact Hcs]. intros c' [H1 H2].
    destruct (accepts_enum c' H1 H2) as (ms & l & H & _). eauto. }
  destruct (enc_enum_streams_ok cs [] (NoDup_nil _) Hall) as (ss' & K & E' & HK & H2).
  cbn [app number] in *.
  unfold enum_encode in E. rewrite E' in E. cbn [bind] in E. rewrite !tbl_array_number in E. cbn [bind] in E.
  apply ok_inj in E. injection E as <- <-.
  unfold enum_decode.
  destruct (flat_array K []) as [E1 HlK]; [lia|]. rewrite app_nil_r in E1. rewrite E1. cbn [bind].
  set (b := part ++ missing) in *.
  pose proof (RecordingFacts.Forall2_nth _ _ _ _ _ H2 i c b Hc Hs) as (ms & l & is & El & Hp & Eb).
  assert (Hv : Forall (fun x => (- 2 ^ 63 <= snd x < 2 ^ 63)%Z) l).
  { rewrite Forall_forall in Hcs. destruct (Hcs c) as [Hw Ha]; [eapply nth_error_In; eauto|].
    unfold wf_coll in Hw. now rewrite El in Hw. }
  pose proof (new_er_inv (fun s d : bytes => s = d) b b eq_refl) as HI.
  pose proof (er_serves flat false (fun s d => s = d) (lenN b)
    (delivers_serves _ _ _ (flat_delivers false))) as HR.
  assert (Hb' : b = uvarint_array_to_bytes is ++
    flat_map (fun c : f64 * Z => put_uvarint (u64_of_int (snd c))) l ++ []).
  { rewrite app_nil_r. exact Eb. }
  assert (Hlis : lenN is <= 2 ^ 45).
  { pose proof (uvarint_array_len is). rewrite Eb in Hl. unfold enum_bytes in Hl.
    rewrite lenN_app in Hl. eapply N.le_trans with (2 ^ 44); [lia | discriminate]. }
  assert (Hlt : Forall (fun x => x < 2 ^ 64) is).
  { clear -Hp HlK. induction Hp as [|i m is ms Hi Hs IHs]; constructor; auto.
    apply nthN_some_lt in Hi. eapply N.lt_le_trans; [exact Hi|].
    eapply N.le_trans; [exact HlK | discriminate]. }
  rewrite Hb' in HI at 3.
  destruct (read_uvarint_array_ok HR is Hlis Hlt _ _ HI) as (s1 & W1 & HI1); auto with more.
  destruct (dec_enums_ok (lenN b) l times Hv) with (s := s1) (rest := @nil Coq.Init.Byte.byte)
    as (s2 & W2 & HI2); auto with more.
  { unfold c_length, c_times in Ht. rewrite El, map_length in Ht. assumption. }
  assert (W : enum_parts times (@new_er bytes b) = Ok ((is, combine times (map snd l)), s2)).
  { unfold enum_parts. rewrite W1. cbn [bind]. rewrite W2. reflexivity. }
  (* the cut run *)
  pose proof (cut_tame flat flat false _ _ missing (delivers_breaks _ _ _ _ (flat_delivers false)) (flat_delivers false)) as HT.
  pose proof (uvarints_quiet _ _ _ _ HT _ _ _ _ (start_cut part missing) W1) as Q1.
  pose proof (proj1 (read_uvarint_array_link _ _ _ er_failed False (fun _ _ f => f) (elink_read missing 1)) _ _ (start_cut part missing)) as L1.
  unfold b in W1. rewrite W1 in L1.
  pose proof (safe_er _ _ (fun N => eats_safe _ _ _ N _ (read_uvarint_array_eats _ _ er_flat)) (new_er part)) as S1.
  pose proof (fun v w s1 => all_read _ (enum_parts times) v w part missing s1 s2 (lenN b) (enum_parts_link missing times) Hm) as HA.
  unfold enum_parts at 1 in HA.
  change (@new_er (list Coq.Init.Byte.byte) part) with (@new_er bytes part) in *.
  set (U := read_uvarint_array (err_reader flat) (@new_er bytes part)) in *.
  destruct U as [[[[is1 n1] x1] t1]| |] eqn:U1; [|contradiction|congruence].
  cbn [bind] in HA |- *.
  assert (P1 : exists m, pick K is1 = Ok m).
  { cbn in L1. destruct L1 as [Hd|(t & Et & _)].
    - specialize (Q1 Hd). destruct x1 as [x1|]; [|now destruct Q1].
      apply uvarints_empty in U1. subst. cbn [pick]. eauto.
    - apply ok_inj in Et. apply (f_equal (fun q => fst (fst (fst q)))) in Et. cbn [fst] in Et. rewrite <- Et, (pick_ok _ _ _ Hp). eauto. }
  destruct P1 as (m & ->). cbn [bind].
  pose proof (dec_enums_ends times t1) as D1. pose proof (dec_enums_no_panic times t1) as D2.
  destruct (dec_enums times t1) as [[l1 t2]| |]; [|congruence|congruence]. cbn [bind] in HA |- *.
  specialize (HA _ _ _ eq_refl W HI2). destruct (er_err t2) as [e|]; [eauto|congruence].
Qed.

Lemma enum_header_cut : forall cs part missing ss, enum_encode cs = Ok (part ++ missing, ss, None) -> missing <> [] ->
  lenN (part ++ missing) <= 2 ^ 44 -> forall name data times,
  exists e, enum_decode name part data times = Ok (None, Some e).
Proof.
  intros cs part missing ss E Hm Hl name data times. unfold enum_encode in E.
  destruct (enc_enum_streams cs []) as [[bs' tn]| |]; cbn [bind] in E; try discriminate.
  destruct (tbl_array tn) as [NA| |]; cbn [bind] in E; try discriminate.
  apply ok_inj in E. injection E as E _. rewrite <- E in Hl. rewrite <- (app_nil_r (string_array_to_bytes NA)) in E.
  unfold enum_decode.
  destruct (table_cut NA [] part missing Hl E) as [([w k] & e & ->)|(n' & d' & _ & Ed')]; cbn [bind]; [eauto|].
  symmetry in Ed'. apply app_eq_nil in Ed' as [_ Ed']. congruence.
Qed.

Lemma float64_link : forall m times v, elink m (float_decode64 times v) (float_decode64 times v).
Proof.
  intros m. pose proof (rd64_link _ _ _ er_failed False (fun _ _ f => f) (elink_full m)) as Hu.
  induction times as [|t ts IH]; intro v; cbn [float_decode64]; [apply link_ret|].
  apply link_bind; [auto|apply Hu|]. intros [w e]. apply link_bind; [auto|apply IH|]. intro l. apply link_ret.
Qed.
Lemma float32_link : forall m times v, elink m (float_decode32 times v) (float_decode32 times v).
Proof.
  intros m. pose proof (rd32_link _ _ _ er_failed False (fun _ _ f => f) (elink_full m)) as Hu.
  induction times as [|t ts IH]; intro v; cbn [float_decode32]; [apply link_ret|].
  apply link_bind; [auto|apply Hu|]. intros [w e]. apply link_bind; [auto|apply IH|]. intro l. apply link_ret.
Qed.
Lemma float16_link : forall m times a b buf, elink m (float_decode16 times a b buf) (float_decode16 times a b buf).
Proof.
  intros m. induction times as [|t ts IH]; intros a b buf; cbn [float_decode16]; [apply link_ret|].
  apply link_bind; [auto|apply elink_read|]. intros [w e]. apply link_bind; [auto|apply IH|]. intro l. apply link_ret.
Qed.
Lemma floatbst_link : forall m times, elink m (float_decode_bst times) (float_decode_bst times).
Proof.
  intros m times. pose proof (rd32_link _ _ _ er_failed False (fun _ _ f => f) (elink_full m)) as Hu. unfold float_decode_bst.
  apply link_bind; [auto|apply Hu|]. intro r1. apply link_bind; [auto|apply Hu|]. intro r2. apply float16_link.
Qed.
(** the numeric decoders never panic *)
Lemma er_read_calm : forall n s, n <> 0 -> rread (err_reader flat) n s <> Panic.
Proof.
  intros n [d [x|] k] Hn; cbn [rread err_reader er_err]; [discriminate|]. cbn [er_in].
  pose proof (full_no_panic flat _ (delivers_breaks _ _ _ _ (flat_delivers false)) n d d eq_refl) as H.
  destruct (read_full flat n d) as [[[p x] t]| |]; cbn [bind]; congruence.
Qed.
Lemma er_full_calm : forall n s, read_full (err_reader flat) n s <> Panic.
Proof.
  intros n s. exact (full_panic (err_reader flat) _ er_flat n (length (er_in s)) s eq_refl).
Qed.
Lemma rd64_calm : forall v s, rd64 (err_reader flat) v s <> Panic.
Proof.
  intros v s. unfold rd64, binary_read. pose proof (er_full_calm 8 s) as H.
  destruct (read_full (err_reader flat) 8 s) as [[[p [e|]] t]| |]; cbn [bind]; congruence.
Qed.
Lemma rd32_calm : forall v s, rd32 (err_reader flat) v s <> Panic.
Proof.
  intros v s. unfold rd32, binary_read. pose proof (er_full_calm 4 s) as H.
  destruct (read_full (err_reader flat) 4 s) as [[[p [e|]] t]| |]; cbn [bind]; congruence.
Qed.
Lemma float64_calm : forall times v s, float_decode64 times v s <> Panic.
Proof.
  induction times as [|t ts IH]; intros v s; cbn [float_decode64]; [discriminate|].
  pose proof (rd64_calm v s). destruct (rd64 (err_reader flat) v s) as [[[w e] s1]| |]; cbn [bind]; try congruence.
  specialize (IH w s1). destruct (float_decode64 ts w s1) as [[l s2]| |]; cbn [bind]; congruence.
Qed.
Lemma float32_calm : forall times v s, float_decode32 times v s <> Panic.
Proof.
  induction times as [|t ts IH]; intros v s; cbn [float_decode32]; [discriminate|].
  pose proof (rd32_calm v s). destruct (rd32 (err_reader flat) v s) as [[[w e] s1]| |]; cbn [bind]; try congruence.
  specialize (IH w s1). destruct (float_decode32 ts w s1) as [[l s2]| |]; cbn [bind]; congruence.
Qed.
Lemma float16_calm : forall times a b buf s, float_decode16 times a b buf s <> Panic.
Proof.
  induction times as [|t ts IH]; intros a b buf s; cbn [float_decode16]; [discriminate|].
  pose proof (er_read_calm 2 s ltac:(discriminate)). destruct (rread (err_reader flat) 2 s) as [[[w e] s1]| |]; cbn [bind]; try congruence.
  specialize (IH a b (fill buf w) s1). destruct (float_decode16 ts a b (fill buf w) s1) as [[l s2]| |]; cbn [bind]; congruence.
Qed.
Lemma floatbst_calm : forall times s, float_decode_bst times s <> Panic.
Proof.
  intros times s. unfold float_decode_bst. pose proof (rd32_calm f32_0 s).
  destruct (rd32 (err_reader flat) f32_0 s) as [[[w e] s1]| |]; cbn [bind]; try congruence.
  pose proof (rd32_calm f32_0 s1).
  destruct (rd32 (err_reader flat) f32_0 s1) as [[[w' e'] s2]| |]; cbn [bind]; try congruence. apply float16_calm.
Qed.
Lemma float_calm : forall name h data times, float_decode name h data times <> Panic.
Proof.
  intros name h data times. unfold float_decode. destruct data as [|tb d]; [discriminate|].
  match goal with |- bind ?m _ <> _ => assert (Hm : m <> Panic) end.
  { destruct (b2n tb) as [|[[p|p|]|[p|p|]|]]; try discriminate; auto using float64_calm, float32_calm, floatbst_calm. }
  match goal with |- bind ?m _ <> _ => destruct m as [[? ?]| |] end; cbn [bind]; congruence.
Qed.
Lemma float_payload_cut : forall tech cs h ss, tech < 3 -> Forall (fun c => wf_coll c /\ e_accepts (float_encoder tech) c = true) cs ->
  float_encode tech cs = Ok (h, ss, None) ->
  forall i c part missing, nth_error cs i = Some c -> nth_error ss i = Some (part ++ missing) -> missing <> [] ->
  forall name hd times, length times = c_length c ->
  exists x e, float_decode name hd part times = Ok (x, Some e).
Proof.
  intros tech cs h ss Ht Hcs E i c part missing Hc Hs Hm name hd times Hl. unfold float_encode in E.
  rewrite float_streams_ok in E.
  2:{ eapply Forall_impl; [|exact Hcs]. intros c' [Hw Ha]. eapply accepts_float; eauto. }
  apply ok_inj in E. injection E as <- <-. rewrite nth_error_map, Hc in Hs. cbn [option_map] in Hs. injection Hs as Hs.
  rewrite Forall_forall in Hcs. destruct (Hcs c) as [Hw Ha]; [eapply nth_error_In; eauto|].
  destruct (accepts_float tech c Hw Ha) as [l El].
  unfold float_stream, float_encode1 in Hs. rewrite El in Hs.
  unfold c_length, c_times in Hl. rewrite El, map_length in Hl.
  assert (Hl' : length times = length (map snd l)) by now rewrite map_length.
  destruct part as [|tb part]; [exists None, EEOF; reflexivity|].
  injection Hs as Htb Hs. pose proof (float_calm name hd (tb :: part) times) as Hcalm.
  pose proof (float_ends tech name hd (tb :: part) times) as Hend. cbn [e_decode float_encoder] in Hend.
  unfold float_decode in *. subst tb. rewrite b2n_n2b_small in * by (eapply N.lt_trans; [exact Ht|reflexivity]).
  pose proof (new_er_inv (fun s d : bytes => s = d) (part ++ missing) (part ++ missing) eq_refl) as HI.
  destruct tech as [|[[]|[]|]]; try lia; cbn beta iota in *.
  - rewrite <- (app_nil_r (part ++ missing)) in HI at 3. rewrite <- Hs in HI at 3.
    destruct (float_decode64_ok _ (map snd l) times f0 Hl' _ _ HI) as (s & W & HI2); [now left|].
    destruct (float_decode64 times f0 (new_er part)) as [[v s1]| |] eqn:E1; cbn [bind] in *; [|congruence|congruence].
    pose proof (all_read _ (float_decode64 times f0) _ _ part missing s1 s _ (float64_link _ _ _) Hm E1 W HI2) as He.
    destruct (er_err s1); [eauto|congruence].
  - rewrite <- (app_nil_r (part ++ missing)) in HI at 3. rewrite <- Hs in HI at 3.
    destruct (float_bst_ok _ (map snd l) times Hl' _ _ HI) as (s & W & HI2); [now left|].
    destruct (float_decode_bst times (new_er part)) as [[v s1]| |] eqn:E1; cbn [bind] in *; [|congruence|congruence].
    pose proof (all_read _ (float_decode_bst times) _ _ part missing s1 s _ (floatbst_link _ _) Hm E1 W HI2) as He.
    destruct (er_err s1); [eauto|congruence].
  - rewrite <- (app_nil_r (part ++ missing)) in HI at 3. rewrite <- Hs in HI at 3.
    destruct (float_decode32_ok _ (map snd l) times f32_0 Hl' _ _ HI) as (s & W & HI2); [now left|].
    destruct (float_decode32 times f32_0 (new_er part)) as [[v s1]| |] eqn:E1; cbn [bind] in *; [|congruence|congruence].
    pose proof (all_read _ (float_decode32 times f32_0) _ _ part missing s1 s _ (float32_link _ _ _) Hm E1 W HI2) as He.
    destruct (er_err s1); [eauto|congruence].
Qed.

(** ** Numbers: when the decoders of positions and rotations notice that a
    payload is too short *)
Lemma fill_len : forall buf p, lenN p <= lenN buf -> lenN (fill buf p) = lenN buf.
Proof. intros buf p H. unfold fill. rewrite lenN_app, lenN_drop. lia. Qed.
Lemma flat_read_sizes : forall buf d k, lenN buf = k ->
  match flat_read buf d with
  | None => lenN d = 0
  | Some (b1, d1) => 0 < lenN d /\ lenN b1 = k /\ lenN d1 = lenN d - k
  end.
Proof.
  intros buf d k Hk. unfold flat_read. destruct d as [|b d]; [reflexivity|].
  split; [rewrite lenN_cons; lia|]. rewrite lenN_drop, Hk. split; [|reflexivity].
  rewrite fill_len; [assumption|]. rewrite lenN_take. lia.
Qed.
Lemma decode_raw64_notices : forall times buf d, lenN buf = 8 ->
  match decode_raw64 times buf d with
  | Some l => map fst l = times /\ (times = [] \/ 8 * (3 * lenN times - 1) < lenN d)
  | None => times <> [] /\ lenN d <= 8 * (3 * lenN times - 1)
  end.
Proof.
  induction times as [|t ts IH]; intros buf d Hb; cbn [decode_raw64]; [auto|]. rewrite lenN_cons.
  pose proof (flat_read_sizes buf d 8 Hb) as R1. destruct (flat_read buf d) as [[b1 d1]|]; [|split; [congruence|lia]].
  destruct R1 as (P1 & L1 & D1).
  pose proof (flat_read_sizes b1 d1 8 L1) as R2. destruct (flat_read b1 d1) as [[b2 d2]|]; [|split; [congruence|lia]].
  destruct R2 as (P2 & L2 & D2).
  pose proof (flat_read_sizes b2 d2 8 L2) as R3. destruct (flat_read b2 d2) as [[b3 d3]|]; [|split; [congruence|lia]].
  destruct R3 as (P3 & L3 & D3). specialize (IH b3 d3 L3).
  destruct (decode_raw64 ts b3 d3) as [l|].
  - destruct IH as [E H]. cbn [map fst]. split; [now rewrite E|]. right. destruct H as [->|H]; [cbn; lia|lia].
  - destruct IH as [Hn H]. split; [congruence|]. destruct ts; [congruence|]. rewrite lenN_cons in *. lia.
Qed.
Lemma euler_decode64_notices : forall times buf d, lenN buf = 10 ->
  match euler_decode64 times buf d with
  | Some l => map fst l = times /\ (times = [] \/ 10 * (3 * lenN times - 1) < lenN d)
  | None => times <> [] /\ lenN d <= 10 * (3 * lenN times - 1)
  end.
Proof.
  induction times as [|t ts IH]; intros buf d Hb; cbn [euler_decode64]; [auto|]. rewrite lenN_cons.
  pose proof (flat_read_sizes buf d 10 Hb) as R1. destruct (flat_read buf d) as [[b1 d1]|]; [|split; [congruence|lia]].
  destruct R1 as (P1 & L1 & D1).
  pose proof (flat_read_sizes b1 d1 10 L1) as R2. destruct (flat_read b1 d1) as [[b2 d2]|]; [|split; [congruence|lia]].
  destruct R2 as (P2 & L2 & D2).
  pose proof (flat_read_sizes b2 d2 10 L2) as R3. destruct (flat_read b2 d2) as [[b3 d3]|]; [|split; [congruence|lia]].
  destruct R3 as (P3 & L3 & D3). specialize (IH b3 d3 L3).
  destruct (euler_decode64 ts b3 d3) as [l|].
  - destruct IH as [E H]. cbn [map fst]. split; [now rewrite E|]. right. destruct H as [->|H]; [cbn; lia|lia].
  - destruct IH as [Hn H]. split; [congruence|]. destruct ts; [congruence|]. rewrite lenN_cons in *. lia.
Qed.
Lemma rd32_notices : forall old d, exists v e d', rd32 flat old d = Ok (v, e, d') /\
  lenN d' = lenN d - 4 /\ (e = None <-> 4 <= lenN d).
Proof.
  intros old d. unfold rd32, binary_read. destruct (N.lt_ge_cases (lenN d) 4) as [H|H].
  - destruct (read_full_short _ flat false _ (flat_delivers false) 4 d d eq_refl H) as (s' & -> & ->). cbn [bind].
    eexists; eexists; eexists. split; [reflexivity|]. split; [cbn; lia|]. split; [discriminate|lia].
  - assert (Et : lenN (takeN 4 d) = 4) by (rewrite lenN_take; lia).
    destruct (read_full_ok flat false _ flat_serves 4 d (takeN 4 d) (dropN 4 d)) as (s' & E & HI).
    + now rewrite take_drop.
    + assumption.
    + rewrite E. cbn [bind]. cbn beta in HI. subst s'.
      eexists; eexists; eexists. split; [reflexivity|]. rewrite lenN_drop. split; [reflexivity|]. tauto.
Qed.
Lemma rd32v_notices : forall x y z d, exists a b c e d', rd32v flat x y z d = Ok (a, b, c, e, d') /\
  lenN d' = lenN d - 12 /\ (e = None <-> 12 <= lenN d).
Proof.
  intros x y z d. unfold rd32v.
  destruct (rd32_notices x d) as (a & e1 & d1 & -> & L1 & _). cbn [bind].
  destruct (rd32_notices y d1) as (b & e2 & d2 & -> & L2 & _). cbn [bind].
  destruct (rd32_notices z d2) as (c & e3 & d3 & -> & L3 & He). cbn [bind fst snd].
  exists a, b, c, e3, d3. split; [reflexivity|]. split; [lia|]. rewrite He. lia.
Qed.
Lemma decode_raw32_times : forall times d, exists l, decode_raw32 times d = Ok l /\ map fst l = times.
Proof.
  induction times as [|t ts IH]; intro d; cbn [decode_raw32]; [eauto|].
  destruct (rd32v_notices f32_0 f32_0 f32_0 d) as (a & b & c & e & d' & -> & _). cbn [bind].
  destruct (IH d') as (l & -> & E). cbn [bind]. eexists. split; [reflexivity|]. cbn [map fst]. now rewrite E.
Qed.
Lemma euler_decode32_times : forall times x y z d, exists l, euler_decode32 times x y z d = Ok l /\ map fst l = times.
Proof.
  induction times as [|t ts IH]; intros x y z d; cbn [euler_decode32]; [eauto|].
  destruct (rd32v_notices x y z d) as (a & b & c & e & d' & -> & _). cbn [bind].
  destruct (IH a b c d') as (l & -> & E). cbn [bind]. eexists. split; [reflexivity|]. cbn [map fst]. now rewrite E.
Qed.
Lemma oct_unsteps_times : forall unpack mn mx ts cur buf d, map fst (oct_unsteps unpack mn mx cur ts buf d) = ts.
Proof.
  intros unpack mn mx. induction ts as [|t ts IH]; intros cur buf d; cbn [oct_unsteps]; [reflexivity|].
  destruct (flat_read_ buf d) as [b1 d1]. cbn [map fst]. now rewrite IH.
Qed.
Lemma euler_decode16_times : forall ts buf d, map fst (euler_decode16 ts buf d) = ts.
Proof.
  induction ts as [|t ts IH]; intros buf d; cbn [euler_decode16]; [reflexivity|].
  destruct (flat_read_ buf d) as [b1 d1]. destruct (flat_read_ b1 d1) as [b2 d2]. destruct (flat_read_ b2 d2) as [b3 d3].
  cbn [map fst]. now rewrite IH.
Qed.
Lemma decode_oct_notices : forall w unpack times d, exists l e, decode_oct w unpack times d = Ok (l, e) /\ map fst l = times /\
  (e = None <-> match lenN times with 0 => 0 | 1 => 12 | _ => 36 end <= lenN d).
Proof.
  intros w unpack times d. unfold decode_oct. destruct times as [|t [|t2 ts]].
  - exists [], None. cbn [lenN]. split; [reflexivity|]. split; [reflexivity|]. split; [intros _; apply N.le_0_l | reflexivity].
  - destruct (rd32v_notices f32_0 f32_0 f32_0 d) as (a & b & c & e & d' & -> & _ & He). cbn [bind].
    eexists; eexists. split; [reflexivity|]. split; [reflexivity|]. exact He.
  - destruct (rd32v_notices f32_0 f32_0 f32_0 d) as (a & b & c & e & d1 & -> & L1 & _). cbn [bind].
    destruct (rd32v_notices f32_0 f32_0 f32_0 d1) as (a2 & b2 & c2 & e2 & d2 & -> & L2 & _). cbn [bind].
    destruct (rd32v_notices f32_0 f32_0 f32_0 d2) as (a3 & b3 & c3 & e3 & d3 & -> & L3 & He). cbn [bind].
    eexists; eexists. split; [reflexivity|]. split; [cbn [map fst]; now rewrite oct_unsteps_times|].
    rewrite He, !lenN_cons. replace (lenN ts + 1 + 1) with (2 + lenN ts) by lia. destruct (2 + lenN ts) as [|[p|p|]] eqn:E; lia.
Qed.
Lemma decode_raw16_notices : forall times d, exists l e, decode_raw16 times d = Ok (l, e) /\ map fst l = times /\
  (e = None <-> match lenN times with 1 => 12 | _ => 0 end <= lenN d).
Proof.
  intros times d. unfold decode_raw16. destruct times as [|t [|t2 ts]].
  - eexists; eexists. split; [reflexivity|]. split; [reflexivity|]. split; [intros _; apply N.le_0_l | reflexivity].
  - destruct (rd32v_notices f32_0 f32_0 f32_0 d) as (a & b & c & e & d' & -> & _ & He). cbn [bind].
    eexists; eexists. split; [reflexivity|]. split; [reflexivity|]. exact He.
  - eexists; eexists. split; [reflexivity|]. split; [apply euler_decode16_times|].
    rewrite !lenN_cons. replace (lenN ts + 1 + 1) with (2 + lenN ts) by lia. destruct (2 + lenN ts) as [|[p|p|]] eqn:E; (split; [lia|reflexivity]) || lia.
Qed.
