(** The headers of a written file make no decoder panic, even without any
    payload; so no beginning of a written file makes Read panic. *)
From Coq Require Import Lia.
From Verif Require Import Base BaseFacts IO Spec IOFacts Floats ByteFacts BinaryIO BinaryIOFacts.
From Verif Require Import Metadata SpecMeta MetadataFacts Recording SpecRec RecordingFacts Encoding SpecEnc.
From Verif Require Import EncEvent EncEnum EncPosition EncEuler EncFloat EncTableFacts StreamFacts EncEventFacts EncEnumFacts TimeIO TimeFacts.
From Verif Require Import Writer Reader SpecFile WriterFacts KeyFacts PlanFacts ReaderFacts FileFacts BuiltinFacts.
From Verif Require Import LinkFacts SafeFacts TruncFacts QuietFacts.
Local Open Scope N_scope.

Lemma event_calm : forall cs h ss, event_encode cs = Ok (h, ss, None) -> lenN h <= 2 ^ 44 -> calm event_encoder h.
Proof.
  intros cs h ss E Hh name times. unfold event_encode in E.
  destruct (enc_event_streams cs [] []) as [[[[bs' tn] tk] [e|]]| |]; cbn [bind] in E; try discriminate.
  destruct (tbl_array tn) as [NA| |]; cbn [bind] in E; try discriminate.
  destruct (tbl_array tk) as [KA| |]; cbn [bind] in E; try discriminate.
  apply ok_inj in E. injection E as <- _. rewrite lenN_app in Hh.
  cbn [e_decode event_encoder]. unfold event_decode, event_header.
  destruct (flat_array NA (string_array_to_bytes KA)) as [E1 _]; [lia|]. rewrite E1. cbn [bind].
  destruct (flat_array KA []) as [E2 _]; [lia|]. rewrite app_nil_r in E2. rewrite E2. cbn [bind].
  destruct times as [|t ts]; cbn [dec_events]; [discriminate|].
  assert (Eu : match read_uvarint bufio (new_bufio []) with Ok (_, _, Some _, _) => True | _ => False end) by (vm_compute; exact I).
  destruct (read_uvarint bufio (new_bufio [])) as [[[[v n] [e|]] s]| |]; try contradiction. cbn [bind]. discriminate.
Qed.
Lemma dec_enums_no_panic : forall times s, dec_enums times s <> Panic.
Proof.
  assert (Hr : forall s, rread (err_reader flat) 1 s <> Panic).
  { intros [d [x|] n]; cbn [rread err_reader er_err]; [discriminate|]. cbn [er_in].
    pose proof (full_no_panic flat _ (delivers_breaks _ _ _ _ (flat_delivers false)) 1 d d eq_refl) as H.
    destruct (read_full flat 1 d) as [[[p x] t]| |]; cbn [bind]; congruence. }
  assert (Hu : forall f i x sh b n s, read_uvarint_loop (err_reader flat) f i x sh b n s <> Panic).
  { induction f as [|f IH]; intros i x sh b n s; cbn [read_uvarint_loop]; [discriminate|].
    specialize (Hr s). destruct (rread (err_reader flat) 1 s) as [[[p [e|]] t]| |]; cbn [bind]; try discriminate; [|congruence].
    destruct (b2n (hd b p) <? 128); [destruct (_ && _); discriminate | apply IH]. }
  induction times as [|t ts IH]; intro s; cbn [dec_enums]; [discriminate|]. unfold read_uvarint.
  specialize (Hu 10%nat 0 0 0 x00 0 s). destruct (read_uvarint_loop (err_reader flat) 10 0 0 0 x00 0 s) as [[[[v n] e] s1]| |]; cbn [bind]; try congruence.
  specialize (IH s1). destruct (dec_enums ts s1) as [[l s2]| |]; cbn [bind]; congruence.
Qed.
Lemma enum_calm : forall cs h ss, enum_encode cs = Ok (h, ss, None) -> lenN h <= 2 ^ 44 -> calm enum_encoder h.
Proof.
  intros cs h ss E Hh name times. unfold enum_encode in E.
  destruct (enc_enum_streams cs []) as [[bs' tn]| |]; cbn [bind] in E; try discriminate.
  destruct (tbl_array tn) as [NA| |]; cbn [bind] in E; try discriminate.
  apply ok_inj in E. injection E as <- _.
  cbn [e_decode enum_encoder]. unfold enum_decode.
  destruct (flat_array NA []) as [E2 _]; [lia|]. rewrite app_nil_r in E2. rewrite E2. cbn [bind].
  match goal with |- context [read_uvarint_array ?R ?s] =>
    assert (Eu : match read_uvarint_array R s with Ok ([], _, _, _) => True | _ => False end) by (vm_compute; exact I);
    destruct (read_uvarint_array R s) as [[[[[|i is] n] e] s1]| |] end; try contradiction. cbn [bind pick].
  pose proof (dec_enums_no_panic times s1) as H. destruct (dec_enums times s1) as [[l s2]| |]; cbn [bind]; congruence.
Qed.
Lemma builtin_calm : forall tp te tf e cs h ss, builtin tp te tf e -> e_encode e cs = Ok (h, ss, None) -> lenN h <= 2 ^ 44 -> calm e h.
Proof.
  intros tp te tf e cs h ss [ -> |[ -> |[ -> |[ -> | -> ]]]] E Hh.
  - eapply event_calm; eauto.
  - eapply enum_calm; eauto.
  - intros name times. discriminate.
  - intros name times. discriminate.
  - intros name times. discriminate.
Qed.

(** what Read finds in a written file *)
Lemma file_open : forall tp te tf cfg Z reg r rA rE,
  valid_config tp te tf cfg ->
  (forall e, In e (w_encs cfg) -> can_read reg e) ->
  wf_rec r -> ~ unaccepted (w_encs cfg) r -> rec_equiv r rA -> rec_equiv r rE ->
  exists n file payload, (forall out, write_views cfg Z buffer rA rE r out = Ok (n, None, out ++ file)) /\
    (exists d, file = x02 :: d) /\
    (n <= 2 ^ 40 -> exists xs k s1 s2 r',
     get_version flat file = Ok (2, 1, None, s1) /\ read_encoders flat reg s1 = Ok (xs, k, None, s2) /\
     rread flat 1 s2 = Ok ([if w_compress cfg then x01 else x00], None, if w_compress cfg then squeeze Z payload else concat payload) /\
     n = 1 + k + 1 + lenN (concat payload) /\
     rec_rel eq (decoded (w_encs cfg) (fun _ => num_post tp te tf) (w_time cfg)) r r' /\
     (forall S (R : Reader S) eager I, serves R eager I -> forall k s rest, I s (concat payload ++ rest) ->
      exists s', read_payload R xs k s = Ok (Some r', k + lenN (concat payload), None, s') /\ I s' rest) /\
     forall m hs q t, read_headers flat (length xs) m (concat payload) = Ok (hs, q, None, t) -> all_calm xs hs).
Proof.
  intros tp te tf cfg Z reg r rA rE (Hp & He & Hf & Ht & Hes & Hs) Hreg Hwf Hacc HA HE.
  destruct (file_parts cfg Z (fun _ => num_post tp te tf) r rA rE Hs) with (reg := reg) as
    (n & file & ms & hs & payload & Ew & _ & Hfile & Hn & Hin & Hlen & Henc & (U & HU & _) & Hall); auto.
  { apply builtin_all; auto. }
  { intro H. apply Hacc. eapply unaccepted_view; eauto. }
  { intros e Hx. split; [|auto]. rewrite Forall_forall in Hes. eapply builtin_version; eauto. }
  exists n, file, payload. split; [exact Ew|]. split; [rewrite Hfile, head_bytes_eq; cbn [app]; eauto|]. intro Hbig.
  destruct (Hall Hbig) as (xs & r' & Hfind & Hv & Hxs & Hrel & Hread). change (2 ^ 40) with big in Hbig.
  pose proof (delivers_serves _ _ _ (flat_delivers false)) as HF.
  destruct (head_read reg ms (w_compress cfg) xs Hfind Hv ltac:(lia) _ flat false (fun s d => s = d) HF file
    (if w_compress cfg then squeeze Z payload else concat payload) Hfile (or_introl eq_refl))
    as (k & s1 & s2 & s3 & E1 & E2 & E3 & -> & Hk).
  exists xs, k, s1, s2, r'. repeat split; auto; [lia|].
  intros m hs' q t E4. set (T := concat payload) in *.
  assert (Hle : Forall (fun h => lenN h <= lenN T) hs).
  { apply Forall_forall. intros h Hh. rewrite HU, lenN_app.
    enough (lenN h <= lenN (concat (map bytes_array_to_bytes hs))) by lia.
    clear -Hh. induction hs as [|y l IH]; [destruct Hh|]. cbn [map concat]. rewrite lenN_app.
    destruct Hh as [->|Hh]; [pose proof (bytes_array_len h); lia | specialize (IH Hh); lia]. }
  assert (Hl : length xs = length hs).
  { apply Forall2_len in Hxs. rewrite map_length in Hxs. congruence. }
  assert (Hlt : Forall (fun h => lenN h < 2 ^ 48) hs).
  { eapply Forall_impl; [|exact Hle]. cbv beta. intros h Hh. apply big_lt; [lia | reflexivity]. }
  rewrite HU in E4. rewrite Hl in E4.
  match type of E4 with read_headers _ _ _ (_ ++ ?U) = _ =>
    destruct (read_headers_ok flat false (fun s d => s = d) HF hs m Hlt (concat (map bytes_array_to_bytes hs) ++ U) U eq_refl (or_introl eq_refl)) as (s4 & E4' & _) end.
  pose proof (eq_trans (eq_sym E4') E4) as E4''. clear E4. rename E4'' into E4. apply ok_inj in E4. injection E4 as <- _ _.
  intros i e h Ei Eh. rewrite nthN_nth_error in Ei. rewrite nthN_nth_error in Eh.
  destruct (nth_error ms (N.to_nat i)) as [m0|] eqn:Em.
  2: { apply nth_error_None in Em. assert (N.to_nat i < length hs)%nat by (apply nth_error_Some; intro Hn0; discriminate (eq_trans (eq_sym Hn0) Eh)). lia. }
  pose proof (Forall2_nth _ _ _ _ _ Hxs _ _ _ (map_nth_error m_enc _ _ Em) Ei) as Hdec. cbv beta in Hdec.
  pose proof (Forall2_nth _ _ _ _ _ Henc _ _ _ Em Eh) as (ss & Ess).
  assert (Hc : calm (m_enc m0) h).
  { eapply builtin_calm; [|exact Ess|].
    - rewrite Forall_forall in Hes. apply Hes. rewrite Forall_forall in Hin. apply Hin. eapply nth_error_In; eauto.
    - rewrite Forall_forall in Hle. specialize (Hle h (nth_error_In _ _ Eh)).
      eapply N.le_trans with big; [lia | discriminate]. }
  intros name times. rewrite Hdec. apply Hc.
Qed.
