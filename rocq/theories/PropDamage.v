(** C62: what the decoders say about damaged payloads. *)
From Coq Require Import ZArith Lia Strings.String.
From Flocq Require Import IEEE754.Bits.
From Verif Require Import Base BaseFacts IO Spec IOFacts Floats ByteFacts BinaryIO BinaryIOFacts.
From Verif Require Import Metadata SpecMeta MetadataFacts Recording SpecRec RecordingFacts Encoding SpecEnc.
From Verif Require Import EncEvent EncEnum EncPosition EncEuler EncFloat EncTableFacts StreamFacts EncEventFacts EncEnumFacts EncNumFacts EncLawful.
From Verif Require Import Reader SpecFile SafeFacts SpecDamage DamageFacts.
Local Open Scope N_scope.
Local Notation length := List.length.

(** A strict beginning of what WriteProperty returns is not a property: on any
    transport ReadProperty reports an error. *)
Theorem C62_property : forall p part missing, built p -> write_property p = Ok (part ++ missing) -> missing <> [] ->
  lenN (part ++ missing) <= 2 ^ 44 ->
  forall S (R : Reader S) eager holds, delivers R eager holds -> forall s, holds s part ->
  exists x e s', read_property R s = Ok (x, Some e, s').
Proof. exact property_cut. Qed.
Print Assumptions C62_property.

(** Encode collections; cut what the encoder returned for one of them, or the
    header.  Decoding it for the times of the collection reports an error. *)
Definition notices_cut (E : encoder) : Prop :=
  forall cs h ss, Forall (fun c => wf_coll c /\ e_accepts E c = true) cs ->
  e_encode E cs = Ok (h, ss, None) -> lenN h <= 2 ^ 44 ->
  forall i c part missing, nth_error cs i = Some c -> nth_error ss i = Some (part ++ missing) -> missing <> [] ->
  lenN (part ++ missing) <= 2 ^ 44 ->
  forall name times, length times = c_length c ->
  exists x e, e_decode E name h part times = Ok (x, Some e).
Definition notices_cut_header (E : encoder) : Prop :=
  forall cs part missing ss, e_encode E cs = Ok (part ++ missing, ss, None) -> missing <> [] ->
  lenN (part ++ missing) <= 2 ^ 44 ->
  forall name data times, exists x e, e_decode E name part data times = Ok (x, Some e).
Theorem C62_payload :
  notices_cut event_encoder /\ notices_cut enum_encoder /\ (forall tf, tf < 3 -> notices_cut (float_encoder tf)) /\
  notices_cut_header event_encoder /\ notices_cut_header enum_encoder.
Proof.
  repeat split.
  - intros cs h ss Hcs E Hh i c part missing Hc Hs Hm Hl name times Ht.
    destruct (event_payload_cut cs h ss Hcs E Hh i c part missing Hc Hs Hm Hl name times Ht) as (e & He). eauto.
  - intros cs h ss Hcs E Hh i c part missing Hc Hs Hm Hl name times Ht.
    exact (enum_payload_cut cs h ss Hcs E Hh i c part missing Hc Hs Hm Hl name times Ht).
  - intros tf Htf cs h ss Hcs E Hh i c part missing Hc Hs Hm Hl name times Ht.
    exact (float_payload_cut tf cs h ss Htf Hcs E i c part missing Hc Hs Hm name h times Ht).
  - intros cs part missing ss E Hm Hl name data times.
    destruct (event_header_cut cs part missing ss E Hm Hl name data times) as (e & He). eauto.
  - intros cs part missing ss E Hm Hl name data times.
    destruct (enum_header_cut cs part missing ss E Hm Hl name data times) as (e & He). eauto.
Qed.
Print Assumptions C62_payload.

(** Positions and rotations: exactly the payloads shorter than the decoder
    insists on are reported, whatever their bytes; on all others it returns a
    collection. *)
Definition insists (E : encoder) (tech : N) (needs : N) (times : list f64) : Prop :=
  forall name h d,
  (lenN d < needs -> exists e, e_decode E name h (n2b tech :: d) times = Ok (None, Some e)) /\
  (needs <= lenN d -> exists c, e_decode E name h (n2b tech :: d) times = Ok (Some c, None)).
Lemma tech_byte : forall t, t < 4 -> b2n (n2b t) = t.
Proof. intros t H. apply b2n_n2b_small. lia. Qed.
Lemma len0 : forall (times : list f64), lenN times = 0 -> times = [].
Proof. intros [|t ts] H; [reflexivity|]. rewrite lenN_cons in H. lia. Qed.
Theorem C62_numbers : forall any times,
  (forall tech, tech < 4 -> insists (position_encoder any) tech (position_insists tech (lenN times)) times) /\
  (forall tech, tech < 3 -> insists (euler_encoder any) tech (euler_insists tech (lenN times)) times).
Proof.
  intros any times. split; intros tech Ht name h d; cbn [e_decode position_encoder euler_encoder].
  - unfold pos_decode. rewrite tech_byte by lia.
    assert (Hcases : tech = 0 \/ tech = 1 \/ tech = 2 \/ tech = 3) by lia.
    destruct Hcases as [ -> | [ -> | [ -> | -> ]]]; unfold position_insists; cbn beta iota.
    + pose proof (decode_raw64_notices times (zeros 8) d eq_refl) as H.
      destruct (decode_raw64 times (zeros 8) d) as [l|].
      * destruct H as [_ [ -> |H]]; (split; [intro Hs|eauto]); [cbn in Hs; lia|].
        destruct (lenN times) as [|[p|p|]] eqn:El; lia.
      * destruct H as [Hn H]. split; [eauto|intro Hs]. destruct (lenN times) as [|[p|p|]] eqn:El; try lia.
        apply len0 in El. congruence.
    + destruct (decode_raw32_times times d) as (l & -> & _). cbn [bind]. split; [|eauto].
      intro Hs. destruct (lenN times) as [|[p|p|]]; lia.
    + destruct (decode_oct_notices 6 bytes_to_cells48 times d) as (l & e & -> & _ & He). cbn [bind].
      destruct e as [e|]; (split; intro Hs; [|]); eauto.
      * assert (Hx : Some e = None) by (apply He; destruct (lenN times) as [|[p|p|]]; exact Hs). discriminate.
      * assert (Hx := proj1 He eq_refl). destruct (lenN times) as [|[p|p|]]; lia.
    + destruct (decode_oct_notices 3 bytes_to_cells24 times d) as (l & e & -> & _ & He). cbn [bind].
      destruct e as [e|]; (split; intro Hs; [|]); eauto.
      * assert (Hx : Some e = None) by (apply He; destruct (lenN times) as [|[p|p|]]; exact Hs). discriminate.
      * assert (Hx := proj1 He eq_refl). destruct (lenN times) as [|[p|p|]]; lia.
  - unfold euler_decode. rewrite tech_byte by lia.
    assert (Hcases : tech = 0 \/ tech = 1 \/ tech = 2) by lia.
    destruct Hcases as [ -> | [ -> | -> ]]; unfold euler_insists; cbn beta iota.
    + pose proof (euler_decode64_notices times (zeros 10) d eq_refl) as H.
      destruct (euler_decode64 times (zeros 10) d) as [l|].
      * destruct H as [_ [ -> |H]]; (split; [intro Hs|eauto]); [cbn in Hs; lia|].
        destruct (lenN times) as [|[p|p|]] eqn:El; lia.
      * destruct H as [Hn H]. split; [eauto|intro Hs]. destruct (lenN times) as [|[p|p|]] eqn:El; try lia.
        apply len0 in El. congruence.
    + destruct (euler_decode32_times times f32_0 f32_0 f32_0 d) as (l & -> & _). cbn [bind]. split; [|eauto].
      intro Hs. destruct (lenN times) as [|[p|p|]]; lia.
    + destruct (decode_raw16_notices times d) as (l & e & -> & _ & He). cbn [bind].
      destruct e as [e|]; (split; intro Hs; [|]); eauto.
      * assert (Hx : Some e = None) by (apply He; destruct (lenN times) as [|[p|p|]]; exact Hs). discriminate.
      * assert (Hx := proj1 He eq_refl). destruct (lenN times) as [|[p|p|]]; lia.
Qed.
Print Assumptions C62_numbers.

(** So a cut is not always noticed, although it changes the numbers: the
    decoder returns a collection for the part that was left, and not the one
    it returns for the whole. *)
Definition silent_cut (E : encoder) : Prop :=
  exists c h part missing d, wf_coll c /\ e_accepts E c = true /\ missing <> [] /\
    e_encode E [c] = Ok (h, [part ++ missing], None) /\
    e_decode E (c_name c) h part (c_times c) = Ok (Some d, None) /\
    e_decode E (c_name c) h (part ++ missing) (c_times c) <> Ok (Some d, None).
Definition one : f64 := f64_of_bytes [x00; x00; x00; x00; x00; x00; xf0; x3f].
Definition ones : list (f64 * vec) := [(f0, mkVec one one one); (one, mkVec one one one)].
(** the bits of the last x *)
Definition last_x (r : res (option coll * option err)) : option Z :=
  match r with
  | Ok (Some (mkColl _ (BPos l)), _) | Ok (Some (mkColl _ (BEuler l)), _) =>
      match rev l with (_, v) :: _ => Some (bits_of_b64 (vx v)) | [] => None end
  | _ => None
  end.
Lemma silent_by_bits : forall E c h b tech d, wf_coll c -> e_accepts E c = true -> 
  e_encode E [c] = Ok (h, [n2b tech :: b], None) -> takeN 12 b = d -> dropN 12 b <> [] ->
  (exists c', e_decode E (c_name c) h (n2b tech :: d) (c_times c) = Ok (Some c', None)) ->
  last_x (e_decode E (c_name c) h (n2b tech :: b) (c_times c)) <> last_x (e_decode E (c_name c) h (n2b tech :: d) (c_times c)) ->
  silent_cut E.
Proof.
  intros E c h b tech d Hw Ha He Ed Hm [c' Hc] Hx. exists c, h, (n2b tech :: d), (dropN 12 b), c'.
  rewrite <- app_comm_cons, <- Ed, take_drop, Ed. repeat (split; [assumption|]).
  intro H. apply Hx. now rewrite H, Hc.
Qed.
Theorem C62_numbers_refuted : silent_cut (position_encoder 1) /\ silent_cut (euler_encoder 1) /\ silent_cut (euler_encoder 2).
Proof.
  repeat split.
  - eapply (silent_by_bits _ (mkColl [] (BPos ones)) [] _ 1); [ | reflexivity | | reflexivity | | | ].
    + exact Logic.I.
    + cbn [e_encode position_encoder]. unfold pos_encode. cbn [map_res bind pos_encode1 pos_caps c_body]. reflexivity.
    + vm_compute. discriminate.
    + apply (C62_numbers 1). reflexivity. vm_compute. discriminate.
    + vm_compute. discriminate.
  - eapply (silent_by_bits _ (mkColl [] (BEuler (ones ++ [(one, mkVec f0 f0 f0)]))) [] _ 1); [ | reflexivity | | reflexivity | | | ].
    + exact Logic.I.
    + cbn [e_encode euler_encoder]. unfold euler_encode. cbn [map_res bind euler_encode1 euler_caps c_body]. reflexivity.
    + vm_compute. discriminate.
    + apply (C62_numbers 1). reflexivity. vm_compute. discriminate.
    + vm_compute. discriminate.
  - eapply (silent_by_bits _ (mkColl [] (BEuler (ones ++ [(one, mkVec f0 f0 f0)]))) [] _ 2); [ | reflexivity | | reflexivity | | | ].
    + exact Logic.I.
    + cbn [e_encode euler_encoder]. unfold euler_encode. cbn [map_res bind euler_encode1 euler_caps c_body]. reflexivity.
    + vm_compute. discriminate.
    + apply (C62_numbers 1). reflexivity. vm_compute. discriminate.
    + vm_compute. discriminate.
Qed.
Print Assumptions C62_numbers_refuted.

(** Whatever the bytes are, a decoder that reports no error returns a
    collection of its kind, with the name and the times it was given; except
    the float decoder on an unknown technique, which returns an empty one. *)
Lemma dec_events_times : forall names keys times s l, dec_events names keys times s = Ok (l, None) -> map fst l = times.
Proof.
  induction times as [|t ts IH]; intros s l; cbn [dec_events].
  - intro E. apply ok_inj in E. injection E as <-. reflexivity.
  - destruct (read_uvarint bufio s) as [[[[ni k] [e|]] s1]| |]; cbn [bind]; try discriminate.
    destruct (read_uvarint_array bufio s1) as [[[[is k2] [e|]] s2]| |]; cbn [bind]; try discriminate.
    destruct (dec_block keys is [] s2) as [[[m [e|]] s3]| |]; cbn [bind]; try discriminate.
    destruct (nthN names ni); try discriminate.
    destruct (dec_events names keys ts s3) as [[l4 [e|]]| |] eqn:E4; cbn [bind]; try discriminate.
    intro E. apply ok_inj in E. apply (f_equal fst) in E. cbn [fst] in E. subst l. cbn [map fst]. f_equal. eauto.
Qed.
Lemma dec_enums_times : forall times s l s', dec_enums times s = Ok (l, s') -> map fst l = times.
Proof.
  induction times as [|t ts IH]; intros s l s'; cbn [dec_enums].
  - intro E. apply ok_inj in E. injection E as <- _. reflexivity.
  - destruct (read_uvarint (err_reader flat) s) as [[[[v k] e] s1]| |]; cbn [bind]; try discriminate.
    destruct (dec_enums ts s1) as [[l4 s4]| |] eqn:E4; cbn [bind]; try discriminate.
    intro E. apply ok_inj in E. apply (f_equal fst) in E. cbn [fst] in E. subst l. cbn [map fst]. f_equal. eauto.
Qed.
Lemma float64_times : forall times v s l s', float_decode64 times v s = Ok (l, s') -> map fst l = times.
Proof.
  induction times as [|t ts IH]; intros v s l s'; cbn [float_decode64].
  - intro E. apply ok_inj in E. injection E as <- _. reflexivity.
  - destruct (rd64 (err_reader flat) v s) as [[[w e] s1]| |]; cbn [bind]; try discriminate.
    destruct (float_decode64 ts w s1) as [[l4 s4]| |] eqn:E4; cbn [bind]; try discriminate.
    intro E. apply ok_inj in E. apply (f_equal fst) in E. cbn [fst] in E. subst l. cbn [map fst]. f_equal. eauto.
Qed.
Lemma float32_times : forall times v s l s', float_decode32 times v s = Ok (l, s') -> map fst l = times.
Proof.
  induction times as [|t ts IH]; intros v s l s'; cbn [float_decode32].
  - intro E. apply ok_inj in E. injection E as <- _. reflexivity.
  - destruct (rd32 (err_reader flat) v s) as [[[w e] s1]| |]; cbn [bind]; try discriminate.
    destruct (float_decode32 ts w s1) as [[l4 s4]| |] eqn:E4; cbn [bind]; try discriminate.
    intro E. apply ok_inj in E. apply (f_equal fst) in E. cbn [fst] in E. subst l. cbn [map fst]. f_equal. eauto.
Qed.
Lemma float16_times : forall times a b buf s l s', float_decode16 times a b buf s = Ok (l, s') -> map fst l = times.
Proof.
  induction times as [|t ts IH]; intros a b buf s l s'; cbn [float_decode16].
  - intro E. apply ok_inj in E. injection E as <- _. reflexivity.
  - destruct (rread (err_reader flat) 2 s) as [[[w e] s1]| |]; cbn [bind]; try discriminate.
    destruct (float_decode16 ts a b (fill buf w) s1) as [[l4 s4]| |] eqn:E4; cbn [bind]; try discriminate.
    intro E. apply ok_inj in E. apply (f_equal fst) in E. cbn [fst] in E. subst l. cbn [map fst]. f_equal. eauto.
Qed.
Lemma floatbst_times : forall times s l s', float_decode_bst times s = Ok (l, s') -> map fst l = times.
Proof.
  intros times s l s'. unfold float_decode_bst.
  destruct (rd32 (err_reader flat) f32_0 s) as [[[w e] s1]| |]; cbn [bind]; try discriminate.
  destruct (rd32 (err_reader flat) f32_0 s1) as [[[w' e'] s2]| |]; cbn [bind]; try discriminate. apply float16_times.
Qed.
Ltac got E := apply ok_inj in E; apply (f_equal (fun q => fst q)) in E; cbn [fst] in E;
  apply (f_equal (fun o => match o with Some x => x | None => mkColl [] (BOther [] []) end)) in E; cbv beta iota in E; subst;
  cbn [c_name c_sig c_times c_body].
Theorem C62_shape : forall tp te tf e, builtin tp te tf e -> forall name h b times c,
  e_decode e name h b times = Ok (Some c, None) ->
  c_name c = name /\ c_sig c = e_sig e /\
  (c_times c = times \/
   e_sig e = sig_float /\ c_times c = [] /\ exists t d, b = t :: d /\ 3 <= b2n t).
Proof.
  intros tp te tf e [ -> |[ -> |[ -> |[ -> | -> ]]]] name h b times c; cbn [e_decode e_sig event_encoder enum_encoder position_encoder euler_encoder float_encoder].
  - unfold event_decode. destruct (event_header h) as [[[names keys] [e|]]| |]; cbn [bind]; try discriminate.
    destruct (dec_events names keys times (new_bufio b)) as [[l [e|]]| |] eqn:E1; cbn [bind]; try discriminate.
    intro E. got E. eauto using dec_events_times.
  - unfold enum_decode. destruct (read_string_array flat h) as [[[[names k] [e|]] s]| |]; cbn [bind]; try discriminate.
    destruct (read_uvarint_array (err_reader flat) (new_er b)) as [[[[is k2] e2] s1]| |]; cbn [bind]; try discriminate.
    destruct (pick names is); cbn [bind]; try discriminate.
    destruct (dec_enums times s1) as [[l s2]| |] eqn:E1; cbn [bind]; try discriminate.
    intro E. got E. eauto using dec_enums_times.
  - unfold pos_decode. destruct b as [|tb d]; [discriminate|].
    destruct (b2n tb) as [|[[p|p|]|[p|p|]|]]; try discriminate.
    + pose proof (decode_raw64_notices times (zeros 8) d eq_refl) as H. destruct (decode_raw64 times (zeros 8) d); [|discriminate].
      intro E. got E. destruct H. auto.
    + destruct (decode_oct_notices 3 bytes_to_cells24 times d) as (l & [e|] & -> & Ht & _); cbn [bind]; [discriminate|].
      intro E. got E. auto.
    + destruct (decode_oct_notices 6 bytes_to_cells48 times d) as (l & [e|] & -> & Ht & _); cbn [bind]; [discriminate|].
      intro E. got E. auto.
    + destruct (decode_raw32_times times d) as (l & -> & Ht). cbn [bind]. intro E. got E. auto.
  - unfold euler_decode. destruct b as [|tb d]; [discriminate|].
    destruct (b2n tb) as [|[[p|p|]|[p|p|]|]]; try discriminate.
    + pose proof (euler_decode64_notices times (zeros 10) d eq_refl) as H. destruct (euler_decode64 times (zeros 10) d); [|discriminate].
      intro E. got E. destruct H. auto.
    + destruct (decode_raw16_notices times d) as (l & [e|] & -> & Ht & _); cbn [bind]; [discriminate|].
      intro E. got E. auto.
    + destruct (euler_decode32_times times f32_0 f32_0 f32_0 d) as (l & -> & Ht). cbn [bind]. intro E. got E. auto.
  - unfold float_decode. destruct b as [|tb d]; [discriminate|].
    destruct (N.lt_ge_cases (b2n tb) 3) as [Hs|Hs].
    + assert (Hc : b2n tb = 0 \/ b2n tb = 1 \/ b2n tb = 2) by lia.
      destruct Hc as [ Hc | [ Hc | Hc ]]; rewrite Hc; cbv iota.
      * destruct (float_decode64 times f0 (new_er d)) as [[l s]| |] eqn:E1; cbn [bind]; try discriminate.
        intro E. got E. eauto using float64_times.
      * destruct (float_decode32 times f32_0 (new_er d)) as [[l s]| |] eqn:E1; cbn [bind]; try discriminate.
        intro E. got E. eauto using float32_times.
      * destruct (float_decode_bst times (new_er d)) as [[l s]| |] eqn:E1; cbn [bind]; try discriminate.
        intro E. got E. eauto using floatbst_times.
    + intro E. assert (Ec : c = mkColl name (BFloat [])).
      { destruct (b2n tb) as [|[[p|p|]|[p|p|]|]]; try lia; cbn [bind] in E; got E; reflexivity. }
      subst c. cbn [c_name c_sig c_times c_body map]. split; [reflexivity|]. split; [reflexivity|].
      right. split; [reflexivity|]. split; [reflexivity|]. eauto.
Qed.
Print Assumptions C62_shape.

(** The numeric decoders return on every input: no bytes make them panic. *)
Theorem C62_returns : forall any name h b times,
  (exists r, e_decode (position_encoder any) name h b times = Ok r) /\
  (exists r, e_decode (euler_encoder any) name h b times = Ok r) /\
  (exists r, e_decode (float_encoder any) name h b times = Ok r).
Proof.
  intros any name h b times. cbn [e_decode position_encoder euler_encoder]. split; [|split].
  - unfold pos_decode. destruct b as [|tb d]; [eauto|].
    destruct (b2n tb) as [|[[p|p|]|[p|p|]|]]; try (eexists; reflexivity).
    + destruct (decode_raw64 times (zeros 8) d); eauto.
    + destruct (decode_oct_notices 3 bytes_to_cells24 times d) as (l & [e|] & -> & Ht & _); cbn [bind]; eauto.
    + destruct (decode_oct_notices 6 bytes_to_cells48 times d) as (l & [e|] & -> & Ht & _); cbn [bind]; eauto.
    + destruct (decode_raw32_times times d) as (l & -> & Ht). cbn [bind]. eauto.
  - unfold euler_decode. destruct b as [|tb d]; [eauto|].
    destruct (b2n tb) as [|[[p|p|]|[p|p|]|]]; try (eexists; reflexivity).
    + destruct (euler_decode64 times (zeros 10) d); eauto.
    + destruct (decode_raw16_notices times d) as (l & [e|] & -> & Ht & _); cbn [bind]; eauto.
    + destruct (euler_decode32_times times f32_0 f32_0 f32_0 d) as (l & -> & Ht). cbn [bind]. eauto.
  - pose proof (float_calm name h b times) as H1. pose proof (float_ends any name h b times) as H2.
    cbn [e_decode float_encoder] in *. destruct (float_decode name h b times); eauto; congruence.
Qed.
Print Assumptions C62_returns.

(** Examples: every cut of the payloads and headers of these collections is
    noticed; their whole payloads are decoded. *)
Definition ex_events : coll :=
  mkColl (lit "events") (BEvent [(f0, (lit "hit", [(lit "who", PString (lit "me")); (lit "n", PInt 5%Z)])); (one, (lit "miss", []))]).
Definition ex_enum : coll := mkColl (lit "state") (BEnum [lit "up"; lit "down"] [(f0, 1%Z); (one, 0%Z)]).
Definition ex_float : coll := mkColl (lit "height") (BFloat [(f0, one); (one, f0)]).
Definition reports (r : res (option coll * option err)) : bool := match r with Ok (_, Some _) => true | _ => false end.
Definition returns (r : res (option coll * option err)) : bool := match r with Ok (Some _, None) => true | _ => false end.
(** the payload and the header, cut at every place *)
Definition cuts (d : bytes) : list bytes := map (fun k => firstn k d) (seq 0 (length d)).
Definition all_noticed (E : encoder) (c : coll) : bool :=
  match e_encode E [c] with
  | Ok (h, [s], None) =>
      returns (e_decode E (c_name c) h s (c_times c)) &&
      forallb (fun d => reports (e_decode E (c_name c) h d (c_times c))) (cuts s) &&
      forallb (fun d => reports (e_decode E (c_name c) d s (c_times c))) (cuts h) &&
      negb (length (cuts s) =? 0)%nat
  | _ => false
  end.
Lemma ex_events_ok : wf_coll ex_events /\ e_accepts event_encoder ex_events = true.
Proof. split; [|reflexivity]. cbn. repeat constructor; cbn; intuition (try discriminate; try lia). Qed.
Lemma ex_enum_ok : wf_coll ex_enum /\ e_accepts enum_encoder ex_enum = true.
Proof. split; [|reflexivity]. cbn. repeat constructor; cbn; intuition (try discriminate; try lia). Qed.
Example C62_example :
  all_noticed event_encoder ex_events = true /\ all_noticed enum_encoder ex_enum = true /\
  all_noticed (float_encoder 0) ex_float = true /\ all_noticed (float_encoder 1) ex_float = true /\
  all_noticed (float_encoder 2) ex_float = true.
Proof. vm_compute. repeat split. Qed.
Example C62_example_property :
  built (PString (lit "hello")) /\
  match write_property (PString (lit "hello")) with
  | Ok d => (2 < length d)%nat /\
      forallb (fun part => match read_property (chunked true) (map (fun b => [b]) part) with
                           | Ok (_, Some _, _) => true | _ => false end) (cuts d) = true
  | _ => False
  end.
Proof. split; [cbn; trivial|]. vm_compute. split; [lia|reflexivity]. Qed.
(** four captures, 48 bits each, of which half are left; the decoder of
    positions in 64 bits notices from the last number on *)
Example C62_example_numbers :
  position_insists 0 4 = 89 /\ position_insists 2 4 = 36 /\ euler_insists 2 4 = 0 /\
  returns (pos_decode (lit "p") [] (n2b 2 :: repeat x01 36) [f0; one; one; one]) = true /\
  reports (pos_decode (lit "p") [] (n2b 2 :: repeat x01 35) [f0; one; one; one]) = true /\
  returns (pos_decode (lit "p") [] (n2b 0 :: repeat x01 89) [f0; one; one; one]) = true /\
  reports (pos_decode (lit "p") [] (n2b 0 :: repeat x01 88) [f0; one; one; one]) = true /\
  returns (euler_decode (lit "p") [] [n2b 2] [f0; one; one; one]) = true.
Proof. vm_compute. repeat split. Qed.
(** the float decoder on an unknown technique *)
Example C62_example_shape :
  float_decode (lit "f") [] [x07; x01] [f0; one] = Ok (Some (mkColl (lit "f") (BFloat [])), None) /\
  reports (pos_decode (lit "f") [] [x07; x01] [f0; one]) = true.
Proof. vm_compute. repeat split. Qed.
