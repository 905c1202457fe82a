(** What Write emits is in the documented format. *)
From Coq Require Import ZArith Lia Permutation.
From Verif Require Import Base BaseFacts IO Spec IOFacts Floats ByteFacts BinaryIO BinaryIOFacts.
From Verif Require Import Metadata SpecMeta MetadataFacts Recording SpecRec RecordingFacts Encoding SpecEnc.
From Verif Require Import EncTableFacts EncEvent EncEventFacts EncEnum EncEnumFacts EncPosition EncEuler EncFloat EncNumFacts OctFacts EncLawful StreamFacts TimeIO TimeFacts.
From Verif Require Import Writer Reader SpecFile WriterFacts KeyFacts PlanFacts ReaderFacts FileFacts BuiltinFacts SpecFormat FormatFacts DenseFacts FormatRead.
Local Open Scope N_scope.
Local Open Scope format_scope.

(** ** Properties *)
Lemma text_back : forall s, lenN (string_to_bytes s) < 2 ^ 64 -> text s (string_to_bytes s).
Proof. intros s H. apply text_iff. pose proof (string_to_bytes_len s). split; [lia|reflexivity]. Qed.
Lemma built_code : forall p c, built p -> prop_code p = Ok c -> c < 256.
Proof.
  intros p c Hb H. destruct p; cbn [prop_code] in H; try (injection H as <-; reflexivity); try discriminate.
  - injection H as <-. now destruct b.
  - injection H as <-. now apply N.mod_lt.
  - injection H as <-. now apply N.mod_lt.
Qed.
Lemma texts_back : forall l, lenN (string_array_to_bytes l) < 2 ^ 64 -> counted text l (string_array_to_bytes l).
Proof.
  intros l H. destruct (string_array_len l) as [H1 H2]. apply texts_iff. split; [lia|]. split; [|reflexivity].
  eapply Forall_impl; [|exact H2]. cbv beta. intros s Hs. lia.
Qed.
Lemma entries_back : forall m, Forall (fun kv => forall c b, built (snd kv) -> prop_code (snd kv) = Ok c -> prop_data (snd kv) = Ok b -> lenN b < 2 ^ 64 -> value (snd kv) c b) m ->
  Forall (fun kv => built (snd kv)) m -> forall d, entries_data m = Ok d -> lenN d < 2 ^ 64 -> entries m d.
Proof.
  intros m H. induction H as [|[k v] m Hv H IH]; intros Hb d Ed Hl; cbn [entries_data] in Ed.
  - apply ok_inj in Ed. subst. constructor.
  - inversion Hb as [|? ? Hb1 Hb2]; subst. cbn [snd] in *. apply bind_ok in Ed as (c & Hc & Ed). apply bind_ok in Ed as (x & Hd & Ed).
    apply bind_ok in Ed as (t & Ht & Ed). apply ok_inj in Ed. subst d. rewrite lenN_cons, lenN_app in Hl.
    constructor; [|apply IH; auto; lia]. rewrite b2n_n2b_small by (eapply built_code; eauto). apply Hv; auto. lia.
Qed.
Lemma values_back : forall p c b, built p -> prop_code p = Ok c -> prop_data p = Ok b -> lenN b < 2 ^ 64 -> value p c b.
Proof.
  induction p as [p Hleaf | m IH | base ps IH] using prop_ind'; intros c d Hb Hc Hd Hl.
  - destruct p; try contradiction; cbn [prop_code prop_data] in Hc, Hd; try discriminate; apply ok_inj in Hc, Hd; subst c d.
    + constructor. now apply text_back.
    + constructor; [exact Hb|]. now apply fixed_iff.
    + constructor. now apply single_iff.
    + destruct b; constructor.
    + constructor.
    + constructor. do 2 eexists. split; [reflexivity|]. split; now apply double_iff.
    + constructor. do 2 eexists. split; [reflexivity|]. split; [now apply double_iff|]. do 2 eexists. split; [reflexivity|]. split; now apply double_iff.
    + constructor; [exact Hb|]. now apply fixed_iff.
    + cbn [built] in Hb. destruct Hb as [(x & E)|(x & E)]; unfold new_binary_array in E; injection E as -> ->.
      * apply (VBytes x). now apply text_back.
      * apply (VBools x). now apply text_back.
  - apply built_block_iff in Hb as [Hn Hb]. cbn [prop_code] in Hc. apply ok_inj in Hc. subst c.
    rewrite prop_data_block in Hd. apply bind_ok in Hd as (v & Hv & Hd). apply ok_inj in Hd. subst d. rewrite lenN_app in Hl.
    constructor; [exact Hn|apply texts_back; lia|]. apply entries_back; auto. lia.
  - apply built_array_iff in Hb as [Hi Hb]. cbn [prop_code] in Hc. apply ok_inj in Hc.
    rewrite prop_data_array in Hd. apply bind_ok in Hd as (v & Hv & Hd). apply ok_inj in Hd. subst d. rewrite lenN_app in Hl.
    assert (c = 13 + base) as -> by (subst c; cbn in Hi; repeat destruct Hi as [<-|Hi]; try reflexivity; contradiction).
    assert (Hit : forall v, elems_data ps = Ok v -> lenN v < 2 ^ 64 -> items base ps v).
    { clear Hv Hl Hc v. induction IH as [|x l Hx IH IHl]; intros v Hv Hl; cbn [elems_data] in Hv.
      - apply ok_inj in Hv. subst. constructor.
      - inversion Hb as [|? ? [Hxc Hxb] Hb']; subst. apply bind_ok in Hv as (y & Hy & Hv). apply bind_ok in Hv as (t & Ht & Hv). apply ok_inj in Hv. subst v.
        rewrite lenN_app in Hl. constructor; [apply Hx; auto; lia|]. apply IHl; auto. lia. }
    constructor; [exact Hi| |apply Hit; auto; lia]. apply varint_iff. split; [|reflexivity].
    pose proof (elems_data_len base ps v Hi Hb Hv). lia.
Qed.
Lemma block_values_entries : forall m, block_values m = entries_data m.
Proof.
  induction m as [|[k v] m IH]; [reflexivity|]. cbn [block_values entries_data]. rewrite IH. unfold write_property.
  destruct (prop_code v); [|reflexivity|reflexivity]. cbn [bind]. destruct (prop_data v); [|reflexivity|reflexivity]. cbn [bind].
  destruct (entries_data m); reflexivity.
Qed.
(** ** Metadata *)
Lemma metadata_back : forall keys is m d, selects keys is m -> lenN keys < 2 ^ 64 -> built_block m -> entries_data m = Ok d ->
  lenN (uvarint_array_to_bytes is ++ d) < 2 ^ 64 -> metadata keys m (uvarint_array_to_bytes is ++ d).
Proof.
  intros keys is m d Hs Hk Hb Hd Hl. rewrite lenN_app in Hl. apply built_block_iff in Hb as [Hn Hb]. split; [exact Hn|].
  pose proof (uvarint_array_len is). do 2 eexists. split; [reflexivity|]. split.
  - apply places_iff. exists is. split; [now apply picks_selects|]. split; [lia|]. split; [|reflexivity].
    clear -Hs Hk. induction Hs as [|i kv is m Hi Hs IH]; constructor; auto. apply nthN_some_lt in Hi. lia.
  - apply entries_back; auto; [|lia]. apply Forall_forall. intros kv _ c b. apply values_back.
Qed.
Lemma chunks_metadata : forall keys m, built_block m -> (forall k, In k (md_keys m) -> In k keys) -> lenN keys <= big ->
  lenN (concat (md_chunks (number 0 keys) m)) <= big -> metadata keys m (concat (md_chunks (number 0 keys) m)).
Proof.
  intros keys m Hb Hin Hk Hl. unfold md_chunks in *. cbn [concat] in *. rewrite app_nil_r in *.
  pose proof Hb as Hb'. apply built_block_iff in Hb' as [_ Hb'].
  assert (exists v, block_values m = Ok v) as [v Hv].
  { clear -Hb'. induction m as [|[k p] m IH]; [cbn; eauto|]. inversion Hb'; subst.
    cbn [block_values]. destruct (built_writes p) as [x ->]; [assumption|].
    destruct IH as [t ->]; [assumption|]. cbn. eauto. }
  unfold values_of in *. rewrite Hv in *. rewrite block_values_entries in Hv. apply metadata_back; auto.
  - clear -Hin. unfold selects. induction m as [|[k v] m IH]; constructor; [apply tbl_get_number, Hin; now left|].
    apply IH. intros x Hx. apply Hin. now right.
  - apply big_lt; [lia|reflexivity].
  - apply big_lt; [lia|reflexivity].
Qed.

(** ** Collections *)
Lemma events_back : forall names keys l b, stream_of names keys l b -> lenN names < 2 ^ 64 -> lenN keys < 2 ^ 64 -> lenN b < 2 ^ 64 ->
  Forall (fun x => built_block (snd (snd x))) l ->
  each (fun e : f64 * (str * block) => place names (fst (snd e)) ;; metadata keys (snd (snd e))) l b.
Proof.
  intros names keys l b H Hn Hk. induction H as [|t n m l ni is vs rest Hi Hs Hd H IH]; intros Hl Hb; [constructor|].
  inversion Hb as [|? ? Hb1 Hb2]; subst. rewrite !lenN_app in Hl. rewrite (app_assoc (uvarint_array_to_bytes is)), (app_assoc (put_uvarint ni)). constructor; [|apply IH; auto; lia].
  cbn [fst snd] in *. do 2 eexists. split; [reflexivity|]. split.
  - exists ni. split; [now rewrite <- nthN_nth_error|]. apply varint_iff. split; [|reflexivity]. apply nthN_some_lt in Hi. lia.
  - apply metadata_back; auto. rewrite lenN_app. lia.
Qed.
Lemma combine_snd : forall A B (ts : list A) (l : list B), length ts = length l -> map snd (combine ts l) = l.
Proof. induction ts as [|t ts IH]; intros [|x l] H; try discriminate; [reflexivity|]. cbn in *. now rewrite IH by lia. Qed.
Definition encodes (tp te tf : N) (k : kind) (c : coll) (b : bytes) : Prop :=
  lenN b <= big -> forall ts, length ts = c_length c -> body k (c_body (num_post tp te tf ts c)) b.
Lemma encoded : forall tp te tf e cs h ss, tp < 4 -> te < 3 -> tf < 3 -> builtin tp te tf e ->
  Forall (fun c => wf_coll c /\ e_accepts e c = true) cs -> e_encode e cs = Ok (h, ss, None) -> lenN h <= big ->
  exists k, signature k = e_sig e /\ header k h /\
    forall q c b, nth_error cs q = Some c -> nth_error ss q = Some b -> encodes tp te tf k c b.
Proof.
  intros tp te tf e cs h ss Hp He Hf Hb Hcs E Hh.
  destruct Hb as [ -> |[ -> |[ -> |[ -> | -> ]]]].
  - assert (Hall : Forall (fun c => exists l, c_body c = BEvent l /\ Forall (fun x => built_block (snd (snd x))) l) cs).
    { eapply Forall_impl; [|exact Hcs]. intros c [Hw Ha]. destruct (accepts_event c Hw Ha) as [l El]. exists l. split; [exact El|].
      unfold wf_coll in Hw. now rewrite El in Hw. }
    destruct (enc_event_streams_ok cs [] [] (NoDup_nil _) (NoDup_nil _) Hall) as (ss' & NA & KA & E' & _ & _ & H2). cbn [app number] in *.
    cbn [e_encode event_encoder] in E. unfold event_encode in E. rewrite E' in E. cbn [bind] in E. rewrite !tbl_array_number in E. cbn [bind] in E.
    apply ok_inj in E. injection E as <- <-. rewrite lenN_app in Hh.
    assert (LN : lenN NA < 2 ^ 64 /\ lenN KA < 2 ^ 64).
    { destruct (string_array_len NA) as [LN1 LN2]. destruct (string_array_len KA) as [LK1 LK2]. split; apply big_lt; try reflexivity; lia. }
    exists (KEvent NA KA). split; [reflexivity|]. split.
    + do 2 eexists. split; [reflexivity|]. split; apply texts_back; apply big_lt; try reflexivity; lia.
    + intros q c b Hc Hs Hl ts Ht. pose proof (RecordingFacts.Forall2_nth _ _ _ _ _ H2 q c b Hc Hs) as (l & El & Hso).
      rewrite Forall_forall in Hall. destruct (Hall c (nth_error_In _ _ Hc)) as (l' & El' & Hwl). rewrite El in El'. injection El' as <-.
      unfold num_post, retime. rewrite El. cbn [body c_body].
      unfold c_length, c_times in Ht. rewrite El, map_length in Ht.
      apply (snd_map _ _ (fun x => place NA (fst x) ;; metadata KA (snd x))). rewrite combine_snd by (now rewrite map_length).
      apply (snd_map _ _ (fun x => place NA (fst x) ;; metadata KA (snd x)) l). apply events_back; try tauto. apply big_lt; [exact Hl|reflexivity].
  - assert (Hall : Forall (fun c => exists ms l, c_body c = BEnum ms l) cs).
    { eapply Forall_impl; [|exact Hcs]. intros c [Hw Ha]. now apply accepts_enum. }
    destruct (enc_enum_streams_ok cs [] (NoDup_nil _) Hall) as (ss' & K & E' & _ & H2). cbn [app number] in *.
    cbn [e_encode enum_encoder] in E. unfold enum_encode in E. rewrite E' in E. cbn [bind] in E. rewrite !tbl_array_number in E. cbn [bind] in E.
    apply ok_inj in E. injection E as <- <-.
    assert (LN : lenN K < 2 ^ 64).
    { destruct (string_array_len K) as [LN1 LN2]. apply big_lt; try reflexivity; lia. }
    exists (KEnum K). split; [reflexivity|]. split.
    + apply texts_back; apply big_lt; try reflexivity; lia.
    + intros q c b Hc Hs Hl ts Ht. pose proof (RecordingFacts.Forall2_nth _ _ _ _ _ H2 q c b Hc Hs) as (ms & l & is & El & Hpk & ->).
      rewrite Forall_forall in Hcs. destruct (Hcs c (nth_error_In _ _ Hc)) as [Hw _]. unfold wf_coll in Hw. rewrite El in Hw.
      unfold num_post, retime. rewrite El. cbn [body c_body].
      unfold c_length, c_times in Ht. rewrite El, map_length in Ht. unfold enum_bytes in *. rewrite lenN_app in Hl. pose proof (uvarint_array_len is).
      do 2 eexists. split; [reflexivity|]. split.
      * apply places_iff. exists is. split; [exact Hpk|]. split; [apply big_lt; [lia|reflexivity]|]. split; [|reflexivity].
        clear -Hpk LN. induction Hpk as [|i x is ms Hi Hs IH]; constructor; auto. apply nthN_some_lt in Hi. lia.
      * apply (snd_map _ _ (fun z b => (- 2 ^ 63 <= z < 2 ^ 63)%Z /\ varint (Z.to_N (z mod 2 ^ 64)) b)). rewrite combine_snd by (now rewrite map_length).
        apply (snd_map _ _ (fun z b => (- 2 ^ 63 <= z < 2 ^ 63)%Z /\ varint (Z.to_N (z mod 2 ^ 64)) b)).
        apply flat_each. eapply Forall_impl; [|exact Hw]. cbv beta. intros x Hx. split; [exact Hx|]. apply varint_iff. split; [|reflexivity].
        change (2 ^ 64) with (Z.to_N (2 ^ 64)). apply Z2N.inj_lt; try apply Z.mod_pos_bound; try reflexivity. discriminate.
  - cbn [e_encode position_encoder] in E. unfold pos_encode in E. rewrite (EncLawful.map_res_ok _ (pos_stream tp)) in E.
    2:{ eapply Forall_impl; [|exact Hcs]. intros c [Hw Ha]. destruct (accepts_pos tp c Hw Ha) as [l El]. unfold pos_stream, pos_encode1, pos_caps. now rewrite El. }
    cbn [bind] in E. apply ok_inj in E. injection E as <- <-. exists KPosition. split; [reflexivity|]. split; [reflexivity|].
    intros q c b Hc Hs Hl ts Ht. rewrite (map_nth_error _ _ _ Hc) in Hs. injection Hs as <-.
    rewrite Forall_forall in Hcs. destruct (Hcs c (nth_error_In _ _ Hc)) as [Hw Ha]. destruct (accepts_pos tp c Hw Ha) as [l El].
    unfold pos_stream, pos_encode1, pos_caps, num_post, pos_post. rewrite El. cbn [body c_body]. unfold c_length, c_times in Ht. rewrite El, map_length in Ht.
    exists (n2b tp). eexists. split; [reflexivity|].
    assert (tp < 2 \/ tp = 2 \/ tp = 3) as [Hp' | [-> | ->]] by lia; cycle 1.
    { right. left. split; [reflexivity|]. rewrite combine_snd by (unfold pos_values; rewrite oct_values_len, map_length; exact Ht).
      apply (dense_positions_written 16 cells_to_bytes48 6); [auto|exact packs48]. }
    { right. right. split; [reflexivity|]. rewrite combine_snd by (unfold pos_values; rewrite oct_values_len, map_length; exact Ht).
      apply (dense_positions_written 8 cells_to_bytes24 3); [auto|exact packs24]. }
    clear Hp. rename Hp' into Hp. left. split; [apply known_iff; eauto|].
    apply (points_of tp stored put_num); [exact Hp|intros; now apply stored_iff|]. exists (map snd l).
    assert (tp = 0 \/ tp = 1) as [->| ->] by lia; unfold pos_values; (split; [|reflexivity]); rewrite combine_snd by (now rewrite ?map_length); [now rewrite vmap_near|reflexivity].
  - cbn [e_encode euler_encoder] in E. unfold euler_encode in E. rewrite (EncLawful.map_res_ok _ (euler_stream te)) in E.
    2:{ eapply Forall_impl; [|exact Hcs]. intros c [Hw Ha]. destruct (accepts_euler te c Hw Ha) as [l El]. unfold euler_stream, euler_encode1, euler_caps. now rewrite El. }
    cbn [bind] in E. apply ok_inj in E. injection E as <- <-. exists KEuler. split; [reflexivity|]. split; [reflexivity|].
    intros q c b Hc Hs Hl ts Ht. rewrite (map_nth_error _ _ _ Hc) in Hs. injection Hs as <-.
    rewrite Forall_forall in Hcs. destruct (Hcs c (nth_error_In _ _ Hc)) as [Hw Ha]. destruct (accepts_euler te c Hw Ha) as [l El].
    unfold euler_stream, euler_encode1, euler_caps, num_post, euler_post. rewrite El. cbn [body c_body]. unfold c_length, c_times in Ht. rewrite El, map_length in Ht.
    exists (n2b te). eexists. split; [reflexivity|]. assert (te < 2 \/ te = 2) as [He' | ->] by lia; cycle 1.
    { right. split; [reflexivity|]. rewrite combine_snd by (rewrite euler_values_len, map_length; exact Ht). apply dense_angles_written. }
    clear He. rename He' into He. left. split; [apply known_iff; eauto|].
    apply (points_of te angle put_angle); [exact He|intros; now apply angle_iff|]. exists (map snd l).
    assert (te = 0 \/ te = 1) as [->| ->] by lia; unfold euler_values; (split; [|reflexivity]); rewrite combine_snd by (now rewrite ?map_length); [now rewrite vmap_near|reflexivity].
  - cbn [e_encode float_encoder] in E. unfold float_encode in E. rewrite float_streams_ok in E.
    2:{ eapply Forall_impl; [|exact Hcs]. intros c [Hw Ha]. eapply accepts_float; eauto. }
    apply ok_inj in E. injection E as <- <-. exists KFloat. split; [reflexivity|]. split; [reflexivity|].
    intros q c b Hc Hs Hl ts Ht. rewrite (map_nth_error _ _ _ Hc) in Hs. injection Hs as <-.
    rewrite Forall_forall in Hcs. destruct (Hcs c (nth_error_In _ _ Hc)) as [Hw Ha]. destruct (accepts_float tf c Hw Ha) as [l El].
    unfold float_stream, float_encode1, num_post, float_post. rewrite El. cbn [body c_body]. unfold c_length, c_times in Ht. rewrite El, map_length in Ht.
    exists (n2b tf). eexists. split; [reflexivity|]. assert (tf < 2 \/ tf = 2) as [Hf' | ->] by lia; cycle 1.
    { right. split; [reflexivity|]. rewrite combine_snd by (unfold float_values; rewrite !map_length; exact Ht). apply dense_numbers_written. }
    clear Hf. rename Hf' into Hf. left. split; [apply known_iff; eauto|].
    apply (snd_map _ _ (stored (n2b tf))). 
    assert (tf = 0 \/ tf = 1) as [->| ->] by lia; unfold float_values; rewrite combine_snd by (now rewrite ?map_length).
    + rewrite <- (map_id (map snd l)) at 1. apply (exists_each _ _ _ (fun x => x)). intro x. apply (stored_iff 0); [reflexivity|]. exists x. auto.
    + apply (exists_each _ _ _ near32). intro x. apply (stored_iff 1); [reflexivity|]. exists x. auto.
Qed.

(** ** Recordings *)
Section Recorded.
Context (tech : N) (Htech : tech < 3) (keys : list str) (Hkeys : lenN keys <= big) (kinds : list kind).
Context (blocks : list bytes) (used : list N) (RC : coll -> coll -> Prop).
Let T := number 0 keys.
Definition fits (ix : N) (c : coll) : Prop :=
  exists u b k, nthN used ix = Some u /\ nthN blocks ix = Some b /\ u < 2 ^ 64 /\ nth_error kinds (N.to_nat u) = Some k /\
    (lenN b <= big -> exists d, RC c d /\ c_name d = c_name c /\ c_times d = time_values tech (c_times c) /\ body k (c_body d) b).

Lemma time_back : forall l, lenN (encode_time tech l) < 2 ^ 64 -> times (time_values tech l) (encode_time tech l).
Proof.
  intros l H. pose proof (encode_time_len tech l ltac:(lia)). assert (tech < 2 \/ tech = 2) as [Ht' | E] by lia.
  - assert (Hpl : plain_times (time_values tech l) (encode_time tech l)) by (apply times_iff; exists tech, l; split; [exact Ht'|]; split; [lia|auto]).
    destruct Hpl as (t & r & E & Hk & Hc). exists t, r. auto.
  - rewrite E in *. exists x02. eexists. split; [reflexivity|]. right. split; [reflexivity|].
    exists (put_uvarint (lenN l)), (encode_time16 l). split; [reflexivity|]. split; [|apply dense_times_written].
    unfold lenN at 1. rewrite time_values_len. fold (lenN l). apply varint_iff. split; [lia|reflexivity].
Qed.
Lemma streams_fit : forall cs off, (forall i c, nthN cs i = Some c -> fits (off + i) c) ->
  lenN (concat (streams_chunks tech blocks used off (map Some cs))) <= big ->
  exists ds, Forall2 RC cs ds /\ lenN cs <= lenN (concat (streams_chunks tech blocks used off (map Some cs))) /\
    each (present (stream kinds)) (map Some ds) (concat (streams_chunks tech blocks used off (map Some cs))).
Proof.
  induction cs as [|c cs IH]; intros off Hok Hs; cbn [map streams_chunks] in *.
  - exists []. split; [constructor|]. split; [discriminate|constructor].
  - destruct (Hok 0 c eq_refl) as (u & b & k & Hu & Hb & Hlt & Hk & Hd). rewrite N.add_0_r in Hu, Hb. rewrite Hu, Hb in *.
    rewrite concat_app, lenN_app in *. unfold stream_chunks in Hs at 1. cbn [concat] in Hs. rewrite !lenN_app in Hs. change (lenN (@nil byte)) with 0 in Hs.
    pose proof (string_to_bytes_len (c_name c)). pose proof (bytes_array_len b). pose proof (put_uvarint_len u).
    destruct Hd as (d & Hrc & En & Et & Hbody); [lia|].
    destruct (IH (off + 1)) as (ds & Hds & Hl & He).
    { intros i x Hx. rewrite <- N.add_assoc. apply Hok. cbn [nthN]. destruct (N.eqb_spec (1 + i) 0); [lia|]. replace (N.pred (1 + i)) with i by lia. exact Hx. }
    { lia. }
    exists (d :: ds). split; [now constructor|]. split; [rewrite lenN_cons; unfold stream_chunks; cbn [concat]; rewrite lenN_app; lia|].
    constructor; [|exact He]. exists d. split; [reflexivity|]. exists u, k. split; [exact Hk|]. rewrite En, Et.
    do 2 eexists. split; [reflexivity|]. split; [now apply varint_iff|]. do 2 eexists. split; [reflexivity|].
    split; [apply text_back; apply big_lt; [lia|reflexivity]|]. do 2 eexists. split; [reflexivity|]. split; [apply time_back; apply big_lt; [lia|reflexivity]|].
    cbn [concat]. rewrite app_nil_r. exists b. split; [exact Hbody|]. apply text_back. change (string_to_bytes b) with (bytes_array_to_bytes b). apply big_lt; [lia|reflexivity].
Qed.
Lemma parts_fit : forall A (f : A -> list bytes) (P : A -> Prop) (Q : A -> bytes -> Prop) (l : list (option A)),
  (forall x, In (Some x) l -> P x -> lenN (concat (f x)) <= big -> Q x (concat (f x)) /\ 1 <= lenN (concat (f x))) ->
  Forall (given P) l -> lenN (concat (flat_map (opt_chunks f) l)) <= big ->
  lenN l <= lenN (concat (flat_map (opt_chunks f) l)) /\ each (present Q) l (concat (flat_map (opt_chunks f) l)).
Proof.
  intros A f P Q l Hf H. induction H as [|o l (x & -> & Hx) H IH]; intro Hs; cbn [flat_map opt_chunks] in *.
  - split; [discriminate|constructor].
  - rewrite concat_app, lenN_app in *. destruct (Hf x (or_introl eq_refl) Hx ltac:(lia)) as [Hq Hn].
    destruct IH as [Hl He]; [intros y Hy; apply Hf; now right|lia|]. rewrite lenN_cons. split; [lia|]. constructor; [|exact He]. exists x. auto.
Qed.
Lemma count_back : forall A (P : A -> bytes -> Prop) l b, each P l b -> lenN l <= big -> counted P l (put_uvarint (lenN l) ++ b).
Proof. intros A P l b H Hl. do 2 eexists. split; [reflexivity|]. split; [|exact H]. apply varint_iff. split; [apply big_lt; [exact Hl|reflexivity]|reflexivity]. Qed.

Theorem recorded_fits : forall r, wf_rec r -> (forall k, In k (tree_keys r) -> In k keys) ->
  forall off, (forall i c, nthN (tree_colls r) i = Some c -> fits (off + i) c) ->
  lenN (concat (rec_chunks tech T blocks used r off)) <= big ->
  exists r', rec_rel eq RC r r' /\ recorded keys kinds r' (concat (rec_chunks tech T blocks used r off)).
Proof.
  intro r. induction r as [id name colls recs md bins refs IH] using recording_ind'.
  intros Hwf Hk off Hok Hs. inversion Hwf as [? ? ? ? ? ? ? Hcolls Hrecs Hmd Hbins Hrefs]; subst.
  rewrite rec_chunks_eq in *. cbn [tree_keys] in Hk.
  assert (Hc : exists cs, colls = map Some cs).
  { clear -Hcolls. induction Hcolls as [|o l (c & -> & _) H (cs & ->)]; [now exists []|]. now exists (c :: cs). }
  destruct Hc as [cs ->]. rewrite tree_colls_eq, opt_colls_some in Hok.
  set (C1 := md_chunks T md) in *. set (C2 := streams_chunks tech blocks used off (map Some cs)) in *.
  set (C3 := flat_map (opt_chunks (ref_chunks T)) refs) in *. set (C4 := flat_map (opt_chunks (bin_chunks T)) bins) in *.
  set (C5 := recs_chunks tech T blocks used recs (off + lenN (map Some cs))) in *.
  assert (Hcat : concat ([string_to_bytes id; string_to_bytes name] ++ C1 ++
          [put_uvarint (lenN (map Some cs))] ++ C2 ++ [put_uvarint (lenN refs)] ++ C3 ++
          [put_uvarint (lenN bins)] ++ C4 ++ [put_uvarint (lenN recs)] ++ C5) =
      string_to_bytes id ++ string_to_bytes name ++ concat C1 ++ (put_uvarint (lenN (map Some cs)) ++
      concat C2) ++ (put_uvarint (lenN refs) ++ concat C3) ++ (put_uvarint (lenN bins) ++ concat C4) ++
      put_uvarint (lenN recs) ++ concat C5).
  { rewrite !concat_app. cbn [concat]. rewrite !app_nil_r, <- !app_assoc. reflexivity. }
  rewrite Hcat in *. clear Hcat. rewrite !lenN_app in Hs.
  destruct (streams_fit cs off) as (ds & Hds & L2 & P2). { intros i c Hi. apply Hok. now apply nthN_prefix. } { fold C2. lia. }
  fold C2 in L2, P2.
  destruct (parts_fit _ (ref_chunks T) wf_ref (reference keys) refs) as [L3 P3]; auto.
  { intros x Hx [Hm Hsz] Hl. unfold ref_chunks in *. rewrite concat_app in *. cbn [concat] in *. rewrite app_nil_r in *. rewrite !lenN_app in Hl.
    split; [|rewrite !lenN_app; unfold string_to_bytes at 1; rewrite lenN_app; pose proof (put_uvarint_len (lenN (r_name x))); lia].
    rewrite <- !app_assoc. unfold reference. do 2 eexists. split; [reflexivity|]. split; [apply text_back; apply big_lt; [lia|reflexivity]|].
    do 2 eexists. split; [reflexivity|]. split; [apply text_back; apply big_lt; [lia|reflexivity]|].
    do 2 eexists. split; [reflexivity|]. split; [now apply varint_iff|]. apply chunks_metadata; auto; [|fold T; lia].
    assert (Hk3 : forall k, In k (flat_map (fun o => match o with Some f0 => md_keys (r_md f0) | None => [] end) refs) -> In k keys) by (intros k Hin; apply Hk; rewrite !in_app_iff; auto).
    intros k Hkx. apply Hk3. apply in_flat_map. exists (Some x). auto. }
  { fold C3. lia. }
  fold C3 in L3, P3.
  destruct (parts_fit _ (bin_chunks T) wf_bin (attachment keys) bins) as [L4 P4]; auto.
  { intros x Hx [Hm Hsz] Hl. unfold bin_chunks in *. rewrite !concat_app, data_chunks_concat in *. cbn [concat] in *. rewrite app_nil_r in *. rewrite !lenN_app in Hl.
    split; [|rewrite !lenN_app; unfold string_to_bytes at 1; rewrite lenN_app; pose proof (put_uvarint_len (lenN (b_name x))); lia].
    split; [exact Hsz|]. rewrite <- !app_assoc, Hsz. do 2 eexists. split; [reflexivity|]. split; [apply text_back; apply big_lt; [lia|reflexivity]|].
    do 2 eexists. split; [reflexivity|]. split; [apply varint_iff; split; [apply big_lt; [lia|reflexivity]|reflexivity]|].
    do 2 eexists. split; [reflexivity|]. split; [|reflexivity]. apply chunks_metadata; auto; [|fold T; lia].
    assert (Hk4 : forall k, In k (flat_map (fun o => match o with Some f0 => md_keys (b_md f0) | None => [] end) bins) -> In k keys) by (intros k Hin; apply Hk; rewrite !in_app_iff; auto).
    intros k Hkx. apply Hk4. apply in_flat_map. exists (Some x). auto. }
  { fold C4. lia. }
  fold C4 in L4, P4.
  assert (P5 : exists recs', Forall2 (both (rec_rel eq RC)) recs recs' /\ lenN recs <= lenN (concat C5) /\ each (present (recorded keys kinds)) recs' (concat C5)).
  { assert (Hok' : forall i c, nthN (recs_colls recs) i = Some c -> fits (off + lenN (map Some cs) + i) c).
    { intros i c Hi. rewrite <- N.add_assoc. apply Hok. rewrite lenN_map, nthN_app_r by lia.
      replace (lenN cs + i - lenN cs) with i by lia. exact Hi. }
    assert (Hk' : forall k, In k (flat_map (fun o => match o with Some c => tree_keys c | None => [] end) recs) -> In k keys).
    { intros k Hin. apply Hk. rewrite !in_app_iff. auto. }
    assert (Hs5 : lenN (concat C5) <= big) by lia. unfold C5 in *. clearbody C1 C2 C3 C4. clear -IH Hrecs Hok' Hk' Hs5 Hkeys Htech.
    revert Hok' Hs5. generalize (off + lenN (map Some cs)) as o. clear off cs.
    induction recs as [|x recs IHl]; intros o Hok Hs; cbn [recs_chunks] in *.
    - exists []. split; [constructor|]. split; [discriminate|constructor].
    - inversion Hrecs as [|? ? (c & -> & Hc) Hrecs']; subst. rewrite concat_app, lenN_app in Hs.
      cbn [flat_map] in Hk'. unfold recs_colls in Hok. cbn [flat_map] in Hok. fold (recs_colls recs) in Hok.
      pose proof (wf_num_streams c Hc) as Hns.
      destruct (IH c (or_introl eq_refl) Hc) with (off := o) as (c' & Hcc & Bc).
      { intros k Hin. apply Hk', in_or_app. now left. }
      { intros i d Hi. apply Hok. now apply nthN_prefix. } { lia. }
      destruct (IHl (fun d Hd => IH d (or_intror Hd)) Hrecs' ) with (o := o + num_streams c) as (recs' & Hrr & Hl & Hp).
      { intros k Hin. apply Hk', in_or_app. now right. }
      { intros i d Hi. rewrite <- N.add_assoc. apply Hok. rewrite Hns, nthN_app_r by lia.
        replace (lenN (tree_colls c) + i - lenN (tree_colls c)) with i by lia. exact Hi. }
      { lia. }
      exists (Some c' :: recs'). split; [constructor; [exists c, c'; auto | exact Hrr]|]. rewrite concat_app, lenN_cons, lenN_app. split.
      { pose proof (recorded_nonempty _ _ _ _ Bc). lia. }
      constructor; [|exact Hp]. exists c'. auto. }
  destruct P5 as (recs' & Hrr & L5 & P5).
  exists (mkRec id name (map Some ds) recs' md bins refs). split.
  { constructor; auto.
    - clear -Hds. induction Hds; constructor; auto. eexists; eexists; eauto.
    - eapply given_refl; [|exact Hbins]. intro x. now repeat split.
    - eapply given_refl; [|exact Hrefs]. intro x. now repeat split. }
  rewrite lenN_map in *.
  assert (El : lenN cs = lenN (map Some ds)) by (rewrite lenN_map; unfold lenN; f_equal; eapply Forall2_len; eauto).
  assert (El5 : lenN recs = lenN recs') by (unfold lenN; f_equal; eapply Forall2_len; eauto).
  constructor. do 2 eexists. split; [reflexivity|]. split; [apply text_back; apply big_lt; [lia|reflexivity]|].
  do 2 eexists. split; [reflexivity|]. split; [apply text_back; apply big_lt; [lia|reflexivity]|].
  do 2 eexists. split; [reflexivity|]. split.
  { apply chunks_metadata; auto; [|fold T C1; lia]. intros k Hin. apply Hk, in_or_app. now left. }
  do 2 eexists. split; [reflexivity|]. split; [rewrite El; apply count_back; [exact P2|lia]|].
  do 2 eexists. split; [reflexivity|]. split; [apply count_back; [exact P3|lia]|].
  do 2 eexists. split; [reflexivity|]. split; [apply count_back; [exact P4|lia]|].
  rewrite El5. apply count_back; [exact P5|lia].
Qed.
End Recorded.

(** ** The file *)
Definition described (tp te tf : N) (k : kind) (m : mapping) (h : bytes) : Prop :=
  signature k = e_sig (m_enc m) /\ header k h /\
  forall ss q c b, e_encode (m_enc m) (m_colls m) = Ok (h, ss, None) -> nth_error (m_colls m) q = Some c -> nth_error ss q = Some b -> encodes tp te tf k c b.
Lemma all_described : forall tp te tf ms hs, tp < 4 -> te < 3 -> tf < 3 ->
  Forall2 (fun m h => exists ss, e_encode (m_enc m) (m_colls m) = Ok (h, ss, None)) ms hs ->
  Forall (fun m => builtin tp te tf (m_enc m) /\ Forall (fun c => wf_coll c /\ e_accepts (m_enc m) c = true) (m_colls m)) ms ->
  lenN (concat (map bytes_array_to_bytes hs)) <= big ->
  exists kinds, map signature kinds = map e_sig (map m_enc ms) /\
    each (fun k => blob (header k)) kinds (concat (map bytes_array_to_bytes hs)) /\
    forall j m h, nth_error ms j = Some m -> nth_error hs j = Some h -> exists k, nth_error kinds j = Some k /\ described tp te tf k m h.
Proof.
  intros tp te tf ms hs Hp He Hf H. induction H as [|m h ms hs (ss & E) H IH]; intros Hm Hl.
  - exists []. split; [reflexivity|]. split; [constructor|]. intros [|j] m h Hj; discriminate.
  - inversion Hm as [|? ? [Hb Hc] Hm']; subst. cbn [map concat] in Hl. rewrite lenN_app in Hl. pose proof (bytes_array_len h).
    destruct (encoded tp te tf _ _ _ _ Hp He Hf Hb Hc E ltac:(lia)) as (k & Hk & Hh & Hd). destruct (IH Hm' ltac:(lia)) as (kinds & E1 & E2 & E3).
    exists (k :: kinds). split; [cbn [map]; congruence|]. split.
    + cbn [map concat]. constructor; [|exact E2]. exists h. split; [exact Hh|]. apply text_back. change (string_to_bytes h) with (bytes_array_to_bytes h). apply big_lt; [lia|reflexivity].
    + intros [|j] m' h' Hm1 Hh1; cbn [nth_error] in *.
      * injection Hm1 as <-. injection Hh1 as <-. exists k. split; [reflexivity|]. split; [exact Hk|]. split; [exact Hh|].
        intros ss' q c b E'. rewrite E in E'. apply ok_inj in E'. injection E' as <-. apply Hd.
      * apply E3; auto.
Qed.
Theorem file_fits : forall tp te tf cfg Z r rA rE, tp < 4 -> te < 3 -> tf < 3 -> w_time cfg < 3 ->
  Forall (builtin tp te tf) (w_encs cfg) -> NoDup (map e_sig (w_encs cfg)) ->
  wf_rec r -> ~ unaccepted (w_encs cfg) r -> rec_equiv r rA -> rec_equiv r rE ->
  exists n file, (forall out, write_views cfg Z buffer rA rE r out = Ok (n, None, out ++ file)) /\
    (w_compress cfg = false -> n = lenN file) /\
    (n <= 2 ^ 40 -> exists kinds r',
       (if w_compress cfg then packed_file (packs_to Z) kinds r' n file else rap_file kinds r' file) /\
       Forall (fun k => exists e, In e (w_encs cfg) /\ e_sig e = signature k) kinds /\
       rec_rel eq (decoded (w_encs cfg) (fun _ => num_post tp te tf) (w_time cfg)) r r').
Proof.
  intros tp te tf cfg Z r rA rE Hp He Hf Ht Hes Hs Hwf Hacc HA HE.
  destruct (write_script cfg Z (fun _ => num_post tp te tf) r rA rE Hs) as
    (ms & hs & blocks & used & keys & payload & Hpay & Hk & Hnd & Hk' & (Hlen & Henc) & (P & G & Hd) & Hst & Hrun); auto.
  { apply builtin_all; auto; lia. }
  { intro H. apply Hacc. eapply unaccepted_view; eauto. }
  assert (HwfE : Forall wf_coll (tree_colls rE)).
  { pose proof (rel_tree_colls _ _ _ _ HE) as Hcolls. pose proof (wf_tree_colls _ Hwf) as H. clear -H Hcolls.
    induction Hcolls; inversion H; subst; constructor; eauto using coll_equiv_wf. }
  set (front := [x02] ++ string_array_to_bytes (map e_sig (map m_enc ms)) ++ concat (map put_uvarint (map e_version (map m_enc ms))) ++ [if w_compress cfg then x01 else x00]).
  assert (Ehead : head_bytes ms (w_compress cfg) = front) by (unfold front; rewrite head_bytes_eq, <- !app_assoc; reflexivity).
  assert (Epay : concat payload = concat (map bytes_array_to_bytes hs) ++ string_array_to_bytes keys ++ concat (rec_chunks (w_time cfg) (number 0 keys) blocks used r 0)).
  { rewrite Hpay. unfold payload_chunks. rewrite !concat_app. cbn [concat]. rewrite ?app_nil_r, <- ?app_assoc. reflexivity. }
  assert (Efile : concat (file_chunks Z ms (w_compress cfg) payload) = front ++ (if w_compress cfg then squeeze Z payload else concat payload)).
  { unfold file_chunks. rewrite concat_app. fold (head_bytes ms (w_compress cfg)). rewrite Ehead. now destruct (w_compress cfg). }
  exists (lenN front + lenN (concat payload)), (concat (file_chunks Z ms (w_compress cfg) payload)). split; [|split].
  { intro out. specialize (Hrun bytes buffer out honest_buffer). rewrite send_buffer in Hrun. cbv beta iota zeta in Hrun.
    destruct Hrun as [(n & Ew & Hn & Hc) | (_ & H & _)]; [|congruence]. rewrite Ew, (Hn eq_refl). fold (head_bytes ms (w_compress cfg)). now rewrite Ehead. }
  { intro Hz. rewrite Efile, Hz, lenN_app. reflexivity. }
  clear Hrun. intro Hsize. change (2 ^ 40) with big in Hsize.
  rewrite Efile. rewrite Epay in Hsize. unfold front in Hsize. rewrite !lenN_app in Hsize.
  assert (Hms : Forall (fun m => In (m_enc m) (w_encs cfg)) ms) by (eapply Forall_impl; [|exact G]; intros m Hm; apply Hm).
  destruct (all_described tp te tf ms hs Hp He Hf Henc) as (kinds & E1 & E2 & E3).
  { rewrite Forall_forall. intros m Hm. rewrite Forall_forall in Hms, Hes. split; [auto|]. rewrite Forall_forall. intros c Hc.
    rewrite Forall_forall in G. destruct (G m Hm) as (_ & Hl & _ & Hall). split.
    - rewrite Forall_forall in HwfE. apply HwfE. destruct (In_nth_error _ _ Hc) as [i Hi].
      destruct (nth_error (m_order m) i) as [o|] eqn:Ho.
      2:{ apply nth_error_None in Ho. assert (i < length (m_colls m))%nat by (apply nth_error_Some; congruence). lia. }
      assert (Hp' : In (o, c) (flat_map pairs ms)).
      { apply in_flat_map. exists m. split; [exact Hm|]. unfold pairs. clear -Hi Ho.
        revert i Hi Ho. generalize (m_order m). induction (m_colls m) as [|a cs IH]; intros [|b os] [|i] Hi Ho; cbn in *; try discriminate.
        - left. congruence.
        - right. eauto. }
      apply (Permutation_in _ P), indexed_In in Hp' as [_ Hp']. eapply nthN_In; eauto.
    - rewrite Forall_forall in Hall. specialize (Hall c Hc). unfold chosen in Hall. apply find_some in Hall. tauto. }
  { blia. }
  destruct (string_array_len (map e_sig (map m_enc ms))) as [Ls _]. destruct (string_array_len keys) as [Lk _]. rewrite !lenN_map in Ls.
  destruct (recorded_fits (w_time cfg) Ht keys ltac:(blia) kinds blocks used (decoded (w_encs cfg) (fun _ => num_post tp te tf) (w_time cfg)) r Hwf Hk 0) as (r' & Hr & HX).
  { intros i c Hi. rewrite N.add_0_l. destruct (Hst i c Hi) as (j & m & h & d & cE & Hu & Hb & Hm & Hh & Heq & Hch & _ & ss & q & Eq & Hc & Hq).
    destruct (E3 j m h Hm Hh) as (k & Hkk & _ & _ & Hbody). exists (N.of_nat j), d, k. rewrite Nat2N.id.
    split; [exact Hu|]. split; [exact Hb|]. split.
    { assert (j < length ms)%nat by (apply nth_error_Some; congruence). apply big_lt; [|reflexivity]. unfold lenN in *. blia. }
    split; [exact Hkk|]. intro Hl. pose proof (coll_equiv_times _ _ Heq) as Etime.
    assert (Hlt : length (time_values (w_time cfg) (c_times c)) = c_length cE).
    { unfold c_length. rewrite <- Etime. apply time_values_len. }
    exists (num_post tp te tf (time_values (w_time cfg) (c_times c)) cE). split; [exists cE, (m_enc m); auto|]. split; [|split].
    - rewrite (coll_equiv_name _ _ Heq). unfold num_post, pos_post, euler_post, float_post, retime. destruct (c_body cE); reflexivity.
    - apply num_post_times. exact Hlt.
    - eapply Hbody; eauto. }
  { fold (number 0 keys). blia. }
  exists kinds, r'. split; [|split; [|exact Hr]].
  - assert (Hop : opening kinds (if w_compress cfg then x01 else x00) front).
    { unfold opening, front. do 2 eexists. split; [reflexivity|]. split; [reflexivity|]. do 2 eexists. split; [reflexivity|].
      split; [rewrite E1; apply texts_back; apply big_lt; [blia|reflexivity]|]. do 2 eexists. split; [reflexivity|]. split; [|reflexivity].
      rewrite map_map. apply (f_equal (@length str)) in E1. rewrite !map_length in E1. clear -E1 Hms Hes. revert kinds E1.
      induction ms as [|m ms IH]; intros [|k kinds] E1; try discriminate; cbn [map concat]; [constructor|]. inversion Hms; subst. constructor; [|apply IH; auto].
      rewrite Forall_forall in Hes. assert (e_version (m_enc m) = 0) as ->.
      { destruct (Hes (m_enc m)) as [ -> |[ -> |[ -> |[ -> | -> ]]]]; auto. }
      now apply varint_iff. }
    assert (Hco : contents kinds r' (concat payload)).
    { rewrite Epay. do 2 eexists. split; [reflexivity|]. split; [exact E2|].
      exists keys. do 2 eexists. split; [reflexivity|]. split; [apply texts_back; apply big_lt; [blia|reflexivity]|exact HX]. }
    destruct (w_compress cfg).
    + exists (concat payload). split; [exact Hco|]. do 2 eexists. split; [reflexivity|]. split; [split; [exact Hop|reflexivity]|].
      exists payload. split; reflexivity.
    + do 2 eexists. split; [reflexivity|]. split; [exact Hop|exact Hco].
  - rewrite Forall_forall. intros k Hin. apply (in_map signature) in Hin. rewrite E1, map_map in Hin. apply in_map_iff in Hin as (m & Em & Hin).
    rewrite Forall_forall in Hms. exists (m_enc m). auto.
Qed.
