(** The event encoder round trips. *)
From Coq Require Import ZArith Lia.
From Verif Require Import Base BaseFacts IO Spec IOFacts Floats BinaryIO BinaryIOFacts VarintFacts.
From Verif Require Import Metadata SpecMeta MetadataFacts Recording SpecRec Encoding EncTableFacts.
From Verif Require Import EncEvent SpecEnc RecordingFacts.
Local Open Scope N_scope.

Definition selects (K : list str) (is : list N) (m : block) : Prop :=
  Forall2 (fun i kv => nthN K i = Some (fst kv)) is m.
Lemma selects_app : forall K K' is m, selects K is m -> selects (K ++ K') is m.
Proof.
  intros K K' is m H. induction H; constructor; auto. now apply nthN_prefix.
Qed.

Lemma enc_block_ok : forall m K, NoDup K -> Forall (fun kv => built (snd kv)) m ->
  exists x is vs, enc_block m (number 0 K) = Ok (is, vs, number 0 (K ++ x)) /\
    NoDup (K ++ x) /\ selects (K ++ x) is m /\ entries_data m = Ok vs.
Proof.
  induction m as [|[k v] m IH]; intros K HK Hb; cbn [enc_block entries_data].
  - exists [], [], []. rewrite app_nil_r. repeat split; auto. constructor.
  - inversion Hb as [|? ? Hv Hb']; subst. cbn [snd] in Hv.
    destruct (intern_spec k K HK) as (x & -> & Hx & Hget & _).
    destruct (built_writes v Hv) as [vb Evb]. rewrite Evb. cbn [bind].
    destruct (IH (K ++ x) Hx Hb') as (y & is & vs & -> & Hy & Hs & Ed). cbn [bind].
    rewrite <- !app_assoc in *.
    exists (x ++ y), (tbl_get k (number 0 (K ++ x)) :: is), (vb ++ vs).
    split; [reflexivity|]. split; [assumption|]. split.
    + constructor; [|assumption]. cbn [fst]. rewrite (app_assoc K x y). now apply nthN_prefix.
    + unfold write_property in Evb. apply bind_ok in Evb as (c & -> & Evb).
      apply bind_ok in Evb as (d & -> & Evb). apply ok_inj in Evb. subst vb. cbn [bind].
      rewrite Ed. reflexivity.
Qed.

(** the bytes of one stream, relative to the two tables *)
Inductive stream_of (NA KA : list str) : list (f64 * (str * block)) -> bytes -> Prop :=
| SO_nil : stream_of NA KA [] []
| SO_cons : forall t n m l ni is vs rest,
    nthN NA ni = Some n -> selects KA is m -> entries_data m = Ok vs ->
    stream_of NA KA l rest ->
    stream_of NA KA ((t, (n, m)) :: l)
      (put_uvarint ni ++ uvarint_array_to_bytes is ++ vs ++ rest).
Lemma stream_of_app : forall NA KA nx kx l b, stream_of NA KA l b ->
  stream_of (NA ++ nx) (KA ++ kx) l b.
Proof.
  induction 1; constructor; auto using nthN_prefix, selects_app.
Qed.

Lemma enc_events_ok : forall l NA KA, NoDup NA -> NoDup KA ->
  Forall (fun x => built_block (snd (snd x))) l ->
  exists b nx kx, enc_events l (number 0 NA) (number 0 KA)
      = Ok (b, number 0 (NA ++ nx), number 0 (KA ++ kx)) /\
    NoDup (NA ++ nx) /\ NoDup (KA ++ kx) /\ stream_of (NA ++ nx) (KA ++ kx) l b.
Proof.
  induction l as [|[t [n m]] l IH]; intros NA KA HN HK Hb; cbn [enc_events].
  - exists [], [], []. rewrite !app_nil_r. repeat split; auto. constructor.
  - inversion Hb as [|? ? Hm Hb']; subst. cbn [snd] in Hm.
    apply built_block_iff in Hm as [_ Hm].
    destruct (intern_spec n NA HN) as (x & -> & Hx & Hget & _).
    destruct (enc_block_ok m KA HK Hm) as (y & is & vs & -> & Hy & Hs & Ed). cbn [bind].
    destruct (IH (NA ++ x) (KA ++ y) Hx Hy Hb') as (b & nx & kx & -> & Hnx & Hkx & Hb2).
    cbn [bind]. rewrite <- !app_assoc in *.
    eexists. exists (x ++ nx), (y ++ kx). split; [reflexivity|]. repeat split; auto.
    constructor; auto.
    + rewrite (app_assoc NA x nx). now apply nthN_prefix.
    + rewrite (app_assoc KA y kx). now apply selects_app.
Qed.

Lemma enc_event_streams_ok : forall cs NA KA, NoDup NA -> NoDup KA ->
  Forall (fun c => exists l, c_body c = BEvent l /\ Forall (fun x => built_block (snd (snd x))) l) cs ->
  exists ss nx kx, enc_event_streams cs (number 0 NA) (number 0 KA)
      = Ok (ss, number 0 (NA ++ nx), number 0 (KA ++ kx), None) /\
    NoDup (NA ++ nx) /\ NoDup (KA ++ kx) /\
    Forall2 (fun c b => exists l, c_body c = BEvent l /\ stream_of (NA ++ nx) (KA ++ kx) l b) cs ss.
Proof.
  induction cs as [|c cs IH]; intros NA KA HN HK Hb; cbn [enc_event_streams].
  - exists [], [], []. rewrite !app_nil_r. repeat split; auto.
  - inversion Hb as [|? ? (l & El & Hl) Hb']; subst. rewrite El.
    destruct (enc_events_ok l NA KA HN HK Hl) as (b & x & y & -> & Hx & Hy & Hs). cbn [bind].
    destruct (IH _ _ Hx Hy Hb') as (ss & nx & kx & -> & Hnx & Hkx & H2). cbn [bind].
    rewrite <- !app_assoc in *.
    exists (b :: ss), (x ++ nx), (y ++ kx). split; [reflexivity|]. repeat split; auto.
    constructor; [|assumption]. exists l. split; [assumption|].
    rewrite (app_assoc NA x nx), (app_assoc KA y kx). now apply stream_of_app.
Qed.

(** ** decoding *)
Definition bufI (s : bytes * bytes) (d : bytes) : Prop := d = fst s ++ snd s.
Lemma buf_serves : serves bufio false bufI.
Proof. apply delivers_serves, bufio_delivers. Qed.

Lemma dec_block_ok : forall K is m acc vs, selects K is m ->
  entries_data m = Ok vs -> lenN vs <= 2 ^ 44 ->
  NoDup (map fst acc ++ map fst m) -> Forall (fun kv => built (snd kv)) m ->
  parses bufI false (dec_block K is acc) vs (acc ++ m, None).
Proof.
  intros K is m acc vs H. revert acc vs.
  induction H as [|i [k v] is m Hi Hs IH]; intros acc vs Ed Hl Hn Hb s rest HI Hm;
    cbn [dec_block entries_data map fst] in *.
  - apply ok_inj in Ed. subst vs. rewrite app_nil_r. exists s. auto.
  - apply bind_ok in Ed as (c & Hc & Ed). apply bind_ok in Ed as (d & Hd & Ed).
    apply bind_ok in Ed as (t & Ht & Ed). apply ok_inj in Ed. subst vs.
    inversion Hb as [|? ? Hv Hb']; subst. cbn [snd] in Hv.
    rewrite lenN_cons, lenN_app in Hl.
    assert (HI0 : bufI s ((n2b c :: d) ++ (t ++ rest))).
    { cbn [app] in *. now rewrite <- app_assoc in HI. }
    destruct (read_property_ok buf_serves v (n2b c :: d) Hv) with (s := s) (rest := t ++ rest)
      as (s1 & -> & HI1); auto with more.
    { unfold write_property. rewrite Hc, Hd. reflexivity. }
    { rewrite lenN_cons. lia. }
    cbn [bind]. rewrite Hi. rewrite map_set_fresh.
    2:{ apply NoDup_remove_2 in Hn. intro H. apply Hn, in_or_app. now left. }
    replace (acc ++ (k, v) :: m) with ((acc ++ [(k, v)]) ++ m) by (now rewrite <- app_assoc).
    eapply IH; eauto; [lia|]. rewrite map_app. cbn [map fst]. now rewrite <- app_assoc.
Qed.

Lemma uvarints_len : forall is, lenN is <= lenN (flat_map put_uvarint is).
Proof.
  induction is as [|i is IH]; [reflexivity|]. cbn [flat_map]. rewrite lenN_cons, lenN_app.
  pose proof (put_uvarint_size_le i). lia.
Qed.
Lemma uvarint_array_len : forall is, lenN is <= lenN (uvarint_array_to_bytes is).
Proof.
  intro is. unfold uvarint_array_to_bytes. rewrite lenN_app. pose proof (uvarints_len is). lia.
Qed.

Lemma dec_events_ok : forall NA KA l b, stream_of NA KA l b ->
  Forall (fun x => built_block (snd (snd x))) l ->
  lenN NA <= 2 ^ 44 -> lenN KA <= 2 ^ 44 -> lenN b <= 2 ^ 44 ->
  forall times s rest, length times = length l -> bufI s (b ++ rest) ->
  dec_events NA KA times s = Ok (combine times (map snd l), None).
Proof.
  intros NA KA l b H. induction H as [|t n m l ni is vs rest' Hni Hs Ed H IH];
    intros Hb HN HK Hl times s rest Ht HI.
  - destruct times; [|discriminate]. reflexivity.
  - destruct times as [|t' times]; [discriminate|]. cbn [length] in Ht. injection Ht as Ht.
    inversion Hb as [|? ? Hm Hb']; subst. cbn [snd] in Hm. apply built_block_iff in Hm as [Hnd Hm].
    rewrite !lenN_app in Hl. pose proof (uvarint_array_len is) as Hlis.
    cbn [dec_events]. rewrite <- !app_assoc in HI.
    destruct (read_uvarint_ok buf_serves ni) with (s := s)
      (rest := uvarint_array_to_bytes is ++ vs ++ rest' ++ rest) as (s1 & -> & HI1); auto with more.
    { apply nthN_some_lt in Hni. eapply N.lt_le_trans; [exact Hni|].
      eapply N.le_trans; [exact HN | discriminate]. }
    cbn [bind].
    destruct (read_uvarint_array_ok buf_serves is) with (s := s1) (rest := vs ++ rest' ++ rest)
      as (s2 & -> & HI2); auto with more.
    { eapply N.le_trans; [exact Hlis|]. eapply N.le_trans with (2 ^ 44); [lia | discriminate]. }
    { clear -Hs HK. induction Hs as [|i kv is m Hi Hs IHs]; constructor; auto.
      apply nthN_some_lt in Hi. eapply N.lt_le_trans; [exact Hi|].
      eapply N.le_trans; [exact HK | discriminate]. }
    cbn [bind].
    destruct (dec_block_ok KA is m [] vs Hs Ed) with (s := s2) (rest := rest' ++ rest)
      as (s3 & -> & HI3); auto with more; [lia|].
    cbn [bind app]. rewrite Hni.
    rewrite (IH Hb' HN HK) with (rest := rest); auto. lia.
Qed.

Lemma flat_array : forall l rest, lenN (string_array_to_bytes l) <= 2 ^ 44 ->
  read_string_array flat (string_array_to_bytes l ++ rest)
  = Ok ((l, lenN (string_array_to_bytes l), None), rest) /\ lenN l <= 2 ^ 44.
Proof.
  intros l rest H. destruct (string_array_len l) as [L1 L2].
  assert (Hl : lenN l <= 2 ^ 44) by lia. split; [|exact Hl].
  destruct (read_string_array_ok (delivers_serves _ _ _ (flat_delivers false)) l Hl)
    with (s := string_array_to_bytes l ++ rest) (rest := rest) as (s1 & E & H1); auto with more.
  - eapply Forall_impl; [|exact L2]. cbv beta. intros a Ha.
    eapply N.lt_le_trans; [exact Ha|]. eapply N.le_trans with (2 ^ 44); [lia | discriminate].
  - cbv beta in H1. now subst s1.
Qed.

Lemma accepts_event : forall c, wf_coll c -> e_accepts event_encoder c = true ->
  exists l, c_body c = BEvent l /\ Forall (fun x => built_block (snd (snd x))) l.
Proof.
  intros c Hw H. cbn in H. apply str_eqb_eq in H. unfold c_sig, wf_coll in *.
  destruct (c_body c) as [| | |l| |s ts]; try (vm_compute in H; discriminate); eauto.
  subst. destruct Hw. cbn. tauto.
Qed.

Theorem event_lawful : lawful event_encoder retime.
Proof.
  intros cs Hcs. cbn [e_encode event_encoder].
  assert (Hall : Forall (fun c => exists l, c_body c = BEvent l /\
            Forall (fun x => built_block (snd (snd x))) l) cs).
  { eapply Forall_impl; [|exact Hcs]. intros c [H1 H2]. now apply accepts_event. }
  destruct (enc_event_streams_ok cs [] [] (NoDup_nil _) (NoDup_nil _) Hall)
    as (ss & NA & KA & E & HN & HK & H2). cbn [app number] in *.
  unfold event_encode. rewrite E. cbn [bind]. rewrite !tbl_array_number. cbn [bind].
  eexists. exists ss. split; [reflexivity|]. split; [symmetry; eapply Forall2_len; eauto|].
  intros Hh i c b Hc Hb Hlb times Ht. cbn [e_decode event_encoder].
  rewrite lenN_app in Hh.
  destruct (string_array_len NA) as [LN1 LN2]. destruct (string_array_len KA) as [LK1 LK2].
  unfold event_decode, event_header.
  destruct (flat_array NA (string_array_to_bytes KA)) as [E1 _]; [lia|].
  rewrite E1. cbn [bind].
  destruct (flat_array KA []) as [E2 _]; [lia|].
  rewrite app_nil_r in E2. rewrite E2. cbn [bind].
  pose proof (Forall2_nth _ _ _ _ _ H2 i c b Hc Hb) as (l & El & Hso).
  rewrite Forall_forall in Hall. destruct (Hall c) as (l' & El' & Hwl);
    [eapply nth_error_In; eauto|]. rewrite El in El'. injection El' as <-.
  rewrite (dec_events_ok NA KA l b Hso Hwl) with (rest := @nil byte); auto; try lia.
  - cbn [bind]. unfold retime. now rewrite El.
  - unfold c_length, c_times in Ht. rewrite El, map_length in Ht. assumption.
  - unfold bufI, new_bufio. cbn. now rewrite app_nil_r.
Qed.
