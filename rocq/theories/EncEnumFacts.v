(** The enum encoder round trips. *)
From Coq Require Import ZArith Lia.
From Verif Require Import Base BaseFacts IO Spec IOFacts Floats BinaryIO BinaryIOFacts VarintFacts.
From Verif Require Import Metadata SpecMeta MetadataFacts Recording SpecRec RecordingFacts Encoding.
From Verif Require Import EncTableFacts EncEnum SpecEnc EncEventFacts.
Local Open Scope N_scope.

Definition picks (K : list str) (is : list N) (ms : list str) : Prop :=
  Forall2 (fun i m => nthN K i = Some m) is ms.
Lemma picks_app : forall K K' is m, picks K is m -> picks (K ++ K') is m.
Proof. intros K K' is m H. induction H; constructor; auto. now apply nthN_prefix. Qed.

Lemma enc_members_ok : forall ms K, NoDup K ->
  exists x is, enc_members ms (number 0 K) = (is, number 0 (K ++ x)) /\
    NoDup (K ++ x) /\ picks (K ++ x) is ms.
Proof.
  induction ms as [|m ms IH]; intros K HK; cbn [enc_members].
  - exists [], []. rewrite app_nil_r. repeat split; auto. constructor.
  - destruct (intern_spec m K HK) as (x & -> & Hx & Hget & _).
    destruct (IH (K ++ x) Hx) as (y & is & -> & Hy & Hp). rewrite <- !app_assoc in *.
    exists (x ++ y). eexists. split; [reflexivity|]. split; [assumption|].
    constructor; [|assumption]. rewrite (app_assoc K x y). now apply nthN_prefix.
Qed.

Definition enum_bytes (is : list N) (l : list (f64 * Z)) : bytes :=
  uvarint_array_to_bytes is ++ flat_map (fun c : f64 * Z => put_uvarint (u64_of_int (snd c))) l.

Lemma enc_enum_streams_ok : forall cs K, NoDup K ->
  Forall (fun c => exists ms l, c_body c = BEnum ms l) cs ->
  exists ss x, enc_enum_streams cs (number 0 K) = Ok (ss, number 0 (K ++ x)) /\
    NoDup (K ++ x) /\
    Forall2 (fun c b => exists ms l is, c_body c = BEnum ms l /\ picks (K ++ x) is ms /\
                                        b = enum_bytes is l) cs ss.
Proof.
  induction cs as [|c cs IH]; intros K HK Hb; cbn [enc_enum_streams].
  - exists [], []. rewrite app_nil_r. repeat split; auto.
  - inversion Hb as [|? ? (ms & l & El) Hb']; subst. rewrite El.
    destruct (enc_members_ok ms K HK) as (x & is & -> & Hx & Hp).
    destruct (IH _ Hx Hb') as (ss & y & -> & Hy & H2). cbn [bind].
    rewrite <- !app_assoc in *.
    eexists. exists (x ++ y). split; [reflexivity|]. split; [assumption|].
    constructor; [|assumption]. exists ms, l, is. repeat split; auto.
    rewrite (app_assoc K x y). now apply picks_app.
Qed.

Lemma pick_ok : forall K is ms, picks K is ms -> pick K is = Ok ms.
Proof.
  induction 1 as [|i m is ms H Hs IH]; cbn [pick]; [reflexivity|]. now rewrite H, IH.
Qed.

Lemma int_u64 : forall z, (- 2 ^ 63 <= z < 2 ^ 63)%Z -> int_of_u64 (u64_of_int z) = z.
Proof.
  intros z Hz. unfold int_of_u64, u64_of_int. rewrite Z2N.id.
  - apply (signed_mod 64); [reflexivity | exact Hz].
  - apply Z.mod_pos_bound. reflexivity.
Qed.
Lemma u64_lt : forall z, u64_of_int z < 2 ^ 64.
Proof.
  intro z. unfold u64_of_int. pose proof (Z.mod_pos_bound z (2 ^ 64) eq_refl) as H.
  change (2 ^ 64) with (Z.to_N (2 ^ 64)). apply Z2N.inj_lt; [apply H | discriminate | apply H].
Qed.

Lemma dec_enums_ok : forall k l times,
  Forall (fun x => (- 2 ^ 63 <= snd x < 2 ^ 63)%Z) l -> length times = length l ->
  parses (er_inv (fun s d => s = d) k) false (dec_enums times)
    (flat_map (fun c : f64 * Z => put_uvarint (u64_of_int (snd c))) l)
    (combine times (map snd l)).
Proof.
  intros k. pose proof (er_serves flat false (fun s d => s = d) k
    (delivers_serves _ _ _ (flat_delivers false))) as HR.
  induction l as [|[t v] l IH]; intros times Hv Ht s rest HI Hm;
    (destruct times as [|t' times]; [|try discriminate]); try discriminate; cbn [dec_enums flat_map] in *.
  - exists s. auto.
  - injection Ht as Ht. inversion Hv as [|? ? Hv0 Hv']; subst. cbn [snd] in *.
    rewrite <- app_assoc in HI.
    destruct (read_uvarint_ok HR (u64_of_int v) (u64_lt v)) with (s := s)
      (rest := flat_map (fun c : f64 * Z => put_uvarint (u64_of_int (snd c))) l ++ rest)
      as (s1 & -> & HI1); auto with more.
    cbn [bind].
    destruct (IH times Hv' Ht s1 rest HI1) as (s2 & -> & HI2); auto with more.
    cbn [bind]. rewrite int_u64 by assumption. exists s2. auto.
Qed.

Lemma accepts_enum : forall c, wf_coll c -> e_accepts enum_encoder c = true ->
  exists ms l, c_body c = BEnum ms l /\ Forall (fun x => (- 2 ^ 63 <= snd x < 2 ^ 63)%Z) l.
Proof.
  intros c Hw H. cbn in H. apply str_eqb_eq in H. unfold c_sig, wf_coll in *.
  destruct (c_body c) as [| | | |ms l|s ts]; try (vm_compute in H; discriminate); eauto.
  subst. destruct Hw. cbn. tauto.
Qed.

Theorem enum_lawful : lawful enum_encoder retime.
Proof.
  intros cs Hcs. cbn [e_encode enum_encoder].
  assert (Hall : Forall (fun c => exists ms l, c_body c = BEnum ms l) cs).
  { eapply Forall_impl; [|exact Hcs]. intros c [H1 H2].
    destruct (accepts_enum c H1 H2) as (ms & l & H & _). eauto. }
  destruct (enc_enum_streams_ok cs [] (NoDup_nil _) Hall) as (ss & K & E & HK & H2).
  cbn [app number] in *.
  unfold enum_encode. rewrite E. cbn [bind]. rewrite !tbl_array_number. cbn [bind].
  eexists. exists ss. split; [reflexivity|]. split; [symmetry; eapply Forall2_len; eauto|].
  intros Hh i c b Hc Hb Hlb times Ht. cbn [e_decode enum_encoder]. unfold enum_decode.
  destruct (flat_array K []) as [E1 HlK]; [lia|]. rewrite app_nil_r in E1. rewrite E1. cbn [bind].
  pose proof (Forall2_nth _ _ _ _ _ H2 i c b Hc Hb) as (ms & l & is & El & Hp & Eb).
  assert (Hv : Forall (fun x => (- 2 ^ 63 <= snd x < 2 ^ 63)%Z) l).
  { rewrite Forall_forall in Hcs. destruct (Hcs c) as [Hw Ha]; [eapply nth_error_In; eauto|].
    unfold wf_coll in Hw. now rewrite El in Hw. }
  pose proof (new_er_inv (fun s d : bytes => s = d) b b eq_refl) as HI.
  pose proof (er_serves flat false (fun s d => s = d) (lenN b)
    (delivers_serves _ _ _ (flat_delivers false))) as HR.
  assert (Hb' : b = uvarint_array_to_bytes is ++
    flat_map (fun c : f64 * Z => put_uvarint (u64_of_int (snd c))) l ++ []).
  { rewrite app_nil_r. exact Eb. }
  assert (Hlis : lenN is <= 2 ^ 45).
  { pose proof (uvarint_array_len is). rewrite Eb in Hlb. unfold enum_bytes in Hlb.
    rewrite lenN_app in Hlb. eapply N.le_trans with (2 ^ 44); [lia | discriminate]. }
  assert (Hlt : Forall (fun x => x < 2 ^ 64) is).
  { clear -Hp HlK. induction Hp as [|i m is ms Hi Hs IHs]; constructor; auto.
    apply nthN_some_lt in Hi. eapply N.lt_le_trans; [exact Hi|].
    eapply N.le_trans; [exact HlK | discriminate]. }
  rewrite Hb' in HI at 3.
  destruct (read_uvarint_array_ok HR is Hlis Hlt _ _ HI) as (s1 & -> & HI1); auto with more.
  cbn [bind]. rewrite (pick_ok _ _ _ Hp). cbn [bind].
  destruct (dec_enums_ok (lenN b) l times Hv) with (s := s1) (rest := @nil byte)
    as (s2 & -> & HI2); auto with more.
  { unfold c_length, c_times in Ht. rewrite El, map_length in Ht. assumption. }
  cbn [bind]. destruct HI2 as (-> & _). unfold retime. now rewrite El.
Qed.
