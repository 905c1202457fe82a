(** Properties C04 and C18-C24: whole files. *)
From Coq Require Import ZArith Lia Permutation.
From Verif Require Import Base BaseFacts IO Spec IOFacts Floats ByteFacts BinaryIO BinaryIOFacts.
From Verif Require Import Metadata SpecMeta MetadataFacts Recording SpecRec RecordingFacts Encoding SpecEnc.
From Verif Require Import EncEvent EncEnum EncPosition EncEuler EncFloat EncTableFacts StreamFacts TimeIO TimeFacts.
From Verif Require Import Writer Reader SpecFile WriterFacts KeyFacts PlanFacts ReaderFacts FileFacts BuiltinFacts Toy Demo.
Local Open Scope N_scope.

(** In all theorems [r] is the recording given to Write and [rA], [rE] are the
    same recording as seen by Write's further iterations over its maps. *)

(** ** C18 *)
Theorem C18_lossless_roundtrip : forall cfg Z IZ reg v1 r rA rE,
  valid_config 0 0 0 cfg -> w_time cfg = 0 -> (w_compress cfg = true -> codec_ok Z IZ) ->
  (forall e, In e (w_encs cfg) -> can_read reg e) ->
  wf_rec r -> ~ unaccepted (w_encs cfg) r -> rec_equiv r rA -> rec_equiv r rE ->
  exists n file, write_views cfg Z buffer rA rE r [] = Ok (n, None, file) /\
    (n <= 2 ^ 40 ->
     exists r', rec_equiv r r' /\
       forall S (R : Reader S) eager I, delivers R eager I -> forall s rest, I s (file ++ rest) ->
       exists s', read reg v1 IZ R s = Ok (Some r', n, None, s')).
Proof.
  intros cfg Z IZ reg v1 r rA rE (Hp & He & Hf & Ht & Hes & Hs) H0 Hz Hreg Hwf Hacc HA HE.
  destruct (builtin_round_trip 0 0 0 cfg Z r rA rE reg v1 IZ) as (n & file & Hw & _ & Hr); auto.
  exists n, file. split; [apply (Hw [])|]. intro Hn. destruct (Hr Hn Hz) as (r' & Hrel & Hread).
  exists r'. split.
  - eapply rec_rel_mono; [| |exact Hrel]; [intros m ? <-; apply block_equiv_refl|].
    intros c d _. now apply decoded_raw.
  - intros S R eager I HR s rest HI. destruct (Hread S R eager I HR s rest HI) as (s' & E & _). eauto.
Qed.
Print Assumptions C18_lossless_roundtrip.

(** one byte at a time *)
Definition bytewise (d : bytes) : list bytes := map (fun b => [b]) d.
Lemma bytewise_ok : forall d, ~ In [] (bytewise d) /\ d = concat (bytewise d).
Proof.
  unfold bytes, bytewise. induction d as [|b d [H1 H2]]; cbn; [auto|]. split.
  - intros [E|E]; [discriminate | auto].
  - now f_equal.
Qed.
Example C18_example : forall compress,
  valid_config 0 0 0 (raw_config compress) /\ wf_rec demo /\ rec_equiv demo demoA /\ rec_equiv demo demoE /\
  demo <> demoA /\ demo <> demoE /\
  exists file r', write_views (raw_config compress) toy_z buffer demoA demoE demo [] = Ok (345, None, file) /\
    lenN file = (if compress then 622 else 345) /\
    rec_equiv demo r' /\
    exists s', read (w_encs (raw_config compress)) no_v1 toy_iz (chunked true) (bytewise file) = Ok (Some r', 345, None, s').
Proof.
  intro compress. split; [apply raw_valid|]. split; [apply demo_wf|]. split; [apply demoA_equiv|].
  split; [apply demoE_equiv|]. split; [discriminate|]. split; [discriminate|].
  destruct (C18_lossless_roundtrip (raw_config compress) toy_z toy_iz (w_encs (raw_config compress)) no_v1 demo demoA demoE)
    as (n & file & Hw & Hr); auto using raw_valid, toy_ok, can_read_self, demo_wf, demo_accepted, demoA_equiv, demoE_equiv.
  assert (En : n = 345 /\ lenN file = (if compress then 622 else 345)).
  { assert (E : match write_views (raw_config compress) toy_z buffer demoA demoE demo [] with
                | Ok (n, _, f) => (n, lenN f) | _ => (0, 0) end = (345, if compress then 622 else 345))
      by (destruct compress; vm_compute; reflexivity).
    rewrite Hw in E. now injection E as -> ->. }
  destruct En as [-> El].
  destruct Hr as (r' & Hrel & Hread); [discriminate|]. exists file, r'. repeat split; auto.
  destruct (Hread _ (chunked true) true _ (chunked_delivers true) (bytewise file) []) as (s' & E); [|eauto].
  rewrite app_nil_r. apply bytewise_ok.
Qed.

(** ** C19 *)
Theorem C19_only_numbers : forall tp te tf cfg Z IZ reg v1 r rA rE,
  valid_config tp te tf cfg -> (w_compress cfg = true -> codec_ok Z IZ) ->
  (forall e, In e (w_encs cfg) -> can_read reg e) ->
  wf_rec r -> ~ unaccepted (w_encs cfg) r -> rec_equiv r rA -> rec_equiv r rE ->
  exists n file, write_views cfg Z buffer rA rE r [] = Ok (n, None, file) /\
    (n <= 2 ^ 40 ->
     exists r',
       rec_rel block_equiv (fun c d =>
         same_but_numbers c d /\
         exists cE e ts, coll_equiv c cE /\ In e (w_encs cfg) /\ e_accepts e cE = true /\
           stored_times (w_time cfg) (c_times c) ts /\ c_times d = ts /\ stored_by e ts cE d) r r' /\
       forall S (R : Reader S) eager I, delivers R eager I -> forall s rest, I s (file ++ rest) ->
       exists s', read reg v1 IZ R s = Ok (Some r', n, None, s')).
Proof.
  intros tp te tf cfg Z IZ reg v1 r rA rE (Hp & He & Hf & Ht & Hes & Hs) Hz Hreg Hwf Hacc HA HE.
  destruct (builtin_round_trip tp te tf cfg Z r rA rE reg v1 IZ) as (n & file & Hw & _ & Hr); auto.
  exists n, file. split; [apply (Hw [])|]. intro Hn. destruct (Hr Hn Hz) as (r' & Hrel & Hread).
  exists r'. split.
  - eapply rec_rel_mono; [| |exact Hrel]; [intros m ? <-; apply block_equiv_refl|].
    intros c d Hc Hd. pose proof (wf_tree_colls _ Hwf) as Hwc. rewrite Forall_forall in Hwc.
    exact (decoded_same tp te tf cfg Hp He Hf Ht Hes c d (Hwc c Hc) Hd).
  - intros S R eager I HR s rest HI. destruct (Hread S R eager I HR s rest HI) as (s' & E & _). eauto.
Qed.
Print Assumptions C19_only_numbers.

(** the library's default writer (Oct48 positions, Raw32 rotations, BST16
    times, compressed), read by Load's encoders *)
Example C19_example :
  valid_config 2 1 0 recolude_writer /\ w_compress recolude_writer = true /\
  exists file r', write_views recolude_writer toy_z buffer demoA demoE demo [] = Ok (299, None, file) /\
    rec_rel block_equiv same_but_numbers demo r' /\
    exists s', read load_encoders no_v1 toy_iz flat file = Ok (Some r', 299, None, s').
Proof.
  split; [apply default_valid|]. split; [reflexivity|].
  destruct (C19_only_numbers 2 1 0 recolude_writer toy_z toy_iz load_encoders no_v1 demo demoA demoE)
    as (n & file & Hw & Hr);
    auto using default_valid, toy_ok, can_load, demo_wf, demo_accepted_default, demoA_equiv, demoE_equiv.
  assert (En : n = 299).
  { assert (E : match write_views recolude_writer toy_z buffer demoA demoE demo [] with
                | Ok (n, _, f) => n | _ => 0 end = 299) by (vm_compute; reflexivity).
    now rewrite Hw in E. }
  subst n. destruct Hr as (r' & Hrel & Hread); [discriminate|]. exists file, r'. split; [exact Hw|]. split.
  - eapply rec_rel_mono; [| |exact Hrel]; [auto|]. intros c d _ H. apply H.
  - destruct (Hread _ flat false _ (flat_delivers false) file []) as (s' & E); [now rewrite app_nil_r | eauto].
Qed.

(** ** C20 *)
Theorem C20_counts : forall tp te tf cfg Z IZ reg v1 r rA rE,
  valid_config tp te tf cfg -> (w_compress cfg = true -> codec_ok Z IZ) ->
  (forall e, In e (w_encs cfg) -> can_read reg e) ->
  wf_rec r -> ~ unaccepted (w_encs cfg) r -> rec_equiv r rA -> rec_equiv r rE ->
  exists n file, write_views cfg Z buffer rA rE r [] = Ok (n, None, file) /\
    (w_compress cfg = false -> n = lenN file) /\
    (n <= 2 ^ 40 ->
     forall S (R : Reader S) eager I, delivers R eager I -> forall s rest, I s (file ++ rest) ->
     exists r' s', read reg v1 IZ R s = Ok (Some r', n, None, s') /\
       (w_compress cfg = false -> exists t, s' = inl t /\ I t rest)).
Proof.
  intros tp te tf cfg Z IZ reg v1 r rA rE (Hp & He & Hf & Ht & Hes & Hs) Hz Hreg Hwf Hacc HA HE.
  destruct (builtin_round_trip tp te tf cfg Z r rA rE reg v1 IZ) as (n & file & Hw & Hc & Hr); auto.
  exists n, file. split; [apply (Hw [])|]. split; [exact Hc|]. intro Hn. destruct (Hr Hn Hz) as (r' & Hrel & Hread).
  intros S R eager I HR s rest HI. destruct (Hread S R eager I HR s rest HI) as (s' & E & Hs'). eauto.
Qed.
Print Assumptions C20_counts.

(** Two recordings written one after the other to the same destination are
    read back one after the other, each with its own count. *)
Theorem C20_back_to_back : forall tp te tf cfg Z IZ reg v1 r1 r2,
  valid_config tp te tf cfg -> w_compress cfg = false ->
  (forall e, In e (w_encs cfg) -> can_read reg e) ->
  wf_rec r1 -> ~ unaccepted (w_encs cfg) r1 -> wf_rec r2 -> ~ unaccepted (w_encs cfg) r2 ->
  exists n1 n2 file1 both_files,
    write_views cfg Z buffer r1 r1 r1 [] = Ok (n1, None, file1) /\
    write_views cfg Z buffer r2 r2 r2 file1 = Ok (n2, None, both_files) /\
    (n1 <= 2 ^ 40 -> n2 <= 2 ^ 40 ->
     forall S (R : Reader S) eager I, delivers R eager I -> forall s, I s both_files ->
     exists r1' r2' t s', read reg v1 IZ R s = Ok (Some r1', n1, None, inl t) /\
       read reg v1 IZ R t = Ok (Some r2', n2, None, s') /\
       rec_rel block_equiv same_but_numbers r1 r1' /\ rec_rel block_equiv same_but_numbers r2 r2').
Proof.
  intros tp te tf cfg Z IZ reg v1 r1 r2 (Hp & He & Hf & Ht & Hes & Hs) Hz Hreg Hwf1 Hacc1 Hwf2 Hacc2.
  assert (Hsame : forall r r', wf_rec r -> ~ unaccepted (w_encs cfg) r ->
    rec_rel eq (decoded (w_encs cfg) (fun _ => num_post tp te tf) (w_time cfg)) r r' ->
    rec_rel block_equiv same_but_numbers r r').
  { intros r r' Hwf Hacc Hrel.
    eapply rec_rel_mono; [| |exact Hrel]; [intros m ? <-; apply block_equiv_refl|].
    intros c d Hc Hd. pose proof (wf_tree_colls _ Hwf) as Hwc. rewrite Forall_forall in Hwc.
    exact (proj1 (decoded_same tp te tf cfg Hp He Hf Ht Hes c d (Hwc c Hc) Hd)). }
  destruct (builtin_round_trip tp te tf cfg Z r1 r1 r1 reg v1 IZ) as (n1 & f1 & Hw1 & _ & Hr1); auto using rec_equiv_refl.
  destruct (builtin_round_trip tp te tf cfg Z r2 r2 r2 reg v1 IZ) as (n2 & f2 & Hw2 & _ & Hr2); auto using rec_equiv_refl.
  exists n1, n2, f1, (f1 ++ f2). split; [apply (Hw1 [])|]. split; [apply Hw2|]. intros Hn1 Hn2.
  destruct (Hr1 Hn1) as (r1' & Hrel1 & Hread1); [congruence|].
  destruct (Hr2 Hn2) as (r2' & Hrel2 & Hread2); [congruence|].
  intros S R eager I HR s HI. destruct (Hread1 S R eager I HR s f2 HI) as (s' & E1 & Ht1).
  destruct (Ht1 Hz) as (t & -> & HI2). rewrite <- (app_nil_r f2) in HI2.
  destruct (Hread2 S R eager I HR t [] HI2) as (s2 & E2 & _).
  exists r1', r2', t, s2. auto.
Qed.
Print Assumptions C20_back_to_back.

Example C20_example : valid_config 0 0 0 (raw_config false) /\ wf_rec demo /\ wf_rec d_child /\
  ~ unaccepted (w_encs (raw_config false)) demo /\ ~ unaccepted (w_encs (raw_config false)) d_child /\
  match write_views (raw_config false) toy_z buffer demo demo demo [] with
  | Ok (n1, None, f1) =>
      match write_views (raw_config false) toy_z buffer d_child d_child d_child f1 with
      | Ok (n2, None, f2) => n1 = 345 /\ n2 = 111 /\ lenN f2 = 456
      | _ => False
      end
  | _ => False
  end.
Proof.
  split; [apply raw_valid|]. split; [apply demo_wf|]. split.
  { apply (wf_inside demo); [apply demo_wf|]. eapply InsideSub; [|constructor]. now left. }
  split; [apply demo_accepted|]. split; [|vm_compute; auto].
  apply accepted_by. intros c Hc. cbn in Hc. intuition (subst; reflexivity).
Qed.


(** ** C04 *)
Theorem C04_read_schedule : forall tp te tf cfg Z IZ reg v1 r rA rE,
  valid_config tp te tf cfg -> (w_compress cfg = true -> codec_ok Z IZ) ->
  (forall e, In e (w_encs cfg) -> can_read reg e) ->
  wf_rec r -> ~ unaccepted (w_encs cfg) r -> rec_equiv r rA -> rec_equiv r rE ->
  exists n file, write_views cfg Z buffer rA rE r [] = Ok (n, None, file) /\
    (n <= 2 ^ 40 ->
     exists result s0, read reg v1 IZ flat file = Ok (result, s0) /\
       forall S (R : Reader S) eager I, delivers R eager I -> forall s, I s file ->
       exists s', read reg v1 IZ R s = Ok (result, s')).
Proof.
  intros tp te tf cfg Z IZ reg v1 r rA rE (Hp & He & Hf & Ht & Hes & Hs) Hz Hreg Hwf Hacc HA HE.
  destruct (builtin_round_trip tp te tf cfg Z r rA rE reg v1 IZ) as (n & file & Hw & Hc & Hr); auto.
  exists n, file. split; [apply (Hw [])|]. intro Hn. destruct (Hr Hn Hz) as (r' & Hrel & Hread).
  assert (H : forall S (R : Reader S) eager I, delivers R eager I -> forall s, I s file ->
    exists s', read reg v1 IZ R s = Ok (Some r', n, None, s')).
  { intros S R eager I HR s HI. rewrite <- (app_nil_r file) in HI.
    destruct (Hread S R eager I HR s [] HI) as (s' & E & _). eauto. }
  destruct (H _ flat false _ (flat_delivers false) file eq_refl) as (s0 & E). eauto.
Qed.
Print Assumptions C04_read_schedule.

Example C04_example :
  exists result s0 s1 s2 file, write_views (raw_config false) toy_z buffer demoA demoE demo [] = Ok (345, None, file) /\
    read (w_encs (raw_config false)) no_v1 toy_iz flat file = Ok (result, s0) /\ fst (fst result) <> None /\
    read (w_encs (raw_config false)) no_v1 toy_iz (chunked true) (bytewise file) = Ok (result, s1) /\
    read (w_encs (raw_config false)) no_v1 toy_iz (chunked false) [file] = Ok (result, s2).
Proof.
  destruct (C18_example false) as (_ & _ & _ & _ & _ & _ & file & r' & Hw & Hl & _ & s1 & E1).
  destruct (C04_read_schedule 0 0 0 (raw_config false) toy_z toy_iz (w_encs (raw_config false)) no_v1 demo demoA demoE)
    as (n & file' & Hw' & Hr);
    auto using raw_valid, toy_ok, can_read_self, demo_wf, demo_accepted, demoA_equiv, demoE_equiv.
  rewrite Hw in Hw'. apply ok_inj in Hw'. injection Hw' as <- <-.
  destruct Hr as (result & s0 & E0 & Hr); [discriminate|].
  destruct (Hr _ (chunked true) true _ (chunked_delivers true) (bytewise file) (bytewise_ok file)) as (s1' & E1').
  destruct (Hr _ (chunked false) false _ (chunked_delivers false) [file]) as (s2 & E2).
  { split; [|cbn; now rewrite app_nil_r]. intros [->|[]]. discriminate. }
  rewrite E1 in E1'. apply ok_inj in E1'. exists result, s0, s1', s2, file. repeat split; auto.
  - injection E1' as <- _. discriminate.
  - rewrite E1. f_equal. exact E1'.
Qed.

(** ** C21 *)
Theorem C21_key_table : forall tp te tf cfg Z r rA rE,
  valid_config tp te tf cfg -> w_compress cfg = false ->
  wf_rec r -> ~ unaccepted (w_encs cfg) r -> rec_equiv r rA -> rec_equiv r rE ->
  exists n file sigs versions headers keys body,
    write_views cfg Z buffer rA rE r [] = Ok (n, None, file) /\
    layout sigs versions headers keys body file /\
    NoDup keys /\ (forall k, In k keys <-> In k (tree_keys r)) /\
    forall m, In m (tree_blocks r) ->
      exists indices values pre post,
        body = pre ++ uvarint_array_to_bytes indices ++ values ++ post /\
        Forall2 (fun i kv => nthN keys i = Some (fst kv)) indices m.
Proof.
  intros tp te tf cfg Z r rA rE (Hp & He & Hf & Ht & Hes & Hs) Hz Hwf Hacc HA HE.
  destruct (write_script cfg Z (fun _ => num_post tp te tf) r rA rE Hs) as
    (ms & hs & blocks & used & keys & payload & Hpay & Hk & Hnd & Hk' & (Hlen & _) & _ & _ & Hrun); auto.
  { apply builtin_all; auto. }
  { intro H. apply Hacc. eapply unaccepted_view; eauto. }
  specialize (Hrun bytes buffer [] honest_buffer). rewrite send_buffer in Hrun. cbv beta iota zeta in Hrun.
  destruct Hrun as [(n & Ew & _ & _) | (_ & H & _)]; [|congruence].
  eexists n, _, (map e_sig (map m_enc ms)), (map e_version (map m_enc ms)), hs, keys,
    (concat (rec_chunks (w_time cfg) (number 0 keys) blocks used r 0)).
  split; [exact Ew|]. split; [|split; [exact Hnd|split; [split; auto|]]].
  - unfold layout. rewrite !map_length. repeat split; auto. cbn [app].
    unfold file_chunks. rewrite Hz, concat_app. fold (head_bytes ms false). rewrite head_bytes_eq, Hpay.
    unfold payload_chunks. rewrite !concat_app. cbn [concat]. rewrite <- !app_assoc. reflexivity.
  - intros m Hm. destruct (blocks_occur (w_time cfg) (number 0 keys) blocks used r 0 m Hwf Hm) as (pre & post & E).
    exists (map (fun kv => tbl_get (fst kv) (number 0 keys)) m), (values_of m), pre, post. split.
    + rewrite E. unfold md_chunks. cbn [concat]. now rewrite app_nil_r, <- app_assoc.
    + assert (Hin : forall kv, In kv m -> In (fst kv) keys).
      { intros kv Hkv. apply Hk. eapply keys_of_block; eauto. now apply in_map. }
      clear -Hin Hnd. induction m as [|kv m IH]; constructor.
      * apply tbl_get_number; auto. apply Hin. now left.
      * apply IH. intros x Hx. apply Hin. now right.
Qed.
Print Assumptions C21_key_table.

Example C21_example : tree_keys demo <> [] /\ ~ NoDup (tree_keys demo) /\
  (exists k, In k (tree_keys d_child) /\ In k (tree_keys demo)) /\
  length (tree_blocks demo) = 6%nat.
Proof.
  split; [discriminate|]. split.
  - intro H. vm_compute in H. repeat match goal with H : NoDup (_ :: _) |- _ => inversion H; clear H; subst end.
    cbn in *. tauto.
  - split; [|reflexivity]. exists (bs [2]). split; vm_compute; auto 10.
Qed.

(** ** C22 *)

(** For arbitrary encoders (not only the library's) whose decoding undoes
    their encoding up to [post]: every collection comes back as decoded by
    the first encoder that accepts it, from its own payload. *)
Theorem C22_first_accepting : forall cfg Z IZ reg v1 post r rA rE,
  NoDup (map e_sig (w_encs cfg)) -> (forall e, In e (w_encs cfg) -> lawful e (post e)) -> w_time cfg < 3 ->
  (forall e, In e (w_encs cfg) -> e_version e < 2 ^ 64 /\ can_read reg e) ->
  (w_compress cfg = true -> codec_ok Z IZ) ->
  wf_rec r -> rec_equiv r rA -> rec_equiv r rE -> ~ unaccepted (w_encs cfg) rE ->
  exists n file, write_views cfg Z buffer rA rE r [] = Ok (n, None, file) /\
    (n <= 2 ^ 40 ->
     exists r',
       rec_rel block_equiv (fun c d =>
         exists cE e ts, coll_equiv c cE /\ first_accepting (w_encs cfg) cE e /\
           stored_times (w_time cfg) (c_times c) ts /\ d = post e ts cE) r r' /\
       forall S (R : Reader S) eager I, delivers R eager I -> forall s rest, I s (file ++ rest) ->
       exists s', read reg v1 IZ R s = Ok (Some r', n, None, s')).
Proof.
  intros cfg Z IZ reg v1 post r rA rE Hs Hlaw Ht Hreg Hz Hwf HA HE Hacc.
  destruct (round_trip cfg Z post r rA rE Hs Hlaw Hwf HA HE Hacc reg v1 IZ Ht Hreg) as (n & file & Hw & _ & Hr).
  exists n, file. split; [apply (Hw [])|]. intro Hn. destruct (Hr Hn Hz) as (r' & Hrel & Hread).
  exists r'. split.
  - eapply rec_rel_mono; [| |exact Hrel]; [intros m ? <-; apply block_equiv_refl|].
    intros c d _ (cE & e & Heq & Hch & ->). exists cE, e, (time_values (w_time cfg) (c_times c)).
    rewrite <- chosen_first. repeat split; auto. now apply time_stored.
  - intros S R eager I HR s rest HI. destruct (Hread S R eager I HR s rest HI) as (s' & E & _). eauto.
Qed.
Print Assumptions C22_first_accepting.

(** What is handed to the encoders' Encode, taken together, is every
    collection of the tree exactly once; and an encoder gets only collections
    for which it is the first accepting one, and at least one. *)
Theorem C22_handed_once : forall es r ms n, NoDup (map e_sig es) ->
  evaluate es r 0 = inl (ms, n) ->
  Permutation (flat_map m_colls ms) (tree_colls r) /\ NoDup (map (fun m => e_sig (m_enc m)) ms) /\
  forall m, In m ms -> m_colls m <> [] /\ In (m_enc m) es /\
    Forall (fun c => first_accepting es c (m_enc m)) (m_colls m).
Proof.
  intros es r ms n Hs Hev. destruct (evaluate_plan es Hs _ _ _ _ Hev) as [(P & G & Hd) _]. split; [|split].
  - apply (Permutation_map snd) in P.
    assert (E1 : map snd (flat_map pairs ms) = flat_map m_colls ms).
    { clear -G. induction G as [|m ms (_ & Hl & _) G IH]; [reflexivity|]. cbn [flat_map]. rewrite map_app, IH.
      f_equal. unfold pairs. now apply combine_snd. }
    assert (E2 : forall (l : list coll) k, map snd (indexed k l) = l).
    { clear. induction l as [|c l IH]; intro k; cbn [indexed map]; [reflexivity|]. now rewrite IH. }
    now rewrite E1, E2 in P.
  - exact Hd.
  - intros m Hm. rewrite Forall_forall in G. destruct (G m Hm) as (H1 & _ & H3 & H4). repeat split; auto.
    eapply Forall_impl; [|exact H4]. intros c Hc. now apply chosen_first.
Qed.
Print Assumptions C22_handed_once.

Example C22_example :
  match evaluate (w_encs (raw_config false)) demo 0 with
  | inl (ms, n) => map (fun m => length (m_colls m)) ms = [1; 1; 1; 1]%nat /\ n = 4 /\
      map (fun m => e_sig (m_enc m)) ms = [sig_event; sig_euler; sig_enum; sig_position]
  | inr _ => False
  end /\ length (w_encs (raw_config false)) = 5%nat.
Proof. vm_compute. auto. Qed.

(** The encoders listed in the file are exactly those that were needed. *)
Theorem C22_listed : forall tp te tf cfg Z r rA rE,
  valid_config tp te tf cfg -> w_compress cfg = false ->
  wf_rec r -> ~ unaccepted (w_encs cfg) r -> rec_equiv r rA -> rec_equiv r rE ->
  exists n file sigs versions headers keys body,
    write_views cfg Z buffer rA rE r [] = Ok (n, None, file) /\
    layout sigs versions headers keys body file /\ NoDup sigs /\
    forall s, In s sigs <-> exists c e, In c (tree_colls r) /\ first_accepting (w_encs cfg) c e /\ e_sig e = s.
Proof.
  intros tp te tf cfg Z r rA rE (Hp & He & Hf & Ht & Hes & Hs) Hz Hwf Hacc HA HE.
  destruct (write_script cfg Z (fun _ => num_post tp te tf) r rA rE Hs) as
    (ms & hs & blocks & used & keys & payload & Hpay & Hk & Hnd & Hk' & (Hlen & _) & (P & G & Hd) & _ & Hrun); auto.
  { apply builtin_all; auto. }
  { intro H. apply Hacc. eapply unaccepted_view; eauto. }
  specialize (Hrun bytes buffer [] honest_buffer). rewrite send_buffer in Hrun. cbv beta iota zeta in Hrun.
  destruct Hrun as [(n & Ew & _ & _) | (_ & H & _)]; [|congruence].
  eexists n, _, (map e_sig (map m_enc ms)), (map e_version (map m_enc ms)), hs, keys,
    (concat (rec_chunks (w_time cfg) (number 0 keys) blocks used r 0)).
  split; [exact Ew|]. split; [|split].
  - unfold layout. rewrite !map_length. repeat split; auto. cbn [app].
    unfold file_chunks. rewrite Hz, concat_app. fold (head_bytes ms false). rewrite head_bytes_eq, Hpay.
    unfold payload_chunks. rewrite !concat_app. cbn [concat]. rewrite <- !app_assoc. reflexivity.
  - rewrite map_map. exact Hd.
  - assert (Hfirst : forall c c' e, coll_equiv c c' ->
      first_accepting (w_encs cfg) c e <-> first_accepting (w_encs cfg) c' e).
    { intros c c' e Heq. rewrite <- !chosen_first. unfold chosen.
      enough (find (fun e => e_accepts e c) (w_encs cfg) = find (fun e => e_accepts e c') (w_encs cfg)) as -> by reflexivity.
      clear -Heq Hes. induction Hes as [|x l Hx Hl IH]; [reflexivity|]. cbn [find].
      rewrite (builtin_accepts _ _ _ _ _ _ Hx Heq). now rewrite IH. }
    pose proof (rel_tree_colls _ _ _ _ HE) as Hcolls.
    assert (E2 : forall (l : list coll) k, map snd (indexed k l) = l).
    { clear. induction l as [|c l IH]; intro k; cbn [indexed map]; [reflexivity|]. now rewrite IH. }
    apply (Permutation_map snd) in P. rewrite E2 in P.
    assert (E1 : map snd (flat_map pairs ms) = flat_map m_colls ms).
    { clear -G. induction G as [|m ms (_ & Hl & _) G IH]; [reflexivity|]. cbn [flat_map]. rewrite map_app, IH.
      f_equal. unfold pairs. now apply combine_snd. }
    rewrite E1 in P. rewrite Forall_forall in G. intro s. rewrite map_map. rewrite in_map_iff. split.
    + intros (m & <- & Hm). destruct (G m Hm) as (Hne & _ & _ & Hch). destruct (m_colls m) as [|cE l] eqn:Em; [congruence|].
      inversion Hch as [|? ? Hc0 _]; subst.
      assert (HcE : In cE (tree_colls rE)).
      { eapply Permutation_in; [exact P|]. apply in_flat_map. exists m. rewrite Em. split; [exact Hm | now left]. }
      apply (In_nth_error _ _) in HcE as (i & Hi).
      assert (exists c, nth_error (tree_colls r) i = Some c /\ coll_equiv c cE) as (c & Hc & Heq).
      { clear -Hcolls Hi. revert i Hi. induction Hcolls; intros [|i] Hi; cbn in *; try discriminate; eauto.
        injection Hi as <-. eauto. }
      exists c, (m_enc m). split; [eapply nth_error_In; eauto|]. split; [|reflexivity].
      apply (Hfirst _ _ _ Heq). now apply chosen_first.
    + intros (c & e & Hc & Hfa & <-). apply In_nth_error in Hc as (i & Hi).
      destruct (Forall2_nth_l _ _ _ _ _ Hcolls i c Hi) as (cE & HiE & Heq).
      assert (HcE : In cE (flat_map m_colls ms)).
      { eapply Permutation_in; [apply Permutation_sym; exact P|]. eapply nth_error_In; eauto. }
      apply in_flat_map in HcE as (m & Hm & HcE). exists m. split; [|exact Hm].
      destruct (G m Hm) as (_ & _ & _ & Hch). rewrite Forall_forall in Hch. specialize (Hch cE HcE).
      apply (Hfirst _ _ _ Heq), chosen_first in Hfa. congruence.
Qed.
Print Assumptions C22_listed.

(** ** C23 *)
Theorem C23_rejects_untouched : forall cfg Z S (W : Writer S) out r rA rE, rec_view r rE ->
  has_nil r \/ unaccepted (w_encs cfg) rE ->
  exists e, write_views cfg Z W rA rE r out = Ok (0, Some e, out).
Proof.
  intros cfg Z S W out r rA rE HV H. apply (reject_iff cfg r rE HV) in H.
  unfold write_views. destruct H as [(e & ->)|(-> & e & ->)]; eauto.
Qed.
Print Assumptions C23_rejects_untouched.

(** Otherwise Write emits: the version byte reaches the destination. *)
Theorem C23_otherwise_emits : forall cfg Z S (W : Writer S) out r rA rE, rec_view r rE ->
  ~ (has_nil r \/ unaccepted (w_encs cfg) rE) ->
  forall n e s, wwrite W [x02] out = (n, Some e, s) ->
  write_views cfg Z W rA rE r out = Ok (n, Some e, s).
Proof.
  intros cfg Z S W out r rA rE HV H n e s Hw.
  assert (H' : ~ ((exists e, check_nil r = Some e) \/
     (check_nil r = None /\ exists e, evaluate (w_encs cfg) rE 0 = inr e)))
    by (intro H0; apply H; now apply (reject_iff cfg r rE HV)).
  unfold write_views. destruct (check_nil r) as [e0|]; [destruct H'; left; eauto|].
  destruct (evaluate (w_encs cfg) rE 0) as [[ms x]|e0]; [|destruct H'; right; eauto].
  rewrite Hw. reflexivity.
Qed.
Print Assumptions C23_otherwise_emits.

Lemma rec_equiv_view : forall r r', rec_equiv r r' -> rec_view r r'.
Proof.
  induction r as [id name colls recs md bins refs IH] using recording_ind'. intros r' H.
  inversion H as [? ? ? ? ? recs' ? ? ? ? ? ? Hc Hr Hm Hb Hf]; subst.
  assert (Hany : forall A (P : A -> A -> Prop) l l', Forall2 (both P) l l' -> Forall2 (nil_or P) l l').
  { intros A P l l' F. eapply Forall2_weaken; [|exact F]. intros o o' Ho. now right. }
  constructor; auto.
  clear -Hr IH. induction Hr as [|o o' l l' (x & y & -> & -> & Hxy) Hl IHl]; constructor.
  - right. exists x, y. repeat split; auto. apply IH; [now left | exact Hxy].
  - apply IHl. intros c Hc. apply IH. now right.
Qed.
(** a nil collection two levels down; a collection the default writer does not
    know; and one that is fine *)
Definition broken : recording := mkRec [] [] [] [Some (mkRec [] [] [None] [] [] [] [])] [] [] [].
Definition floats : recording := mkRec [] [] [Some (mkColl [] (BFloat [(d_one, d_one)]))] [] [] [] [].
Example C23_example :
  has_nil broken /\ unaccepted (w_encs recolude_writer) floats /\
  rec_view demo demoE /\ ~ (has_nil demo \/ unaccepted (w_encs recolude_writer) demoE) /\
  write_views recolude_writer toy_z buffer broken broken broken (bs [5]) = Ok (0, Some ENilCollection, bs [5]) /\
  (exists e, write_views recolude_writer toy_z buffer floats floats floats (bs [5]) = Ok (0, Some e, bs [5])).
Proof.
  split; [|split; [|split; [|split; [|split]]]].
  - exists (mkRec [] [] [None] [] [] [] []). split; [|cbn; auto].
    eapply InsideSub; [now left | constructor].
  - exists floats, (mkColl [] (BFloat [(d_one, d_one)])). split; [constructor|]. split; [now left|].
    intros e [<-|[<-|[<-|[<-|[]]]]]; reflexivity.
  - apply rec_equiv_view, demoE_equiv.
  - intros [(c & Hc & H)|H].
    + pose proof (wf_inside _ _ demo_wf Hc) as Hw. inversion Hw; subst. cbn in H.
      destruct H as [H|[H|[H|H]]]; revert H; eapply given_not_nil; eauto.
    + apply demo_accepted_default. eapply unaccepted_view; [|apply demoE_equiv|exact H].
      apply default_valid.
  - reflexivity.
  - eexists. vm_compute. reflexivity.
Qed.

(** ** C24 *)
Theorem C24_failing_destination : forall tp te tf cfg Z r rA rE,
  valid_config tp te tf cfg -> w_compress cfg = false ->
  wf_rec r -> ~ unaccepted (w_encs cfg) r -> rec_equiv r rA -> rec_equiv r rE ->
  exists file, write_views cfg Z buffer rA rE r [] = Ok (lenN file, None, file) /\
    forall S (W : Writer S) s, honest W ->
    (exists n e s' got failure,
       write_views cfg Z (tee W) rA rE r (s, [], None) = Ok (n, e, (s', got, failure)) /\
       prefix got file /\ n = lenN got /\ e = failure /\ (e = None -> got = file)) \/
    (write_views cfg Z (tee W) rA rE r (s, [], None) = Panic /\ attached_data r).
Proof.
  intros tp te tf cfg Z r rA rE (Hp & He & Hf & Ht & Hes & Hs) Hz Hwf Hacc HA HE.
  destruct (write_script cfg Z (fun _ => num_post tp te tf) r rA rE Hs) as
    (ms & hs & blocks & used & keys & payload & Hpay & Hk & Hnd & Hk' & (Hlen & _) & _ & _ & Hrun); auto.
  { apply builtin_all; auto. }
  { intro H. apply Hacc. eapply unaccepted_view; eauto. }
  exists (concat (file_chunks Z ms (w_compress cfg) payload)). split.
  - specialize (Hrun bytes buffer [] honest_buffer). rewrite send_buffer in Hrun. cbv beta iota zeta in Hrun.
    destruct Hrun as [(n & Ew & _ & Hc) | (_ & H & _)]; [|congruence]. rewrite Ew. now rewrite (Hc Hz).
  - intros S W s HW. specialize (Hrun _ (tee W) (s, [], None) (honest_tee W HW)).
    pose proof (send_tee W HW (file_chunks Z ms (w_compress cfg) payload) 0 s []) as Hsend.
    match type of Hrun with context [send ?a ?b ?c ?d] => set (run := send a b c d) in Hrun end.
    match type of Hsend with context [send ?a ?b ?c ?d] => change (send a b c d) with run in Hsend end.
    destruct run as [[m e] s1].
    destruct Hsend as (s0 & got & first & -> & -> & -> & Hpre & Hfull).
    destruct Hrun as [(n & Ew & _ & Hc) | (Ew & Hne & Hdata)].
    + left. exists n, first, s0, got, first. repeat split; auto.
    + right. split; [exact Ew|]. destruct Hdata as (c & o & Hc & Ho & b & -> & Hb). exists c, b. auto.
Qed.
Print Assumptions C24_failing_destination.

(** A destination with room for a given number of bytes; once full it fails. *)
Definition limited : Writer N :=
  {| wwrite := fun p room =>
       if lenN p <=? room then (lenN p, None, room - lenN p) else (room, Some (EIO 1), 0) |}.
Lemma limited_honest : honest limited.
Proof.
  intros p s n e s' H. cbn in H. destruct (N.leb_spec (lenN p) s); injection H as <- <- <-;
    split; [lia | reflexivity | lia | discriminate].
Qed.
(** The first failure can also make Write panic: demo has an attached binary
    with data at its end. *)
Example C24_example : honest limited /\
  write_views (raw_config false) toy_z (tee limited) demoA demoE demo (100, [], None) = Panic /\
  (exists n e got first,
     write_views (raw_config false) toy_z (tee limited) demoA demoE demo (20, [], None) = Ok (n, e, (0, got, first)) /\
     n = 20 /\ lenN got = 20 /\ e = Some (EIO 1) /\ first = e) /\
  (exists n e got first,
     write_views (raw_config false) toy_z (tee limited) demoA demoE demo (300, [], None) = Ok (n, e, (0, got, first)) /\
     n = 300 /\ lenN got = 300 /\ e = Some (EIO 1) /\ first = e).
Proof.
  split; [apply limited_honest|]. split; [vm_compute; reflexivity|].
  split; do 4 eexists; (split; [vm_compute; reflexivity|]); vm_compute; auto.
Qed.
