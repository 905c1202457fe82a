(** Properties of compressed files: where the key table is (C21), and destinations that
    fail (C24). *)
From Coq Require Import ZArith Lia Permutation.
From Verif Require Import Base BaseFacts IO Spec IOFacts Floats ByteFacts BinaryIO BinaryIOFacts.
From Verif Require Import Metadata SpecMeta MetadataFacts Recording SpecRec RecordingFacts Encoding SpecEnc.
From Verif Require Import EncEvent EncEnum EncPosition EncEuler EncFloat EncTableFacts StreamFacts TimeIO TimeFacts.
From Verif Require Import Writer Reader SpecFile WriterFacts KeyFacts PlanFacts ReaderFacts FileFacts BuiltinFacts Toy Demo SpecPacked PropFile.
Local Open Scope N_scope.

(** ** C21 *)
Theorem C21_compressed : forall tp te tf cfg Z r rA rE,
  valid_config tp te tf cfg -> w_compress cfg = true ->
  wf_rec r -> ~ unaccepted (w_encs cfg) r -> rec_equiv r rA -> rec_equiv r rE ->
  exists n file sigs versions headers keys body content,
    write_views cfg Z buffer rA rE r [] = Ok (n, None, file) /\
    packed_layout Z sigs versions headers keys body content file /\
    NoDup keys /\ (forall k, In k keys <-> In k (tree_keys r)) /\
    forall m, In m (tree_blocks r) ->
      exists indices values pre post,
        body = pre ++ uvarint_array_to_bytes indices ++ values ++ post /\
        Forall2 (fun i kv => nthN keys i = Some (fst kv)) indices m.
Proof.
  intros tp te tf cfg Z r rA rE (Hp & He & Hf & Ht & Hes & Hs) Hz Hwf Hacc HA HE.
  destruct (write_script cfg Z (fun _ => num_post tp te tf) r rA rE Hs) as
    (ms & hs & blocks & used & keys & payload & Hpay & Hk & Hnd & Hk' & (Hlen & _) & _ & _ & Hrun); auto.
  { apply builtin_all; auto. }
  { intro H. apply Hacc. eapply unaccepted_view; eauto. }
  specialize (Hrun bytes buffer [] honest_buffer). rewrite send_buffer in Hrun. cbv beta iota zeta in Hrun.
  destruct Hrun as [(n & Ew & _ & _) | (_ & H & _)]; [|congruence].
  eexists n, _, (map e_sig (map m_enc ms)), (map e_version (map m_enc ms)), hs, keys,
    (concat (rec_chunks (w_time cfg) (number 0 keys) blocks used r 0)), (concat payload).
  split; [exact Ew|]. split; [|split; [exact Hnd|split; [split; auto|]]].
  - unfold packed_layout. rewrite !map_length. split; [reflexivity|]. split; [exact Hlen|]. split.
    + rewrite Hpay. unfold payload_chunks. rewrite !concat_app. cbn [concat]. rewrite <- ?app_assoc. reflexivity.
    + exists payload, []. split; [reflexivity|]. cbn [app].
      unfold file_chunks. rewrite Hz, concat_app. fold (head_bytes ms true). rewrite head_bytes_eq.
      unfold squeeze. rewrite app_nil_r, <- !app_assoc. reflexivity.
  - intros m Hm. destruct (blocks_occur (w_time cfg) (number 0 keys) blocks used r 0 m Hwf Hm) as (pre & post & E).
    exists (map (fun kv => tbl_get (fst kv) (number 0 keys)) m), (values_of m), pre, post. split.
    + rewrite E. unfold md_chunks. cbn [concat]. now rewrite app_nil_r, <- app_assoc.
    + assert (Hin : forall kv, In kv m -> In (fst kv) keys).
      { intros kv Hkv. apply Hk. eapply keys_of_block; eauto. now apply in_map. }
      clear -Hin Hnd. induction m as [|kv m IH]; constructor.
      * apply tbl_get_number; auto. apply Hin. now left.
      * apply IH. intros x Hx. apply Hin. now right.
Qed.
Print Assumptions C21_compressed.

Example C21_example_compressed : w_compress (raw_config true) = true /\ valid_config 0 0 0 (raw_config true) /\
  wf_rec demo /\ ~ unaccepted (w_encs (raw_config true)) demo /\ rec_equiv demo demoA /\ rec_equiv demo demoE /\
  length (tree_blocks demo) = 6%nat.
Proof.
  split; [reflexivity|]. split; [apply raw_valid|]. split; [apply demo_wf|]. split; [apply demo_accepted|].
  split; [apply demoA_equiv|]. split; [apply demoE_equiv|reflexivity].
Qed.

(** ** C24 *)

(** With compression the compressor stands between Write and the destination: it holds
    bytes back and hands them on later, also when it is closed.  What the destination
    got is still the beginning of what it should get, and no failure goes unreported.
    The count is that of the uncompressed form, right when everything went well. *)
Theorem C24_compressed : forall tp te tf cfg Z r rA rE,
  valid_config tp te tf cfg -> w_compress cfg = true ->
  wf_rec r -> ~ unaccepted (w_encs cfg) r -> rec_equiv r rA -> rec_equiv r rE ->
  exists total file, write_views cfg Z buffer rA rE r [] = Ok (total, None, file) /\
    forall S (W : Writer S) s, honest W ->
    (exists n e s' got failure,
       write_views cfg Z (tee W) rA rE r (s, [], None) = Ok (n, e, (s', got, failure)) /\
       prefix got file /\ e = failure /\ (e = None -> got = file /\ n = total)) \/
    (write_views cfg Z (tee W) rA rE r (s, [], None) = Panic /\ attached_data r).
Proof.
  intros tp te tf cfg Z r rA rE (Hp & He & Hf & Ht & Hes & Hs) Hz Hwf Hacc HA HE.
  destruct (write_script cfg Z (fun _ => num_post tp te tf) r rA rE Hs) as
    (ms & hs & blocks & used & keys & payload & Hpay & Hk & Hnd & Hk' & (Hlen & _) & _ & _ & Hrun); auto.
  { apply builtin_all; auto. }
  { intro H. apply Hacc. eapply unaccepted_view; eauto. }
  exists (lenN (head_bytes ms (w_compress cfg)) + lenN (concat payload)), (concat (file_chunks Z ms (w_compress cfg) payload)). split.
  - specialize (Hrun bytes buffer [] honest_buffer). rewrite send_buffer in Hrun. cbv beta iota zeta in Hrun.
    destruct Hrun as [(n & Ew & Hc & _) | (_ & H & _)]; [|congruence]. rewrite Ew. now rewrite (Hc eq_refl).
  - intros S W s HW. specialize (Hrun _ (tee W) (s, [], None) (honest_tee W HW)).
    pose proof (send_tee W HW (file_chunks Z ms (w_compress cfg) payload) 0 s []) as Hsend.
    match type of Hrun with context [send ?a ?b ?c ?d] => set (run := send a b c d) in Hrun end.
    match type of Hsend with context [send ?a ?b ?c ?d] => change (send a b c d) with run in Hsend end.
    destruct run as [[m e] s1].
    destruct Hsend as (s0 & got & first & -> & -> & -> & Hpre & Hfull).
    destruct Hrun as [(n & Ew & Hc & _) | (Ew & Hne & Hdata)].
    + left. exists n, first, s0, got, first. repeat split; auto.
    + right. split; [exact Ew|]. destruct Hdata as (c & o & Hc & Ho & b & -> & Hb). exists c, b. auto.
Qed.
Print Assumptions C24_compressed.
(** The destination fails within the compressed part, or when the compressor is closed
    behind the last write, or not at all. *)
Example C24_example_compressed : honest limited /\
  match write_views (raw_config true) toy_z (tee limited) demoA demoE demo (600, [], None) with
  | Ok (285, Some (EIO 1), (0, got, Some (EIO 1))) => lenN got = 600 | _ => False end /\
  match write_views (raw_config true) toy_z (tee limited) demoA demoE demo (621, [], None) with
  | Ok (345, Some (EIO 1), (0, got, Some (EIO 1))) => lenN got = 621 | _ => False end /\
  match write_views (raw_config true) toy_z (tee limited) demoA demoE demo (700, [], None) with
  | Ok (345, None, (78, got, None)) => lenN got = 622 | _ => False end /\
  write_views (raw_config true) toy_z (tee limited) demoA demoE demo (300, [], None) = Panic.
Proof. split; [apply limited_honest|]. vm_compute. repeat split. Qed.
