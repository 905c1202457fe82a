(** C59: the files are in one fixed format, which determines what is
    read. *)
From Coq Require Import ZArith Lia Strings.String.
From Flocq Require Import IEEE754.Binary IEEE754.Bits.
From Verif Require Import Base BaseFacts IO Spec IOFacts SchedFacts Floats BinaryIO Metadata SpecMeta Recording SpecRec RecordingFacts Encoding SpecEnc Writer Reader SpecFile.
From Verif Require Import MetadataFacts EncEvent EncEnum EncPosition EncEuler EncFloat ReaderFacts FileFacts BuiltinFacts Toy Demo PropFile SpecFormat FormatFacts FormatRead FormatWrite.
Local Open Scope N_scope.
Local Open Scope format_scope.

(** Take any file in the format.  Over any transport, and with any of the library's
    encoders registered for the names in the file, Read returns the recording the
    format gives the file, reports its length, and stops behind it. *)
Theorem C59_reads : forall tp te tf reg v1 IZ S (R : Reader S) eager I s kinds r file rest,
  delivers R eager I -> Forall (builtin tp te tf) reg ->
  rap_file kinds r file -> Forall (fun k => exists e, In e reg /\ e_sig e = signature k) kinds ->
  lenN file <= 2 ^ 40 -> I s (file ++ rest) ->
  exists s', read reg v1 IZ R s = Ok (Some r, lenN file, None, inl s') /\ I s' rest.
Proof. exact file_reads. Qed.
Print Assumptions C59_reads.

(** Take any recording.  With the library's encoders, whatever the techniques chosen,
    and no compression, Write produces a file in the format, for a recording that
    differs in no more than rounded numbers, and in nothing if all are kept in full. *)
Theorem C59_writes : forall tp te tf cfg Z r rA rE, valid_config tp te tf cfg ->
  w_compress cfg = false ->
  wf_rec r -> ~ unaccepted (w_encs cfg) r -> rec_equiv r rA -> rec_equiv r rE ->
  exists file, (forall out, write_views cfg Z buffer rA rE r out = Ok (lenN file, None, out ++ file)) /\
    (lenN file <= 2 ^ 40 -> exists kinds r', rap_file kinds r' file /\ rec_rel eq same_but_numbers r r' /\
       (tp = 0 -> te = 0 -> tf = 0 -> w_time cfg = 0 -> rec_equiv r r')).
Proof.
  intros tp te tf cfg Z r rA rE (Hp & He & Hf & Ht & Hes & Hs) Hz Hwf Hacc HA HE.
  destruct (file_fits tp te tf cfg Z r rA rE Hp He Hf Ht Hes Hs Hwf Hacc HA HE) as (n & file & Hw & Hn & Hfile).
  specialize (Hn Hz). subst n. rewrite Hz in Hfile.
  exists file. split; [exact Hw|]. intro Hl. destruct (Hfile Hl) as (kinds & r' & H1 & _ & H2). exists kinds, r'. split; [exact H1|]. split.
  - eapply rec_rel_mono; [| |exact H2]; [auto|]. intros c d Hc Hd. pose proof (wf_tree_colls _ Hwf) as Hw'. rewrite Forall_forall in Hw'.
    eapply decoded_same; [| | | |exact Hes|apply Hw'; exact Hc|exact Hd]; assumption.
  - intros -> -> -> Et. eapply rec_rel_mono; [| |exact H2].
    + intros m n ->. apply block_equiv_refl.
    + intros c d _ Hd. eapply decoded_raw; [..|exact Hd]; first [exact Hes|exact Et|reflexivity|lia].
Qed.
Print Assumptions C59_writes.

(** No file stands for two recordings. *)
Theorem C59_one_meaning : forall kinds kinds' r r' file, lenN file <= 2 ^ 40 ->
  rap_file kinds r file -> rap_file kinds' r' file -> r = r'.
Proof.
  intros kinds kinds' r r' file Hl H H'.
  set (reg := [event_encoder; enum_encoder; position_encoder 0; euler_encoder 0; float_encoder 0]).
  assert (Hreg : Forall (builtin 0 0 0) reg) by (repeat constructor; unfold builtin; tauto).
  assert (Hall : forall ks, Forall (fun k => exists e, In e reg /\ e_sig e = signature k) ks).
  { intro ks. apply Forall_forall. intros k _. unfold reg. destruct k; [exists event_encoder|exists enum_encoder|exists (position_encoder 0)|exists (euler_encoder 0)|exists (float_encoder 0)];
      (split; [cbn; tauto|reflexivity]). }
  destruct (C59_reads 0 0 0 reg no_v1 toy_iz _ flat false _ file kinds r file [] (flat_delivers false) Hreg H (Hall _) Hl) as (s1 & E1 & _); [now rewrite app_nil_r|].
  destruct (C59_reads 0 0 0 reg no_v1 toy_iz _ flat false _ file kinds' r' file [] (flat_delivers false) Hreg H' (Hall _) Hl) as (s2 & E2 & _); [now rewrite app_nil_r|].
  rewrite E1 in E2. apply ok_inj in E2. congruence.
Qed.
Print Assumptions C59_one_meaning.

(** Compressed files: behind the compression byte stands, compressed, what follows it
    in other files.  [n], the number of bytes that Write and Read report, is the size
    without the compression. *)
Definition deflated (Z : compressor) (d z : bytes) : Prop := exists cs, concat cs = d /\ squeeze Z cs = z.
Theorem C59_reads_compressed : forall tp te tf reg v1 Z IZ S (R : Reader S) eager I s kinds r n file rest,
  codec_ok Z IZ -> delivers R eager I -> Forall (builtin tp te tf) reg ->
  packed_file (deflated Z) kinds r n file -> Forall (fun k => exists e, In e reg /\ e_sig e = signature k) kinds ->
  n <= 2 ^ 40 -> I s (file ++ rest) ->
  exists s', read reg v1 IZ R s = Ok (Some r, n, None, s').
Proof. exact packed_reads. Qed.
Print Assumptions C59_reads_compressed.
Theorem C59_writes_compressed : forall tp te tf cfg Z r rA rE, valid_config tp te tf cfg ->
  w_compress cfg = true ->
  wf_rec r -> ~ unaccepted (w_encs cfg) r -> rec_equiv r rA -> rec_equiv r rE ->
  exists n file, (forall out, write_views cfg Z buffer rA rE r out = Ok (n, None, out ++ file)) /\
    (n <= 2 ^ 40 -> exists kinds r', packed_file (deflated Z) kinds r' n file /\ rec_rel eq same_but_numbers r r' /\
       (tp = 0 -> te = 0 -> tf = 0 -> w_time cfg = 0 -> rec_equiv r r')).
Proof.
  intros tp te tf cfg Z r rA rE (Hp & He & Hf & Ht & Hes & Hs) Hz Hwf Hacc HA HE.
  destruct (file_fits tp te tf cfg Z r rA rE Hp He Hf Ht Hes Hs Hwf Hacc HA HE) as (n & file & Hw & _ & Hfile).
  rewrite Hz in Hfile. exists n, file. split; [exact Hw|]. intro Hl. destruct (Hfile Hl) as (kinds & r' & H1 & _ & H2). exists kinds, r'. split; [exact H1|]. split.
  - eapply rec_rel_mono; [| |exact H2]; [auto|]. intros c d Hc Hd. pose proof (wf_tree_colls _ Hwf) as Hw'. rewrite Forall_forall in Hw'.
    eapply decoded_same; [| | | |exact Hes|apply Hw'; exact Hc|exact Hd]; assumption.
  - intros -> -> -> Et. eapply rec_rel_mono; [| |exact H2].
    + intros m m' ->. apply block_equiv_refl.
    + intros c d _ Hd. eapply decoded_raw; [..|exact Hd]; first [exact Hes|exact Et|reflexivity|lia].
Qed.
Print Assumptions C59_writes_compressed.
Theorem C59_one_meaning_compressed : forall Z IZ kinds kinds' r r' n n' file, codec_ok Z IZ -> n <= 2 ^ 40 -> n' <= 2 ^ 40 ->
  packed_file (deflated Z) kinds r n file -> packed_file (deflated Z) kinds' r' n' file -> r = r' /\ n = n'.
Proof.
  intros Z IZ kinds kinds' r r' n n' file Hz Hl Hl' H H'.
  set (reg := [event_encoder; enum_encoder; position_encoder 0; euler_encoder 0; float_encoder 0]).
  assert (Hreg : Forall (builtin 0 0 0) reg) by (repeat constructor; unfold builtin; tauto).
  assert (Hall : forall ks, Forall (fun k => exists e, In e reg /\ e_sig e = signature k) ks).
  { intro ks. apply Forall_forall. intros k _. unfold reg. destruct k; [exists event_encoder|exists enum_encoder|exists (position_encoder 0)|exists (euler_encoder 0)|exists (float_encoder 0)];
      (split; [cbn; tauto|reflexivity]). }
  destruct (C59_reads_compressed 0 0 0 reg no_v1 Z IZ _ flat false _ file kinds r n file [] Hz (flat_delivers false) Hreg H (Hall _) Hl) as (s1 & E1); [now rewrite app_nil_r|].
  destruct (C59_reads_compressed 0 0 0 reg no_v1 Z IZ _ flat false _ file kinds' r' n' file [] Hz (flat_delivers false) Hreg H' (Hall _) Hl') as (s2 & E2); [now rewrite app_nil_r|].
  rewrite E1 in E2. apply ok_inj in E2. split; congruence.
Qed.
Print Assumptions C59_one_meaning_compressed.

(** A recording "n" with identifier "i", the property k: true, a collection "c" of the
    number 2 at the time 1, and a file "b"; and its bytes, put together by hand. *)
Definition one : f64 := B754_finite 53 1024 false 4503599627370496 (-52) eq_refl.
Definition two : f64 := B754_finite 53 1024 false 4503599627370496 (-51) eq_refl.
Definition small : recording :=
  mkRec (lit "i") (lit "n") [Some (mkColl (lit "c") (BFloat [(one, two)]))] [] [(lit "k", PBool true)]
    [Some (mkBin (lit "b") [xaa; xbb] 2 [])] [].
Definition small_file : bytes :=
  [x02; x01; x0e] ++ lit "recolude.float" ++ [x00; x00; x00] ++ [x01; x01] ++ lit "k" ++
  [x01] ++ lit "i" ++ [x01] ++ lit "n" ++ [x01; x00; x03] ++
  [x01; x00; x01] ++ lit "c" ++ [x00; x01; x00; x00; x00; x00; x00; x00; xf0; x3f] ++
  [x09; x00; x00; x00; x00; x00; x00; x00; x00; x40] ++
  [x00] ++ [x01; x01] ++ lit "b" ++ [x02; x00; xaa; xbb] ++ [x00].
Ltac cut n :=
  match goal with |- ?P ?b =>
    let p := eval vm_compute in (firstn n b) in let q := eval vm_compute in (skipn n b) in
    unfold text, counted, metadata; exists p, q; split; [reflexivity | split] end.
Ltac vi := unfold varint; split; [reflexivity|]; split; [vm_compute; repeat split; (reflexivity || discriminate)|split; reflexivity].
Ltac each1 n :=
  match goal with |- each ?P ?xs ?b =>
    let p := eval vm_compute in (firstn n b) in let q := eval vm_compute in (skipn n b) in
    let xs := eval hnf in xs in match xs with ?x :: ?l => apply (EachCons P x l p q) end end.
Example C59_example_file : rap_file [KFloat] small small_file.
Proof.
  unfold rap_file. cut 19%nat.
  { unfold opening. cut 1%nat; [reflexivity|]. cut 16%nat.
    { cut 1%nat; [vi|]. each1 15%nat; [|constructor]. cut 1%nat; [vi|reflexivity]. }
    cut 1%nat. { each1 1%nat; [vi|constructor]. } reflexivity. }
  cut 1%nat. { each1 1%nat; [|constructor]. exists []. split; [reflexivity|]. cut 1%nat; [vi|reflexivity]. }
  exists [lit "k"]. cut 3%nat.
  { cut 1%nat; [vi|]. each1 2%nat; [|constructor]. cut 1%nat; [vi|reflexivity]. }
  constructor. cut 2%nat. { cut 1%nat; [vi|reflexivity]. } cut 2%nat. { cut 1%nat; [vi|reflexivity]. }
  cut 3%nat.
  { split; [repeat constructor; cbn; tauto|]. cut 2%nat.
    - cut 1%nat; [vi|]. each1 1%nat; [|constructor]. exists 0. split; [reflexivity|vi].
    - apply (EntriesCons _ _ [] x03 [] []); constructor. }
  cut 24%nat.
  { cut 1%nat; [vi|]. each1 23%nat; [|constructor]. eexists. split; [reflexivity|]. exists 0, KFloat. split; [reflexivity|].
    cut 1%nat; [vi|]. cut 2%nat. { cut 1%nat; [vi|reflexivity]. }
    cut 10%nat.
    - eexists _, _. split; [reflexivity|]. left. split; [now left|]. cut 1%nat; [vi|]. each1 8%nat; [|constructor]. left. split; [reflexivity|]. split; vm_compute; reflexivity.
    - exists [x00; x00; x00; x00; x00; x00; x00; x00; x40]. split.
      + eexists _, _. split; [reflexivity|]. left. split; [now left|]. each1 8%nat; [|constructor]. left. split; [reflexivity|]. split; vm_compute; reflexivity.
      + cut 1%nat; [vi|reflexivity]. }
  cut 1%nat. { cut 1%nat; [vi|constructor]. }
  cut 7%nat.
  { cut 1%nat; [vi|]. each1 6%nat; [|constructor]. eexists. split; [reflexivity|]. split; [reflexivity|].
    cut 2%nat. { cut 1%nat; [vi|reflexivity]. } cut 1%nat; [vi|]. cut 1%nat; [|reflexivity].
    split; [constructor|]. cut 1%nat; [|constructor]. cut 1%nat; [vi|constructor]. }
  cut 1%nat; [vi|constructor].
Qed.
(** and so it reads *)
Example C59_example_reads : exists s',
  read (w_encs (raw_config false)) no_v1 toy_iz (chunked true) (bytewise small_file) = Ok (Some small, 63, None, inl s').
Proof.
  destruct (C59_reads 0 0 0 (w_encs (raw_config false)) no_v1 toy_iz _ (chunked true) true _ (bytewise small_file) [KFloat] small small_file [] (chunked_delivers true)) as (s' & E & _).
  - apply (raw_valid false).
  - apply C59_example_file.
  - repeat constructor. exists (float_encoder 0). split; [cbn; tauto|reflexivity].
  - vm_compute. discriminate.
  - rewrite app_nil_r. apply bytewise_ok.
  - exists s'. exact E.
Qed.
(** The demonstration recording, with every kind of collection and property. *)
Example C59_example_writes : valid_config 0 0 0 (raw_config false) /\ wf_rec demo /\
  ~ unaccepted (w_encs (raw_config false)) demo /\ rec_equiv demo demoA /\ rec_equiv demo demoE /\
  exists file kinds r', write_views (raw_config false) toy_z buffer demoA demoE demo [] = Ok (345, None, file) /\
    rap_file kinds r' file /\ rec_equiv demo r'.
Proof.
  split; [apply raw_valid|]. split; [apply demo_wf|]. split; [apply demo_accepted|]. split; [apply demoA_equiv|]. split; [apply demoE_equiv|].
  destruct (C59_writes 0 0 0 (raw_config false) toy_z demo demoA demoE) as (file & Hw & Hf);
    auto using raw_valid, demo_wf, demo_accepted, demoA_equiv, demoE_equiv; try reflexivity.
  specialize (Hw []). assert (El : lenN file = 345).
  { assert (E : match write_views (raw_config false) toy_z buffer demoA demoE demo [] with Ok (n, _, _) => n | _ => 0 end = 345) by (vm_compute; reflexivity).
    rewrite Hw in E. exact E. }
  rewrite El in *. destruct Hf as (kinds & r' & H1 & _ & H2); [discriminate|]. exists file, kinds, r'. auto.
Qed.
(** The same, compressed (by the toy codec). *)
Example C59_example_compressed : codec_ok toy_z toy_iz /\ valid_config 0 0 0 (raw_config true) /\
  exists file kinds r', write_views (raw_config true) toy_z buffer demoA demoE demo [] = Ok (345, None, file) /\
    packed_file (deflated toy_z) kinds r' 345 file /\ rec_equiv demo r'.
Proof.
  split; [apply toy_ok|]. split; [apply raw_valid|].
  destruct (C59_writes_compressed 0 0 0 (raw_config true) toy_z demo demoA demoE) as (n & file & Hw & Hf);
    auto using raw_valid, demo_wf, demo_accepted, demoA_equiv, demoE_equiv; try reflexivity.
  specialize (Hw []). assert (En : n = 345).
  { assert (E : match write_views (raw_config true) toy_z buffer demoA demoE demo [] with Ok (n, _, _) => n | _ => 0 end = 345) by (vm_compute; reflexivity).
    rewrite Hw in E. exact E. }
  subst n. destruct Hf as (kinds & r' & H1 & _ & H2); [discriminate|]. exists file, kinds, r'. auto.
Qed.
(** The same with every number stored densely. *)
Definition dense_config : wconfig :=
  mkWConfig [event_encoder; float_encoder 2; position_encoder 2; euler_encoder 2; enum_encoder] 2 false.
Lemma dense_valid : valid_config 2 2 2 dense_config.
Proof.
  unfold valid_config. cbn [w_time w_encs dense_config]. repeat split; try reflexivity.
  - repeat constructor; unfold builtin; tauto.
  - apply (raw_valid false).
Qed.
Example C59_example_dense : exists file kinds r',
  write_views dense_config toy_z buffer demoA demoE demo [] = Ok (lenN file, None, file) /\
  rap_file kinds r' file /\ rec_rel eq same_but_numbers demo r'.
Proof.
  destruct (C59_writes 2 2 2 dense_config toy_z demo demoA demoE) as (file & Hw & Hf);
    auto using dense_valid, demo_wf, demoA_equiv, demoE_equiv; try reflexivity.
  { apply accepted_by. intros c Hc. cbn in Hc. intuition (subst; reflexivity). }
  specialize (Hw []). assert (El : lenN file = 299).
  { assert (E : match write_views dense_config toy_z buffer demoA demoE demo [] with Ok (n, _, _) => n | _ => 0 end = 299) by (vm_compute; reflexivity).
    rewrite Hw in E. exact E. }
  destruct Hf as (kinds & r' & H1 & H2 & _); [rewrite El; discriminate|]. exists file, kinds, r'. auto.
Qed.
