(** C58: no part of the metadata of a recording is left out silently.  C55: what
    the benchmark prints about a recording. *)
From Coq Require Import ZArith Lia Strings.String.
From Verif Require Import Base BaseFacts IO Spec IOFacts SchedFacts Floats BinaryIO BinaryIOFacts Metadata SpecMeta MetadataFacts Recording SpecRec RecordingFacts Encoding SpecEnc Writer Reader SpecFile SpecPacked.
From Verif Require Import EncEventFacts PlanFacts ReaderFacts FileFacts PropRead Toy Demo Text SpecText TextFacts SpecSummary Benchmark PropUse.
Local Open Scope N_scope.

Lemma map_set_keys : forall k v m x, In x (map fst (map_set k v m)) <-> x = k \/ In x (map fst m).
Proof.
  intros k v m x. induction m as [|[k' v'] m IH]; cbn [map_set map fst In].
  - intuition.
  - destruct (str_eqb k k') eqn:E; cbn [map fst In].
    + apply str_eqb_eq in E. subst k'. intuition congruence.
    + rewrite IH. intuition congruence.
Qed.
Lemma entries_keys : forall {S} (R : Reader S) keys is acc s md s', read_md_entries R keys is acc s = Ok (md, None, s') ->
  forall k, In k (map fst md) <-> In k (map fst acc) \/ exists i, In i is /\ nthN keys i = Some k.
Proof.
  intros S R keys is. induction is as [|i is IH]; intros acc s md s' H k; cbn [read_md_entries] in H.
  - apply ok_inj in H. assert (acc = md) by congruence. subst. split; [auto|]. intros [H'|(i & [] & _)]. exact H'.
  - destruct (nthN keys i) as [x|] eqn:Ex; [|discriminate].
    destruct (read_property R s) as [[[p [e|]] s1]| |]; cbn [bind] in H; try discriminate.
    rewrite (IH _ _ _ _ H k), map_set_keys. split.
    + intros [[->|Hk]|(j & Hj & Ej)]; [right; exists i|auto|right; exists j]; (split; [|assumption]); cbn; auto.
    + intros [Hk|(j & [<-|Hj] & Ej)]; [auto|left; left; congruence|right; eauto].
Qed.

Lemma build_head : forall f keys encs headers S (R : Reader S) s id name is body I eager, serves R eager I ->
  lenN id < 2 ^ 48 -> lenN name < 2 ^ 48 -> lenN is <= 2 ^ 45 -> Forall (fun i => i < 2 ^ 64) is ->
  I s (string_to_bytes id ++ string_to_bytes name ++ uvarint_array_to_bytes is ++ body) ->
  forall r m s', build f keys encs headers R s = Ok (Some r, m, None, s') ->
  rec_id r = id /\ rec_name r = name /\ exists s1 s2, read_md_entries (err_reader R) keys is [] s1 = Ok (rec_md r, None, s2).
Proof.
  intros [|f] keys encs headers S R s id name is body I eager HR Hid Hnm Hl His HI r m s' H; [discriminate H|]. cbn [build] in H.
  apply new_er_inv in HI. rename HI into HI0.
  match type of HI0 with er_inv _ ?k _ _ => pose proof (er_serves R eager I k HR) as HE end. set (E := err_reader R) in *.
  destruct (read_string_ok HE id Hid _ _ HI0) as (s1 & E1 & HI1); [apply more_false|]. rewrite E1 in H. cbn [bind] in H.
  destruct (read_string_ok HE name Hnm _ _ HI1) as (s2 & E2 & HI2); [apply more_false|]. rewrite E2 in H. cbn [bind] in H.
  destruct (read_uvarint_array_ok HE is Hl His _ _ HI2) as (s3 & E3 & HI3); [apply more_false|].
  unfold read_md at 1 in H. rewrite E3 in H. cbn [bind] in H.
  destruct (read_md_entries E keys is [] s3) as [[[md [e|]] s4]| |] eqn:Em; cbn [bind] in H; try discriminate.
  match type of H with context [bind ?a _] => destruct a as [[[[ns ?] ?] s5]| |] end; cbn [bind] in H; try discriminate.
  assert (G : forall k n' (x : res (option recording * N * option err * S)), go_make k n' x = Ok (Some r, m, None, s') -> x = Ok (Some r, m, None, s')).
  { intros k n' x. unfold go_make. destruct (make_ok k n'); [auto|discriminate]. }
  apply G in H. match type of H with bind ?a _ = _ => destruct a as [[colls s6]| |] end; cbn [bind] in H; try discriminate.
  match type of H with context [bind ?a _] => destruct a as [[[[nr ?] ?] s7]| |] end; cbn [bind] in H; try discriminate.
  apply G in H. match type of H with bind ?a _ = _ => destruct a as [[refs s8]| |] end; cbn [bind] in H; try discriminate.
  match type of H with context [bind ?a _] => destruct a as [[[[nb ?] ?] s9]| |] end; cbn [bind] in H; try discriminate.
  apply G in H. match type of H with bind ?a _ = _ => destruct a as [[bins s10]| |] end; cbn [bind] in H; try discriminate.
  match type of H with context [bind ?a _] => destruct a as [[[[nc ?] ?] s11]| |] end; cbn [bind] in H; try discriminate.
  apply G in H. match type of H with bind ?a _ = _ => destruct a as [[[recs|?] s12]| |] end; cbn [bind] in H; try discriminate.
  assert (Er : r = mkRec id name colls recs md bins refs) by congruence. subst r. cbn [rec_id rec_name rec_md]. split; [reflexivity|]. split; [reflexivity|]. eauto.
Qed.
Lemma head_read : forall reg v1 IZ S (R : Reader S) eager I s sigs versions flag tail r n s', serves R eager I ->
  I s ([x02] ++ string_array_to_bytes sigs ++ concat (map put_uvarint versions) ++ [flag] ++ tail) ->
  length versions = length sigs -> tail <> [] -> lenN (string_array_to_bytes sigs) <= big -> Forall (fun v => v < 2 ^ 64) versions ->
  read reg v1 IZ R s = Ok (Some r, n, None, s') ->
  exists es k s4, length es = length sigs /\ I s4 tail /\
    (if b2n flag =? 1 then exists t, read_payload (iz_read IZ S R) es k (iz_new IZ S s4) = Ok (Some r, n, None, t)
     else exists t, read_payload R es k s4 = Ok (Some r, n, None, t)).
Proof.
  intros reg v1 IZ S R eager I s sigs versions flag tail r n s' HR HI L1 Ht Hbig Hv H.
  destruct (string_array_len sigs) as [Ls1 Ls2].
  unfold read, get_version in H. cbn [app] in HI.
  destruct (read_byte_raw _ _ _ HR _ _ _ HI) as (s1 & E1 & HI1); [right; destruct (string_array_to_bytes sigs); [|discriminate]; destruct (concat (map put_uvarint versions)); discriminate|].
  rewrite E1 in H. cbn [bind hd] in H. change (b2n x02) with 2 in H. change (2 =? 1) with false in H. change (negb (2 =? 2)) with false in H. cbv iota in H.
  unfold read_encoders in H.
  destruct (read_string_array_ok HR sigs) with (s := s1) (rest := concat (map put_uvarint versions) ++ [flag] ++ tail) as (s2 & E2 & HI2); [eapply N.le_trans with big; [blia|discriminate]| |exact HI1| |].
  { rewrite Forall_forall in *. intros x Hx. specialize (Ls2 x Hx). cbv beta in Ls2. apply big_lt; [blia|reflexivity]. }
  { right. destruct (concat (map put_uvarint versions)); discriminate. }
  rewrite E2 in H. cbn [bind] in H.
  destruct (read_versions_ok R eager I HR versions (lenN (string_array_to_bytes sigs)) Hv _ _ HI2) as (s3 & E3 & HI3); [right; discriminate|].
  rewrite L1 in E3. unfold str, bytes in *. rewrite E3 in H. cbn [bind] in H.
  destruct (find_encoders reg (combine sigs versions)) as [es|e] eqn:Ee; cbn [bind] in H; [|discriminate].
  assert (Les : length es = length sigs).
  { clear -Ee L1. revert versions L1 es Ee. induction sigs as [|x l IH]; intros [|v vs] L1 es Ee; try discriminate L1; cbn [combine find_encoders] in Ee.
    - now injection Ee as <-.
    - destruct (find_encoder reg x v None); [|discriminate]. destruct (find_encoders reg (combine l vs)) as [ys|] eqn:Ey; [|discriminate].
      injection Ee as <-. cbn [length]. f_equal. eapply IH; [|exact Ey]. cbn in L1. lia. }
  destruct (read_byte_raw _ _ _ HR _ _ _ HI3) as (s4 & E4 & HI4); [right; exact Ht|].
  rewrite E4 in H. cbn [bind hd] in H. exists es. eexists. exists s4. split; [exact Les|]. split; [exact HI4|].
  destruct (b2n flag =? 1); match type of H with bind ?m _ = _ => destruct m as [[x t]| |] eqn:Ep end; cbn [bind] in H; try discriminate;
    apply ok_inj in H; injection H as -> _; exists t; exact Ep.
Qed.
Lemma payload_head : forall S (R : Reader S) eager I s es headers keys id name places body k r n s', serves R eager I ->
  I s (concat (map bytes_array_to_bytes headers) ++ string_array_to_bytes keys ++
       string_to_bytes id ++ string_to_bytes name ++ uvarint_array_to_bytes places ++ body) ->
  length headers = length es -> body <> [] ->
  lenN (concat (map bytes_array_to_bytes headers) ++ string_array_to_bytes keys ++
       string_to_bytes id ++ string_to_bytes name ++ uvarint_array_to_bytes places ++ body) <= big -> Forall (fun i => i < 2 ^ 64) places ->
  read_payload R es k s = Ok (Some r, n, None, s') ->
  rec_id r = id /\ rec_name r = name /\
  forall k, In k (map fst (rec_md r)) <-> exists i, In i places /\ nthN keys i = Some k.
Proof.
  intros S R eager I s es headers keys id name places body k0 r n s' HR HI4 Les Hb Hbig Hp H.
  set (X := string_to_bytes id ++ string_to_bytes name ++ uvarint_array_to_bytes places ++ body) in *.
  rewrite !lenN_app in Hbig. unfold X in Hbig. rewrite !lenN_app in Hbig.
  destruct (string_array_len keys) as [Lk1 Lk2].
  pose proof (string_to_bytes_len id). pose proof (string_to_bytes_len name). pose proof (uvarint_array_len places).
  assert (HX : X <> []). { unfold X. intro E0. apply app_eq_nil in E0 as [_ E0]. apply app_eq_nil in E0 as [_ E0]. apply app_eq_nil in E0 as [_ E0]. auto. }
  unfold read_payload in H.
  assert (Hhs : Forall (fun h => lenN h < 2 ^ 48) headers).
  { assert (lenN (concat (map bytes_array_to_bytes headers)) <= big) as Hb1 by blia. clear -Hb1.
    induction headers as [|h l IH]; [constructor|]. cbn [map concat] in Hb1. rewrite lenN_app in Hb1.
    pose proof (bytes_array_len h). constructor; [apply big_lt; [blia | reflexivity] | apply IH; lia]. }
  destruct (read_headers_ok R eager I HR headers k0 Hhs _ _ HI4) as (s5 & E5 & HI5).
  { right. intro E0. apply app_eq_nil in E0 as [_ E0]. auto. }
  unfold str, bytes in *. rewrite Les in E5. rewrite E5 in H. cbn [bind] in H.
  destruct (read_string_array_ok HR keys ltac:(eapply N.le_trans with big; [blia | discriminate])
    ltac:(rewrite Forall_forall in *; intros x Hx; specialize (Lk2 x Hx); cbv beta in Lk2; apply big_lt; [blia | reflexivity])
    _ _ HI5) as (s6 & E6 & HI6); [right; exact HX|].
  rewrite E6 in H. cbn [bind] in H.
  destruct (build (build_fuel R s6) keys es headers R s6) as [[[[r0 m] [e|]] s7]| |] eqn:Eb; cbn [bind] in H; try discriminate.
  assert (r0 = Some r) by congruence. subst r0.
  eapply build_head in Eb as (Hi & Hn & t1 & t2 & Em); [|exact HR| | | |exact Hp|exact HI6].
  - split; [exact Hi|]. split; [exact Hn|]. intro k. rewrite (entries_keys _ _ _ _ _ _ _ Em k). cbn [map In]. intuition.
  - apply big_lt; [blia|reflexivity].
  - apply big_lt; [blia|reflexivity].
  - eapply N.le_trans with big; [blia|discriminate].
Qed.
(** C58: take any file with this layout: the names and versions of encoders, their
    headers, the table of keys, and a recording that begins with an identifier, a
    name and the places of its keys in that table.  Whatever follows, and whatever
    transport delivers it: if Read accepts the file, the recording has that identifier
    and that name, and metadata for exactly those keys. *)
Theorem C58_whole_metadata : forall reg v1 IZ S (R : Reader S) eager I s sigs versions headers keys id name places body file r n s',
  delivers R eager I -> I s file ->
  layout sigs versions headers keys (string_to_bytes id ++ string_to_bytes name ++ uvarint_array_to_bytes places ++ body) file ->
  body <> [] -> lenN file <= 2 ^ 40 -> Forall (fun v => v < 2 ^ 64) versions -> Forall (fun i => i < 2 ^ 64) places ->
  read reg v1 IZ R s = Ok (Some r, n, None, s') ->
  rec_id r = id /\ rec_name r = name /\
  forall k, In k (map fst (rec_md r)) <-> exists i, In i places /\ nthN keys i = Some k.
Proof.
  intros reg v1 IZ S R eager I s sigs versions headers keys id name places body file r n s' HR HI (L1 & L2 & Ef) Hb Hbig Hv Hp H.
  subst file. change (2 ^ 40) with big in Hbig. apply delivers_serves in HR.
  rewrite !lenN_app in Hbig.
  eapply head_read in H as (es & k & s4 & Les & HI4 & H); [|exact HR|exact HI|exact L1| |blia|exact Hv].
  - change (b2n x00 =? 1) with false in H. destruct H as [t H].
    eapply payload_head in H; [exact H|exact HR|exact HI4|congruence|exact Hb|rewrite !lenN_app; blia|exact Hp].
  - intro E0. do 5 apply app_eq_nil in E0 as [_ E0]. auto.
Qed.
Print Assumptions C58_whole_metadata.
(** C58: the same for a compressed file: what stands behind the flag is the
    compressed form of such headers, keys and recording, in any number of pieces,
    and anything may follow. *)
Theorem C58_compressed : forall reg v1 Z IZ S (R : Reader S) eager I s sigs versions headers keys id name places body content file r n s',
  codec_ok Z IZ -> delivers R eager I -> I s file ->
  packed_layout Z sigs versions headers keys
    (string_to_bytes id ++ string_to_bytes name ++ uvarint_array_to_bytes places ++ body) content file ->
  body <> [] -> lenN file <= 2 ^ 40 -> lenN content <= 2 ^ 40 ->
  Forall (fun v => v < 2 ^ 64) versions -> Forall (fun i => i < 2 ^ 64) places ->
  read reg v1 IZ R s = Ok (Some r, n, None, s') ->
  rec_id r = id /\ rec_name r = name /\
  forall k, In k (map fst (rec_md r)) <-> exists i, In i places /\ nthN keys i = Some k.
Proof.
  intros reg v1 Z IZ S R eager I s sigs versions headers keys id name places body content file r n s' [Hne Hz] HR HI
    (L1 & L2 & Ec & pieces & rest & Ep & Ef) Hb Hbig Hbig2 Hv Hp H.
  subst file. change (2 ^ 40) with big in Hbig, Hbig2. destruct (Hz S R eager I HR) as (J & HJ & Hnew).
  apply delivers_serves in HR, HJ. rewrite !lenN_app in Hbig.
  eapply head_read in H as (es & k & s4 & Les & HI4 & H); [|exact HR|exact HI|exact L1| |blia|exact Hv].
  - change (b2n x01 =? 1) with true in H. destruct H as [t H]. apply Hnew in HI4. rewrite Ep, Ec in HI4.
    eapply payload_head in H; [exact H|exact HJ|exact HI4|congruence|exact Hb|rewrite <- Ec; exact Hbig2|exact Hp].
  - intro E0. apply app_eq_nil in E0 as [E0 _]. exact (Hne pieces E0).
Qed.
Print Assumptions C58_compressed.

(** Two keys in the table, two places; the second property is missing or has an
    unknown type. *)
Definition two_keys (rest : list N) : bytes :=
  [x02] ++ string_array_to_bytes [] ++ [] ++ [x00] ++ [] ++ string_array_to_bytes [lit "a"%string; lit "b"%string] ++
  (string_to_bytes (lit "i"%string) ++ string_to_bytes (lit "n"%string) ++ uvarint_array_to_bytes [1; 0] ++ bs rest).
Lemma two_keys_layout : forall rest, layout [] [] [] [lit "a"%string; lit "b"%string]
  (string_to_bytes (lit "i"%string) ++ string_to_bytes (lit "n"%string) ++ uvarint_array_to_bytes [1; 0] ++ bs rest) (two_keys rest).
Proof. intro rest. repeat split. Qed.
Example C58_example :
  (match read [] no_v1 toy_iz flat (two_keys [3; 4; 0; 0; 0; 0]) with
   | Ok (Some r, _, None, _) => rec_md r = [(lit "b"%string, PBool true); (lit "a"%string, PBool false)] | _ => False end) /\
  (match read [] no_v1 toy_iz flat (two_keys [3; 77; 0; 0; 0; 0]) with Ok (None, _, Some _, _) => True | _ => False end) /\
  (match read [] no_v1 toy_iz flat (two_keys [3]) with Ok (None, _, Some _, _) => True | _ => False end).
Proof. vm_compute. repeat split. Qed.
Definition two_keys_inside : bytes := string_array_to_bytes [lit "a"%string; lit "b"%string] ++
  (string_to_bytes (lit "i"%string) ++ string_to_bytes (lit "n"%string) ++ uvarint_array_to_bytes [1; 0] ++ bs [3; 4; 0; 0; 0; 0]).
Definition two_keys_packed : bytes :=
  [x02] ++ string_array_to_bytes [] ++ [] ++ [x01] ++ squeeze toy_z [firstn 5 two_keys_inside; skipn 5 two_keys_inside] ++ bs [9; 9].
Example C58_example_compressed : packed_layout toy_z [] [] [] [lit "a"%string; lit "b"%string]
    (string_to_bytes (lit "i"%string) ++ string_to_bytes (lit "n"%string) ++ uvarint_array_to_bytes [1; 0] ++ bs [3; 4; 0; 0; 0; 0]) two_keys_inside two_keys_packed /\
  exists n s', read [] no_v1 toy_iz flat two_keys_packed = Ok (Some (mkRec (lit "i"%string) (lit "n"%string) [] [] [(lit "b"%string, PBool true); (lit "a"%string, PBool false)] [] []), n, None, s').
Proof.
  split.
  - repeat split. exists [firstn 5 two_keys_inside; skipn 5 two_keys_inside], (bs [9; 9]). split; [|reflexivity].
    cbn [concat]. rewrite app_nil_r. apply firstn_skipn.
  - eexists _, _. vm_compute. reflexivity.
Qed.

(** C55: one line each for the name, the number of collections, the name, signature
    and number of captures of every collection, and the number of sub-recordings. *)
Definition text_line (label : string) (t l : str) : Prop := l = lit label ++ t ++ bs [10].
Theorem C55_printed : forall r cs, rec_colls r = map Some cs ->
  exists l1 l2 ls l3, print_recording r = Ok (l1 ++ l2 ++ concat ls ++ l3) /\
    text_line "Name: " (rec_name r) l1 /\ line_with "Collections: " (List.length cs) l2 /\
    line_with "Sub Recordings: " (List.length (rec_recs r)) l3 /\
    Forall2 (fun c l => exists a b d, l = a ++ b ++ d /\ text_line "  Name: " (c_name c) a /\
      text_line "  Signature: " (c_sig c) b /\ line_with "  Captures: " (List.length (captures c)) d) cs ls.
Proof.
  intros r cs H. unfold print_recording. rewrite H.
  assert (L : forall label n, line_with label n (line (lit label ++ show_nat n))).
  { intros. exists (show_nat n). split; [apply show_N_spells|]. unfold line. now rewrite <- app_assoc. }
  assert (T : forall label t, text_line label t (line (lit label ++ t))) by (intros; unfold text_line, line; now rewrite <- app_assoc).
  assert (exists ls, map_res print_coll (map Some cs) = Ok ls /\
    Forall2 (fun c l => exists a b d, l = a ++ b ++ d /\ text_line "  Name: " (c_name c) a /\
      text_line "  Signature: " (c_sig c) b /\ line_with "  Captures: " (List.length (captures c)) d) cs ls) as (ls & -> & Hl).
  { clear -L T. induction cs as [|c cs (ls & E & IH)]; [exists []; split; [reflexivity|constructor]|].
    cbn [map map_res print_coll bind]. rewrite E. cbn [bind]. eexists. split; [reflexivity|]. constructor; [|exact IH].
    do 3 eexists. split; [reflexivity|]. split; [apply T|]. split; [apply T|].
    replace (List.length (captures c)) with (c_length c) by (unfold captures, c_length, c_times; destruct (c_body c); now rewrite ?map_length). apply L. }
  cbn [bind]. exists (line (lit "Name: "%string ++ rec_name r)), (line (lit "Collections: "%string ++ show_nat (List.length (map Some cs)))),
    ls, (line (lit "Sub Recordings: "%string ++ show_nat (List.length (rec_recs r)))).
  split; [reflexivity|]. split; [apply T|]. split; [|split; [apply L|exact Hl]]. rewrite map_length. apply L.
Qed.
Print Assumptions C55_printed.
Example C55_example_printed : print_recording (mkRec [] (lit "r"%string) [Some (mkColl (lit "c"%string) (BPos []))] [] [] [] []) =
  Ok (lit "Name: r"%string ++ bs [10] ++ lit "Collections: 1"%string ++ bs [10] ++ lit "  Name: c"%string ++ bs [10] ++
      lit "  Signature: recolude.position"%string ++ bs [10] ++ lit "  Captures: 0"%string ++ bs [10] ++ lit "Sub Recordings: 0"%string ++ bs [10]).
Proof. vm_compute. reflexivity. Qed.
