(** A whole file: what Write emits, and that Read takes it back. *)
From Coq Require Import ZArith Lia Permutation Classical.
From Verif Require Import Base BaseFacts IO Spec IOFacts Floats ByteFacts BinaryIO BinaryIOFacts.
From Verif Require Import Metadata SpecMeta MetadataFacts Recording SpecRec RecordingFacts Encoding SpecEnc.
From Verif Require Import EncTableFacts EncEventFacts StreamFacts TimeIO TimeFacts.
From Verif Require Import Writer Reader SpecFile WriterFacts KeyFacts PlanFacts ReaderFacts.
Local Open Scope N_scope.

Ltac blia := unfold str, bytes in *; lia.

(** ** Destinations *)
Lemma send_buffer : forall cs n b, send buffer cs n b = (n + lenN (concat cs), None, b ++ concat cs).
Proof.
  induction cs as [|c cs IH]; intros n b; cbn [send concat].
  - change (lenN (@nil byte)) with 0. now rewrite N.add_0_r, app_nil_r.
  - cbn [wwrite buffer]. rewrite IH, lenN_app, N.add_assoc, app_assoc. reflexivity.
Qed.
Lemma honest_buffer : honest buffer.
Proof. intros p s n e s' H. cbn in H. injection H as <- <- <-. split; [lia | reflexivity]. Qed.
Lemma honest_tee : forall {S} (W : Writer S), honest W -> honest (tee W).
Proof.
  intros S W H p [[s0 got] first] n e s' E. cbn in E. destruct (wwrite W p s0) as [[n1 e1] s1] eqn:E1.
  injection E as <- <- <-. eapply H; eauto.
Qed.
Lemma send_tee : forall {S} (W : Writer S), honest W -> forall cs n s got,
  let '(k, e, s1) := send (tee W) cs n (s, got, None) in
  exists s0 more first, s1 = (s0, got ++ more, first) /\ k = n + lenN more /\ e = first /\
    prefix more (concat cs) /\ (e = None -> more = concat cs).
Proof.
  intros S W HW. induction cs as [|c cs IH]; intros n s got; cbn [send concat].
  - exists s, [], None. rewrite app_nil_r. change (lenN (@nil byte)) with 0. repeat split; auto; [lia|].
    exists []. reflexivity.
  - cbn [wwrite tee]. destruct (wwrite W c s) as [[k e] s1] eqn:E.
    destruct (HW _ _ _ _ _ E) as [Hk Hn]. destruct e as [e|].
    + exists s1, (takeN k c), (Some e). rewrite lenN_take. repeat split; auto; [lia| |discriminate].
      exists (dropN k c ++ concat cs). now rewrite app_assoc, take_drop.
    + rewrite (Hn eq_refl), (takeN_all c) by lia. specialize (IH (n + lenN c) s1 (got ++ c)).
      match goal with |- context [send (tee W) ?a ?b ?x] => set (run := send (tee W) a b x) end.
      match type of IH with context [send (tee W) ?a ?b ?x] => change (send (tee W) a b x) with run in IH end.
      destruct run as [[k2 e2] s2]. destruct IH as (s0 & more & first & -> & -> & -> & (q & Hq) & Hm).
      exists s0, (c ++ more), first. rewrite lenN_app, app_assoc. repeat split; auto; [lia| |].
      * exists q. now rewrite Hq, app_assoc.
      * intro H. now rewrite (Hm H).
Qed.

(** ** Well-formed recordings can be written *)
Lemma built_md_ok : forall m, built_block m -> md_ok m.
Proof.
  intros m H. apply built_block_iff in H as [_ H]. unfold md_ok.
  induction m as [|[k p] m IH]; [cbn; eauto|]. inversion H; subst.
  cbn [block_values]. destruct (built_writes p) as [x ->]; [assumption|].
  destruct IH as [t ->]; [assumption|]. cbn. eauto.
Qed.
Lemma given_weaken : forall A (P Q : A -> Prop) l, (forall x, In (Some x) l -> P x -> Q x) ->
  Forall (given P) l -> Forall (given Q) l.
Proof.
  intros A P Q l H F. rewrite Forall_forall in *. intros o Ho. destruct (F o Ho) as (x & -> & Hx).
  exists x. auto.
Qed.
Lemma wf_writable : forall r, wf_rec r -> writable r.
Proof.
  induction r as [id name colls recs md bins refs IH] using recording_ind'. intro H.
  inversion H as [? ? ? ? ? ? ? Hcolls Hrecs Hmd Hbins Hrefs]; subst. constructor.
  - eapply given_weaken; [|exact Hcolls]. auto.
  - eapply given_weaken; [|exact Hrecs]. intros c Hc Hw. apply IH; assumption.
  - now apply built_md_ok.
  - eapply given_weaken; [|exact Hbins]. intros b _ [Hb Hs]. split; [now apply built_md_ok | exact Hs].
  - eapply given_weaken; [|exact Hrefs]. intros b _ [Hb Hs]. now apply built_md_ok.
Qed.
Lemma given_not_nil : forall A (P : A -> Prop) l, Forall (given P) l -> ~ In None l.
Proof. intros A P l F Hn. rewrite Forall_forall in F. destruct (F _ Hn) as (x & E & _). discriminate. Qed.
Lemma wf_inside : forall r c, wf_rec r -> inside c r -> wf_rec c.
Proof.
  intros r c Hw Hi. induction Hi as [r | r c d Hd Hi IH]; [exact Hw|]. apply IH.
  inversion Hw as [? ? ? ? ? ? ? _ Hrecs _ _ _]; subst. cbn [rec_recs] in Hd.
  rewrite Forall_forall in Hrecs. destruct (Hrecs _ Hd) as (x & E & Hx). injection E as <-. exact Hx.
Qed.
Lemma wf_nodes : forall r, wf_rec r -> forall c, inside c r -> node_ok c.
Proof.
  intros r Hw c Hc. pose proof (wf_inside _ _ Hw Hc) as H.
  inversion H as [? ? ? ? ? ? ? Hcolls Hrecs Hmd Hbins Hrefs]; subst.
  repeat split; cbn; eapply given_not_nil; eauto.
Qed.
Lemma wf_num_streams : forall r, wf_rec r -> num_streams r = lenN (tree_colls r).
Proof.
  induction r as [id name colls recs md bins refs IH] using recording_ind'. intro Hc.
  inversion Hc as [? ? ? ? ? ? ? Hcolls Hrecs _ _ _]; subst.
  rewrite num_streams_eq, tree_colls_eq, lenN_app. f_equal.
  - clear -Hcolls. induction Hcolls as [|x l (c & -> & _) H IHl]; [reflexivity|].
    unfold opt_colls. cbn [flat_map app]. fold (opt_colls l). now rewrite !lenN_cons, IHl.
  - clear Hc Hcolls. induction recs as [|x l IHl]; [reflexivity|].
    inversion Hrecs as [|? ? (c & -> & Hc') H]; subst. cbn [fold_right]. unfold recs_colls. cbn [flat_map].
    fold (recs_colls l). rewrite lenN_app, (IH c (or_introl eq_refl) Hc').
    f_equal. apply IHl; auto. intros d Hd. apply IH. now right.
Qed.
Lemma wf_tree_colls : forall r, wf_rec r -> Forall wf_coll (tree_colls r).
Proof.
  induction r as [id name colls recs md bins refs IH] using recording_ind'. intro Hc.
  inversion Hc as [? ? ? ? ? ? ? Hcolls Hrecs _ _ _]; subst. rewrite tree_colls_eq.
  apply Forall_app. split; rewrite Forall_forall; intros c Hin.
  - apply in_flat_map in Hin as (o & Ho & Hin). rewrite Forall_forall in Hcolls.
    destruct (Hcolls o Ho) as (x & -> & Hx). destruct Hin as [<-|[]]. exact Hx.
  - apply in_flat_map in Hin as (o & Ho & Hin). rewrite Forall_forall in Hrecs.
    destruct (Hrecs o Ho) as (x & -> & Hx). specialize (IH x Ho Hx). rewrite Forall_forall in IH. auto.
Qed.
Lemma rel_tree_colls : forall (EB : block -> block -> Prop) (RC : coll -> coll -> Prop) r r',
  rec_rel EB RC r r' -> Forall2 RC (tree_colls r) (tree_colls r').
Proof.
  intros EB RC. induction r as [id name colls recs md bins refs IH] using recording_ind'.
  intros r' H. inversion H as [? ? ? colls' ? recs' ? ? ? ? ? ? Hc Hr _ _ _]; subst.
  rewrite !tree_colls_eq. apply Forall2_app.
  - clear -Hc. induction Hc as [|o o' l l' (x & y & -> & -> & Hxy) H IHl]; [constructor|].
    unfold opt_colls. cbn [flat_map app]. constructor; assumption.
  - clear -Hr IH. induction Hr as [|o o' l l' (x & y & -> & -> & Hxy) H IHl]; [constructor|].
    unfold recs_colls. cbn [flat_map]. apply Forall2_app; [apply IH; [now left | exact Hxy]|].
    apply IHl. intros c Hin. apply IH. now right.
Qed.
Lemma rel_inside : forall (EB : block -> block -> Prop) (RC : coll -> coll -> Prop) r r',
  rec_rel EB RC r r' -> forall c', inside c' r' -> exists c, inside c r /\ rec_rel EB RC c c'.
Proof.
  intros EB RC r r' H c' Hi. revert r H. induction Hi as [r' | r' c' d' Hd Hi IH]; intros r H.
  - exists r. split; [constructor | exact H].
  - inversion H as [? ? ? ? recs recs' ? ? ? ? ? ? _ Hr _ _ _]; subst. cbn [rec_recs] in Hd.
    destruct (In_nth_error _ _ Hd) as [i Hn].
    assert (exists d, In (Some d) recs /\ rec_rel EB RC d d') as (d & Hd' & Hdd).
    { clear -Hr Hn. revert i Hn. induction Hr as [|o o' l l' (x & y & -> & -> & Hxy) H IHl]; intros [|i] Hn; cbn in Hn; try discriminate.
      - injection Hn as ->. exists x. split; [now left | exact Hxy].
      - destruct (IHl i Hn) as (d & Hd & Hdd). exists d. split; [now right | exact Hdd]. }
    destruct (IH d Hdd) as (c & Hc & Hcc). exists c. split; [|exact Hcc].
    eapply InsideSub; [|exact Hc]. exact Hd'.
Qed.
Lemma both_not_nil : forall A (P : A -> A -> Prop) l l', Forall2 (both P) l l' -> ~ In None l'.
Proof.
  intros A P l l' H. induction H as [|o o' l l' (x & y & -> & -> & _) H IH]; [intros []|].
  intros [E|E]; [discriminate | auto].
Qed.
Lemma rel_node : forall (EB : block -> block -> Prop) (RC : coll -> coll -> Prop) c c',
  rec_rel EB RC c c' -> node_ok c' /\ ~ In None (rec_colls c').
Proof.
  intros EB RC c c' H. inversion H; subst. cbn. repeat split; eapply both_not_nil; eauto.
Qed.

(** ** The encoder list *)
Section Head.
Context {S : Type} (R : Reader S) (eager : bool) (I : S -> bytes -> Prop).
Hypothesis HR : serves R eager I.
Lemma read_versions_ok : forall vs n, Forall (fun v => v < 2 ^ 64) vs ->
  parses I eager (read_versions R (length vs) n) (concat (map put_uvarint vs))
    (vs, n + lenN (concat (map put_uvarint vs)), None).
Proof.
  induction vs as [|v vs IH]; intros n Hv s rest HI Hm; cbn [length read_versions map concat] in *.
  - exists s. change (lenN (@nil byte)) with 0. rewrite N.add_0_r. auto.
  - inversion Hv; subst. rewrite <- app_assoc in HI.
    destruct (read_uvarint_ok HR v ltac:(assumption) _ _ HI) as (s1 & -> & HI1); [auto with more|]. cbn [bind].
    destruct (IH (n + lenN (put_uvarint v)) ltac:(assumption) s1 rest HI1 Hm) as (s2 & -> & HI2). cbn [bind].
    exists s2. rewrite lenN_app, N.add_assoc. auto.
Qed.
Lemma read_headers_ok : forall hs n, Forall (fun h => lenN h < 2 ^ 48) hs ->
  parses I eager (read_headers R (length hs) n) (concat (map bytes_array_to_bytes hs))
    (hs, n + lenN (concat (map bytes_array_to_bytes hs)), None).
Proof.
  induction hs as [|h hs IH]; intros n Hv s rest HI Hm; cbn [length read_headers map concat] in *.
  - exists s. change (lenN (@nil byte)) with 0. rewrite N.add_0_r. auto.
  - inversion Hv; subst. rewrite <- app_assoc in HI.
    destruct (read_bytes_array_ok HR h ltac:(assumption) _ _ HI) as (s1 & -> & HI1); [auto with more|]. cbn [bind].
    destruct (IH (n + lenN (bytes_array_to_bytes h)) ltac:(assumption) s1 rest HI1 Hm) as (s2 & -> & HI2). cbn [bind].
    exists s2. rewrite lenN_app, N.add_assoc. auto.
Qed.
End Head.

Lemma find_encoder_ok : forall reg e found,
  (forall x, In x reg -> e_sig x = e_sig e -> e_version e <= e_version x /\
     forall name h b ts, e_decode x name h b ts = e_decode e name h b ts) ->
  ((exists x, In x reg /\ e_sig x = e_sig e) \/
   exists x, found = Some x /\ forall name h b ts, e_decode x name h b ts = e_decode e name h b ts) ->
  exists x, find_encoder reg (e_sig e) (e_version e) found = inl x /\
    forall name h b ts, e_decode x name h b ts = e_decode e name h b ts.
Proof.
  induction reg as [|y reg IH]; intros e found Hall Hf; cbn [find_encoder].
  - destruct Hf as [(x & [] & _) | (x & -> & Hx)]. eauto.
  - destruct (str_eqb (e_sig y) (e_sig e)) eqn:E.
    + apply str_eqb_eq in E. destruct (Hall y (or_introl eq_refl) E) as [Hv Hd].
      destruct (N.leb_spec (e_version e) (e_version y)); [|lia].
      apply IH; [intros x Hx; apply Hall; now right|]. right. eauto.
    + apply IH; [intros x Hx; apply Hall; now right|]. destruct Hf as [(x & [->|Hx] & Ex) | Hf]; auto.
      * apply str_eqb_neq in E. contradiction.
      * left. eauto.
Qed.
Lemma find_encoders_ok : forall reg es, Forall (can_read reg) es ->
  exists xs, find_encoders reg (combine (map e_sig es) (map e_version es)) = inl xs /\
    Forall2 (fun e x => forall name h b ts, e_decode x name h b ts = e_decode e name h b ts) es xs.
Proof.
  intros reg es H. induction H as [|e es [He1 He2] H IH]; cbn [map combine find_encoders].
  - exists []. auto.
  - destruct (find_encoder_ok reg e None He2 (or_introl He1)) as (x & -> & Hx).
    destruct IH as (xs & -> & Hxs). exists (x :: xs). auto.
Qed.

Definition head_bytes (ms : list mapping) (compress : bool) : bytes := concat (head_chunks ms compress).
Lemma head_bytes_eq : forall ms c, head_bytes ms c =
  [x02] ++ (string_array_to_bytes (map e_sig (map m_enc ms)) ++
  concat (map put_uvarint (map e_version (map m_enc ms)))) ++ [if c then x01 else x00].
Proof.
  intros. unfold head_bytes, head_chunks. rewrite !concat_app. cbn [concat].
  rewrite !app_nil_r, !map_map, <- !app_assoc. reflexivity.
Qed.
Lemma read_encoders_ok : forall {S} (R : Reader S) eager I, serves R eager I -> forall reg es xs,
  find_encoders reg (combine (map e_sig es) (map e_version es)) = inl xs ->
  Forall (fun e => e_version e < 2 ^ 64) es ->
  let enc := string_array_to_bytes (map e_sig es) ++ concat (map put_uvarint (map e_version es)) in
  lenN enc <= big ->
  parses I eager (read_encoders R reg) enc (xs, lenN enc, None).
Proof.
  intros S R eager I HR reg es xs Ef Hv enc Hs.
  intros s rest HI Hm. unfold read_encoders, enc in *. rewrite <- app_assoc in HI. rewrite lenN_app in Hs.
  destruct (string_array_len (map e_sig es)) as [Hl1 Hl2]. unfold str, bytes in *.
  destruct (read_string_array_ok HR (map e_sig es)) with (s := s)
    (rest := concat (map put_uvarint (map e_version es)) ++ rest) as (s1 & -> & HI1); auto with more.
  { eapply N.le_trans with big; [blia | discriminate]. }
  { rewrite Forall_forall. intros x Hx. apply big_lt; [|reflexivity]. rewrite Forall_forall in Hl2.
    specialize (Hl2 x Hx). cbv beta in Hl2. blia. }
  cbn [bind].
  assert (Hv' : Forall (fun v => v < 2 ^ 64) (map e_version es)) by (now rewrite Forall_map).
  destruct (read_versions_ok R eager I HR (map e_version es) (lenN (string_array_to_bytes (map e_sig es))) Hv' _ _ HI1 Hm)
    as (s2 & E2 & HI2).
  rewrite map_length in E2 |- *. unfold bytes in *. rewrite E2. cbn [bind].
  unfold str, bytes in *. rewrite Ef. exists s2. split; [|exact HI2]. now rewrite lenN_app.
Qed.

(** ** Reading a file *)
Lemma read_byte_raw : forall {S} (R : Reader S) eager I, serves R eager I -> forall b s rest,
  I s (b :: rest) -> more eager rest -> exists s', rread R 1 s = Ok ([b], None, s') /\ I s' rest.
Proof.
  intros S R eager I HR b s rest HI Hm.
  destruct (s_more _ _ _ HR s (b :: rest) 1 HI) as (p & q & e & s' & E & Hd & Hp & Hl & HI' & He);
    [discriminate | rewrite lenN_cons; lia |].
  destruct p as [|x [|y p]]; [congruence | | rewrite !lenN_cons in Hl; lia].
  injection Hd as <- <-. exists s'. split; [|exact HI'].
  destruct He as [->|(Ht & -> & ->)]; [exact E|]. destruct Hm as [Hm|Hm]; congruence.
Qed.

Section Payload.
Variables (tech : N) (keys : list str) (hs blocks : list bytes) (used : list N) (xs : list encoder)
  (RC : coll -> coll -> Prop) (r : recording).
Let payload := payload_chunks tech (number 0 keys) keys hs blocks used r.
Theorem read_payload_ok : tech < 3 -> length hs = length xs -> wf_rec r ->
  (forall k, In k (tree_keys r) -> In k keys) ->
  (forall i c, nthN (tree_colls r) i = Some c -> stream_ok tech blocks used xs hs RC i c) ->
  lenN (concat payload) <= big ->
  exists r', rec_rel eq RC r r' /\
    forall S (R : Reader S) eager I, serves R eager I -> forall n s rest, I s (concat payload ++ rest) ->
    exists s', read_payload R xs n s = Ok (Some r', n + lenN (concat payload), None, s') /\ I s' rest.
Proof.
  intros Ht Hh Hw Hk Hst Hs.
  assert (Hcat : concat payload = concat (map bytes_array_to_bytes hs) ++ string_array_to_bytes keys ++
    concat (rec_chunks tech (number 0 keys) blocks used r 0)).
  { unfold payload, payload_chunks. rewrite !concat_app. cbn [concat]. now rewrite app_nil_r. }
  rewrite Hcat in *. rewrite !lenN_app in Hs.
  destruct (string_array_len keys) as [Hl1 Hl2]. unfold str, bytes in *.
  assert (Hne : exists b t, concat (rec_chunks tech (number 0 keys) blocks used r 0) = b :: t).
  { destruct r. rewrite rec_chunks_eq. cbn [concat app].
    pose proof (put_uvarint_nonempty (lenN id)). unfold string_to_bytes, string_to_bytes.
    destruct (put_uvarint (lenN id)); [congruence|]. cbn. eauto. }
  destruct (build_ok tech Ht keys ltac:(blia) blocks used xs hs RC r Hw Hk 0 Hst ltac:(blia))
    as (r' & Hrel & Hb).
  exists r'. split; [exact Hrel|]. intros S R eager I HR n s rest HI.
  unfold read_payload. rewrite <- !app_assoc in HI.
  assert (Hhs : Forall (fun h => lenN h < 2 ^ 48) hs).
  { assert (lenN (concat (map bytes_array_to_bytes hs)) <= big) as Hb1 by blia. clear -Hb1.
    induction hs as [|h l IH]; [constructor|]. cbn [map concat] in Hb1. rewrite lenN_app in Hb1.
    pose proof (bytes_array_len h). constructor; [apply big_lt; [blia | reflexivity] | apply IH; lia]. }
  destruct Hne as (b0 & t0 & Hne).
  destruct (read_headers_ok R eager I HR hs n Hhs _ _ HI) as (s1 & E1 & HI1).
  { right. intro E0. apply app_eq_nil in E0 as [E0 _]. rewrite E0 in Hl1.
    change (lenN (@nil byte)) with 0 in Hl1. lia. }
  rewrite <- Hh, E1. cbn [bind].
  destruct (read_string_array_ok HR keys ltac:(eapply N.le_trans with big; [blia | discriminate])
    ltac:(rewrite Forall_forall in *; intros x Hx; specialize (Hl2 x Hx); cbv beta in Hl2; apply big_lt; [blia | reflexivity])
    _ _ HI1) as (s2 & -> & HI2).
  { right. rewrite Hne. discriminate. }
  cbn [bind].
  destruct (Hb (build_fuel R s2) S R eager I HR) with (s := s2) (rest := rest) as (s3 & -> & HI3); [|exact HI2|].
  { unfold build_fuel. pose proof (s_left _ _ _ HR _ _ HI2) as Hleft. rewrite app_length in Hleft. lia. }
  cbn [bind]. exists s3. split; [|exact HI3]. rewrite !lenN_app. do 4 f_equal. unfold str, bytes in *; lia.
Qed.
End Payload.

Lemma Forall2_nthN : forall A B (P : A -> B -> Prop) l l', Forall2 P l l' ->
  forall i x, nthN l i = Some x -> exists y, nthN l' i = Some y /\ P x y.
Proof.
  intros A B P l l' H. induction H; intros i z Hz; cbn [nthN] in *; [discriminate|].
  destruct (i =? 0); [injection Hz as <-; eauto | eauto].
Qed.
Lemma chosen_In : forall es c e, chosen es c = Some e -> In e es /\ e_accepts e c = true.
Proof. intros es c e H. apply find_some in H. exact H. Qed.

Lemma coll_equiv_len : forall c c', coll_equiv c c' -> c_length c = c_length c'.
Proof.
  intros c c' H. apply coll_equiv_times in H. unfold c_length. now rewrite H.
Qed.

(** The head of a file *)
Lemma head_read : forall reg ms c xs,
  find_encoders reg (combine (map e_sig (map m_enc ms)) (map e_version (map m_enc ms))) = inl xs ->
  Forall (fun e => e_version e < 2 ^ 64) (map m_enc ms) -> lenN (head_bytes ms c) <= big ->
  forall S (R : Reader S) eager I, serves R eager I -> forall s T, I s (head_bytes ms c ++ T) -> more eager T ->
  exists m s1 s2 s3, get_version R s = Ok (2, 1, None, s1) /\ read_encoders R reg s1 = Ok (xs, m, None, s2) /\
    rread R 1 s2 = Ok ([if c then x01 else x00], None, s3) /\ I s3 T /\ 1 + m + 1 = lenN (head_bytes ms c).
Proof.
  intros reg ms c xs Hfind Hv Hl S R eager I HR s T HI HT.
  pose proof (read_encoders_ok R eager I HR reg (map m_enc ms) xs Hfind Hv) as Hparse. cbv zeta in Hparse.
  rewrite head_bytes_eq in *.
  set (X := string_array_to_bytes (map e_sig (map m_enc ms)) ++ concat (map put_uvarint (map e_version (map m_enc ms)))) in *.
  rewrite !lenN_app in *. change (lenN [x02]) with 1 in *. change (lenN [if c then x01 else x00]) with 1 in *.
  specialize (Hparse ltac:(lia)). rewrite <- !app_assoc in HI. cbn [app] in HI.
  unfold get_version.
  destruct (read_byte_raw _ _ _ HR _ _ _ HI) as (s1 & -> & HI1).
  { right. destruct X; discriminate. }
  destruct (Hparse _ _ HI1) as (s2 & E2 & HI2); [right; discriminate|].
  destruct (read_byte_raw _ _ _ HR _ _ _ HI2 HT) as (s3 & E3 & HI3).
  exists (lenN X), s1, s2, s3. cbn [bind hd]. repeat split; auto. lia.
Qed.

(** What a collection comes back as. *)
Definition decoded (es : list encoder) (post : encoder -> list f64 -> coll -> coll) (tech : N)
  (c d : coll) : Prop :=
  exists cE e, coll_equiv c cE /\ chosen es cE = Some e /\
    d = post e (time_values tech (c_times c)) cE.

Section RoundTrip.
Variables (cfg : wconfig) (Z : compressor) (post : encoder -> list f64 -> coll -> coll).
Variables (r rA rE : recording).
Hypothesis Hsigs : NoDup (map e_sig (w_encs cfg)).
Hypothesis Hlaw : lawful_all (w_encs cfg) post.
Hypothesis Hwf : wf_rec r.
Hypothesis HA : rec_equiv r rA.
Hypothesis HE : rec_equiv r rE.
Hypothesis Hacc : ~ unaccepted (w_encs cfg) rE.

(** What Write emits, to any destination. *)
Theorem write_script : exists ms hs blocks used keys payload,
  payload = payload_chunks (w_time cfg) (number 0 keys) keys hs blocks used r /\
  (forall k, In k (tree_keys r) -> In k keys) /\ NoDup keys /\ (forall k, In k keys -> In k (tree_keys r)) /\
  (length hs = length ms /\
   Forall2 (fun m h => exists ss, e_encode (m_enc m) (m_colls m) = Ok (h, ss, None)) ms hs) /\
  plan (w_encs cfg) (indexed 0 (tree_colls rE)) ms /\
  (forall i c, nthN (tree_colls r) i = Some c ->
     exists j m h d cE, nthN used i = Some (N.of_nat j) /\ nthN blocks i = Some d /\
        nth_error ms j = Some m /\ nth_error hs j = Some h /\ coll_equiv c cE /\
        chosen (w_encs cfg) cE = Some (m_enc m) /\
        (lenN h <= 2 ^ 44 -> lenN d <= 2 ^ 44 -> forall times, length times = c_length c ->
           e_decode (m_enc m) (c_name c) h d times = Ok (Some (post (m_enc m) times cE), None)) /\
        exists ds q, e_encode (m_enc m) (m_colls m) = Ok (h, ds, None) /\ nth_error (m_colls m) q = Some cE /\ nth_error ds q = Some d) /\
  forall S (W : Writer S) out, honest W ->
  let '(m, e, s) := send W (file_chunks Z ms (w_compress cfg) payload) 0 out in
  (exists n, write_views cfg Z W rA rE r out = Ok (n, e, s) /\
     (e = None -> n = lenN (head_bytes ms (w_compress cfg)) + lenN (concat payload)) /\
     (w_compress cfg = false -> n = m)) \/
  (write_views cfg Z W rA rE r out = Panic /\ e <> None /\ with_data r).
Proof.
  pose proof (rel_tree_colls _ _ _ _ HE) as Hcolls.
  assert (HwfE : Forall wf_coll (tree_colls rE)).
  { pose proof (wf_tree_colls _ Hwf) as H. clear -H Hcolls.
    induction Hcolls; inversion H; subst; constructor; eauto using coll_equiv_wf. }
  assert (Hnum : num_streams r = lenN (tree_colls rE)).
  { rewrite wf_num_streams by assumption. clear -Hcolls. induction Hcolls; [reflexivity|].
    rewrite !lenN_cons. congruence. }
  assert (HnodeE : forall c, inside c rE -> node_ok c /\ ~ In None (rec_colls c)).
  { intros c Hc. destruct (rel_inside _ _ _ _ HE c Hc) as (c0 & _ & H0). eapply rel_node; eauto. }
  assert (Hev : exists ms off', evaluate (w_encs cfg) rE 0 = inl (ms, off')).
  { apply evaluate_iff; [intros c Hc; apply HnodeE, Hc|]. intros c Hc. split; [apply HnodeE, Hc|].
    intros o Ho. destruct (existsb (fun e => e_accepts e o) (w_encs cfg)) eqn:Ex.
    - apply existsb_exists in Ex. exact Ex.
    - exfalso. apply Hacc. exists c, o. repeat split; auto. intros e He.
      destruct (e_accepts e o) eqn:Ea; [|reflexivity].
      rewrite <- Ex. symmetry. apply existsb_exists. eauto. }
  destruct Hev as (ms & off' & Hev).
  destruct (distribute _ post _ _ _ Hsigs Hlaw HwfE Hev) as (hs & blocks & used & Hprep & Hlen & Hb & Hu & Hd).
  destruct (key_table rA) as (keys & Hkt & Hnd & Hin & Harr).
  pose proof (rec_rel_keys _ _ block_equiv_keys _ _ HA) as Hperm.
  exists ms, hs, blocks, used, keys, (payload_chunks (w_time cfg) (number 0 keys) keys hs blocks used r).
  destruct (evaluate_plan _ Hsigs _ _ _ _ Hev) as [Hplan _].
  split; [reflexivity|]. split; [|split; [exact Hnd|split; [|split; [split; [exact Hlen|]|split; [exact Hplan|split]]]]].
  - intros k Hk. apply Hin. eapply Permutation_in; eauto.
  - intros k Hk. apply Hin in Hk. eapply Permutation_in; [apply Permutation_sym|]; eauto.
  - clear -Hprep. induction Hprep; constructor; eauto.
  - intros i c Hc. destruct (Forall2_nthN _ _ _ _ _ Hcolls i c Hc) as (cE & HcE & Heq).
    destruct (Hd i cE HcE) as (j & m & h & d & H1 & H2 & H3 & H4 & H5 & H6 & H7).
    exists j, m, h, d, cE. repeat split; auto. intros Hh1 Hd1 times Ht.
    rewrite (coll_equiv_name _ _ Heq). apply H6; auto. 
    rewrite Ht. now apply coll_equiv_len.
  - intros S W out HW.
    pose proof (write_run cfg Z W rA rE r out ms off' hs blocks used keys HW) as H.
    rewrite Hnum, Hkt in H. apply H; auto.
    + apply check_nil_none. now apply wf_nodes.
    + now rewrite <- Hkt.
    + now apply wf_writable.
Qed.

Variables (reg : list encoder) (v1 : v1_reader) (IZ : inflater).
Hypothesis Htime : w_time cfg < 3.
Hypothesis Hver : forall e, In e (w_encs cfg) -> e_version e < 2 ^ 64 /\ can_read reg e.

(** The file, and what its parts are read as. *)
Theorem file_parts : exists n file ms hs payload,
  (forall out, write_views cfg Z buffer rA rE r out = Ok (n, None, out ++ file)) /\
  (w_compress cfg = false -> n = lenN file) /\
  file = head_bytes ms (w_compress cfg) ++ (if w_compress cfg then squeeze Z payload else concat payload) /\
  n = lenN (head_bytes ms (w_compress cfg)) + lenN (concat payload) /\
  Forall (fun m => In (m_enc m) (w_encs cfg)) ms /\ length hs = length ms /\
  Forall2 (fun m h => exists ss, e_encode (m_enc m) (m_colls m) = Ok (h, ss, None)) ms hs /\
  (exists U, concat payload = concat (map bytes_array_to_bytes hs) ++ U /\ U <> []) /\
  (n <= 2 ^ 40 ->
   exists xs r', find_encoders reg (combine (map e_sig (map m_enc ms)) (map e_version (map m_enc ms))) = inl xs /\
     Forall (fun e => e_version e < 2 ^ 64) (map m_enc ms) /\
     Forall2 (fun e x => forall name h b ts, e_decode x name h b ts = e_decode e name h b ts) (map m_enc ms) xs /\
     rec_rel eq (decoded (w_encs cfg) post (w_time cfg)) r r' /\
     forall S (R : Reader S) eager I, serves R eager I -> forall k s rest, I s (concat payload ++ rest) ->
     exists s', read_payload R xs k s = Ok (Some r', k + lenN (concat payload), None, s') /\ I s' rest).
Proof.
  destruct write_script as (ms & hs & blocks & used & keys & payload & Hpay & Hk & _ & _ & (Hlen & Henc) & (_ & Hgood & _) & Hst & Hrun).
  assert (Hms : Forall (fun m => In (m_enc m) (w_encs cfg)) ms).
  { eapply Forall_impl; [|exact Hgood]. intros m Hm. apply Hm. }
  assert (Hall : forall out, exists n, write_views cfg Z buffer rA rE r out =
      Ok (n, None, out ++ concat (file_chunks Z ms (w_compress cfg) payload)) /\
    n = lenN (head_bytes ms (w_compress cfg)) + lenN (concat payload) /\
    (w_compress cfg = false -> n = 0 + lenN (concat (file_chunks Z ms (w_compress cfg) payload)))).
  { intro out. specialize (Hrun bytes buffer out honest_buffer). rewrite send_buffer in Hrun. cbv beta iota zeta in Hrun.
    destruct Hrun as [(n & Ew & Hn & Hc) | (_ & H & _)]; [|congruence]. exists n. auto. }
  clear Hrun. destruct (Hall []) as (n & _ & Hn & Hc).
  exists n, (concat (file_chunks Z ms (w_compress cfg) payload)).
  assert (Ew : forall out, write_views cfg Z buffer rA rE r out =
      Ok (n, None, out ++ concat (file_chunks Z ms (w_compress cfg) payload))).
  { intro out. destruct (Hall out) as (n' & E & Hn' & _). rewrite E. congruence. }
  clear Hall. exists ms, hs, payload. split; [exact Ew|]. split; [intro H; rewrite (Hc H); lia|]. split; [|split; [exact Hn|split; [exact Hms|split; [exact Hlen|split; [exact Henc|split]]]]].
  { unfold file_chunks. rewrite concat_app. unfold head_bytes, squeeze. now destruct (w_compress cfg). }
  { subst payload. unfold payload_chunks. rewrite concat_app. eexists. split; [reflexivity|]. cbn [app concat]. intro E0.
    apply app_eq_nil in E0 as [E0 _]. destruct (string_array_len keys) as [Hl1 _]. rewrite E0 in Hl1.
    change (lenN (@nil byte)) with 0 in Hl1. lia. }
  intro Hsize. change (2 ^ 40) with big in Hsize.
  assert (Hreg : Forall (can_read reg) (map m_enc ms) /\ Forall (fun e => e_version e < 2 ^ 64) (map m_enc ms)).
  { rewrite !Forall_map. split; (eapply Forall_impl; [|exact Hms]); intros m Hm; apply Hver, Hm. }
  destruct Hreg as [Hreg Hv].
  destruct (find_encoders_ok reg (map m_enc ms) Hreg) as (xs & Hfind & Hxs).
  assert (Hhead : lenN (head_bytes ms (w_compress cfg)) =
    1 + lenN (string_array_to_bytes (map e_sig (map m_enc ms)) ++ concat (map put_uvarint (map e_version (map m_enc ms)))) + 1).
  { rewrite head_bytes_eq.
    generalize (string_array_to_bytes (map e_sig (map m_enc ms)) ++ concat (map put_uvarint (map e_version (map m_enc ms)))) as X.
    intro X. rewrite !lenN_app. change (lenN [x02]) with 1.
    change (lenN [if w_compress cfg then x01 else x00]) with 1. lia. }
  assert (Hb : forall i c, nthN (tree_colls r) i = Some c ->
    stream_ok (w_time cfg) blocks used xs hs (decoded (w_encs cfg) post (w_time cfg)) i c).
  { intros i c Hi. destruct (Hst i c Hi) as (j & m & h & d & cE & Hu & Hd & Hm & Hh & Heq & Hch & Hdec & _).
    assert (Hj : (j < length ms)%nat) by (apply nth_error_Some; congruence).
    assert (Hme : nth_error (map m_enc ms) j = Some (m_enc m)) by (now apply map_nth_error).
    destruct (Forall2_nth_l _ _ _ _ _ Hxs _ _ Hme) as (x & Hx & Hxd).
    assert (Hx' : nthN xs (N.of_nat j) = Some x) by (now rewrite nthN_nth_error, Nat2N.id).
    assert (Hh' : nthN hs (N.of_nat j) = Some h) by (now rewrite nthN_nth_error, Nat2N.id).
    exists (N.of_nat j), d, x, h. repeat split; auto.
    - apply big_lt; [|reflexivity]. 
      assert (lenN ms <= lenN (head_bytes ms (w_compress cfg))).
      { unfold head_bytes, head_chunks. rewrite !concat_app, !lenN_app.
        enough (lenN ms <= lenN (concat (map (fun m => put_uvarint (e_version (m_enc m))) ms))) by lia.
        clear. induction ms as [|m ms IH]; [cbn; lia|]. cbn [map concat]. rewrite lenN_cons, lenN_app.
        pose proof (put_uvarint_len (e_version (m_enc m))). lia. }
      unfold lenN in *. lia.
    - intro Hdl. eexists. split.
      + rewrite Hxd. apply Hdec; [|exact Hdl |].
        * eapply N.le_trans with big; [|discriminate]. subst payload. unfold payload_chunks in Hn.
          rewrite concat_app, lenN_app in Hn. apply nth_error_In in Hh.
          enough (lenN h <= lenN (concat (map bytes_array_to_bytes hs))) by lia.
          clear -Hh. induction hs as [|y l IH]; [destruct Hh|]. cbn [map concat]. rewrite lenN_app.
          destruct Hh as [->|Hh]; [pose proof (bytes_array_len h); lia | specialize (IH Hh); lia].
        * apply time_values_len.
      + exists cE, (m_enc m). auto. }
  subst payload.
  destruct (read_payload_ok (w_time cfg) keys hs blocks used xs (decoded (w_encs cfg) post (w_time cfg)) r) as (r' & Hrel & Hread);
    auto; [| lia |].
  { rewrite Hlen. apply Forall2_len in Hxs. now rewrite map_length in Hxs. }
  exists xs, r'. repeat split; auto.
Qed.
Theorem round_trip : exists n file,
  (forall out, write_views cfg Z buffer rA rE r out = Ok (n, None, out ++ file)) /\
  (w_compress cfg = false -> n = lenN file) /\
  (n <= 2 ^ 40 -> (w_compress cfg = true -> codec_ok Z IZ) ->
   exists r', rec_rel eq (decoded (w_encs cfg) post (w_time cfg)) r r' /\
   forall S (R : Reader S) eager I, delivers R eager I -> forall s rest, I s (file ++ rest) ->
   exists s', read reg v1 IZ R s = Ok (Some r', n, None, s') /\
     (w_compress cfg = false -> exists t, s' = inl t /\ I t rest)).
Proof.
  destruct file_parts as (n & file & ms & hs & payload & Ew & Hc & Hfile & Hn & Hms & _ & _ & (U & HU & HU0) & Hall).
  exists n, file. split; [exact Ew|]. split; [exact Hc|]. intros Hsize Hcodec.
  destruct (Hall Hsize) as (xs & r' & Hfind & Hv & Hxs & Hrel & Hread). change (2 ^ 40) with big in Hsize.
  exists r'. split; [exact Hrel|].
  intros S R eager I HR s rest HI. rewrite Hfile, <- app_assoc in HI.
  set (T := if w_compress cfg then squeeze Z payload else concat payload) in HI.
  assert (HT : T <> []).
  { unfold T. destruct (w_compress cfg) eqn:Ec.
    - apply (proj1 (Hcodec eq_refl)).
    - rewrite HU. intro E0. apply app_eq_nil in E0 as [_ E0]. now apply HU0. }
  destruct (head_read reg ms (w_compress cfg) xs Hfind Hv ltac:(lia) S R eager I (delivers_serves _ _ _ HR) s (T ++ rest) HI)
    as (m & s1 & s2 & s3 & E1 & E2 & E3 & HI3 & Hm).
  { right. destruct T; [congruence | discriminate]. }
  unfold read. rewrite E1. cbn [bind]. change (2 =? 1) with false. change (negb (2 =? 2)) with false. cbv iota.
  rewrite E2. cbn [bind]. rewrite E3. cbn [bind hd]. unfold T in HI3. destruct (w_compress cfg) eqn:Ec.
  - change (b2n x01 =? 1) with true. cbv iota.
    destruct (proj2 (Hcodec eq_refl) S R eager I HR) as (J & HJ & Hnew).
    specialize (Hnew _ _ _ HI3). rewrite <- (app_nil_r (concat _)) in Hnew.
    destruct (Hread _ _ _ _ (delivers_serves _ _ _ HJ) (1 + m + 1) _ _ Hnew) as (s4 & E4 & _).
    change (lenN [x01]) with 1. rewrite E4. cbn [bind].
    eexists. split; [rewrite Hn, <- Hm; reflexivity | discriminate].
  - change (b2n x00 =? 1) with false. cbv iota.
    destruct (Hread _ _ _ _ (delivers_serves _ _ _ HR) (1 + m + 1) _ _ HI3) as (s4 & E4 & HI4).
    change (lenN [x00]) with 1. rewrite E4. cbn [bind].
    eexists. split; [rewrite Hn, <- Hm; reflexivity|]. intros _. eauto.
Qed.
End RoundTrip.

(** ** Where metadata is stored *)
Definition occurs (a b : bytes) : Prop := exists pre post, b = pre ++ a ++ post.
Lemma occurs_app_l : forall a b c, occurs a b -> occurs a (b ++ c).
Proof. intros a b c (p & q & ->). exists p, (q ++ c). now rewrite <- !app_assoc. Qed.
Lemma occurs_app_r : forall a b c, occurs a c -> occurs a (b ++ c).
Proof. intros a b c (p & q & ->). exists (b ++ p), q. now rewrite <- !app_assoc. Qed.
Lemma occurs_refl : forall a, occurs a a.
Proof. intro a. exists [], []. now rewrite app_nil_r. Qed.
Lemma occurs_flat : forall A (f : A -> list bytes) l x a, In x l -> occurs a (concat (f x)) ->
  occurs a (concat (flat_map f l)).
Proof.
  intros A f l x a. induction l as [|y l IH]; intros Hx Ha; [destruct Hx|]. cbn [flat_map]. rewrite concat_app.
  destruct Hx as [->|Hx]; [apply occurs_app_l | apply occurs_app_r]; auto.
Qed.
Lemma blocks_occur : forall tech keys blocks used r off m, wf_rec r -> In m (tree_blocks r) ->
  occurs (concat (md_chunks keys m)) (concat (rec_chunks tech keys blocks used r off)).
Proof.
  intros tech keys blocks used r. induction r as [id name colls recs md bins refs IH] using recording_ind'.
  intros off m Hw Hm. rewrite rec_chunks_eq, !concat_app. cbn [tree_blocks] in Hm.
  inversion Hw as [? ? ? ? ? ? ? _ Hrecs _ _ _]; subst.
  destruct Hm as [<-|Hm].
  { apply occurs_app_r, occurs_app_l, occurs_refl. }
  do 4 apply occurs_app_r. apply in_app_or in Hm as [Hm|Hm].
  { apply occurs_app_r, occurs_app_l. apply in_flat_map in Hm as (o & Ho & Hm). eapply occurs_flat; [exact Ho|].
    destruct o as [f|]; [|destruct Hm]. destruct Hm as [<-|[]]. cbn [opt_chunks]. unfold ref_chunks.
    rewrite concat_app. apply occurs_app_r, occurs_refl. }
  do 2 apply occurs_app_r. apply in_app_or in Hm as [Hm|Hm].
  { apply occurs_app_r, occurs_app_l. apply in_flat_map in Hm as (o & Ho & Hm). eapply occurs_flat; [exact Ho|].
    destruct o as [f|]; [|destruct Hm]. destruct Hm as [<-|[]]. cbn [opt_chunks]. unfold bin_chunks.
    rewrite !concat_app. apply occurs_app_r, occurs_app_l, occurs_refl. }
  do 3 apply occurs_app_r. clear Hw. generalize (off + lenN colls) as k.
  induction recs as [|o recs IHl]; intro k; [destruct Hm|].
  inversion Hrecs as [|? ? (c & -> & Hc) Hrecs']; subst.
  cbn [recs_chunks]. rewrite concat_app. cbn [flat_map] in Hm. apply in_app_or in Hm as [Hm|Hm].
  - apply occurs_app_l. apply IH; auto. now left.
  - apply occurs_app_r. apply IHl; auto. intros d Hd. apply IH. now right.
Qed.
Lemma keys_of_block : forall r m k, In m (tree_blocks r) -> In k (map fst m) -> In k (tree_keys r).
Proof.
  induction r as [id name colls recs md bins refs IH] using recording_ind'. intros m k Hm Hk.
  cbn [tree_blocks tree_keys] in *. destruct Hm as [<-|Hm]; [apply in_or_app; now left|].
  apply in_or_app. right. apply in_app_or in Hm as [Hm|Hm].
  - apply in_or_app. left. apply in_flat_map in Hm as (o & Ho & Hm). apply in_flat_map. exists o. split; [exact Ho|].
    destruct o; [|destruct Hm]. destruct Hm as [<-|[]]. exact Hk.
  - apply in_or_app. right. apply in_app_or in Hm as [Hm|Hm]; apply in_or_app; [left | right];
      apply in_flat_map in Hm as (o & Ho & Hm); apply in_flat_map; exists o; (split; [exact Ho|]);
      destruct o; try destruct Hm.
    + subst. exact Hk.
    + destruct H.
    + eapply IH; eauto.
Qed.

Lemma chosen_first : forall es c e, chosen es c = Some e <-> first_accepting es c e.
Proof.
  intros es c e. unfold chosen. induction es as [|x es IH]; cbn [find].
  - split; [discriminate|]. intros (a & b & E & _). now destruct a.
  - destruct (e_accepts x c) eqn:Ex.
    + split.
      * intro E. injection E as <-. exists [], es. repeat split; auto.
      * intros (a & b & E & Ha & Hf). destruct a as [|y a]; injection E as -> ->; [reflexivity|].
        inversion Hf; congruence.
    + rewrite IH. split.
      * intros (a & b & -> & Ha & Hf). exists (x :: a), b. repeat split; auto.
      * intros (a & b & E & Ha & Hf). destruct a as [|y a]; injection E as -> ->; [congruence|].
        inversion Hf; subst. exists a, b. auto.
Qed.

(** ** Views *)
Lemma view_inside : forall r r', rec_view r r' -> forall c', inside c' r' -> exists c, inside c r /\ rec_view c c'.
Proof.
  intros r r' H c' Hi. revert r H. induction Hi as [r' | r' c' d' Hd Hi IH]; intros r H.
  - exists r. split; [constructor | exact H].
  - inversion H as [? ? ? ? recs recs' ? ? ? ? ? ? _ Hr _ _ _]; subst. cbn [rec_recs] in Hd.
    assert (exists d, In (Some d) recs /\ rec_view d d') as (d & Hd' & Hdd).
    { clear -Hr Hd. induction Hr as [|o o' l l' Ho Hl IHl]; [destruct Hd|]. destruct Hd as [->|Hd].
      - destruct Ho as [[_ E]|(x & y & -> & E & Hxy)]; [discriminate|]. injection E as ->.
        exists x. split; [now left | exact Hxy].
      - destruct (IHl Hd) as (x & Hx & Hxd). exists x. split; [now right | exact Hxd]. }
    destruct (IH d Hdd) as (c & Hc & Hcc). exists c. split; [|exact Hcc].
    eapply InsideSub; [|exact Hc]. exact Hd'.
Qed.
Lemma view_none : forall A (P : A -> A -> Prop) l l', Forall2 (nil_or P) l l' -> In None l <-> In None l'.
Proof.
  intros A P l l' H. induction H as [|o o' l l' Ho H IH]; [reflexivity|]. cbn [In]. rewrite IH.
  destruct Ho as [[-> ->]|(x & y & -> & -> & _)]; [tauto|]. split; intros [E|E]; auto; discriminate.
Qed.
Lemma view_sym_nodes : forall r r', rec_view r r' -> forall c, inside c r -> exists c', inside c' r' /\ rec_view c c'.
Proof.
  intros r r' H c Hi. revert r' H. induction Hi as [r | r c d Hd Hi IH]; intros r' H.
  - exists r'. split; [constructor | exact H].
  - inversion H as [? ? ? ? recs recs' ? ? ? ? ? ? _ Hr _ _ _]; subst. cbn [rec_recs] in Hd.
    assert (exists d', In (Some d') recs' /\ rec_view d d') as (d' & Hd' & Hdd).
    { clear -Hr Hd. induction Hr as [|o o' l l' Ho Hl IHl]; [destruct Hd|]. destruct Hd as [->|Hd].
      - destruct Ho as [[E _]|(x & y & E & -> & Hxy)]; [discriminate|]. injection E as ->.
        exists y. split; [now left | exact Hxy].
      - destruct (IHl Hd) as (x & Hx & Hxd). exists x. split; [now right | exact Hxd]. }
    destruct (IH d' Hdd) as (c' & Hc & Hcc). exists c'. split; [|exact Hcc].
    eapply InsideSub; [|exact Hc]. exact Hd'.
Qed.
Lemma view_nodes : forall c c', rec_view c c' ->
  (In None (rec_recs c) <-> In None (rec_recs c')) /\ (In None (rec_bins c) <-> In None (rec_bins c')) /\
  (In None (rec_refs c) <-> In None (rec_refs c')) /\ (In None (rec_colls c) <-> In None (rec_colls c')).
Proof.
  intros c c' H. inversion H; subst. cbn [rec_recs rec_bins rec_refs rec_colls].
  split; [|split; [|split]]; eapply view_none; eauto.
Qed.

(** Write starts to emit exactly when nothing is missing. *)
Definition rejected (es : list encoder) (r rE : recording) : Prop := has_nil r \/ unaccepted es rE.
Lemma reject_iff : forall cfg r rE, rec_view r rE ->
  (rejected (w_encs cfg) r rE <->
   (exists e, check_nil r = Some e) \/
   (check_nil r = None /\ exists e, evaluate (w_encs cfg) rE 0 = inr e)).
Proof.
  intros cfg r rE HV.
  assert (Hdec : (forall c, inside c r -> node_ok c) <-> check_nil r = None) by (symmetry; apply check_nil_none).
  assert (HE : (forall c, inside c r -> node_ok c) -> forall c, inside c rE -> node_ok c).
  { intros H c' Hc'. destruct (view_inside _ _ HV c' Hc') as (c & Hc & Hcc).
    destruct (view_nodes _ _ Hcc) as (H1 & H2 & H3 & _). destruct (H c Hc) as (N1 & N2 & N3).
    repeat split; tauto. }
  destruct (check_nil r) as [e|] eqn:Ec.
  - split; [eauto|]. intros _. left.
    assert (Hn : ~ forall c, inside c r -> node_ok c) by (rewrite Hdec; discriminate).
    apply not_all_ex_not in Hn as (c & Hn). apply imply_to_and in Hn as [Hc Hn]. exists c. split; [exact Hc|].
    unfold node_ok in Hn. destruct (classic (In None (rec_recs c))); [auto|].
    destruct (classic (In None (rec_bins c))); [auto|]. destruct (classic (In None (rec_refs c))); [auto|]. tauto.
  - assert (Hn : forall c, inside c r -> node_ok c) by (now apply Hdec).
    pose proof (evaluate_iff (w_encs cfg) rE 0 (HE Hn)) as Hev. split.
    + intro Hrej. right. split; [reflexivity|].
      destruct (evaluate (w_encs cfg) rE 0) as [[ms x]|e] eqn:Ee; [|eauto].
      exfalso. assert (Hall : forall c, inside c rE -> accepted_node (w_encs cfg) c) by (apply Hev; eauto).
      destruct Hrej as [(c & Hc & Hnil)|(c & x0 & Hc & Hx & Hno)].
      * destruct (Hn c Hc) as (N1 & N2 & N3). destruct Hnil as [H|[H|[H|H]]]; try tauto.
        destruct (view_sym_nodes _ _ HV c Hc) as (c' & Hc' & Hcc).
        destruct (view_nodes _ _ Hcc) as (_ & _ & _ & H4). destruct (Hall c' Hc') as [H5 _]. tauto.
      * destruct (Hall c Hc) as [_ H]. destruct (H x0 Hx) as (e & He & Hacc). rewrite (Hno e He) in Hacc. discriminate.
    + intros [(e & E)|(_ & e & E)]; [discriminate|].
      assert (Hnot : ~ forall c, inside c rE -> accepted_node (w_encs cfg) c).
      { intro H. apply Hev in H as (ms & x & H). congruence. }
      apply not_all_ex_not in Hnot as (c' & Hnot). apply imply_to_and in Hnot as [Hc' Hnot].
      destruct (classic (In None (rec_colls c'))) as [Hnil|Hnil].
      * left. destruct (view_inside _ _ HV c' Hc') as (c & Hc & Hcc). exists c. split; [exact Hc|].
        destruct (view_nodes _ _ Hcc) as (_ & _ & _ & H4). tauto.
      * right. apply not_and_or in Hnot as [Hnot|Hnot]; [tauto|].
        apply not_all_ex_not in Hnot as (x & Hnot). apply imply_to_and in Hnot as [Hx Hnot].
        exists c', x. split; [exact Hc'|]. split; [exact Hx|]. intros e0 He0.
        destruct (e_accepts e0 x) eqn:Ea; [|reflexivity]. destruct Hnot. eauto.
Qed.
