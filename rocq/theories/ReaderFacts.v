(** Reading back what Write emitted. *)
From Coq Require Import ZArith Lia.
From Verif Require Import Base BaseFacts IO Spec IOFacts Floats ByteFacts BinaryIO BinaryIOFacts.
From Verif Require Import Metadata SpecMeta MetadataFacts Recording SpecRec RecordingFacts Encoding SpecEnc.
From Verif Require Import EncTableFacts EncEventFacts EncNumFacts StreamFacts TimeIO TimeFacts.
From Verif Require Import Writer Reader SpecFile WriterFacts KeyFacts PlanFacts.
Local Open Scope N_scope.

Definition big : N := 2 ^ 40.
Lemma big_lt : forall n m, n <= big -> big < m -> n < m.
Proof. intros. eapply N.le_lt_trans; eauto. Qed.

Ltac small := apply big_lt; [lia | reflexivity].

(** ** Loops *)
Lemma loop_ok : forall {S A} {I : S -> bytes -> Prop} (body : S -> res (A * S)) encs vs,
  Forall2 (fun enc v => parses I false body enc v) encs vs ->
  parses I false (loop (length vs) body) (concat encs) vs.
Proof.
  intros S A I body encs vs H. induction H as [|enc v encs vs Hv H IH]; intros s rest HI Hm.
  - exists s. auto.
  - cbn [length loop concat] in *. rewrite <- app_assoc in HI.
    destruct (Hv s _ HI) as (s1 & -> & HI1); [apply more_false|]. cbn [bind].
    destruct (IH s1 rest HI1 Hm) as (s2 & -> & HI2). cbn [bind]. eauto.
Qed.
Lemma loop_err_ok : forall {S A} {I : S -> bytes -> Prop} (body : S -> res ((A + err) * S)) encs vs,
  Forall2 (fun enc v => parses I false body enc (inl v)) encs vs ->
  parses I false (loop_err (length vs) body) (concat encs) (inl vs).
Proof.
  intros S A I body encs vs H. induction H as [|enc v encs vs Hv H IH]; intros s rest HI Hm.
  - exists s. auto.
  - cbn [length loop_err concat] in *. rewrite <- app_assoc in HI.
    destruct (Hv s _ HI) as (s1 & -> & HI1); [apply more_false|]. cbn [bind].
    destruct (IH s1 rest HI1 Hm) as (s2 & -> & HI2). cbn [bind]. eauto.
Qed.
Lemma loop_okN : forall {S A} {I : S -> bytes -> Prop} (body : S -> res (A * S)) encs vs n,
  Forall2 (fun enc v => parses I false body enc v) encs vs -> N.to_nat n = length vs ->
  parses I false (loop (N.to_nat n) body) (concat encs) vs.
Proof. intros. rewrite H0. now apply loop_ok. Qed.

(** ** Metadata *)
Section Parsing.
Context {S : Type} (R : Reader S) (I : S -> bytes -> Prop).
Hypothesis HR : serves R false I.
Context (keys : list str).
Hypothesis Hkeys : lenN keys <= big.

Lemma read_md_entries_ok : forall m d acc, block_values m = Ok d ->
  Forall (fun kv => built (snd kv)) m -> NoDup (map fst acc ++ map fst m) ->
  (forall k, In k (md_keys m) -> In k keys) -> lenN d <= 2 ^ 44 ->
  parses I false (read_md_entries R keys (map (fun kv => tbl_get (fst kv) (number 0 keys)) m) acc)
         d (acc ++ m, None).
Proof.
  induction m as [|[k v] m IH]; intros d acc Hd Hb Hn Hk Hs s rest HI Hm;
    cbn [block_values map fst read_md_entries] in *.
  - apply ok_inj in Hd. subst d. rewrite app_nil_r. exists s. auto.
  - apply bind_ok in Hd as (x & Hx & Hd). apply bind_ok in Hd as (t & Ht & Hd).
    apply ok_inj in Hd. subst d. rewrite lenN_app in Hs. rewrite <- app_assoc in HI.
    inversion Hb as [|? ? Hv Hb']; subst. cbn [snd] in Hv.
    rewrite tbl_get_number by (apply Hk; now left).
    destruct (read_property_ok HR v x Hv Hx ltac:(lia) s _ HI) as (s1 & -> & HI1); [apply more_false|].
    cbn [bind]. rewrite map_set_fresh.
    2:{ apply NoDup_remove_2 in Hn. intro H. apply Hn, in_or_app. now left. }
    replace (acc ++ (k, v) :: m) with ((acc ++ [(k, v)]) ++ m) by (now rewrite <- app_assoc).
    eapply IH; eauto.
    + rewrite map_app. cbn [map fst]. now rewrite <- app_assoc.
    + intros k' Hk'. apply Hk. now right.
    + lia.
Qed.
Lemma read_md_ok : forall m, built_block m -> (forall k, In k (md_keys m) -> In k keys) ->
  lenN (concat (md_chunks (number 0 keys) m)) <= big ->
  parses I false (read_md R keys) (concat (md_chunks (number 0 keys) m)) (m, None).
Proof.
  intros m Hb Hk Hs s rest HI Hm. unfold read_md, md_chunks in *. cbn [concat] in *.
  rewrite app_nil_r in *. rewrite lenN_app in Hs. rewrite <- app_assoc in HI.
  set (is := map (fun kv => tbl_get (fst kv) (number 0 keys)) m) in *.
  pose proof (uvarint_array_len is) as Hlen.
  destruct (read_uvarint_array_ok HR is) with (s := s) (rest := values_of m ++ rest) as (s1 & -> & HI1); auto with more.
  { eapply N.le_trans with big; [lia | discriminate]. }
  { unfold is. rewrite Forall_map, Forall_forall. intros [k v] Hin. cbn [fst].
    assert (Hin' : In k keys) by (apply Hk; apply in_map_iff; exists (k, v); auto).
    pose proof (tbl_get_number _ _ Hin') as H. apply nthN_some_lt in H.
    eapply N.lt_le_trans; [exact H|]. eapply N.le_trans; [exact Hkeys | discriminate]. }
  cbn [bind]. apply built_block_iff in Hb as [Hnd Hb].
  assert (exists v, block_values m = Ok v) as [v Hv].
  { clear -Hb. induction m as [|[k p] m IH]; [cbn; eauto|]. inversion Hb; subst.
    cbn [block_values]. destruct (built_writes p) as [x ->]; [assumption|].
    destruct IH as [t ->]; [assumption|]. cbn. eauto. }
  unfold values_of in *. rewrite Hv in *.
  apply (read_md_entries_ok m v [] Hv Hb Hnd Hk); auto.
  eapply N.le_trans with big; [lia | discriminate].
Qed.

Lemma read_ref_ok : forall f, wf_ref f -> (forall k, In k (md_keys (r_md f)) -> In k keys) ->
  lenN (concat (ref_chunks (number 0 keys) f)) <= big ->
  parses I false (read_ref R keys) (concat (ref_chunks (number 0 keys) f)) (Some f).
Proof.
  intros [name uri size md] [Hmd Hsz] Hk Hs s rest HI Hm. cbn [r_name r_uri r_size r_md] in *.
  unfold read_ref, ref_chunks in *. cbn [r_name r_uri r_size r_md] in *.
  rewrite concat_app in *. cbn [concat] in *. rewrite app_nil_r in *.
  rewrite !lenN_app in Hs. rewrite <- !app_assoc in HI.
  pose proof (string_to_bytes_len name). pose proof (string_to_bytes_len uri).
  destruct (read_string_ok HR name ltac:(small) _ _ HI) as (s1 & -> & HI1); [apply more_false|].
  cbn [bind].
  destruct (read_string_ok HR uri ltac:(small) _ _ HI1) as (s2 & -> & HI2); [apply more_false|].
  cbn [bind].
  destruct (read_uvarint_ok HR size Hsz _ _ HI2) as (s3 & -> & HI3); [apply more_false|]. cbn [bind].
  destruct (read_md_ok md Hmd Hk ltac:(lia) _ _ HI3) as (s4 & -> & HI4); [apply more_false|]. cbn [bind].
  exists s4. auto.
Qed.
Lemma data_chunks_concat : forall d, concat (data_chunks d) = d.
Proof. intros [|b d]; [reflexivity|]. cbn [data_chunks concat]. apply app_nil_r. Qed.
Lemma read_bin_ok : forall b, wf_bin b -> (forall k, In k (md_keys (b_md b)) -> In k keys) ->
  lenN (concat (bin_chunks (number 0 keys) b)) <= big ->
  parses I false (read_bin R keys) (concat (bin_chunks (number 0 keys) b)) (Some b).
Proof.
  intros [name data size md] [Hmd Hsz] Hk Hs s rest HI Hm.
  unfold read_bin, bin_chunks in *. cbn [b_name b_data b_size b_md] in *.
  rewrite !concat_app, data_chunks_concat in *. cbn [concat] in *. rewrite app_nil_r in *.
  rewrite !lenN_app in Hs. rewrite <- !app_assoc in HI. subst size.
  pose proof (string_to_bytes_len name).
  destruct (read_string_ok HR name ltac:(small) _ _ HI) as (s1 & -> & HI1); [apply more_false|].
  cbn [bind].
  destruct (read_uvarint_ok HR (lenN data) ltac:(small) _ _ HI1) as (s3 & -> & HI3); [apply more_false|]. cbn [bind].
  destruct (read_md_ok md Hmd Hk ltac:(lia) _ _ HI3) as (s4 & -> & HI4); [apply more_false|]. cbn [bind].
  rewrite go_make_ok by (rewrite N.mul_1_l; apply N.lt_le_incl; small).
  destruct (read_full_ok R false I HR _ _ _ _ HI4 eq_refl) as (s5 & -> & HI5). cbn [bind fst].
  assert (fill (repeat x00 (N.to_nat (lenN data))) data = data) as ->.
  { unfold fill. rewrite dropN_all; [apply app_nil_r|]. rewrite lenN_repeat. lia. }
  exists s5. auto.
Qed.
End Parsing.

(** ** Streams *)
Lemma concat_2 : forall l : list bytes, Forall (fun b => lenN b = 2) l -> lenN (concat l) = 2 * lenN l.
Proof.
  intros l H. induction H as [|x l Hx H IH]; [reflexivity|].
  cbn [concat]. rewrite lenN_app, lenN_cons, IH, Hx. lia.
Qed.
Lemma encode_time_len : forall tech l, tech < 3 -> lenN l <= lenN (encode_time tech l).
Proof.
  intros tech l Ht. unfold encode_time. rewrite lenN_cons, lenN_app.
  assert (F : forall A (f : A -> bytes) k (l : list A), (forall x, lenN (f x) = k) -> lenN (flat_map f l) = k * lenN l).
  { clear. intros A f k l H. induction l as [|x l IH]; cbn [flat_map]; [cbn; lia|].
    rewrite lenN_app, lenN_cons, IH, H. lia. }
  destruct tech as [|[[]|[]|]]; try lia.
  - rewrite (F _ f64_bytes 8) by apply f64_bytes_len. lia.
  - assert (lenN l <= lenN (encode_time16 l) + 1); [|lia].
    unfold encode_time16. destruct (time_range None l fpinf fminf) as [st mx].
    destruct l as [|a [|b l]]; [cbn; lia | rewrite lenN_cons, lenN_nil; lia |].
    rewrite !lenN_app, time_steps_codes.
    assert (C : lenN (concat (time_codes (b :: l) st mx)) = 2 * lenN (b :: l)).
    { rewrite concat_2 by apply time_codes_2. unfold lenN at 1. now rewrite time_codes_len. }
    rewrite C, !lenN_cons. lia.
  - assert (lenN (flat_map wr32 l) = 4 * lenN l); [|lia].
    apply F. intro x. apply f32_bytes_len.
Qed.
Lemma bytes_array_len : forall b, lenN b <= lenN (bytes_array_to_bytes b).
Proof. intro b. unfold bytes_array_to_bytes. rewrite lenN_app. lia. Qed.

Section Streams.
Context {S : Type} (R : Reader S) (I : S -> bytes -> Prop).
Hypothesis HR : serves R false I.
Hypothesis HX : exact R I.
Context (tech : N) (Htech : tech < 3) (encs : list encoder) (headers : list bytes).

Lemma read_stream_ok : forall u c b e h d, u < 2 ^ 64 ->
  nthN encs u = Some e -> nthN headers u = Some h ->
  e_decode e (c_name c) h b (time_values tech (c_times c)) = Ok (Some d, None) ->
  lenN (concat (stream_chunks tech u c b)) <= big ->
  parses I false (read_stream R encs headers) (concat (stream_chunks tech u c b)) (Some d).
Proof.
  intros u c b e h d Hu He Hh Hd Hs s rest HI Hm.
  unfold read_stream, stream_chunks in *. cbn [concat] in *. rewrite app_nil_r in *.
  rewrite !lenN_app in Hs. rewrite <- !app_assoc in HI.
  pose proof (string_to_bytes_len (c_name c)). pose proof (bytes_array_len b).
  pose proof (encode_time_len tech (c_times c) Htech).
  destruct (read_uvarint_ok HR u Hu _ _ HI) as (s1 & -> & HI1); [apply more_false|]. cbn [bind].
  destruct (read_string_ok HR (c_name c) ltac:(small) _ _ HI1) as (s2 & -> & HI2); [apply more_false|].
  cbn [bind].
  destruct (decode_time_ok R I HR HX tech (c_times c) Htech ltac:(apply N.lt_le_incl; small) _ _ HI2)
    as (s3 & -> & HI3); [apply more_false|]. cbn [bind].
  destruct (read_bytes_array_ok HR b ltac:(small) _ _ HI3) as (s4 & -> & HI4); [apply more_false|].
  cbn [bind]. rewrite He, Hh, Hd. cbn [bind fst]. exists s4. auto.
Qed.
End Streams.

(** ** Whole recordings *)
Lemma Forall2_weaken : forall A B (P Q : A -> B -> Prop) l l', (forall x y, P x y -> Q x y) ->
  Forall2 P l l' -> Forall2 Q l l'.
Proof. intros A B P Q l l' H F. induction F; constructor; auto. Qed.
Lemma given_refl : forall A (P : A -> Prop) (Q : A -> A -> Prop) l, (forall x, Q x x) ->
  Forall (given P) l -> Forall2 (both Q) l l.
Proof.
  intros A P Q l HQ H. induction H as [|o l (x & -> & _) H IH]; constructor; auto.
  exists x, x. auto.
Qed.
Definition stream_ok (tech : N) (blocks : list bytes) (used : list N) (encs : list encoder)
  (headers : list bytes) (RC : coll -> coll -> Prop) (ix : N) (c : coll) : Prop :=
  exists u b e h, nthN used ix = Some u /\ nthN blocks ix = Some b /\ u < 2 ^ 64 /\
    nthN encs u = Some e /\ nthN headers u = Some h /\
    (lenN b <= 2 ^ 44 ->
     exists d, e_decode e (c_name c) h b (time_values tech (c_times c)) = Ok (Some d, None) /\ RC c d).

Lemma put_uvarint_len : forall x, 1 <= lenN (put_uvarint x).
Proof.
  intro x. pose proof (put_uvarint_nonempty x). destruct (put_uvarint x); [congruence|].
  rewrite lenN_cons. lia.
Qed.

Section Build.
Context (tech : N) (Htech : tech < 3) (keys : list str) (Hkeys : lenN keys <= big).
Context (blocks : list bytes) (used : list N) (encs : list encoder) (headers : list bytes).
Context (RC : coll -> coll -> Prop).
Let T := number 0 keys.
Let ok := stream_ok tech blocks used encs headers RC.

Lemma streams_parse : forall cs off,
  (forall i c, nthN cs i = Some c -> ok (off + i) c) ->
  lenN (concat (streams_chunks tech blocks used off (map Some cs))) <= big ->
  exists es ds, concat es = concat (streams_chunks tech blocks used off (map Some cs)) /\
    Forall2 RC cs ds /\ lenN cs <= lenN (concat es) /\
    forall S (R : Reader S) I, serves R false I -> exact R I ->
      Forall2 (fun enc v => parses I false (read_stream R encs headers) enc v) es (map Some ds).
Proof.
  induction cs as [|c cs IH]; intros off Hok Hs; cbn [map streams_chunks] in *.
  - exists [], []. split; [reflexivity|]. split; [constructor|]. split; [cbn; lia|]. constructor.
  - destruct (Hok 0 c eq_refl) as (u & b & e & h & Hu & Hb & Hlt & He & Hh & Hdc).
    rewrite N.add_0_r in Hu, Hb. rewrite Hu, Hb in *. rewrite concat_app, lenN_app in Hs.
    destruct Hdc as (d & Hd & Hrc).
    { eapply N.le_trans with big; [|discriminate]. unfold stream_chunks in Hs. cbn [concat] in Hs.
      rewrite !lenN_app in Hs. pose proof (bytes_array_len b). lia. }
    destruct (IH (off + 1)) as (es & ds & Ec & Hds & Hl & Hp).
    { intros i x Hx. rewrite <- N.add_assoc. apply Hok. cbn [nthN].
      destruct (N.eqb_spec (1 + i) 0); [lia|]. replace (N.pred (1 + i)) with i by lia. exact Hx. }
    { lia. }
    exists (concat (stream_chunks tech u c b) :: es), (d :: ds). cbn [concat map].
    split; [now rewrite Ec, concat_app|]. split; [now constructor|]. split.
    + rewrite lenN_cons, lenN_app. unfold stream_chunks. cbn [concat]. rewrite lenN_app.
      pose proof (put_uvarint_len u). lia.
    + intros S R I HR HX. constructor; [|now apply Hp].
      eapply read_stream_ok; eauto. lia.
Qed.

Lemma parts_parse : forall A (f : A -> list bytes) (P : A -> Prop) (l : list (option A)),
  (forall x, P x -> 1 <= lenN (concat (f x))) ->
  Forall (given P) l -> lenN (concat (flat_map (opt_chunks f) l)) <= big ->
  exists es, concat es = concat (flat_map (opt_chunks f) l) /\ lenN l <= lenN (concat es) /\
    Forall2 (fun enc o => exists x, o = Some x /\ P x /\ In o l /\ enc = concat (f x) /\ lenN enc <= big) es l.
Proof.
  intros A f P l Hf H. induction H as [|o l (x & -> & Hx) H IH]; intro Hs; cbn [flat_map opt_chunks] in *.
  - exists []. repeat split; [cbn; lia | constructor].
  - rewrite concat_app, lenN_app in Hs. destruct IH as (es & Ec & Hl & Hp); [lia|].
    exists (concat (f x) :: es). cbn [concat]. rewrite lenN_cons, lenN_app, concat_app, Ec.
    split; [reflexivity|]. split; [rewrite <- Ec; specialize (Hf x Hx); lia|]. constructor.
    + exists x. repeat split; auto; [now left | lia].
    + eapply Forall2_weaken; [|exact Hp]. intros enc o (y & -> & Hy & Hin & He & Hb).
      exists y. repeat split; auto. now right.
Qed.

Theorem build_ok : forall r, wf_rec r -> (forall k, In k (tree_keys r) -> In k keys) ->
  forall off, (forall i c, nthN (tree_colls r) i = Some c -> ok (off + i) c) ->
  lenN (concat (rec_chunks tech T blocks used r off)) <= big ->
  exists r', rec_rel eq RC r r' /\
    forall fuel S (R : Reader S) eager I, serves R eager I ->
      (length (concat (rec_chunks tech T blocks used r off)) <= fuel)%nat ->
      forall s rest, I s (concat (rec_chunks tech T blocks used r off) ++ rest) ->
      exists s', build fuel keys encs headers R s =
        Ok (Some r', lenN (concat (rec_chunks tech T blocks used r off)), None, s') /\ I s' rest.
Proof.
  intro r. induction r as [id name colls recs md bins refs IH] using recording_ind'.
  intros Hwf Hk off Hok Hs. inversion Hwf as [? ? ? ? ? ? ? Hcolls Hrecs Hmd Hbins Hrefs]; subst.
  rewrite rec_chunks_eq in *. cbn [tree_keys] in Hk.
  assert (Hc : exists cs, colls = map Some cs).
  { clear -Hcolls. induction Hcolls as [|o l (c & -> & _) H (cs & ->)]; [now exists []|].
    now exists (c :: cs). }
  destruct Hc as [cs ->]. rewrite tree_colls_eq, opt_colls_some in Hok.
  set (C1 := md_chunks T md) in *.
  set (C2 := streams_chunks tech blocks used off (map Some cs)) in *.
  set (C3 := flat_map (opt_chunks (ref_chunks T)) refs) in *.
  set (C4 := flat_map (opt_chunks (bin_chunks T)) bins) in *.
  set (C5 := recs_chunks tech T blocks used recs (off + lenN (map Some cs))) in *.
  assert (Hcat : concat ([string_to_bytes id; string_to_bytes name] ++ C1 ++
          [put_uvarint (lenN (map Some cs))] ++ C2 ++ [put_uvarint (lenN refs)] ++ C3 ++
          [put_uvarint (lenN bins)] ++ C4 ++ [put_uvarint (lenN recs)] ++ C5) =
      string_to_bytes id ++ string_to_bytes name ++ concat C1 ++ put_uvarint (lenN (map Some cs)) ++
      concat C2 ++ put_uvarint (lenN refs) ++ concat C3 ++ put_uvarint (lenN bins) ++ concat C4 ++
      put_uvarint (lenN recs) ++ concat C5).
  { rewrite !concat_app. cbn [concat]. rewrite !app_nil_r, <- !app_assoc. reflexivity. }
  rewrite Hcat in *. clear Hcat. rewrite !lenN_app in Hs.
  (* the parts *)
  destruct (streams_parse cs off) as (es2 & ds & E2 & Hds & L2 & P2).
  { intros i c Hi. apply Hok. now apply nthN_prefix. } { fold C2. lia. }
  fold C2 in E2.
  destruct (parts_parse _ (ref_chunks T) wf_ref refs) as (es3 & E3 & L3 & P3); auto.
  { intros x _. unfold ref_chunks. rewrite concat_app. cbn [concat]. rewrite !lenN_app.
    unfold string_to_bytes. rewrite lenN_app. pose proof (put_uvarint_len (lenN (r_name x))). lia. }
  { fold C3. lia. }
  fold C3 in E3.
  destruct (parts_parse _ (bin_chunks T) wf_bin bins) as (es4 & E4 & L4 & P4); auto.
  { intros x _. unfold bin_chunks. rewrite concat_app. cbn [concat]. rewrite !lenN_app.
    unfold string_to_bytes. rewrite lenN_app. pose proof (put_uvarint_len (lenN (b_name x))). lia. }
  { fold C4. lia. }
  fold C4 in E4.
  (* the children *)
  assert (P5 : exists es5 recs', concat es5 = concat C5 /\ lenN recs <= lenN (concat es5) /\
     Forall2 (both (rec_rel eq RC)) recs recs' /\
     forall fuel S (R : Reader S) eager I, serves R eager I -> (length (concat C5) <= fuel)%nat ->
       Forall2 (fun enc v => forall s rest, I s (enc ++ rest) ->
         exists s', build fuel keys encs headers R s = Ok (v, lenN enc, None, s') /\ I s' rest) es5 recs').
  { assert (Hok' : forall i c, nthN (recs_colls recs) i = Some c -> ok (off + lenN (map Some cs) + i) c).
    { intros i c Hi. rewrite <- N.add_assoc. apply Hok. rewrite lenN_map, nthN_app_r by lia.
      replace (lenN cs + i - lenN cs) with i by lia. exact Hi. }
    assert (Hk' : forall k, In k (flat_map (fun o => match o with Some c => tree_keys c | None => [] end) recs) -> In k keys).
    { intros k Hin. apply Hk. rewrite !in_app_iff. auto. }
    assert (Hs5 : lenN (concat C5) <= big) by lia. unfold C5 in *. clearbody C1 C2 C3 C4. clear -IH Hrecs Hok' Hk' Hs5 Hkeys Htech.
    revert Hok' Hs5. generalize (off + lenN (map Some cs)) as o. clear off cs.
    induction recs as [|x recs IHl]; intros o Hok Hs; cbn [recs_chunks] in *.
    - exists [], []. split; [reflexivity|]. split; [cbn; lia|]. split; [constructor|]. constructor.
    - inversion Hrecs as [|? ? (c & -> & Hc) Hrecs']; subst. rewrite concat_app, lenN_app in Hs.
      cbn [flat_map] in Hk'. unfold recs_colls in Hok. cbn [flat_map] in Hok. fold (recs_colls recs) in Hok.
      assert (Hns : num_streams c = lenN (tree_colls c)).
      { clear -Hc. induction c as [id name colls recs md bins refs IH] using recording_ind'.
        inversion Hc as [? ? ? ? ? ? ? Hcolls Hrecs _ _ _]; subst.
        rewrite num_streams_eq, tree_colls_eq, lenN_app. f_equal.
        - clear -Hcolls. induction Hcolls as [|x l (c & -> & _) H IHl]; [reflexivity|].
          unfold opt_colls. cbn [flat_map app]. fold (opt_colls l). now rewrite !lenN_cons, IHl.
        - clear Hc Hcolls. induction recs as [|x l IHl]; [reflexivity|].
          inversion Hrecs as [|? ? (c & -> & Hc') H]; subst. cbn [fold_right]. unfold recs_colls. cbn [flat_map].
          fold (recs_colls l). rewrite lenN_app, (IH c (or_introl eq_refl) Hc').
          f_equal. apply IHl; auto. intros d Hd. apply IH. now right. }
      destruct (IH c (or_introl eq_refl) Hc) with (off := o) as (c' & Hcc & Bc).
      { intros k Hin. apply Hk', in_or_app. now left. }
      { intros i d Hi. apply Hok. now apply nthN_prefix. } { lia. }
      destruct (IHl (fun d Hd => IH d (or_intror Hd)) Hrecs' ) with (o := o + num_streams c)
        as (es & recs' & Ec & Hl & Hrr & Hp).
      { intros k Hin. apply Hk', in_or_app. now right. }
      { intros i d Hi. rewrite <- N.add_assoc. apply Hok. rewrite Hns, nthN_app_r by lia.
        replace (lenN (tree_colls c) + i - lenN (tree_colls c)) with i by lia. exact Hi. }
      { lia. }
      exists (concat (rec_chunks tech T blocks used c o) :: es), (Some c' :: recs').
      cbn [concat]. rewrite concat_app, Ec. split; [reflexivity|]. split.
      { rewrite lenN_cons, lenN_app, <- Ec. destruct c. rewrite rec_chunks_eq. cbn [concat app].
        rewrite !lenN_app. unfold string_to_bytes at 1. rewrite lenN_app. pose proof (put_uvarint_len (lenN id)). lia. }
      split; [constructor; [exists c, c'; auto | exact Hrr]|].
      intros fuel S R eager I HR Hf. rewrite app_length in Hf. constructor.
      + eapply Bc; eauto. lia.
      + eapply Hp; eauto. lia. }
  destruct P5 as (es5 & recs' & E5 & L5 & Hrr & P5).
  rewrite E2 in L2. rewrite E3 in L3. rewrite E4 in L4. rewrite E5 in L5.
  exists (mkRec id name (map Some ds) recs' md bins refs). split.
  { constructor; auto.
    - clear -Hds. induction Hds; constructor; auto. eexists; eexists; eauto.
    - eapply given_refl; [|exact Hbins]. intro x. now repeat split.
    - eapply given_refl; [|exact Hrefs]. intro x. now repeat split. }
  intros fuel S R eager I HR Hf s rest HI.
  match goal with |- context [Ok (_, lenN ?l, _, _)] => set (total := lenN l) end.
  set (E := err_reader R).
  assert (HE : serves E false (er_inv I (total + lenN rest))) by (eapply er_serves; eauto).
  assert (HX : exact E (er_inv I (total + lenN rest))) by (eapply er_exact; eauto).
  apply new_er_inv in HI. rewrite lenN_app in HI. fold total in HI. rewrite <- !app_assoc in HI.
  assert (Hf1 : exists f, fuel = Datatypes.S f /\ (length (concat C5) <= f)%nat).
  { rewrite !app_length in Hf. unfold string_to_bytes at 1 in Hf. rewrite app_length in Hf.
    pose proof (put_uvarint_len (lenN id)) as H. unfold lenN at 1 in H.
    destruct fuel as [|f]; [lia|]. exists f. split; [reflexivity|]. lia. }
  destruct Hf1 as (f & -> & Hf1). cbn [build]. fold E.
  pose proof (string_to_bytes_len id). pose proof (string_to_bytes_len name).
  destruct (read_string_ok HE id ltac:(small) _ _ HI) as (s1 & -> & HI1); [apply more_false|]. cbn [bind].
  destruct (read_string_ok HE name ltac:(small) _ _ HI1) as (s2 & -> & HI2); [apply more_false|]. cbn [bind].
  assert (Hk1 : forall k, In k (md_keys md) -> In k keys) by (intros k Hin; apply Hk, in_or_app; now left).
  assert (Hs1 : lenN (concat (md_chunks (number 0 keys) md)) <= big) by (fold T C1; lia).
  destruct (read_md_ok E _ HE keys Hkeys md Hmd Hk1 Hs1 _ _ HI2) as (s3 & -> & HI3); [apply more_false|].
  cbn [bind].
  rewrite lenN_map in *.
  destruct (read_uvarint_ok HE (lenN cs) ltac:(small) _ _ HI3) as (s4 & -> & HI4); [apply more_false|].
  cbn [bind]. rewrite go_make_ok by (assert (lenN cs <= big) by lia; unfold big in *; lia).
  rewrite <- E2 in HI4.
  assert (Hlen : N.to_nat (lenN cs) = length (map Some ds)).
  { unfold lenN. rewrite Nat2N.id, map_length. eapply Forall2_len; eauto. }
  destruct (loop_okN _ _ _ (lenN cs) (P2 _ E _ HE HX) Hlen _ _ HI4) as (s5 & -> & HI5); [apply more_false|].
  cbn [bind].
  destruct (read_uvarint_ok HE (lenN refs) ltac:(small) _ _ HI5) as (s6 & -> & HI6); [apply more_false|].
  cbn [bind]. rewrite go_make_ok by (assert (lenN refs <= big) by lia; unfold big in *; lia).
  rewrite <- E3 in HI6.
  assert (Q3 : Forall2 (fun enc v => parses (er_inv I (total + lenN rest)) false (read_ref E keys) enc v) es3 refs).
  { assert (Hk3 : forall k, In k (flat_map (fun o => match o with Some f0 => md_keys (r_md f0) | None => [] end) refs) -> In k keys).
    { intros k Hin. apply Hk. rewrite !in_app_iff. auto. }
    eapply Forall2_weaken; [|exact P3]. cbv beta. intros enc o (x & -> & Hx & Hin & -> & Hb).
    apply read_ref_ok; auto. intros k Hkx. apply Hk3, in_flat_map. exists (Some x). auto. }
  destruct (loop_okN _ _ _ (lenN refs) Q3 ltac:(unfold lenN; apply Nat2N.id) _ _ HI6) as (s7 & -> & HI7); [apply more_false|].
  cbn [bind].
  destruct (read_uvarint_ok HE (lenN bins) ltac:(small) _ _ HI7) as (s8 & -> & HI8); [apply more_false|].
  cbn [bind]. rewrite go_make_ok by (assert (lenN bins <= big) by lia; unfold big in *; lia).
  rewrite <- E4 in HI8.
  assert (Q4 : Forall2 (fun enc v => parses (er_inv I (total + lenN rest)) false (read_bin E keys) enc v) es4 bins).
  { assert (Hk4 : forall k, In k (flat_map (fun o => match o with Some b => md_keys (b_md b) | None => [] end) bins) -> In k keys).
    { intros k Hin. apply Hk. rewrite !in_app_iff. auto. }
    eapply Forall2_weaken; [|exact P4]. cbv beta. intros enc o (x & -> & Hx & Hin & -> & Hb).
    apply read_bin_ok; auto. intros k Hkx. apply Hk4, in_flat_map. exists (Some x). auto. }
  destruct (loop_okN _ _ _ (lenN bins) Q4 ltac:(unfold lenN; apply Nat2N.id) _ _ HI8) as (s9 & -> & HI9); [apply more_false|].
  cbn [bind].
  destruct (read_uvarint_ok HE (lenN recs) ltac:(small) _ _ HI9) as (s10 & -> & HI10); [apply more_false|].
  cbn [bind]. rewrite go_make_ok by (assert (lenN recs <= big) by lia; unfold big in *; lia).
  rewrite <- E5 in HI10.
  set (body := fun s : er S => do (r0, s11) <- build f keys encs headers E s;
              (let '(c, _, e) := r0 in
               match e with Some e0 => Ok (inr e0, s11) | None => Ok (inl c, s11) end)).
  assert (Q5 : Forall2 (fun enc v => parses (er_inv I (total + lenN rest)) false body enc (inl v)) es5 recs').
  { eapply Forall2_weaken; [|apply (P5 f _ E _ _ HE Hf1)]. cbv beta. intros enc v Hb st rst Hst _.
    destruct (Hb st rst Hst) as (st' & Eb & Hst'). exists st'. unfold body. rewrite Eb. auto. }
  assert (Hlen5 : N.to_nat (lenN recs) = length recs').
  { unfold lenN. rewrite Nat2N.id. eapply Forall2_len; eauto. }
  pose proof (loop_err_ok body es5 recs' Q5 s10 rest HI10 (more_false _)) as (s11 & El & HI11).
  rewrite Hlen5. rewrite El. cbn [bind].
  destruct HI11 as (He & HIr & Hn). exists (er_in s11). split; [|exact HIr].
  rewrite He. do 4 f_equal. lia.
Qed.
End Build.
