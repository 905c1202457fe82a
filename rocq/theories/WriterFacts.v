(** Write as a script: the sequence of chunks it hands to its destination. *)
From Coq Require Import Lia Permutation.
From Verif Require Import Base BaseFacts IO Spec IOFacts Floats BinaryIO BinaryIOFacts.
From Verif Require Import Metadata SpecMeta MetadataFacts Recording SpecRec RecordingFacts Encoding TimeIO.
From Verif Require Import Writer Reader SpecFile.
Local Open Scope N_scope.

(** ** Writing a list of chunks, stopping at the first error *)
Fixpoint send {S} (W : Writer S) (cs : list bytes) (n : N) (s : S) : N * option err * S :=
  match cs with
  | [] => (n, None, s)
  | p :: cs' =>
      let '(k, e, s1) := wwrite W p s in
      match e with
      | Some e => (n + k, Some e, s1)
      | None => send W cs' (n + k) s1
      end
  end.
Lemma send_app : forall {S} (W : Writer S) a b n s,
  send W (a ++ b) n s =
  let '(k, e, s1) := send W a n s in
  match e with Some e => (k, Some e, s1) | None => send W b k s1 end.
Proof.
  intros S W. induction a as [|p a IH]; intros b n s; cbn [app send]; [reflexivity|].
  destruct (wwrite W p s) as [[k e] s1]. destruct e; [reflexivity|]. apply IH.
Qed.
Lemma send_shift : forall {S} (W : Writer S) cs n m s,
  send W cs (n + m) s = let '(k, e, s1) := send W cs m s in (n + k, e, s1).
Proof.
  intros S W. induction cs as [|p cs IH]; intros n m s; cbn [send]; [reflexivity|].
  destruct (wwrite W p s) as [[k e] s1]. destruct e.
  - now rewrite N.add_assoc.
  - rewrite <- N.add_assoc. apply IH.
Qed.
Lemma send_0 : forall {S} (W : Writer S) cs n s,
  send W cs n s = let '(k, e, s1) := send W cs 0 s in (n + k, e, s1).
Proof. intros. rewrite <- (N.add_0_r n) at 1. apply send_shift. Qed.
Lemma emit_send : forall {S} (W : Writer S) cs s,
  emit W cs s = let '(_, e, s1) := send W cs 0 s in (e, s1).
Proof.
  intros S W. induction cs as [|p cs IH]; intro s; cbn [emit send]; [reflexivity|].
  destruct (wwrite W p s) as [[k e] s1]. destruct e; [reflexivity|].
  rewrite IH, (send_0 W cs (0 + k)). destruct (send W cs 0 s1) as [[? ?] ?]. reflexivity.
Qed.

(** The state of an errWriter after the given chunks *)
Definition ewr {S} (W : Writer S) (cs : list bytes) (out : S) : ew S :=
  let '(n, e, s) := send W cs 0 out in mkEw s e n.
Lemma ewr_nil : forall {S} (W : Writer S) out, ewr W [] out = new_ew out.
Proof. reflexivity. Qed.
Lemma put_ewr : forall {S} (W : Writer S) cs p out,
  put (err_writer W) p (ewr W cs out) = ewr W (cs ++ [p]) out.
Proof.
  intros S W cs p out. unfold ewr. rewrite send_app.
  destruct (send W cs 0 out) as [[n e] s]. unfold put, err_writer. cbn [wwrite ew_err ew_out ew_n].
  destruct e; [reflexivity|]. cbn [send]. destruct (wwrite W p s) as [[k e] s1].
  destruct e; reflexivity.
Qed.
(** errors stay *)
Definition failed {S} (W : Writer S) (cs : list bytes) (out : S) : Prop := ew_err (ewr W cs out) <> None.
Lemma failed_app : forall {S} (W : Writer S) a b out, failed W a out -> failed W (a ++ b) out.
Proof.
  intros S W a b out. unfold failed, ewr. rewrite send_app.
  destruct (send W a 0 out) as [[n e] s]. destruct e; cbn; [auto | congruence].
Qed.
Lemma honest_ew : forall {S} (W : Writer S), honest W -> honest (err_writer W).
Proof.
  intros S W H p s n e s'. unfold err_writer. cbn [wwrite]. destruct (ew_err s) as [x|].
  - intro E. injection E as <- <- <-. split; [lia | discriminate].
  - destruct (wwrite W p (ew_out s)) as [[k x] s1] eqn:E. intro E2. injection E2 as <- <- <-.
    eapply H; eauto.
Qed.
Lemma honest_flate : forall Z {S} (W : Writer S), honest (flate_writer Z W).
Proof.
  intros Z S W p s n e s'. unfold flate_writer. cbn [wwrite]. destruct (fl_err s) as [x|].
  - intro E. injection E as <- <- <-. split; [lia | discriminate].
  - destruct (cz_write Z p (fl_t s)) as [cs t1]. destruct (emit W cs (fl_out s)) as [x s1].
    intro E. injection E as <- <- <-. destruct x; split; try lia; try discriminate; reflexivity.
Qed.

(** an errWriter on top of an errWriter *)
Lemma send_ewr : forall {S} (W : Writer S) cs2 cs out, cs2 <> [] ->
  let '(k, e, s1) := send (err_writer W) cs2 0 (ewr W cs out) in
  s1 = ewr W (cs ++ cs2) out /\ e = ew_err s1.
Proof.
  intros S W cs2 cs out Hne.
  assert (G : forall cs2 n cs, ew_err (ewr W cs out) = None ->
    let '(k, e, s1) := send (err_writer W) cs2 n (ewr W cs out) in
    s1 = ewr W (cs ++ cs2) out /\ e = ew_err s1).
  { clear. induction cs2 as [|p cs2 IH]; intros n cs Hn; cbn [send].
    - rewrite app_nil_r. auto.
    - pose proof (put_ewr W cs p out) as Hp. unfold put in Hp.
      destruct (wwrite (err_writer W) p (ewr W cs out)) as [[k e] s1] eqn:E. cbn [snd] in Hp.
      assert (He : e = ew_err s1).
      { unfold err_writer in E. cbn [wwrite] in E. rewrite Hn in E.
        destruct (wwrite W p (ew_out (ewr W cs out))) as [[k0 x] s0].
        injection E as <- <- <-. reflexivity. }
      destruct e as [e|].
      + split; [|exact He]. subst s1. unfold ewr in He |- *.
        change (p :: cs2) with ([p] ++ cs2). rewrite app_assoc, (send_app W (cs ++ [p])).
        destruct (send W (cs ++ [p]) 0 out) as [[n1 e1] s1']. cbn in He. subst e1. reflexivity.
      + subst s1. specialize (IH (n + k) (cs ++ [p]) (eq_sym He)).
        rewrite <- app_assoc in IH. exact IH. }
  destruct (ew_err (ewr W cs out)) as [x|] eqn:E.
  - destruct cs2 as [|p cs2]; [congruence|]. cbn [send].
    unfold err_writer at 1. cbn [wwrite]. rewrite E.
    assert (ewr W (cs ++ p :: cs2) out = ewr W cs out) as ->.
    { unfold ewr in *. rewrite send_app. destruct (send W cs 0 out) as [[n1 e1] s1].
      cbn in E. subst e1. reflexivity. }
    rewrite E. auto.
  - apply G. exact E.
Qed.

(** ** The chunks of the parts of a recording *)
Definition values_of (m : block) : bytes := match block_values m with Ok v => v | _ => [] end.
Definition md_chunks (keys : tbl) (m : block) : list bytes :=
  [uvarint_array_to_bytes (map (fun kv => tbl_get (fst kv) keys) m); values_of m].
Definition stream_chunks (tech u : N) (c : coll) (b : bytes) : list bytes :=
  [put_uvarint u; string_to_bytes (c_name c); encode_time tech (c_times c); bytes_array_to_bytes b].
Fixpoint streams_chunks (tech : N) (blocks : list bytes) (used : list N) (ix : N)
  (cs : list (option coll)) : list bytes :=
  match cs with
  | Some c :: cs' =>
      match nthN used ix, nthN blocks ix with
      | Some u, Some b => stream_chunks tech u c b ++ streams_chunks tech blocks used (ix + 1) cs'
      | _, _ => []
      end
  | _ => []
  end.
Definition ref_chunks (keys : tbl) (f : binref) : list bytes :=
  [string_to_bytes (r_name f); string_to_bytes (r_uri f); put_uvarint (r_size f)]
  ++ md_chunks keys (r_md f).
Definition data_chunks (d : bytes) : list bytes := match d with [] => [] | _ => [d] end.
Definition bin_chunks (keys : tbl) (b : binary) : list bytes :=
  [string_to_bytes (b_name b); put_uvarint (b_size b)] ++ md_chunks keys (b_md b)
  ++ data_chunks (b_data b).
Definition opt_chunks {A} (f : A -> list bytes) (o : option A) : list bytes :=
  match o with Some x => f x | None => [] end.

Section RecChunks.
  Context (tech : N) (keys : tbl) (blocks : list bytes) (used : list N).
  Fixpoint rec_chunks (r : recording) (off : N) : list bytes :=
    match r with
    | mkRec id name colls recs md bins refs =>
        [string_to_bytes id; string_to_bytes name] ++ md_chunks keys md
        ++ [put_uvarint (lenN colls)] ++ streams_chunks tech blocks used off colls
        ++ [put_uvarint (lenN refs)] ++ flat_map (opt_chunks (ref_chunks keys)) refs
        ++ [put_uvarint (lenN bins)] ++ flat_map (opt_chunks (bin_chunks keys)) bins
        ++ [put_uvarint (lenN recs)]
        ++ (fix go (l : list (option recording)) (off : N) : list bytes :=
              match l with
              | Some c :: l' => rec_chunks c off ++ go l' (off + num_streams c)
              | _ => []
              end) recs (off + lenN colls)
    end.
  Fixpoint recs_chunks (l : list (option recording)) (off : N) : list bytes :=
    match l with
    | Some c :: l' => rec_chunks c off ++ recs_chunks l' (off + num_streams c)
    | _ => []
    end.
  Lemma rec_chunks_eq : forall id name colls recs md bins refs off,
    rec_chunks (mkRec id name colls recs md bins refs) off =
    [string_to_bytes id; string_to_bytes name] ++ md_chunks keys md
        ++ [put_uvarint (lenN colls)] ++ streams_chunks tech blocks used off colls
        ++ [put_uvarint (lenN refs)] ++ flat_map (opt_chunks (ref_chunks keys)) refs
        ++ [put_uvarint (lenN bins)] ++ flat_map (opt_chunks (bin_chunks keys)) bins
        ++ [put_uvarint (lenN recs)] ++ recs_chunks recs (off + lenN colls).
  Proof.
    intros. cbn [rec_chunks]. do 10 f_equal.
  Qed.
End RecChunks.

Lemma num_streams_eq : forall id name colls recs md bins refs,
  num_streams (mkRec id name colls recs md bins refs) =
  lenN colls + fold_right (fun c n => match c with None => 0 | Some c => num_streams c end + n) 0 recs.
Proof. reflexivity. Qed.

(** ** Running the writer = sending the script *)

(** What [Write] needs of a recording to get through: nothing nil, all
    properties writable, sizes right, a block and an index for each stream. *)
Definition md_ok (m : block) : Prop := exists v, block_values m = Ok v.
Definition bin_ok (b : binary) : Prop := md_ok (b_md b) /\ b_size b = lenN (b_data b).
Inductive writable : recording -> Prop :=
| Writable : forall id name colls recs md bins refs,
    Forall (given (fun _ => True)) colls -> Forall (given writable) recs -> md_ok md ->
    Forall (given bin_ok) bins -> Forall (given (fun f => md_ok (r_md f))) refs ->
    writable (mkRec id name colls recs md bins refs).

(** some binary of the tree has data *)
Definition has_data (o : option binary) : Prop := exists b, o = Some b /\ b_data b <> [].
Definition with_data (r : recording) : Prop :=
  exists c o, inside c r /\ In o (rec_bins c) /\ has_data o.

Section Run.
Context {S : Type} (W : Writer S) (HW : honest W) (out : S).

Lemma write_metadata_run : forall keys m cs, md_ok m ->
  write_metadata (err_writer W) keys m (ewr W cs out) = Ok (ewr W (cs ++ md_chunks keys m) out).
Proof.
  intros keys m cs [v Hv]. unfold write_metadata, md_chunks, values_of. rewrite Hv. cbn [bind].
  rewrite !put_ewr, <- app_assoc. reflexivity.
Qed.
Lemma write_streams_run : forall tech blocks used cs0 colls ix,
  Forall (given (fun _ => True)) colls ->
  ix + lenN colls <= lenN used -> ix + lenN colls <= lenN blocks ->
  write_streams (err_writer W) tech blocks used ix colls (ewr W cs0 out) =
  Ok (ewr W (cs0 ++ streams_chunks tech blocks used ix colls) out).
Proof.
  intros tech blocks used cs0 colls. revert cs0.
  induction colls as [|o colls IH]; intros cs0 ix Hc Hu Hb; cbn [write_streams streams_chunks].
  - now rewrite app_nil_r.
  - inversion Hc as [|? ? (c & -> & _) Hc']; subst. rewrite lenN_cons in Hu, Hb.
    destruct (nthN_lt used ix) as [u ->]; [lia|]. destruct (nthN_lt blocks ix) as [b ->]; [lia|].
    rewrite !put_ewr. rewrite IH by (auto; lia). unfold stream_chunks.
    rewrite <- !app_assoc. reflexivity.
Qed.
Lemma write_refs_run : forall keys cs0 refs,
  Forall (given (fun f => md_ok (r_md f))) refs ->
  write_refs (err_writer W) keys refs (ewr W cs0 out) =
  Ok (ewr W (cs0 ++ flat_map (opt_chunks (ref_chunks keys)) refs) out).
Proof.
  intros keys cs0 refs. revert cs0. induction refs as [|o refs IH]; intros cs0 H;
    cbn [write_refs flat_map].
  - now rewrite app_nil_r.
  - inversion H as [|? ? (f & -> & Hf) H']; subst. rewrite !put_ewr, write_metadata_run by assumption.
    cbn [bind]. rewrite IH by assumption. cbn [opt_chunks]. unfold ref_chunks.
    rewrite <- !app_assoc. reflexivity.
Qed.
Lemma write_bins_run : forall keys cs0 bins,
  Forall (given bin_ok) bins ->
  let cs1 := cs0 ++ flat_map (opt_chunks (bin_chunks keys)) bins in
  write_bins (err_writer W) keys bins (ewr W cs0 out) = Ok (ewr W cs1 out) \/
  (write_bins (err_writer W) keys bins (ewr W cs0 out) = Panic /\ failed W cs1 out /\
   exists o, In o bins /\ has_data o).
Proof.
  intros keys cs0 bins. revert cs0. induction bins as [|o bins IH]; intros cs0 H;
    cbn [write_bins flat_map].
  - rewrite app_nil_r. now left.
  - inversion H as [|? ? (b & -> & Hm & Hs) H']; subst.
    rewrite !put_ewr, write_metadata_run by assumption. cbn [bind opt_chunks].
    set (cs1 := ((cs0 ++ [string_to_bytes (b_name b)]) ++ [put_uvarint (b_size b)]) ++ md_chunks keys (b_md b)).
    assert (Hcs : cs0 ++ bin_chunks keys b = cs1 ++ data_chunks (b_data b)).
    { unfold cs1, bin_chunks. rewrite <- !app_assoc. reflexivity. }
    rewrite app_assoc, Hcs. unfold copy.
    destruct (b_data b) as [|x d] eqn:Ed.
    + cbn [data_chunks]. rewrite app_nil_r. rewrite Hs. cbn [lenN length N.of_nat N.eqb].
      change (lenN (@nil byte)) with 0. cbn [N.eqb].
      destruct (IH cs1 H') as [E | (E & F & o & Ho & Hd)]; [left; exact E | right].
      split; [exact E|]. split; [exact F|]. exists o. split; [now right | exact Hd].
    + cbn [data_chunks]. rewrite <- Ed in *. clear x d Ed.
      assert (Hd : b_data b <> [] -> True) by auto. clear Hd.
      pose proof (put_ewr W cs1 (b_data b) out) as Hp. unfold put in Hp.
      destruct (wwrite (err_writer W) (b_data b) (ewr W cs1 out)) as [[n e] s1] eqn:E.
      cbn [snd] in Hp. subst s1.
      destruct (N.eqb_spec n (b_size b)) as [En|En].
      * destruct (IH (cs1 ++ [b_data b]) H') as [E2 | (E2 & F & o & Ho & Hd)]; [left; exact E2 | right].
        split; [exact E2|]. split; [exact F|]. exists o. split; [now right | exact Hd].
      * right. split; [reflexivity|].
        destruct (honest_ew _ HW _ _ _ _ _ E) as [_ Hh].
        assert (He : e <> None) by (intros ->; apply En; rewrite Hs; auto).
        split.
        -- apply failed_app. unfold failed. unfold err_writer in E. cbn [wwrite] in E.
           destruct (ew_err (ewr W cs1 out)) as [x|] eqn:Ex.
           ++ injection E as _ _ E. rewrite <- E, Ex. discriminate.
           ++ destruct (wwrite W (b_data b) (ew_out (ewr W cs1 out))) as [[k x] s0].
              injection E as _ <- E. rewrite <- E. exact He.
        -- exists (Some b). split; [now left|]. exists b. split; [reflexivity|].
           intros Hd. apply En. rewrite Hd in E, Hs.
           unfold err_writer in E. cbn [wwrite] in E. rewrite Hs.
           destruct (honest_ew _ HW [] (ewr W cs1 out) n e (ewr W (cs1 ++ [b_data b]) out)) as [Hle _].
           { unfold err_writer. cbn [wwrite]. rewrite Hd. exact E. }
           change (lenN (@nil byte)) with 0 in *. lia.
Qed.
End Run.

Lemma with_data_sub : forall id name colls recs md bins refs d,
  In (Some d) recs -> with_data d -> with_data (mkRec id name colls recs md bins refs).
Proof.
  intros id name colls recs md bins refs d Hd (c & o & Hc & Ho). exists c, o. split; [|exact Ho].
  eapply InsideSub; [exact Hd | exact Hc].
Qed.

Definition sum_streams (l : list (option recording)) : N :=
  fold_right (fun c n => match c with None => 0 | Some c => num_streams c end + n) 0 l.

Section Recs.
Context (tech : N) (keys : tbl) (blocks : list bytes) (used : list N) {S : Type} (W : Writer S).
Fixpoint write_recs (l : list (option recording)) (off : N) (s : ew S)
  : res (N * N * option err * S) :=
  match l with
  | [] => Ok (ew_n s, off, ew_err s, ew_out s)
  | None :: _ => Panic
  | Some c :: l' =>
      do (r, s1) <- write_rec c tech keys blocks used (err_writer W) off s;
      let '(_, off1, e) := r in
      match e with
      | Some e => Ok (ew_n s1, 0, Some e, ew_out s1)
      | None => write_recs l' off1 s1
      end
  end.
End Recs.
Lemma write_rec_unfold : forall id name colls recs md bins refs tech keys blocks used S (W : Writer S) off out,
  write_rec (mkRec id name colls recs md bins refs) tech keys blocks used W off out =
      let W' := err_writer W in
      let s := new_ew out in
      let s := put W' (string_to_bytes id) s in
      let s := put W' (string_to_bytes name) s in
      do s <- write_metadata W' keys md s;
      let s := put W' (put_uvarint (lenN colls)) s in
      do s <- write_streams W' tech blocks used off colls s;
      let s := put W' (put_uvarint (lenN refs)) s in
      do s <- write_refs W' keys refs s;
      let s := put W' (put_uvarint (lenN bins)) s in
      do s <- write_bins W' keys bins s;
      let s := put W' (put_uvarint (lenN recs)) s in
      write_recs tech keys blocks used W recs (off + lenN colls) s.
Proof. reflexivity. Qed.
Lemma rec_chunks_nonempty : forall tech keys blocks used r off, rec_chunks tech keys blocks used r off <> [].
Proof. intros. destruct r. rewrite rec_chunks_eq. discriminate. Qed.

(** The outcome of a Write step whose script is [cs]. *)
Definition outcome {S} (W : Writer S) (cs : list bytes) (out : S) (danger : Prop) (off : N)
  (r : res (N * N * option err * S)) : Prop :=
  let '(n, e, s) := send W cs 0 out in
  (exists o, r = Ok (n, o, e, s) /\ (e = None -> o = off)) \/ (r = Panic /\ e <> None /\ danger).

Theorem write_rec_run : forall tech keys blocks used r, writable r ->
  forall S (W : Writer S) (HW : honest W) off out,
    off + num_streams r <= lenN used -> off + num_streams r <= lenN blocks ->
    outcome W (rec_chunks tech keys blocks used r off) out (with_data r) (off + num_streams r)
      (write_rec r tech keys blocks used W off out).
Proof.
  intros tech keys blocks used r.
  induction r as [id name colls recs md bins refs IH] using recording_ind'.
  intros Hw S W HW off out Hu Hb. inversion Hw as [? ? ? ? ? ? ? Hcolls Hrecs Hmd Hbins Hrefs]; subst.
  rewrite num_streams_eq in *. fold (sum_streams recs) in *.
  rewrite rec_chunks_eq, write_rec_unfold. cbv zeta.
  rewrite <- (ewr_nil W out), !put_ewr, write_metadata_run by assumption. cbn [bind].
  rewrite put_ewr, write_streams_run by (auto; lia). cbn [bind].
  rewrite put_ewr, write_refs_run by assumption. cbn [bind]. rewrite put_ewr.
  set (pre := (((((((([] ++ [string_to_bytes id]) ++ [string_to_bytes name]) ++ md_chunks keys md) ++
         [put_uvarint (lenN colls)]) ++ streams_chunks tech blocks used off colls) ++
         [put_uvarint (lenN refs)]) ++ flat_map (opt_chunks (ref_chunks keys)) refs) ++
         [put_uvarint (lenN bins)])).
  set (cs2 := (pre ++ flat_map (opt_chunks (bin_chunks keys)) bins) ++ [put_uvarint (lenN recs)]).
  set (tl := recs_chunks tech keys blocks used recs (off + lenN colls)).
  match goal with |- outcome W ?l _ _ _ _ => assert (Hcs : l = cs2 ++ tl) end.
  { unfold cs2, pre, tl. rewrite <- !app_assoc. reflexivity. }
  rewrite Hcs. clear Hcs.
  destruct (write_bins_run W HW out keys pre bins Hbins) as [E | (E & F & o & Ho & Hd)].
  2:{ rewrite E. cbn [bind].
      pose proof (failed_app W _ [put_uvarint (lenN recs)] out F) as F2. fold cs2 in F2.
      pose proof (failed_app W _ tl out F2) as F3. unfold failed, ewr in F3.
      unfold outcome. destruct (send W (cs2 ++ tl) 0 out) as [[n e] s]. right. split; [reflexivity|].
      split; [exact F3|]. exists (mkRec id name colls recs md bins refs), o.
      split; [apply InsideSelf | auto]. }
  rewrite E. cbn [bind]. rewrite put_ewr. fold cs2. clearbody cs2. clear E pre.
  set (D := with_data _).
  assert (HD : forall d, In (Some d) recs -> with_data d -> D).
  { intros d Hd Hw'. eapply with_data_sub; eauto. }
  clearbody D. unfold tl. clear tl. rewrite N.add_assoc in *.
  generalize dependent (off + lenN colls). clear -IH Hrecs HW HD.
  revert cs2. induction recs as [|o recs IHl]; intros cs2 off Hu Hb.
  - cbn [recs_chunks write_recs]. rewrite app_nil_r. unfold outcome, ewr.
    destruct (send W cs2 0 out) as [[n e] s]. left. eexists. split; [reflexivity|].
    cbn. intros _. lia.
  - inversion Hrecs as [|? ? (c & -> & Hc) Hrecs']; subst.
    cbn [sum_streams fold_right] in Hu, Hb. fold (sum_streams recs) in Hu, Hb.
    cbn [recs_chunks write_recs sum_streams fold_right]. fold (sum_streams recs).
    pose proof (IH c (or_introl eq_refl)) as IHc.
    specialize (IHc Hc _ (err_writer W) (honest_ew W HW) off (ewr W cs2 out)).
    specialize (IHc ltac:(lia) ltac:(lia)).
    set (C := rec_chunks tech keys blocks used c off) in *.
    pose proof (send_ewr W C cs2 out (rec_chunks_nonempty _ _ _ _ _ _)) as Hs.
    unfold outcome in IHc. destruct (send (err_writer W) C 0 (ewr W cs2 out)) as [[k e] s1].
    destruct Hs as [-> ->]. rewrite app_assoc.
    assert (IHl' := IHl (fun c Hc => IH c (or_intror Hc)) Hrecs' (fun d Hd => HD d (or_intror Hd)) (cs2 ++ C)
                        (off + num_streams c) ltac:(lia) ltac:(lia)).
    destruct IHc as [(o & -> & Ho) | (-> & Hf & Hd)].
    + cbn [bind]. destruct (ew_err (ewr W (cs2 ++ C) out)) as [x|] eqn:Ex.
      * unfold outcome, ewr in *. rewrite send_app.
        destruct (send W (cs2 ++ C) 0 out) as [[n e] s]. cbn in Ex. subst e. cbn.
        left. eexists. split; [reflexivity | discriminate].
      * rewrite (Ho eq_refl). rewrite N.add_assoc in *. exact IHl'.
    + cbn [bind]. pose proof (failed_app W (cs2 ++ C) (recs_chunks tech keys blocks used recs (off + num_streams c)) out Hf) as F.
      unfold failed, ewr in F. unfold outcome.
      destruct (send W ((cs2 ++ C) ++ _) 0 out) as [[n e] s]. right. split; [reflexivity|].
      split; [exact F|]. apply (HD c); [now left | exact Hd].
Qed.

(** ** Headers and payload *)
Inductive prepared : list mapping -> N -> list bytes -> list N ->
                     list bytes -> list bytes -> list N -> Prop :=
| PrepNil : forall ix b u, prepared [] ix b u [] b u
| PrepCons : forall m ms ix b u h ds b1 u1 hs b2 u2,
    e_encode (m_enc m) (m_colls m) = Ok (h, ds, None) ->
    scatter (m_order m) ds ix b u = Ok (b1, u1) ->
    prepared ms (ix + 1) b1 u1 hs b2 u2 ->
    prepared (m :: ms) ix b u (h :: hs) b2 u2.
Lemma write_headers_run : forall {P} (PW : Writer P) ms ix b u hs b2 u2,
  prepared ms ix b u hs b2 u2 -> forall n p,
  write_headers PW ms ix b u n p =
  let '(k, e, p1) := send PW (map bytes_array_to_bytes hs) n p in
  Ok (match e with Some e => inr e | None => inl (b2, u2) end, k, p1).
Proof.
  intros P PW ms ix b u hs b2 u2 H. induction H as [|m ms ix b u h ds b1 u1 hs b2 u2 E Sc H IH]; intros n p.
  - reflexivity.
  - cbn [write_headers map send]. rewrite E. cbn [bind]. rewrite Sc. cbn [bind fst snd].
    destruct (wwrite PW (bytes_array_to_bytes h) p) as [[k e] p1]. destruct e; [reflexivity|].
    apply IH.
Qed.
Definition payload_chunks (tech : N) (keys : tbl) (all : list str) (hs blocks : list bytes) (used : list N)
  (r : recording) : list bytes :=
  map bytes_array_to_bytes hs ++ [string_array_to_bytes all]
  ++ rec_chunks tech keys blocks used r 0.
Lemma write_payload_run : forall {P} (PW : Writer P) (HP : honest PW) tech ms rA rB hs blocks used all n p,
  let k := N.to_nat (num_streams rB) in
  prepared ms 0 (repeat [] k) (repeat 0 k) hs blocks used ->
  lenN blocks = num_streams rB -> lenN used = num_streams rB ->
  tbl_array (accumulate_keys rA []) = Ok all -> writable rB ->
  let '(m, e, p1) := send PW (payload_chunks tech (accumulate_keys rA []) all hs blocks used rB) n p in
  write_payload PW tech ms rA rB n p = Ok (m, e, p1) \/
  (write_payload PW tech ms rA rB n p = Panic /\ e <> None /\ with_data rB).
Proof.
  intros P PW HP tech ms rA rB hs blocks used all n p k Hprep Hb Hu Hall Hw.
  unfold payload_chunks, write_payload. fold k.
  rewrite (write_headers_run PW _ _ _ _ _ _ _ Hprep), send_app.
  destruct (send PW (map bytes_array_to_bytes hs) n p) as [[n1 e1] p1].
  destruct e1 as [e1|]; cbn [bind]; [now left|].
  rewrite Hall. cbn [bind app send].
  destruct (wwrite PW (string_array_to_bytes all) p1) as [[w e] p2].
  destruct e as [e|]; [now left|].
  pose proof (write_rec_run tech (accumulate_keys rA []) blocks used rB Hw _ PW HP 0 p2
                ltac:(lia) ltac:(lia)) as R.
  unfold outcome in R. rewrite (send_0 PW _ (n1 + w)).
  destruct (send PW (rec_chunks tech (accumulate_keys rA []) blocks used rB 0) 0 p2) as [[m e] p3].
  destruct R as [(o & -> & _) | (-> & He & Hd)]; [left; reflexivity | right; auto].
Qed.

(** ** The compressor *)
Fixpoint zrun (Z : compressor) (cs : list bytes) (t : cz_st Z) : list bytes * cz_st Z :=
  match cs with
  | [] => ([], t)
  | c :: cs' => let (o, t1) := cz_write Z c t in let (os, t2) := zrun Z cs' t1 in (o ++ os, t2)
  end.
Lemma squeeze_zrun : forall Z cs t,
  squeeze_from Z cs t = fst (zrun Z cs t) ++ cz_close Z (snd (zrun Z cs t)).
Proof.
  intros Z. induction cs as [|c cs IH]; intro t; [reflexivity|]. cbn [squeeze_from zrun].
  destruct (cz_write Z c t) as [o t1]. rewrite IH. destruct (zrun Z cs t1). cbn [fst snd].
  now rewrite app_assoc.
Qed.
Lemma send_flate : forall Z {S} (W : Writer S) cs n t s,
  let '(_, e, s1) := send W (fst (zrun Z cs t)) 0 s in
  exists n' t', send (flate_writer Z W) cs n (mkFl t s None) = (n', e, mkFl t' s1 e) /\
    (e = None -> n' = n + lenN (concat cs) /\ t' = snd (zrun Z cs t)).
Proof.
  intros Z S W. induction cs as [|c cs IH]; intros n t s; cbn [zrun send fst].
  - exists n, t. split; [reflexivity|]. intros _. split; [|reflexivity].
    change (lenN (concat (@nil bytes))) with 0. lia.
  - unfold flate_writer at 1. cbn [wwrite fl_err fl_t fl_out].
    destruct (cz_write Z c t) as [o t1]. specialize (IH (n + lenN c) t1).
    destruct (zrun Z cs t1) as [os t2]. cbn [fst snd] in *.
    rewrite emit_send, send_app. destruct (send W o 0 s) as [[k e] s1]. destruct e as [e|].
    + do 2 eexists. split; [reflexivity | discriminate].
    + specialize (IH s1). rewrite (send_0 W os k).
      destruct (send W os 0 s1) as [[k2 e2] s2].
      destruct IH as (n' & t' & E & He). exists n', t'. split; [exact E|].
      intro H. destruct (He H) as [-> ->]. split; [|reflexivity].
      cbn [concat]. rewrite lenN_app. lia.
Qed.

(** ** Write *)
Definition head_chunks (ms : list mapping) (compress : bool) : list bytes :=
  [[x02]; string_array_to_bytes (map (fun m => e_sig (m_enc m)) ms)]
  ++ map (fun m => put_uvarint (e_version (m_enc m))) ms
  ++ [[if compress then x01 else x00]].
Definition file_chunks (Z : compressor) (ms : list mapping) (compress : bool) (payload : list bytes)
  : list bytes :=
  head_chunks ms compress ++ (if compress then squeeze_from Z payload (cz_new Z) else payload).

Lemma write_versions_run : forall {S} (W : Writer S) ms n s,
  write_versions W ms n s = send W (map (fun m => put_uvarint (e_version (m_enc m))) ms) n s.
Proof.
  intros S W. induction ms as [|m ms IH]; intros n s; [reflexivity|]. cbn [write_versions map send].
  destruct (wwrite W (put_uvarint (e_version (m_enc m))) s) as [[k e] s1].
  destruct e; [reflexivity | apply IH].
Qed.

Lemma send_err : forall {S} (W : Writer S) cs out,
  send (err_writer W) cs 0 (new_ew out) =
  let '(k, e, s) := send W cs 0 out in (k, e, mkEw s e k).
Proof.
  intros S W cs out. unfold new_ew. generalize 0 as n. revert out.
  induction cs as [|p cs IH]; intros out n; [reflexivity|].
  cbn [send]. unfold err_writer at 1. cbn [wwrite ew_err ew_out ew_n].
  destruct (wwrite W p out) as [[k e] s1]. destruct e; [reflexivity|]. apply IH.
Qed.

Theorem write_run : forall cfg Z {S} (W : Writer S) rA rE rB out ms x hs blocks used all,
  honest W -> check_nil rB = None -> evaluate (w_encs cfg) rE 0 = inl (ms, x) ->
  let k := N.to_nat (num_streams rB) in
  prepared ms 0 (repeat [] k) (repeat 0 k) hs blocks used ->
  lenN blocks = num_streams rB -> lenN used = num_streams rB ->
  tbl_array (accumulate_keys rA []) = Ok all -> writable rB ->
  let payload := payload_chunks (w_time cfg) (accumulate_keys rA []) all hs blocks used rB in
  let '(m, e, s) := send W (file_chunks Z ms (w_compress cfg) payload) 0 out in
  (exists n, write_views cfg Z W rA rE rB out = Ok (n, e, s) /\
     (e = None -> n = lenN (concat (head_chunks ms (w_compress cfg))) + lenN (concat payload)) /\
     (w_compress cfg = false -> n = m)) \/
  (write_views cfg Z W rA rE rB out = Panic /\ e <> None /\ with_data rB).
Proof.
  intros cfg Z S W rA rE rB out ms x hs blocks used all HW Hn He k Hprep Hb Hu Hall Hw payload.
  assert (Hcount : forall (cs : list bytes) n (s : S) m s', send W cs n s = (m, None, s') -> m = n + lenN (concat cs)).
  { clear -HW. induction cs as [|p cs IH]; intros n s m s' E; cbn [send] in E.
    - injection E as <- <-. change (lenN (concat (@nil bytes))) with 0. lia.
    - destruct (wwrite W p s) as [[i e] s1] eqn:Ew. destruct e; [discriminate|].
      apply IH in E. destruct (HW _ _ _ _ _ Ew) as [_ H]. rewrite (H eq_refl) in E.
      cbn [concat]. rewrite lenN_app. lia. }
  unfold write_views. rewrite Hn, He. unfold file_chunks, head_chunks at 1.
  set (vs := map (fun m => put_uvarint (e_version (m_enc m))) ms).
  set (sg := string_array_to_bytes (map (fun m => e_sig (m_enc m)) ms)).
  rewrite <- !app_assoc. cbn [app send].
  destruct (wwrite W [x02] out) as [[n1 e1] s1] eqn:W1. destruct e1 as [e1|].
  { left. exists n1. split; [reflexivity|]. split; [discriminate|]. intros _. lia. }
  unfold write_encoders. fold sg. cbn [send].
  destruct (wwrite W sg s1) as [[n2 e2] s2] eqn:W2. destruct e2 as [e2|].
  { left. exists (n1 + n2). split; [reflexivity|]. split; [discriminate|]. intros _. lia. }
  rewrite write_versions_run. fold vs. rewrite send_app, (send_0 W vs (0 + n1 + n2)), (send_0 W vs n2).
  destruct (send W vs 0 s2) as [[n3 e3] s3] eqn:W3. destruct e3 as [e3|].
  { left. eexists. split; [reflexivity|]. split; [discriminate|]. intros _. lia. }
  cbn [send]. set (flag := [if w_compress cfg then x01 else x00]).
  destruct (wwrite W flag s3) as [[n4 e4] s4] eqn:W4. destruct e4 as [e4|].
  { left. eexists. split; [reflexivity|]. split; [discriminate|]. intros _. lia. }
  assert (Hhead : n1 + (n2 + n3) + n4 = lenN (concat (head_chunks ms (w_compress cfg)))).
  { unfold head_chunks. fold vs sg flag.
    destruct (HW _ _ _ _ _ W1) as [_ H1], (HW _ _ _ _ _ W2) as [_ H2], (HW _ _ _ _ _ W4) as [_ H4].
    rewrite (H1 eq_refl), (H2 eq_refl), (H4 eq_refl). apply Hcount in W3.
    change (concat ([[x02]; sg] ++ vs ++ [flag])) with ([x02] ++ sg ++ concat (vs ++ [flag])).
    rewrite concat_app. cbn [concat]. rewrite app_nil_r. unfold bytes in *. rewrite !lenN_app. lia. }
  replace (0 + n1 + n2 + n3 + n4) with (n1 + (n2 + n3) + n4) by lia.
  destruct (w_compress cfg) eqn:Hc.
  - rewrite squeeze_zrun, send_app.
    pose proof (write_payload_run (flate_writer Z W) (honest_flate Z W) (w_time cfg) ms rA rB hs blocks used all
                  (n1 + (n2 + n3) + n4) (mkFl (cz_new Z) s4 None) Hprep Hb Hu Hall Hw) as R.
    fold payload in R.
    pose proof (send_flate Z W payload (n1 + (n2 + n3) + n4) (cz_new Z) s4) as F.
    rewrite (send_0 W (fst (zrun Z payload (cz_new Z)))).
    destruct (send W (fst (zrun Z payload (cz_new Z))) 0 s4) as [[k1 e5] s5].
    destruct F as (n' & t' & F & Hok). rewrite F in R. cbv beta iota zeta in R.
    destruct R as [R | (R & Hne & Hd)]; rewrite R; cbn [bind].
    + destruct e5 as [e5|].
      * left. eexists. split; [reflexivity|]. split; [discriminate|]. discriminate.
      * destruct (Hok eq_refl) as [-> ->]. unfold flate_close. cbn [fl_err fl_t fl_out].
        rewrite emit_send, (send_0 W (cz_close Z _) (n1 + (n2 + n3) + n4 + k1)).
        destruct (send W (cz_close Z (snd (zrun Z payload (cz_new Z)))) 0 s5) as [[k2 e6] s6].
        left. eexists. split; [reflexivity|]. split; [|discriminate]. intros _. lia.
    + destruct e5; [|now destruct Hne]. right. auto.
  - pose proof (write_payload_run (err_writer W) (honest_ew W HW) (w_time cfg) ms rA rB hs blocks used all
                  (n1 + (n2 + n3) + n4) (new_ew s4) Hprep Hb Hu Hall Hw) as R.
    fold payload in R. rewrite send_0, send_err in R. rewrite (send_0 W payload).
    destruct (send W payload 0 s4) as [[k1 e5] s5] eqn:W5. cbv beta iota zeta in R.
    destruct R as [R | (R & Hne & Hd)]; rewrite R; cbn [bind].
    + left. eexists. split; [destruct e5; reflexivity|]. split; [|reflexivity].
      intros ->. apply Hcount in W5. lia.
    + right. auto.
Qed.
