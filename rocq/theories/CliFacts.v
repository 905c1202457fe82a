(** Writing to a destination that takes everything. *)
From Coq Require Import Lia Permutation.
From Verif Require Import Base BaseFacts IO Spec IOFacts Floats BinaryIO BinaryIOFacts.
From Verif Require Import Metadata SpecMeta Recording SpecRec RecordingFacts Encoding SpecEnc.
From Verif Require Import EncEvent EncEnum EncPosition EncEuler EncFloat TimeIO Writer Reader SpecFile SpecCli WriterFacts PlanFacts FileFacts.
Local Open Scope N_scope.

Definition easy {S} (W : Writer S) (P : S -> Prop) : Prop :=
  forall p s, P s -> exists n s', wwrite W p s = (n, None, s') /\ P s'.
Lemma easy_put : forall S (W : Writer S) P, easy W P -> forall p s, P s -> P (put W p s).
Proof. intros S W P H p s Hs. destruct (H p s Hs) as (n & s' & E & H'). unfold put. now rewrite E. Qed.
Lemma easy_ew : forall S (W : Writer S) P, easy W P -> easy (err_writer W) (fun e => ew_err e = None /\ P (ew_out e)).
Proof.
  intros S W P H p [o e n] [E Hs]. cbn [ew_err ew_out] in *. subst e. destruct (H p o Hs) as (k & s' & E & H').
  cbn [wwrite err_writer ew_err ew_out ew_n]. rewrite E. do 2 eexists. split; [reflexivity|]. cbn [ew_err ew_out]. auto.
Qed.
Lemma easy_emit : forall S (W : Writer S) P, easy W P -> forall l s, P s -> exists s', emit W l s = (None, s') /\ P s'.
Proof.
  intros S W P H. induction l as [|p l IH]; intros s Hs; cbn [emit]; [eauto|].
  destruct (H p s Hs) as (n & s' & E & H'). rewrite E. now apply IH.
Qed.
Lemma easy_flate : forall Z S (W : Writer S) P, easy W P -> easy (flate_writer Z W) (fun f => fl_err f = None /\ P (fl_out f)).
Proof.
  intros Z S W P H p [t o e] [E Hs]. cbn [fl_err fl_out] in *. subst e. cbn [wwrite flate_writer fl_err fl_out fl_t].
  destruct (cz_write Z p t) as [cs t1]. destruct (easy_emit _ _ _ H cs o Hs) as (s' & E & H'). rewrite E.
  do 2 eexists. split; [reflexivity|]. cbn [fl_err fl_out]. auto.
Qed.
Lemma easy_metadata : forall S (W : Writer S) P, easy W P -> forall keys m s s', write_metadata W keys m s = Ok s' -> P s -> P s'.
Proof.
  intros S W P H keys m s s' E Hs. unfold write_metadata in E. destruct (block_values m) as [v| |]; cbn [bind] in E; try discriminate.
  apply ok_inj in E. subst s'. do 2 apply (easy_put _ _ _ H); exact Hs.
Qed.
Lemma easy_streams : forall S (W : Writer S) P, easy W P -> forall tech blocks used cs ix s s',
  write_streams W tech blocks used ix cs s = Ok s' -> P s -> P s'.
Proof.
  intros S W P H tech blocks used. induction cs as [|[c|] cs IH]; intros ix s s' E Hs; cbn [write_streams] in E; try discriminate.
  - apply ok_inj in E. now subst s'.
  - destruct (nthN used ix); [|discriminate]. destruct (nthN blocks ix); [|discriminate].
    eapply IH; [exact E|]. do 4 apply (easy_put _ _ _ H); exact Hs.
Qed.
Lemma easy_refs : forall S (W : Writer S) P, easy W P -> forall keys l s s', write_refs W keys l s = Ok s' -> P s -> P s'.
Proof.
  intros S W P H keys. induction l as [|[c|] cs IH]; intros s s' E Hs; cbn [write_refs] in E; try discriminate.
  - apply ok_inj in E. now subst s'.
  - match type of E with bind ?a _ = _ => destruct a as [s4| |] eqn:E4 end; cbn [bind] in E; try discriminate.
    eapply IH; [exact E|]. eapply easy_metadata; [exact H|exact E4|]. do 3 apply (easy_put _ _ _ H); exact Hs.
Qed.
Lemma easy_bins : forall S (W : Writer S) P, easy W P -> forall keys l s s', write_bins W keys l s = Ok s' -> P s -> P s'.
Proof.
  intros S W P H keys. induction l as [|[c|] cs IH]; intros s s' E Hs; cbn [write_bins] in E; try discriminate.
  - apply ok_inj in E. now subst s'.
  - match type of E with bind ?a _ = _ => destruct a as [s3| |] eqn:E3 end; cbn [bind] in E; try discriminate.
    assert (H3 : P s3) by (eapply easy_metadata; [exact H|exact E3|]; do 2 apply (easy_put _ _ _ H); exact Hs).
    destruct (copy W (b_data c) s3) as [n s4] eqn:Ec. assert (H4 : P s4).
    { unfold copy in Ec. destruct (b_data c) as [|x d]; [injection Ec as _ <-; exact H3|].
      destruct (H (x :: d) s3 H3) as (k & s5 & Ew & H'). rewrite Ew in Ec. injection Ec as _ <-. exact H'. }
    destruct (n =? b_size c); [|discriminate]. eapply IH; eauto.
Qed.
Lemma easy_rec : forall tech keys blocks used r S (W : Writer S) P, easy W P -> forall off out n off' e out',
  write_rec r tech keys blocks used W off out = Ok (n, off', e, out') -> P out -> e = None /\ P out'.
Proof.
  intros tech keys blocks used r. induction r as [id name colls recs md bins refs IH] using recording_ind'.
  intros S W P H off out n off' e out' E Ho. rewrite write_rec_unfold in E. cbv zeta in E. pose proof (easy_ew _ _ _ H) as H'.
  match type of E with bind ?a _ = _ => destruct a as [s1| |] eqn:E1 end; cbn [bind] in E; try discriminate.
  match type of E with bind ?a _ = _ => destruct a as [s2| |] eqn:E2 end; cbn [bind] in E; try discriminate.
  match type of E with bind ?a _ = _ => destruct a as [s3| |] eqn:E3 end; cbn [bind] in E; try discriminate.
  match type of E with bind ?a _ = _ => destruct a as [s4| |] eqn:E4 end; cbn [bind] in E; try discriminate.
  apply (easy_metadata _ _ _ H') in E1; [|do 2 (apply (easy_put _ _ _ H')); split; [reflexivity|exact Ho]].
  apply (easy_streams _ _ _ H') in E2; [|apply (easy_put _ _ _ H'); exact E1].
  apply (easy_refs _ _ _ H') in E3; [|apply (easy_put _ _ _ H'); exact E2].
  apply (easy_bins _ _ _ H') in E4; [|apply (easy_put _ _ _ H'); exact E3].
  revert E. generalize (off + lenN colls). pose proof (easy_put _ _ _ H' (put_uvarint (lenN recs)) _ E4) as E5.
  revert E5. generalize (put (err_writer W) (put_uvarint (lenN recs)) s4). clear - IH H'. revert n off' e out'.
  induction recs as [|[c|] recs IHr]; intros n off' e out' s Hs o E; cbn [write_recs] in E; try discriminate.
  - apply ok_inj in E. destruct Hs as [He Hs]. split; congruence.
  - pose proof (IH c (or_introl eq_refl)) as Hc. assert (IH' := fun d Hd => IH d (or_intror Hd)). destruct (write_rec c tech keys blocks used (err_writer W) o s) as [[[[k o1] x] s1]| |] eqn:Ec; cbn [bind] in E; try discriminate.
    apply (Hc _ _ _ H') in Ec; [|exact Hs]. destruct Ec as [-> Hs1]. eapply IHr; eauto.
Qed.

(** An encoder never complains about collections that are what they say. *)
Lemma quiet_events : forall cs n k bs' n' k' e, Forall genuine cs -> Forall (fun c => c_sig c = sig_event) cs ->
  enc_event_streams cs n k = Ok (bs', n', k', e) -> e = None.
Proof.
  induction cs as [|c cs IH]; intros n k bs' n' k' e G A E; cbn [enc_event_streams] in E.
  - apply ok_inj in E. congruence.
  - inversion G as [|? ? Gc G']; inversion A as [|? ? Ac A']; subst. destruct c as [nm b]. unfold genuine, c_sig in *. cbn [c_body] in *.
    destruct b as [l|l|l|l|ms l|s ts]; try discriminate Ac.
    + destruct (enc_events l n k) as [[[b n1] k1]| |]; cbn [bind] in E; try discriminate.
      destruct (enc_event_streams cs n1 k1) as [[[[b2 n2] k2] e2]| |] eqn:E2; cbn [bind] in E; try discriminate.
      apply ok_inj in E. assert (e2 = None) by (eapply IH; eauto). congruence.
    + subst s. destruct Gc. unfold builtin_sigs. cbn [In]. auto.
Qed.
Lemma quiet_builtin : forall tp te tf e cs h ds x, builtin tp te tf e -> Forall genuine cs -> Forall (fun c => e_accepts e c = true) cs ->
  e_encode e cs = Ok (h, ds, Some x) -> False.
Proof.
  intros tp te tf e cs h ds x [ -> |[ -> |[ -> |[ -> | -> ]]]] G A E.
  - cbn [e_encode event_encoder] in E. unfold event_encode in E.
    destruct (enc_event_streams cs [] []) as [[[[b n] k] y]| |] eqn:Ee; cbn [bind] in E; try discriminate.
    apply quiet_events in Ee; [subst y|exact G|].
    + destruct (tbl_array n); cbn [bind] in E; try discriminate. destruct (tbl_array k); cbn [bind] in E; try discriminate.
    + eapply Forall_impl; [|exact A]. intros c Hc. now apply str_eqb_eq in Hc.
  - cbn [e_encode enum_encoder] in E. unfold enum_encode in E. destruct (enc_enum_streams cs []) as [[b t]| |]; cbn [bind] in E; try discriminate.
    destruct (tbl_array t); cbn [bind] in E; discriminate.
  - cbn [e_encode position_encoder] in E. unfold pos_encode in E. destruct (map_res _ cs); cbn [bind] in E; discriminate.
  - cbn [e_encode euler_encoder] in E. unfold euler_encode in E. destruct (map_res _ cs); cbn [bind] in E; discriminate.
  - cbn [e_encode float_encoder] in E. unfold float_encode in E. destruct (float_streams tf cs) eqn:Ef; [discriminate|].
    clear -Ef G A. induction cs as [|[nm b] cs IH]; cbn [float_streams] in Ef; [discriminate|].
    inversion G as [|? ? Gc G']; inversion A as [|? ? Ac A']; subst. cbn [e_accepts float_encoder] in Ac. apply str_eqb_eq in Ac.
    unfold genuine, c_sig in *. cbn [c_body] in *.
    destruct b as [l|l|l|l|ms l|s ts]; try discriminate Ac.
    + unfold float_encode1 in Ef. cbn [c_body] in Ef. destruct (float_streams tf cs); [discriminate|]. now apply IH.
    + subst s. apply Gc. unfold builtin_sigs. cbn [In]. auto.
Qed.
Lemma easy_headers : forall S (W : Writer S) P tp te tf, easy W P -> forall ms ix blocks used n p x k p',
  Forall (fun m => builtin tp te tf (m_enc m) /\ Forall genuine (m_colls m) /\ Forall (fun c => e_accepts (m_enc m) c = true) (m_colls m)) ms ->
  write_headers W ms ix blocks used n p = Ok (x, k, p') -> P p -> (forall e, x <> inr e) /\ P p'.
Proof.
  intros S W P tp te tf H. induction ms as [|m ms IH]; intros ix blocks used n p x k p' Hm E Hp; cbn [write_headers] in E.
  - apply ok_inj in E. split; [intros e; congruence|congruence].
  - inversion Hm as [|? ? (B & G & A) Hm']; subst.
    destruct (e_encode (m_enc m) (m_colls m)) as [[[h ds] [y|]]| |] eqn:Ee; cbn [bind] in E; try discriminate.
    + destruct (quiet_builtin _ _ _ _ _ _ _ _ B G A Ee).
    + destruct (scatter (m_order m) ds ix blocks used) as [bu| |]; cbn [bind] in E; try discriminate.
      destruct (H (bytes_array_to_bytes h) p Hp) as (w & p1 & Ew & Hp1). rewrite Ew in E. eapply IH; eauto.
Qed.
Lemma easy_versions : forall S (W : Writer S) P, easy W P -> forall ms n s, P s -> exists k s', write_versions W ms n s = (k, None, s') /\ P s'.
Proof.
  intros S W P H. induction ms as [|m ms IH]; intros n s Hs; cbn [write_versions]; [eauto|].
  destruct (H (put_uvarint (e_version (m_enc m))) s Hs) as (w & s1 & Ew & H1). rewrite Ew. now apply IH.
Qed.
Lemma easy_payload : forall S (W : Writer S) P tp te tf, easy W P -> forall tech ms rA rB n p k e p',
  Forall (fun m => builtin tp te tf (m_enc m) /\ Forall genuine (m_colls m) /\ Forall (fun c => e_accepts (m_enc m) c = true) (m_colls m)) ms ->
  write_payload W tech ms rA rB n p = Ok (k, e, p') -> P p -> e = None /\ P p'.
Proof.
  intros S W P tp te tf H tech ms rA rB n p k e p' Hm E Hp. unfold write_payload in E.
  match type of E with bind ?a _ = _ => destruct a as [[[bu n1] p1]| |] eqn:Eh end; cbn [bind] in E; try discriminate.
  destruct (easy_headers _ _ _ _ _ _ H _ _ _ _ _ _ _ _ _ Hm Eh Hp) as [Hx Hp1].
  destruct bu as [[blocks used]|x]; [|destruct (Hx x eq_refl)].
  destruct (tbl_array (accumulate_keys rA [])) as [all| |]; cbn [bind] in E; try discriminate.
  destruct (H (string_array_to_bytes all) p1 Hp1) as (w & p2 & Ew & Hp2). rewrite Ew in E.
  destruct (write_rec rB tech (accumulate_keys rA []) blocks used W 0 p2) as [[[[w2 o] e2] p3]| |] eqn:Er; cbn [bind] in E; try discriminate.
  apply (easy_rec _ _ _ _ _ _ _ _ H) in Er; [|exact Hp2]. apply ok_inj in E. destruct Er as [-> Hp3]. split; congruence.
Qed.
Lemma genuine_plan : forall tp te tf es r ms off, Forall (builtin tp te tf) es -> NoDup (map e_sig es) ->
  evaluate es r 0 = inl (ms, off) -> Forall genuine (tree_colls r) ->
  Forall (fun m => builtin tp te tf (m_enc m) /\ Forall genuine (m_colls m) /\ Forall (fun c => e_accepts (m_enc m) c = true) (m_colls m)) ms.
Proof.
  intros tp te tf es r ms off B Nd E G. destruct (evaluate_plan es Nd r 0 ms off E) as [(Pm & Gm & _) _].
  rewrite Forall_forall in *. intros m Hm. destruct (Gm m Hm) as (_ & Hl & Hi & Ha). split; [now apply B|].
  rewrite Forall_forall in *. split.
  - intros c Hc. destruct (In_nth_error _ _ Hc) as [i Hi'].
    destruct (nth_error (m_order m) i) as [o|] eqn:Ho.
    2:{ apply nth_error_None in Ho. assert (i < length (m_colls m))%nat by (apply nth_error_Some; congruence). lia. }
    assert (Hin : In (o, c) (pairs m)).
    { unfold pairs. revert Ho Hi'. clear. generalize (m_colls m) i. induction (m_order m) as [|b os IH]; intros [|a cs] [|j] Ho Hi; cbn in *; try discriminate.
      - left. congruence.
      - right. eauto. }
    assert (Hl2 : In (o, c) (indexed 0 (tree_colls r))).
    { eapply Permutation_in; [exact Pm|]. apply in_flat_map. eauto. }
    apply indexed_In in Hl2. destruct Hl2 as [_ Hn]. apply G. exact (nthN_In _ _ _ Hn).
  - rewrite Forall_forall; intros c Hc. destruct (chosen_In _ _ _ (Ha c Hc)) as [_ H]. exact H.
Qed.

(** Write hands nothing to such a destination, or everything, or panics. *)
Theorem easy_write : forall tp te tf cfg Z S (W : Writer S) P rA rE r out n e s, easy W P -> P out ->
  Forall (builtin tp te tf) (w_encs cfg) -> NoDup (map e_sig (w_encs cfg)) -> Forall genuine (tree_colls rE) ->
  write_views cfg Z W rA rE r out = Ok (n, Some e, s) -> n = 0 /\ s = out.
Proof.
  intros tp te tf cfg Z S W P rA rE r out n e s H Ho B Nd G E. unfold write_views in E.
  destruct (check_nil r) as [x|]; [split; congruence|].
  destruct (evaluate (w_encs cfg) rE 0) as [[ms o]|x] eqn:Ee; [|split; congruence]. exfalso.
  pose proof (genuine_plan _ _ _ _ _ _ _ B Nd Ee G) as Hm.
  destruct (H [x02] out Ho) as (n1 & s1 & E1 & H1). rewrite E1 in E. unfold write_encoders in E.
  destruct (H (string_array_to_bytes (map (fun m => e_sig (m_enc m)) ms)) s1 H1) as (n2 & s2 & E2 & H2). rewrite E2 in E.
  destruct (easy_versions _ _ _ H ms n2 s2 H2) as (n3 & s3 & E3 & H3). rewrite E3 in E.
  destruct (H [if w_compress cfg then x01 else x00] s3 H3) as (n4 & s4 & E4 & H4). rewrite E4 in E.
  destruct (w_compress cfg).
  - match type of E with bind ?a _ = _ => destruct a as [[[n5 e5] f]| |] eqn:Ep end; cbn [bind] in E; try discriminate.
    apply (easy_payload _ _ _ _ _ _ (easy_flate Z _ _ _ H) _ _ _ _ _ _ _ _ _ Hm) in Ep; [|split; [reflexivity|exact H4]].
    destruct Ep as [-> [Hf Hs]]. unfold flate_close in E. rewrite Hf in E.
    destruct (easy_emit _ _ _ H (cz_close Z (fl_t f)) (fl_out f) Hs) as (s5 & E5 & _). rewrite E5 in E. discriminate.
  - match type of E with bind ?a _ = _ => destruct a as [[[n5 e5] f]| |] eqn:Ep end; cbn [bind] in E; try discriminate.
    apply (easy_payload _ _ _ _ _ _ (easy_ew _ _ _ H) _ _ _ _ _ _ _ _ _ Hm) in Ep; [|split; [reflexivity|exact H4]].
    destruct Ep as [-> [Hf Hs]]. rewrite Hf in E. discriminate.
Qed.
