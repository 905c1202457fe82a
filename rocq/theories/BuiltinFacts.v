(** The round trip for the library's own encoders. *)
From Coq Require Import ZArith Lia Permutation.
From Verif Require Import Base BaseFacts IO Spec IOFacts Floats ByteFacts BinaryIO BinaryIOFacts.
From Verif Require Import Metadata SpecMeta MetadataFacts Recording SpecRec RecordingFacts Encoding SpecEnc.
From Verif Require Import EncEvent EncEventFacts EncEnum EncEnumFacts EncPosition EncEuler EncFloat EncLawful.
From Verif Require Import EncNumFacts OctFacts StreamFacts TimeIO TimeFacts.
From Verif Require Import Writer Reader SpecFile WriterFacts KeyFacts PlanFacts ReaderFacts FileFacts.
Local Open Scope N_scope.

(** What a collection comes back as, with the given techniques. *)
Definition num_post (tp te tf : N) (ts : list f64) (c : coll) : coll :=
  match c_body c with
  | BPos _ => pos_post tp ts c
  | BEuler _ => euler_post te ts c
  | BFloat _ => float_post tf ts c
  | _ => retime ts c
  end.
Lemma lawful_ext : forall e p q,
  (forall ts c, wf_coll c -> e_accepts e c = true -> p ts c = q ts c) -> lawful e p -> lawful e q.
Proof.
  intros e p q H L cs Hcs. destruct (L cs Hcs) as (h & ss & E & Hl & Hd). exists h, ss.
  split; [exact E|]. split; [exact Hl|]. intros Hh i c s Hc Hs Hsl times Ht.
  rewrite (Hd Hh i c s Hc Hs Hsl times Ht). rewrite H; auto;
  apply nth_error_In in Hc; rewrite Forall_forall in Hcs; now apply Hcs.
Qed.
Lemma accepts_event : forall c, wf_coll c -> e_accepts event_encoder c = true -> exists l, c_body c = BEvent l.
Proof.
  intros c Hw H. cbn in H. apply str_eqb_eq in H. unfold c_sig, wf_coll in *.
  destruct (c_body c) as [l| | | | |s ts]; try (vm_compute in H; discriminate); eauto.
  subst s. destruct Hw. cbn. tauto.
Qed.
Lemma accepts_enum : forall c, wf_coll c -> e_accepts enum_encoder c = true -> exists ms l, c_body c = BEnum ms l.
Proof.
  intros c Hw H. cbn in H. apply str_eqb_eq in H. unfold c_sig, wf_coll in *.
  destruct (c_body c) as [l| | | | |s ts]; try (vm_compute in H; discriminate); eauto.
  subst s. destruct Hw. cbn. tauto.
Qed.
Lemma builtin_lawful : forall tp te tf e, tp < 4 -> te < 3 -> tf < 3 -> builtin tp te tf e ->
  lawful e (num_post tp te tf).
Proof.
  intros tp te tf e Hp He Hf [-> | [-> | [-> | [-> | ->]]]].
  - eapply lawful_ext; [|apply event_lawful]. intros ts c Hw Ha.
    destruct (accepts_event c Hw Ha) as [l El]. unfold num_post. now rewrite El.
  - eapply lawful_ext; [|apply enum_lawful]. intros ts c Hw Ha.
    destruct (accepts_enum c Hw Ha) as (ms & l & El). unfold num_post. now rewrite El.
  - eapply lawful_ext; [|apply (position_lawful tp Hp)]. intros ts c Hw Ha.
    destruct (accepts_pos tp c Hw Ha) as [l El]. unfold num_post. now rewrite El.
  - eapply lawful_ext; [|apply (euler_lawful te He)]. intros ts c Hw Ha.
    destruct (accepts_euler te c Hw Ha) as [l El]. unfold num_post. now rewrite El.
  - eapply lawful_ext; [|apply (float_lawful tf Hf)]. intros ts c Hw Ha.
    destruct (accepts_float tf c Hw Ha) as [l El]. unfold num_post. now rewrite El.
Qed.
Lemma builtin_version : forall tp te tf e, builtin tp te tf e -> e_version e < 2 ^ 64.
Proof. intros tp te tf e [-> | [-> | [-> | [-> | ->]]]]; reflexivity. Qed.

(** The reader knows the very encoders used for writing. *)
Lemma can_read_same : forall es e, NoDup (map e_sig es) -> In e es -> can_read es e.
Proof.
  intros es e Hn Hi. split; [exists e; auto|]. intros x Hx Hs.
  enough (x = e) by (subst; split; [lia | reflexivity]).
  induction es as [|y es IH]; [destruct Hi|]. inversion Hn as [|? ? Hy Hn']; subst.
  destruct Hi as [->|Hi], Hx as [->|Hx]; auto.
  - destruct Hy. rewrite <- Hs. now apply in_map.
  - destruct Hy. rewrite Hs. now apply in_map.
Qed.
(** The reader knows the library's encoders, in whatever technique: decoders
    look at the technique stored in the file. *)
Lemma can_read_builtin : forall tp te tf tp' te' tf' reg e,
  builtin tp te tf e -> Forall (builtin tp' te' tf') reg -> (exists x, In x reg /\ e_sig x = e_sig e) ->
  can_read reg e.
Proof.
  intros tp te tf tp' te' tf' reg e He Hr Hx. split; [exact Hx|]. clear Hx. intros x Hx Hs.
  rewrite Forall_forall in Hr. specialize (Hr x Hx).
  destruct He as [-> | [-> | [-> | [-> | ->]]]]; destruct Hr as [-> | [-> | [-> | [-> | ->]]]];
    try (vm_compute in Hs; discriminate); (split; [discriminate | reflexivity]).
Qed.

Lemma rec_rel_mono : forall (EB EB' : block -> block -> Prop) (RC RC' : coll -> coll -> Prop),
  (forall m n, EB m n -> EB' m n) ->
  forall r r', (forall c d, In c (tree_colls r) -> RC c d -> RC' c d) ->
  rec_rel EB RC r r' -> rec_rel EB' RC' r r'.
Proof.
  intros EB EB' RC RC' HB. induction r as [id name colls recs md bins refs IH] using recording_ind'.
  intros r' HC H. rewrite tree_colls_eq in HC.
  inversion H as [? ? ? colls' ? recs' ? ? ? ? ? ? Hc Hr Hm Hb Hf]; subst. constructor; auto.
  - assert (HC' : forall c d, In c (opt_colls colls) -> RC c d -> RC' c d)
      by (intros; apply HC; auto; apply in_or_app; auto).
    clear -HC' Hc. induction Hc as [|o o' l l' (x & y & -> & -> & Hxy) Hl IHl]; constructor.
    + exists x, y. repeat split; auto. apply HC'; auto. now left.
    + apply IHl. intros c d Hi. apply HC'. now right.
  - assert (HC' : forall c d, In c (recs_colls recs) -> RC c d -> RC' c d)
      by (intros; apply HC; auto; apply in_or_app; auto).
    clear -HC' Hr IH. induction Hr as [|o o' l l' (x & y & -> & -> & Hxy) Hl IHl]; constructor.
    + exists x, y. repeat split; auto. apply IH; auto; [now left|]. intros c d Hi. apply HC'.
      unfold recs_colls. cbn [flat_map]. apply in_or_app. now left.
    + apply IHl; [intros c Hc; apply IH; now right|]. intros c d Hi. apply HC'.
      unfold recs_colls. cbn [flat_map]. apply in_or_app. now right.
  - eapply Forall2_weaken; [|exact Hb]. intros o o' (x & y & -> & -> & H1 & H2 & H3 & H4).
    exists x, y. repeat split; auto.
  - eapply Forall2_weaken; [|exact Hf]. intros o o' (x & y & -> & -> & H1 & H2 & H3 & H4).
    exists x, y. repeat split; auto.
Qed.

Lemma rec_equiv_refl : forall r, wf_rec r -> rec_equiv r r.
Proof.
  intros r Hw. induction r as [id name colls recs md bins refs IH] using recording_ind'.
  inversion Hw as [? ? ? ? ? ? ? Hcolls Hrecs _ Hbins Hrefs]; subst. constructor; auto using block_equiv_refl.
  - clear -Hcolls. induction Hcolls as [|o l (x & -> & _) H IHl]; constructor; auto.
    exists x, x. auto using coll_equiv_refl.
  - clear -Hrecs IH. induction Hrecs as [|o l (x & -> & Hx) H IHl]; constructor.
    + exists x, x. repeat split; auto. apply IH; [now left | exact Hx].
    + apply IHl. intros c Hc. apply IH. now right.
  - clear -Hbins. induction Hbins as [|o l (x & -> & _) H IHl]; constructor; auto.
    exists x, x. repeat split; auto using block_equiv_refl.
  - clear -Hrefs. induction Hrefs as [|o l (x & -> & _) H IHl]; constructor; auto.
    exists x, x. repeat split; auto using block_equiv_refl.
Qed.
Lemma combine_snd : forall A B (l : list A) (l' : list B), length l = length l' -> map snd (combine l l') = l'.
Proof. induction l as [|a l IH]; intros [|b l'] H; cbn in *; try discriminate; [reflexivity|]. f_equal. apply IH. lia. Qed.
Lemma combine_fst : forall A B (l : list A) (l' : list B), length l = length l' -> map fst (combine l l') = l.
Proof. induction l as [|a l IH]; intros [|b l'] H; cbn in *; try discriminate; [reflexivity|]. f_equal. apply IH. lia. Qed.

Lemma oct_path_len : forall mn mx ls p, length (oct_path mn mx p ls) = length ls.
Proof. induction ls as [|c ls IH]; intro p; cbn [oct_path length]; [reflexivity | now rewrite IH]. Qed.
Lemma oct_cells_len : forall k mn mx l p, length (oct_cells k mn mx p l) = length l.
Proof. induction l as [|c l IH]; intro p; cbn [oct_cells length]; [reflexivity | now rewrite IH]. Qed.
Lemma oct_values_len : forall k l, length (oct_values k l) = length l.
Proof.
  intros k [|p [|q l]]; [reflexivity | reflexivity |]. unfold oct_values.
  destruct (step_range p (q :: l) vec_pinf vec_minf) as [mn mx].
  cbn [length]. now rewrite oct_path_len, oct_cells_len.
Qed.
Lemma pos_values_len : forall tech l, length (pos_values tech l) = length l.
Proof.
  intros. unfold pos_values. destruct tech as [|[[]|[]|]]; auto using map_length, oct_values_len.
Qed.
Lemma euler_values_len : forall tech l, length (euler_values tech l) = length l.
Proof.
  intros. unfold euler_values. destruct tech as [|[]]; auto using map_length;
  destruct l as [|v [|w l]]; auto using map_length.
Qed.
Lemma float_values_len : forall tech l, length (float_values tech l) = length l.
Proof.
  intros. unfold float_values. destruct tech as [|[]]; auto using map_length.
Qed.

Lemma num_post_same : forall tp te tf ts c, wf_coll c -> length ts = length (c_times c) ->
  (forall s l, c_body c <> BOther s l) -> same_but_numbers c (num_post tp te tf ts c).
Proof.
  intros tp te tf ts [name b] Hw Ht Ho. unfold num_post, pos_post, euler_post, float_post, retime, same_but_numbers, c_times in *.
  cbn [c_name c_body] in *. destruct b as [l|l|l|l|ms l|s l]; cbn [c_name c_body]; try (rewrite map_length in Ht).
  - split; [reflexivity|]. split; [|exact I]. rewrite combine_fst by (rewrite pos_values_len, map_length; lia).
    rewrite map_length. lia.
  - split; [reflexivity|]. split; [|exact I]. rewrite combine_fst by (rewrite euler_values_len, map_length; lia).
    rewrite map_length. lia.
  - split; [reflexivity|]. split; [|exact I]. rewrite combine_fst by (rewrite float_values_len, map_length; lia).
    rewrite map_length. lia.
  - split; [reflexivity|]. split; [rewrite combine_fst by (rewrite map_length; lia); rewrite map_length; lia|].
    clear Ho Hw name tp te tf. revert ts Ht. induction l as [|x l IH]; intros [|t ts] Ht; cbn in *; try discriminate; constructor.
    + split; [reflexivity|]. apply block_equiv_refl.
    + apply IH. lia.
  - split; [reflexivity|]. split; [rewrite combine_fst by (rewrite map_length; lia); rewrite map_length; lia|].
    split; [reflexivity|]. now rewrite combine_snd by (rewrite map_length; lia).
  - destruct (Ho s l eq_refl).
Qed.

Lemma num_post_times : forall tp te tf ts c, length ts = length (c_times c) ->
  c_times (num_post tp te tf ts c) = ts.
Proof.
  intros tp te tf ts [name b] Ht. unfold num_post, pos_post, euler_post, float_post, retime, c_times in *.
  cbn [c_name c_body] in *. destruct b as [l|l|l|l|ms l|s l]; cbn [c_name c_body]; try (rewrite map_length in Ht);
    try reflexivity; apply combine_fst; rewrite ?pos_values_len, ?euler_values_len, ?float_values_len, map_length; lia.
Qed.
Lemma builtin_accepts : forall tp te tf e c c', builtin tp te tf e -> coll_equiv c c' ->
  e_accepts e c = e_accepts e c'.
Proof.
  intros tp te tf e c c' He H. apply coll_equiv_sig in H.
  destruct He as [-> | [-> | [-> | [-> | ->]]]]; cbn; now rewrite H.
Qed.
Lemma builtin_not_other : forall tp te tf e c, builtin tp te tf e -> wf_coll c -> e_accepts e c = true ->
  forall s l, c_body c <> BOther s l.
Proof.
  intros tp te tf e c He Hw Ha s l El.
  destruct He as [-> | [-> | [-> | [-> | ->]]]].
  - destruct (accepts_event c Hw Ha); congruence.
  - destruct (accepts_enum c Hw Ha) as (? & ? & ?); congruence.
  - destruct (accepts_pos _ c Hw Ha); congruence.
  - destruct (accepts_euler _ c Hw Ha); congruence.
  - destruct (accepts_float _ c Hw Ha); congruence.
Qed.
Lemma unaccepted_view : forall tp te tf es r r', Forall (builtin tp te tf) es -> rec_equiv r r' ->
  unaccepted es r' -> unaccepted es r.
Proof.
  intros tp te tf es r r' Hes H (c' & x' & Hc & Hx & Hno).
  destruct (rel_inside _ _ _ _ H c' Hc) as (c & Hic & Hcc).
  inversion Hcc as [? ? colls colls' ? ? ? ? ? ? ? ? Hco _ _ _ _]; subst. cbn [rec_colls] in Hx.
  assert (exists x, In (Some x) colls /\ coll_equiv x x') as (x & Hx0 & Hxx).
  { clear -Hco Hx. induction Hco as [|o o' l l' (a & b & -> & -> & Hab) Hl IHl]; [destruct Hx|].
    destruct Hx as [E|Hx]; [injection E as ->; exists a; split; [now left | exact Hab]|].
    destruct (IHl Hx) as (y & Hy & Hyx). exists y. split; [now right | exact Hyx]. }
  eexists _, x. split; [exact Hic|]. split; [exact Hx0|]. intros e He.
  rewrite Forall_forall in Hes. rewrite (builtin_accepts _ _ _ _ _ _ (Hes e He) Hxx). auto.
Qed.
Lemma time_stored : forall tt ts, tt < 3 -> stored_times tt ts (time_values tt ts).
Proof.
  intros tt ts Ht Hl.
  assert (HR : serves flat false (fun s d : bytes => s = d)) by (apply delivers_serves, flat_delivers).
  destruct (decode_time_ok (err_reader flat) (flatI (lenN (encode_time tt ts)))
    (er_serves flat false _ _ HR) (er_exact flat false _ _ HR) tt ts Ht Hl (new_er (encode_time tt ts)) [])
    as (s & E & _); [rewrite app_nil_r; now apply new_er_inv | auto with more | eauto].
Qed.
Lemma lawful_stored : forall e p ts c, lawful e p -> wf_coll c -> e_accepts e c = true ->
  length ts = length (c_times c) -> stored_by e ts c (p ts c).
Proof.
  intros e p ts c L Hw Ha Ht. destruct (L [c]) as (h & ss & E & Hl & Hd); [repeat constructor; auto|].
  destruct ss as [|s [|]]; try discriminate. exists h, s. split; [exact E|]. intros Hh Hs.
  apply (Hd Hh 0%nat c s eq_refl eq_refl Hs ts). exact Ht.
Qed.
Lemma num_post_raw : forall ts c, num_post 0 0 0 ts c = retime ts c.
Proof.
  intros. unfold num_post. destruct (c_body c) eqn:E; auto using pos_post_raw64, euler_post_raw64, float_post_raw64.
Qed.

Section Builtin.
Variables (tp te tf : N) (cfg : wconfig) (Z : compressor) (r rA rE : recording) (reg : list encoder)
  (v1 : v1_reader) (IZ : inflater).
Hypothesis Htp : tp < 4.
Hypothesis Hte : te < 3.
Hypothesis Htf : tf < 3.
Hypothesis Htt : w_time cfg < 3.
Hypothesis Hes : Forall (builtin tp te tf) (w_encs cfg).
Hypothesis Hsigs : NoDup (map e_sig (w_encs cfg)).
Hypothesis Hwf : wf_rec r.
Hypothesis Hacc : ~ unaccepted (w_encs cfg) r.
Hypothesis HA : rec_equiv r rA.
Hypothesis HE : rec_equiv r rE.
Hypothesis Hreg : forall e, In e (w_encs cfg) -> can_read reg e.

Lemma builtin_all : lawful_all (w_encs cfg) (fun _ => num_post tp te tf).
Proof. intros e He. apply builtin_lawful; auto. rewrite Forall_forall in Hes. auto. Qed.

Theorem builtin_round_trip : exists n file,
  (forall out, write_views cfg Z buffer rA rE r out = Ok (n, None, out ++ file)) /\
  (w_compress cfg = false -> n = lenN file) /\
  (n <= 2 ^ 40 -> (w_compress cfg = true -> codec_ok Z IZ) ->
   exists r', rec_rel eq (decoded (w_encs cfg) (fun _ => num_post tp te tf) (w_time cfg)) r r' /\
   forall S (R : Reader S) eager I, delivers R eager I -> forall s rest, I s (file ++ rest) ->
   exists s', read reg v1 IZ R s = Ok (Some r', n, None, s') /\
     (w_compress cfg = false -> exists t, s' = inl t /\ I t rest)).
Proof.
  apply round_trip; auto.
  - apply builtin_all.
  - intro H. apply Hacc. eapply unaccepted_view; eauto.
  - intros e He. split; [|auto]. rewrite Forall_forall in Hes. eapply builtin_version; eauto.
Qed.

Lemma decoded_same : forall c d, wf_coll c ->
  decoded (w_encs cfg) (fun _ => num_post tp te tf) (w_time cfg) c d ->
  same_but_numbers c d /\
  exists cE e ts, coll_equiv c cE /\ In e (w_encs cfg) /\ e_accepts e cE = true /\
    stored_times (w_time cfg) (c_times c) ts /\ c_times d = ts /\ stored_by e ts cE d.
Proof.
  intros c d Hw (cE & e & Heq & Hch & ->). apply chosen_In in Hch as [He Ha].
  pose proof (coll_equiv_wf _ _ Heq Hw) as HwE.
  assert (Hb : builtin tp te tf e) by (rewrite Forall_forall in Hes; auto).
  assert (Hlen : length (time_values (w_time cfg) (c_times c)) = length (c_times cE)).
  { rewrite time_values_len. now rewrite (coll_equiv_times _ _ Heq). }
  pose proof (num_post_same tp te tf _ cE HwE Hlen (builtin_not_other _ _ _ _ _ Hb HwE Ha)) as Hsame.
  split.
  - destruct Hsame as (H1 & H2 & H3). repeat split.
    + rewrite (coll_equiv_name _ _ Heq). exact H1.
    + rewrite <- H2. f_equal. now apply coll_equiv_times.
    + unfold coll_equiv in Heq. destruct (c_body c) as [| | |l| |] eqn:Ec; try (subst cE; rewrite Ec in H3; exact H3).
      destruct (c_body cE) as [| | |l'| |] eqn:Ec'; try (subst cE; congruence).
      unfold num_post, retime in *. rewrite Ec' in *. cbn [c_body] in *. destruct Heq as [_ Heq].
      replace (c_times cE) with (map fst l') in Hlen by (unfold c_times; now rewrite Ec').
      rewrite map_length in Hlen. revert Hlen. clear -Heq.
      generalize (time_values (w_time cfg) (c_times c)). induction Heq as [|x y l l' (_ & E2 & E3) H IH];
        intros [|t ts] Hl; cbn in *; try discriminate; constructor; auto.
  - exists cE, e, (time_values (w_time cfg) (c_times c)). repeat split; auto.
    + now apply time_stored.
    + now apply num_post_times.
    + apply lawful_stored; auto. apply builtin_lawful; auto.
Qed.
Lemma decoded_raw : tp = 0 -> te = 0 -> tf = 0 -> w_time cfg = 0 -> forall c d,
  decoded (w_encs cfg) (fun _ => num_post tp te tf) (w_time cfg) c d -> coll_equiv c d.
Proof.
  intros -> -> -> Ht c d (cE & e & Heq & _ & ->). rewrite Ht. unfold time_values.
  rewrite num_post_raw, (coll_equiv_times _ _ Heq), retime_self. exact Heq.
Qed.
End Builtin.
