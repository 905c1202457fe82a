(** Property C52: saving a recording again and again. *)
From Coq Require Import ZArith Lia Bool.
From Flocq Require Import IEEE754.Binary.
From Verif Require Import Base BaseFacts IO Spec IOFacts Floats Metadata SpecMeta MetadataFacts Recording SpecRec RecordingFacts.
From Verif Require Import Encoding SpecEnc EncFloat EncLawful TimeIO TimeFacts Writer Reader SpecFile PlanFacts FileFacts BuiltinFacts.
From Verif Require Import EncEvent EncEnum EncPosition EncEuler Toy Demo SpecResave ResaveFacts.
Local Open Scope N_scope.

Section C52.
Context (Z : compressor) (IZ : inflater) (reg : list encoder) (v1 : v1_reader).

(** C52: whatever the settings of each save, only numbers change. *)
Theorem C52_only_numbers : forall r h a, wf_rec r -> Forall (usable Z IZ reg r) h -> h <> [] ->
  saved Z IZ reg v1 r h a -> rec_rel block_equiv same_but_numbers r a.
Proof. intros r h a Hwf Hu Hne H. now apply (history_same Z IZ reg v1 r h a). Qed.

(** C52: what has been loaded can be saved and loaded again, without error. *)
Theorem C52_goes_on : forall r h a cfg aA aE, wf_rec r -> Forall (usable Z IZ reg r) h -> usable Z IZ reg r cfg ->
  saved Z IZ reg v1 r h a -> rec_equiv a aA -> rec_equiv a aE ->
  exists n file, write_views cfg Z buffer aA aE a [] = Ok (n, None, file) /\
    (n <= 2 ^ 40 -> exists b s, read reg v1 IZ flat file = Ok (Some b, n, None, s) /\ saved Z IZ reg v1 r (cfg :: h) b).
Proof.
  intros r h a cfg aA aE Hwf Hu Hc H HA HE. destruct (history_wf Z IZ reg v1 r h a H Hwf Hu) as [Wa Ua].
  destruct (Ua cfg Hc) as ((tp & te & tf & V) & Hz & Hreg & Hacc).
  destruct (step Z IZ reg v1 tp te tf cfg a aA aE) as (n & file & Ew & Er); auto.
  exists n, file. split; [exact Ew|]. intro Hn. destruct (Er Hn) as (b & s & Eb & _). exists b, s. split; [exact Eb|].
  exact (S_again Z IZ reg v1 r h a cfg aA aE n None file b n None s H HA HE Ew Hn Eb).
Qed.

(** C52: as long as numbers are stored in 32 or 64 bits, no number is rounded
    more than once, however often the recording is saved. *)
Theorem C52_rounded_once : forall r h a, wf_rec r -> Forall (usable Z IZ reg r) h -> Forall raw h -> h <> [] ->
  saved Z IZ reg v1 r h a -> rec_rel block_equiv rounded_once r a.
Proof.
  intros r h a Hwf Hu Hraw Hne H. revert Hu Hraw Hne.
  induction H as [|h a cfg aA aE n ew file b m er s H IH HA HE Hw Hn Hr]; intros Hu Hraw Hne; [now elim Hne|].
  inversion Hu as [|? ? Uc Hu']; subst. inversion Hraw as [|? ? (Ht & tp & te & tf & Hp & He & Hf & V) Hraw']; subst.
  destruct (history_wf Z IZ reg v1 r h a H Hwf Hu') as [Wa Ua].
  destruct (save_step Z IZ reg v1 a cfg aA aE n ew file b m er s Wa (Ua cfg Uc) HA HE Hw Hn Hr tp te tf V) as (_ & _ & _ & Hrel).
  assert (R : rec_rel block_equiv rounded_once a b).
  { eapply rec_rel_mono; [| |exact Hrel]; [intros x y <-; apply block_equiv_refl|].
    intros c d Hc Hd. pose proof (wf_tree_colls _ Wa) as Hwc. rewrite Forall_forall in Hwc. pose proof V as (Vp & Ve & Vf & Vt & Ves & _).
    apply (decoded_rounded (w_encs cfg) tp te tf (w_time cfg)); auto.
    exact (proj1 (decoded_same tp te tf cfg Vp Ve Vf Vt Ves c d (Hwc c Hc) Hd)). }
  destruct h as [|c h]; [inversion H; subst; exact R|].
  eapply rec_rel_comp; [exact block_equiv_trans|exact rounded_trans| |exact R]. apply IH; auto. discriminate.
Qed.

(** C52: after the first save with such settings, further saves with the same
    settings change nothing. *)
Theorem C52_stable : forall r cfg a k b, wf_rec r -> usable Z IZ reg r cfg -> raw cfg ->
  saved Z IZ reg v1 r [cfg] a -> saved Z IZ reg v1 a (repeat cfg k) b -> rec_equiv a b.
Proof.
  intros r cfg a k b Hwf Hu (Ht & tp & te & tf & Hp & He & Hf & V) Ha Hb.
  assert (Fu : forall x k, usable Z IZ reg x cfg -> Forall (usable Z IZ reg x) (repeat cfg k)).
  { intros x j Hx. apply Forall_forall. intros y Hy. apply repeat_spec in Hy. now subst. }
  assert (Hst : wf_rec a /\ usable Z IZ reg a cfg /\ Forall (settled tp te tf (w_time cfg)) (tree_colls a)).
  { inversion Ha as [|h a0 c aA aE n ew file b0 m er s H0 HA HE Hw Hn Hr E1 E2]; subst. inversion H0; subst a0.
    destruct (history_wf Z IZ reg v1 _ _ _ Ha Hwf (Fu _ 1%nat Hu)) as [Wa Ua]. split; [exact Wa|]. split; [now apply Ua|].
    destruct (save_step Z IZ reg v1 r cfg aA aE n ew file a m er s Hwf Hu HA HE Hw Hn Hr tp te tf V) as (_ & _ & _ & Hrel).
    apply rel_tree_colls in Hrel. clear -Hrel Ht Hp He Hf. induction Hrel as [|c d l l' Hcd H IH]; constructor; auto.
    now apply (decoded_settled (w_encs cfg) tp te tf (w_time cfg) c d). }
  destruct Hst as (Wa & Ua & Sa).
  enough (P : rec_equiv a b) by exact P.
  assert (Q : forall j c, saved Z IZ reg v1 a (repeat cfg j) c -> rec_equiv a c /\ Forall (settled tp te tf (w_time cfg)) (tree_colls c)).
  { induction j as [|j IH]; intros c Hc; cbn [repeat] in Hc.
    - inversion Hc; subst. split; [now apply rec_equiv_refl|exact Sa].
    - inversion Hc as [|h x c0 xA xE n ew file c1 m er s H0 HA HE Hw Hn Hr E1 E2]; subst.
      destruct (IH x H0) as [Rx Sx]. destruct (history_wf Z IZ reg v1 a _ x H0 Wa (Fu _ j Ua)) as [Wx Ux].
      destruct (save_step Z IZ reg v1 x cfg xA xE n ew file c m er s Wx (Ux cfg Ua) HA HE Hw Hn Hr tp te tf V) as (_ & _ & _ & Hrel).
      split.
      + eapply rec_rel_comp; [exact block_equiv_trans|exact coll_equiv_trans|exact Rx|].
        eapply rec_rel_mono; [| |exact Hrel]; [intros y z <-; apply block_equiv_refl|].
        intros y z Hy Hyz. rewrite Forall_forall in Sx. eapply settled_kept; [apply Sx, Hy|exact Hyz].
      + apply rel_tree_colls in Hrel. clear -Hrel Ht Hp He Hf. induction Hrel as [|y z l l' Hyz H IH]; constructor; auto.
        now apply (decoded_settled (w_encs cfg) tp te tf (w_time cfg) y z). }
  exact (proj1 (Q k b Hb)).
Qed.
End C52.
Print Assumptions C52_only_numbers.
Print Assumptions C52_goes_on.
Print Assumptions C52_rounded_once.
Print Assumptions C52_stable.

(** C52: not so with the smaller techniques: with BST16 values a second save
    changes the values again. *)
Definition b16_config (tf : N) : wconfig := mkWConfig [float_encoder tf] 0 false.
Definition b16_coll (l : list f64) : coll := mkColl [] (BFloat (combine [f0; d_one] l)).
Definition b16_rec (l : list f64) : recording := mkRec [] [] [Some (b16_coll l)] [] [] [] [].
Definition b16_fits (tf : N) (Z : compressor) (l : list f64) : bool :=
  match write_views (b16_config tf) Z buffer (b16_rec l) (b16_rec l) (b16_rec l) [] with Ok (n, _, _) => n <=? 2 ^ 40 | _ => false end.
Definition same_floats (a b : list f64) : bool :=
  forallb (fun p => negb (flt (fst p) (snd p)) && negb (flt (snd p) (fst p))) (combine a b).
Lemma b16_valid : forall tf, tf < 3 -> valid_config 0 0 tf (b16_config tf).
Proof.
  intros tf Ht. unfold valid_config. cbn [w_time w_encs b16_config]. split; [reflexivity|]. split; [reflexivity|].
  split; [exact Ht|]. split; [reflexivity|]. split.
  - constructor; [|constructor]. unfold builtin. tauto.
  - repeat constructor. intros [].
Qed.
Lemma b16_wf : forall l, wf_rec (b16_rec l).
Proof.
  intro l. unfold b16_rec. constructor; try each; auto using built_nil.
  exists (b16_coll l). split; [reflexivity|exact I].
Qed.
Lemma b16_usable : forall tf Z IZ l, tf < 3 -> usable Z IZ [float_encoder tf] (b16_rec l) (b16_config tf).
Proof.
  intros tf Z IZ l Ht. split; [exists 0, 0, tf; now apply b16_valid|]. split; [discriminate|]. split.
  - intros e He. apply (can_read_same [float_encoder tf]); [repeat constructor; intros []|exact He].
  - apply accepted_by. intros c Hc. destruct Hc as [<-|[]]. reflexivity.
Qed.
Lemma b16_step : forall tf Z IZ v1 l, tf < 3 -> length l = 2%nat -> b16_fits tf Z l = true ->
  saved Z IZ [float_encoder tf] v1 (b16_rec l) [b16_config tf] (b16_rec (float_values tf l)).
Proof.
  intros tf Z IZ v1 l Ht Hl Hf. pose proof (b16_usable tf Z IZ l Ht) as (_ & Hz & Hr & Ha).
  pose proof (rec_equiv_refl _ (b16_wf l)) as Q.
  destruct (step Z IZ [float_encoder tf] v1 0 0 tf (b16_config tf) (b16_rec l) (b16_rec l) (b16_rec l) (b16_valid tf Ht) Hz Hr Ha (b16_wf l) Q Q)
    as (n & file & Ew & Er).
  assert (Hn : n <= 2 ^ 40) by (unfold b16_fits in Hf; rewrite Ew in Hf; now apply N.leb_le).
  destruct (Er Hn) as (b & s & Eb & Hrel).
  assert (Hb : b = b16_rec (float_values tf l)).
  { inversion Hrel as [? ? ? colls' ? recs' ? md' ? bins' ? refs' Hc Hrr Hm Hbb Hff]; subst.
    inversion Hrr; subst. inversion Hbb; subst. inversion Hff; subst.
    inversion Hc as [|? o ? l' (x & d & E & -> & Hd) Hl']; subst. inversion Hl'; subst. injection E as <-.
    destruct Hd as (cE & e & Heq & _ & ->). unfold coll_equiv in Heq. cbn [c_body b16_coll] in Heq. subst cE.
    unfold b16_rec, b16_coll. do 2 f_equal. f_equal. unfold num_post, float_post. cbn [c_body c_name w_time b16_config].
    do 2 f_equal. destruct l as [|x [|y [|z l]]]; try discriminate Hl. reflexivity. }
  subst b. exact (S_again Z IZ _ v1 _ _ _ _ _ _ _ _ _ _ _ _ _ (S_none Z IZ _ v1 _) Q Q Ew Hn Eb).
Qed.
Definition float_vals (c : coll) : list f64 := match c_body c with BFloat l => map snd l | _ => [] end.
Lemma b16_vals : forall l, length l = 2%nat -> float_vals (b16_coll l) = l.
Proof. intros l Hl. unfold float_vals, b16_coll. cbn [c_body]. now apply combine_snd. Qed.
Theorem C52_bst16_refuted : forall Z IZ v1, exists reg r cfg a b,
  wf_rec r /\ usable Z IZ reg r cfg /\ saved Z IZ reg v1 r [cfg] a /\ saved Z IZ reg v1 a [cfg] b /\ ~ rec_equiv a b.
Proof.
  intros Z IZ v1. pose (l0 := [f0; d_one]). pose (l1 := float_values 2 l0). pose (l2 := float_values 2 l1).
  exists [float_encoder 2], (b16_rec l0), (b16_config 2), (b16_rec l1), (b16_rec l2).
  split; [apply b16_wf|]. split; [now apply b16_usable|].
  split; [apply b16_step; [reflexivity|reflexivity|vm_compute; reflexivity]|].
  split; [apply b16_step; [reflexivity|reflexivity|vm_compute; reflexivity]|].
  intro H. inversion H as [? ? ? ? ? ? ? ? ? ? ? ? Hc _ _ _ _]; subst.
  inversion Hc as [|? ? ? ? (x & y & Ex & Ey & Hxy) _]; subst. injection Ex as <-. injection Ey as <-.
  unfold coll_equiv in Hxy. cbn [c_body b16_coll] in Hxy. apply (f_equal float_vals) in Hxy.
  rewrite !b16_vals in Hxy by reflexivity.
  assert (F : same_floats l1 l2 = false) by (vm_compute; reflexivity).
  assert (T : same_floats l1 l1 = true) by (vm_compute; reflexivity).
  rewrite <- Hxy, T in F. discriminate F.
Qed.
Print Assumptions C52_bst16_refuted.

(** A history: a compressed save with the default writer, then two with
    32 bits. *)
Definition r32_config : wconfig := mkWConfig [event_encoder; position_encoder 1; euler_encoder 1; enum_encoder] 1 true.
Lemma r32_valid : valid_config 1 1 0 r32_config.
Proof.
  unfold valid_config. cbn [w_time w_encs r32_config]. repeat split; try reflexivity.
  - repeat constructor; unfold builtin; tauto.
  - repeat constructor; cbn; intuition discriminate.
Qed.
Example C52_default_usable : usable toy_z toy_iz load_encoders demo recolude_writer.
Proof.
  split; [exists 2, 1, 0; apply default_valid|]. split; [intros _; apply toy_ok|].
  split; [exact can_load|exact demo_accepted_default].
Qed.
Example C52_r32_usable : usable toy_z toy_iz load_encoders demo r32_config.
Proof.
  split; [exists 1, 1, 0; apply r32_valid|]. split; [intros _; apply toy_ok|]. split.
  - intros e He. pose proof r32_valid as (_ & _ & _ & _ & Hb & _). rewrite Forall_forall in Hb.
    apply (can_read_builtin 1 1 0 2 1 0); [now apply Hb|apply default_valid|].
    destruct He as [<- | [<- | [<- | [<- | []]]]];
      [exists event_encoder | exists (position_encoder 2) | exists (euler_encoder 1) | exists enum_encoder];
      (split; [|reflexivity]); unfold load_encoders; cbn [In]; tauto.
  - apply accepted_by. intros c Hc. cbn in Hc. intuition (subst; reflexivity).
Qed.
Example C52_r32_raw : raw r32_config.
Proof. split; [reflexivity|]. exists 1, 1, 0. repeat split; apply r32_valid. Qed.
(** what the files weigh *)
Definition weight (cfg : wconfig) (r : recording) : bool :=
  match write_views cfg toy_z buffer r r r [] with Ok (n, _, _) => n <=? 2 ^ 40 | _ => false end.
Lemma weighed : forall r h a cfg, wf_rec r -> Forall (usable toy_z toy_iz load_encoders r) h ->
  usable toy_z toy_iz load_encoders r cfg -> saved toy_z toy_iz load_encoders no_v1 r h a -> wf_rec a -> weight cfg a = true ->
  exists b, saved toy_z toy_iz load_encoders no_v1 r (cfg :: h) b.
Proof.
  intros r h a cfg Hwf Hh Hc Ha Wa Hw. pose proof (rec_equiv_refl _ Wa) as Q.
  destruct (C52_goes_on toy_z toy_iz load_encoders no_v1 r h a cfg a a Hwf Hh Hc Ha Q Q) as (n & file & Ew & Er).
  unfold weight in Hw. rewrite Ew in Hw. apply N.leb_le in Hw. destruct (Er Hw) as (b & s & _ & Hb). now exists b.
Qed.
Example C52_a_history : exists a, saved toy_z toy_iz load_encoders no_v1 demo [recolude_writer] a.
Proof.
  apply (weighed demo [] demo); [exact demo_wf|constructor|exact C52_default_usable|constructor|exact demo_wf|].
  vm_compute. reflexivity.
Qed.
Example C52_rounded_history : exists a, saved toy_z toy_iz load_encoders no_v1 demo [r32_config] a.
Proof.
  apply (weighed demo [] demo); [exact demo_wf|constructor|exact C52_r32_usable|constructor|exact demo_wf|].
  vm_compute. reflexivity.
Qed.
Example C52_stable_history : exists a b,
  usable toy_z toy_iz [float_encoder 1] (b16_rec [d_three; f0]) (b16_config 1) /\ raw (b16_config 1) /\
  saved toy_z toy_iz [float_encoder 1] no_v1 (b16_rec [d_three; f0]) [b16_config 1] a /\
  saved toy_z toy_iz [float_encoder 1] no_v1 a (repeat (b16_config 1) 1) b.
Proof.
  exists (b16_rec (float_values 1 [d_three; f0])), (b16_rec (float_values 1 (float_values 1 [d_three; f0]))).
  split; [now apply b16_usable|].
  split; [split; [reflexivity|]; exists 0, 0, 1; repeat (split; [reflexivity|]); now apply b16_valid|].
  split; (apply b16_step; [reflexivity|reflexivity|vm_compute; reflexivity]).
Qed.
