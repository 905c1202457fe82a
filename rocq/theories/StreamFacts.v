(** Lemmas shared by the stream and recording properties. *)
From Coq Require Import ZArith Lia.
From Verif Require Import Base BaseFacts IO Spec Floats ByteFacts BinaryIO BinaryIOFacts.
From Verif Require Import Metadata SpecMeta MetadataFacts Recording SpecRec RecordingFacts Encoding SpecEnc.
From Verif Require Import EncPosition EncEuler EncFloat EncNumFacts OctFacts EncLawful.
Local Open Scope N_scope.

Lemma combine_times : forall {A B} (l : list (A * B)), combine (map fst l) (map snd l) = l.
Proof. induction l as [|[a b] l IH]; [reflexivity|]. cbn. now rewrite IH. Qed.
Lemma retime_self : forall c, retime (c_times c) c = c.
Proof.
  intros [n b]. unfold retime, c_times. cbn [c_name c_body].
  destruct b; now rewrite ?combine_times.
Qed.

Lemma coll_equiv_refl : forall c, coll_equiv c c.
Proof.
  intro c. unfold coll_equiv. destruct (c_body c) eqn:E; auto. split; [auto|].
  clear E. induction caps as [|x l IH]; constructor; auto using block_equiv_refl.
Qed.
Lemma coll_equiv_name : forall c c', coll_equiv c c' -> c_name c = c_name c'.
Proof.
  intros c c' H. unfold coll_equiv in H. destruct (c_body c), (c_body c'); try (now subst); tauto.
Qed.
Lemma coll_equiv_times : forall c c', coll_equiv c c' -> c_times c = c_times c'.
Proof.
  intros c c' H. unfold coll_equiv in H.
  destruct (c_body c) eqn:E, (c_body c') eqn:E'; try (now subst). destruct H as [_ H].
  unfold c_times. rewrite E, E'. clear E E'. induction H as [|x y l l' (Hf & _) H IH]; [reflexivity|].
  cbn. now rewrite Hf, IH.
Qed.
Lemma coll_equiv_sig : forall c c', coll_equiv c c' -> c_sig c = c_sig c'.
Proof.
  intros c c' H. unfold coll_equiv in H.
  destruct (c_body c) eqn:E, (c_body c') eqn:E'; try (now subst).
  unfold c_sig. now rewrite E, E'.
Qed.
Lemma coll_equiv_wf : forall c c', coll_equiv c c' -> wf_coll c -> wf_coll c'.
Proof.
  intros c c' H Hw. unfold coll_equiv in H.
  destruct (c_body c) eqn:E, (c_body c') eqn:E'; try (now subst). destruct H as [_ H].
  unfold wf_coll in *. rewrite E in Hw. rewrite E'. clear E E'.
  induction H as [|x y l l' (_ & _ & Hb) H IH]; [constructor|].
  inversion Hw; subst. constructor; auto.
  eapply equiv_built; [apply PE_block; exact Hb | assumption].
Qed.
Lemma Forall2_nth_l : forall A B (R : A -> B -> Prop) l l', Forall2 R l l' ->
  forall i x, nth_error l i = Some x -> exists y, nth_error l' i = Some y /\ R x y.
Proof.
  intros A B R l l' H. induction H as [|x y l l' Hxy Hl IH]; intros i a Ha.
  - destruct i; discriminate.
  - destruct i as [|i]; cbn in *; [injection Ha as <-; eauto | eauto].
Qed.
