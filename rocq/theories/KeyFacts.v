(** The metadata key table of a file. *)
From Coq Require Import Lia Permutation.
From Verif Require Import Base BaseFacts IO Spec Floats BinaryIO.
From Verif Require Import Metadata SpecMeta MetadataFacts Recording SpecRec RecordingFacts Encoding SpecEnc.
From Verif Require Import EncTableFacts Writer Reader SpecFile.
Local Open Scope N_scope.

(** [t] numbers exactly the keys [ks], each once *)
Definition table (ks : list str) (t : tbl) : Prop :=
  exists l, t = number 0 l /\ NoDup l /\ forall k, In k l <-> In k ks.
Lemma table_ext : forall ks ks' t, (forall k, In k ks <-> In k ks') -> table ks t -> table ks' t.
Proof. intros ks ks' t H (l & E & N & I). exists l. repeat split; auto; intro; [apply H, I | apply I, H]; auto. Qed.
Lemma table_intern : forall k ks t, table ks t -> table (ks ++ [k]) (tbl_intern k t).
Proof.
  intros k ks t (l & -> & N & I). destruct (intern_spec k l N) as (x & -> & N' & Hk & Hx).
  exists (l ++ x). split; [reflexivity|]. split; [exact N'|]. intro k'.
  assert (Hin : In k (l ++ x)) by (eapply nthN_In; exact Hk).
  rewrite !in_app_iff, <- I. destruct Hx as [-> | ->].
  - rewrite app_nil_r in Hin. cbn. split; [tauto|]. intros [H|[<-|[]]]; auto.
  - tauto.
Qed.
Lemma table_intern_keys : forall m ks t, table ks t -> table (ks ++ map fst m) (intern_keys m t).
Proof.
  induction m as [|[k v] m IH]; intros ks t H; cbn [intern_keys map fst].
  - now rewrite app_nil_r.
  - apply (table_intern k) in H. apply IH in H. now rewrite <- app_assoc in H.
Qed.
Lemma table_fold : forall A (f : A -> block) (l : list (option A)) ks t, table ks t ->
  table (ks ++ flat_map (fun o => match o with Some x => md_keys (f x) | None => [] end) l)
        (fold_left (fun t x => match x with None => t | Some x => intern_keys (f x) t end) l t).
Proof.
  intros A f. induction l as [|o l IH]; intros ks t H; cbn [flat_map fold_left].
  - now rewrite app_nil_r.
  - rewrite app_assoc. apply IH. destruct o as [x|].
    + now apply table_intern_keys.
    + now rewrite app_nil_r.
Qed.
Fixpoint acc_recs (l : list (option recording)) (t : tbl) : tbl :=
  match l with
  | [] => t
  | None :: l' => acc_recs l' t
  | Some c :: l' => acc_recs l' (accumulate_keys c t)
  end.
Lemma accumulate_unfold : forall id name colls recs md bins refs t,
  accumulate_keys (mkRec id name colls recs md bins refs) t =
  acc_recs recs
    (fold_left (fun t x => match x with None => t | Some x => intern_keys (b_md x) t end) bins
      (fold_left (fun t x => match x with None => t | Some x => intern_keys (r_md x) t end) refs
         (intern_keys md t))).
Proof. reflexivity. Qed.
Theorem accumulate_table : forall r ks t, table ks t -> table (ks ++ tree_keys r) (accumulate_keys r t).
Proof.
  induction r as [id name colls recs md bins refs IH] using recording_ind'. intros ks t H.
  rewrite accumulate_unfold. cbn [tree_keys].
  apply (table_intern_keys md), (table_fold _ r_md refs), (table_fold _ b_md bins) in H.
  rewrite <- !app_assoc in H. unfold md_keys at 1. rewrite !app_assoc in *.
  revert H. generalize (((ks ++ map fst md) ++
     flat_map (fun o => match o with Some x => md_keys (r_md x) | None => [] end) refs) ++
    flat_map (fun o => match o with Some x => md_keys (b_md x) | None => [] end) bins) as ks0.
  match goal with |- forall ks0, table _ ?t0 -> _ => generalize t0 end.
  clear ks t. induction recs as [|o recs IHl]; intros t ks H; cbn [acc_recs flat_map].
  - now rewrite app_nil_r.
  - rewrite app_assoc. specialize (IHl (fun c Hc => IH c (or_intror Hc))). destruct o as [c|].
    + apply IHl. apply IH; [now left | exact H].
    + rewrite app_nil_r. apply IHl. exact H.
Qed.
Corollary key_table : forall r, exists l,
  accumulate_keys r [] = number 0 l /\ NoDup l /\ (forall k, In k l <-> In k (tree_keys r)) /\
  tbl_array (accumulate_keys r []) = Ok l.
Proof.
  intro r. destruct (accumulate_table r [] []) as (l & E & N & I).
  { exists []. repeat split; auto; try constructor; intros []. }
  exists l. split; [exact E|]. split; [exact N|]. split; [exact I|]. rewrite E. apply tbl_array_number.
Qed.
Lemma tbl_get_number : forall l k, In k l -> nthN l (tbl_get k (number 0 l)) = Some k.
Proof.
  intros l k H. unfold tbl_get. destruct (tbl_find k (number 0 l)) as [i|] eqn:E.
  - apply number_find in E as [_ E]. now rewrite N.sub_0_r in E.
  - apply number_find_none in E. contradiction.
Qed.

(** iteration order does not matter for the set of keys *)
Lemma block_equiv_keys : forall m n, block_equiv m n -> Permutation (md_keys m) (md_keys n).
Proof.
  intros m n H. inversion H as [m1 m' m2 P E]; subst. unfold md_keys.
  rewrite <- (entries_equiv_keys _ _ E). now apply Permutation_map.
Qed.
Lemma rec_rel_keys : forall (EB : block -> block -> Prop) (RC : coll -> coll -> Prop), (forall m n, EB m n -> Permutation (md_keys m) (md_keys n)) ->
  forall r r', rec_rel EB RC r r' -> Permutation (tree_keys r) (tree_keys r').
Proof.
  intros EB RC HE r. induction r as [id name colls recs md bins refs IH] using recording_ind'.
  intros r' H. inversion H as [? ? ? ? ? recs' ? md' ? bins' ? refs' _ Hrecs Hmd Hbins Hrefs]; subst.
  cbn [tree_keys]. apply Permutation_app; [auto|].
  apply Permutation_app.
  { clear -Hrefs HE. induction Hrefs as [|o o' l l' (x & y & -> & -> & (_ & _ & _ & Hb)) H IHl]; [reflexivity|].
    cbn [flat_map]. apply Permutation_app; auto. }
  apply Permutation_app.
  { clear -Hbins HE. induction Hbins as [|o o' l l' (x & y & -> & -> & (_ & _ & _ & Hb)) H IHl]; [reflexivity|].
    cbn [flat_map]. apply Permutation_app; auto. }
  clear -Hrecs IH. induction Hrecs as [|o o' l l' (x & y & -> & -> & Hxy) H IHl]; [reflexivity|].
  cbn [flat_map]. apply Permutation_app; [apply IH; [now left | exact Hxy]|].
  apply IHl. intros c Hc. apply IH. now right.
Qed.
