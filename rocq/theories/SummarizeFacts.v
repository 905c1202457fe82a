From Coq Require Import Strings.String Lia.
From Verif Require Import Base Floats Metadata Recording SpecRec Text SpecText TextFacts.
From Verif Require Import RecordingFacts Summarize SpecSummary.

(** The summary of a list of collections, from the specification. *)
Definition tot (k : kind) (l : list coll) : nat :=
  length (flat_map captures (filter (fun c => kind_eqb k (kind_of c)) l)).
Definition sum_of (l : list coll) : summary :=
  mkSum (tot KPosition l) (tot KEvent l) (tot KEuler l) (tot KEnum l) (tot KOther l).

Lemma captures_length : forall c, length (captures c) = c_length c.
Proof.
  intro c. unfold captures, c_length, c_times. destruct (c_body c); rewrite !map_length; reflexivity.
Qed.
Lemma tot_app : forall k a b, tot k (a ++ b) = tot k a + tot k b.
Proof. intros. unfold tot. rewrite filter_app, flat_map_app, app_length. reflexivity. Qed.
Lemma sum_of_app : forall a b, sum_of (a ++ b) = combine_sum (sum_of a) (sum_of b).
Proof. intros. unfold sum_of, combine_sum. cbn. rewrite !tot_app. reflexivity. Qed.
Lemma combine_assoc : forall a b c, combine_sum a (combine_sum b c) = combine_sum (combine_sum a b) c.
Proof. intros. unfold combine_sum. cbn. f_equal; lia. Qed.
Lemma combine_0_l : forall a, combine_sum sum0 a = a.
Proof. intros []. reflexivity. Qed.
Lemma combine_0_r : forall a, combine_sum a sum0 = a.
Proof. intros []. unfold combine_sum. cbn. rewrite <- !plus_n_O. reflexivity. Qed.

Lemma count_coll_ok : forall s c, count_coll s c = combine_sum s (sum_of [c]).
Proof.
  intros [a b d e f] c. unfold count_coll, combine_sum, sum_of, tot. rewrite <- (captures_length c).
  cbn [filter]. unfold kind_of. set (n := captures c).
  destruct (c_body c); cbn [kind_eqb flat_map length s_pos s_event s_euler s_enum s_other];
    fold n; rewrite ?app_nil_r, <- ?plus_n_O; reflexivity.
Qed.

Definition somes {A} (l : list (option A)) : list A :=
  flat_map (fun o => match o with Some c => [c] | None => [] end) l.

Lemma count_colls_ok : forall l s, ~ In None l ->
  count_colls l s = Ok (combine_sum s (sum_of (somes l))).
Proof.
  induction l as [|[c|] l IH]; intros s H; cbn [count_colls somes flat_map].
  - now rewrite combine_0_r.
  - rewrite IH by (intro; apply H; now right). rewrite count_coll_ok, sum_of_app, combine_assoc. reflexivity.
  - exfalso. apply H. now left.
Qed.
Lemma count_colls_nil : forall l s, In None l -> count_colls l s = Panic.
Proof.
  induction l as [|[c|] l IH]; intros s H; [destruct H| |reflexivity].
  destruct H as [H|H]; [discriminate|]. cbn. auto.
Qed.

Theorem summarize_ok : forall r, no_nil r -> summarize r = Ok (sum_of (tree_colls r)).
Proof.
  induction r as [id name colls recs md bins refs IH] using recording_ind'. intro Hn.
  inversion_clear Hn as [? ? ? ? ? ? ? Hc Hr]. cbn [summarize tree_colls].
  rewrite count_colls_ok by (intro E; now apply (Hc None E)). cbn [bind]. rewrite combine_0_l.
  rewrite sum_of_app. fold (@somes coll colls).
  generalize (sum_of (somes colls)). revert IH Hr.
  induction recs as [|[c|] recs IHl]; intros IH Hr s; cbn [flat_map].
  - now rewrite combine_0_r.
  - destruct (Hr (Some c)) as (d & E & Hd); [now left|]. injection E as <-.
    rewrite (IH c (or_introl eq_refl) Hd). cbn [bind].
    rewrite IHl by (intros; auto using in_cons).
    rewrite sum_of_app, combine_assoc. reflexivity.
  - destruct (Hr None) as (d & E & _); [now left|discriminate].
Qed.

Theorem summarize_nil : forall r s, summarize r = Ok s -> no_nil r.
Proof.
  induction r as [id name colls recs md bins refs IH] using recording_ind'. intros s H.
  cbn [summarize] in H. destruct (count_colls colls sum0) as [s0| |] eqn:Ec; try discriminate H.
  constructor.
  - intros o Ho E. subst o. rewrite count_colls_nil in Ec by exact Ho. discriminate.
  - cbn [bind] in H. clear Ec. revert s0 H IH.
    induction recs as [|[c|] recs IHl]; intros s0 H IH o Ho; [destruct Ho| |discriminate H].
    destruct (summarize c) as [x| |] eqn:Es; try discriminate H. cbn [bind] in H.
    destruct Ho as [<-|Ho].
    + exists c. split; [reflexivity|]. exact (IH c (or_introl eq_refl) x Es).
    + apply (IHl _ H (fun d Hd => IH d (or_intror Hd)) o Ho).
Qed.

Lemma tot_total : forall l,
  tot KPosition l + tot KEuler l + tot KEvent l + tot KEnum l + tot KOther l
  = length (flat_map captures l).
Proof.
  induction l as [|c l IH]; [reflexivity|]. change (c :: l) with ([c] ++ l).
  rewrite !tot_app, flat_map_app, app_length, <- IH. unfold tot. cbn [filter].
  unfold kind_of. set (n := captures c).
  destruct (c_body c); cbn [kind_eqb flat_map length]; fold n; rewrite ?app_nil_r; cbn [length]; lia.
Qed.

(** Start and end exist for every tree without nil elements. *)
Lemma start_end_exist : forall r, no_nil r ->
  exists mn mx, rec_start r = Ok mn /\ rec_end r = Ok mx.
Proof.
  induction r as [id name colls recs md bins refs IH] using recording_ind'. intro Hn.
  inversion_clear Hn as [? ? ? ? ? ? ? Hc Hr]. rewrite rec_start_unfold, rec_end_unfold.
  assert (A : forall l a b, (forall o, In o l -> In o recs) ->
    exists mn mx, start_recs l a = Ok mn /\ end_recs l b = Ok mx).
  { induction l as [|[c|] l IHl]; intros a b Hl; cbn [start_recs end_recs]; [eauto| |].
    - destruct (Hr (Some c) (Hl _ (or_introl eq_refl))) as (d & E & Hd). injection E as <-.
      destruct (IH c (Hl _ (or_introl eq_refl)) Hd) as (x & y & E1 & E2).
      rewrite E1, E2. cbn [bind]. apply IHl. intros; apply Hl; now right.
    - destruct (Hr None (Hl _ (or_introl eq_refl))) as (d & E & _). discriminate. }
  destruct (A recs fpinf fminf ltac:(auto)) as (x & y & E1 & E2). rewrite E1, E2. cbn [bind].
  revert x y E1 E2. clear -Hc. intros x y _ _. revert x y Hc.
  induction colls as [|[c|] colls IHc]; intros x y Hc; cbn [start_colls end_colls]; [eauto| |].
  - apply IHc. intros o Ho. apply Hc. now right.
  - destruct (Hc None); [now left|reflexivity].
Qed.
