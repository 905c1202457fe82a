(** Properties C28 - C31 and C40: Slice, Validate, start, end and duration. *)
From Coq Require Import ZArith Reals Sorted Permutation.
From Flocq Require Import IEEE754.Binary IEEE754.Bits.
From Verif Require Import Base BaseFacts Floats SpecFloat FloatFacts Metadata Recording.
From Verif Require Import SpecRec RecordingFacts.
Local Open Scope N_scope.

(** A sample: times 1, 3, 2 in a child, an enum and events in the parent. *)
Definition t (z : N) : f64 :=
  match z with
  | 0 => f0
  | 1 => B754_finite 53 1024 false 4503599627370496 (-52) eq_refl
  | 2 => B754_finite 53 1024 false 4503599627370496 (-51) eq_refl
  | 3 => B754_finite 53 1024 false 6755399441055744 (-51) eq_refl
  | 5 => B754_finite 53 1024 false 5629499534213120 (-50) eq_refl
  | _ => B754_finite 53 1024 false 5066549580791808 (-49) eq_refl
  end.
Definition v0 : vec := mkVec f0 f0 f0.
Definition fnan : f64 := B754_nan 53 1024 false 1 eq_refl.
Definition sample_child : recording :=
  mkRec (bs [7]) [] [Some (mkColl (bs [80]) (BPos [(t 1, v0); (t 3, v0); (t 2, v0)]))] []
        [] [Some (mkBin [] (bs [1;2]) 2 [])] [].
Definition sample : recording :=
  mkRec (bs [8]) (bs [9])
    [Some (mkColl (bs [69]) (BEnum [bs [65]; bs [66]] [(t 0, 1%Z); (t 1, 0%Z); (t 2, 1%Z)]));
     Some (mkColl [] (BEvent [(t 1, (bs [66], [])); (t 5, ([], []))]))]
    [Some sample_child] [(bs [1], PBool true)] [] [].
Lemma sample_no_nil : no_nil sample.
Proof.
  constructor.
  - intros o [<-|[<-|[]]]; discriminate.
  - intros o [<-|[]]. exists sample_child. split; [reflexivity|]. constructor.
    + intros o [<-|[]]; discriminate.
    + intros o [].
Qed.

(** C28: with the interval and the setting given by the last option of each
    kind, Slice returns the same tree with exactly the captures in
    [begin,end), in order, at every depth. *)
Theorem C28_slice : forall opts r, no_nil r ->
  exists r', slice opts r = Ok r' /\
    sliced (begin_opt fminf opts) (end_opt fpinf opts) (keep_opt true opts) r r'.
Proof. exact slice_ok. Qed.
Print Assumptions C28_slice.

(** C28: on a tree with a nil element Slice does not return. *)
Theorem C28_slice_needs_no_nil : forall opts r r', slice opts r = Ok r' -> no_nil r.
Proof. exact slice_nil_panics. Qed.
Print Assumptions C28_slice_needs_no_nil.

(** C28: the interval test in terms of numbers; NaN is in no interval. *)
Theorem C28_interval : forall b e u, within b e u = true <->
  exists x y z, xval b = Some x /\ xval u = Some y /\ xval e = Some z /\ (x <= y < z)%R.
Proof. exact within_iff. Qed.
Print Assumptions C28_interval.

Example C28_example :
  no_nil sample /\
  slice [EndOfSlice (t 9); KeepBinariesInSlice false; BeginningOfSlice (t 1); EndOfSlice (t 3)] sample
  = Ok (mkRec (bs [8]) (bs [9])
     [Some (mkColl (bs [69]) (BEnum [bs [65]; bs [66]] [(t 1, 0%Z); (t 2, 1%Z)]));
      Some (mkColl [] (BEvent [(t 1, (bs [66], []))]))]
     [Some (mkRec (bs [7]) [] [Some (mkColl (bs [80]) (BPos [(t 1, v0); (t 2, v0)]))] [] [] [] [])]
     [(bs [1], PBool true)] [] []).
Proof. split; [apply sample_no_nil | vm_compute; reflexivity]. Qed.

(** A user may expect Slice without options to be the identity: captures at
    +Inf or NaN are dropped. *)
Theorem C28_no_options_not_identity_refuted : exists r, no_nil r /\ slice [] r <> Ok r.
Proof.
  exists (mkRec [] [] [Some (mkColl [] (BFloat [(fpinf, f0)]))] [] [] [] []). split.
  - constructor; [intros o [<-|[]]; discriminate | intros o []].
  - vm_compute. discriminate.
Qed.
Print Assumptions C28_no_options_not_identity_refuted.

(** C29: slicing twice is slicing once by the intersection. *)
Theorem C29_slice_twice : forall o1 o2 o r r1 r2,
  is_nan (begin_opt fminf o1) = false -> is_nan (begin_opt fminf o2) = false ->
  is_nan (end_opt fpinf o1) = false -> is_nan (end_opt fpinf o2) = false ->
  begin_opt fminf o = later (begin_opt fminf o1) (begin_opt fminf o2) ->
  end_opt fpinf o = earlier (end_opt fpinf o1) (end_opt fpinf o2) ->
  keep_opt true o = keep_opt true o1 && keep_opt true o2 ->
  slice o1 r = Ok r1 -> slice o2 r1 = Ok r2 -> slice o r = Ok r2.
Proof.
  intros o1 o2 o r r1 r2 N1 N2 N3 N4 Hb He Hk H1 H2.
  destruct (slice_ok o1 r) as (r1' & E1 & S1); [eapply slice_nil_panics; eauto|].
  destruct (slice_ok o2 r1) as (r2' & E2 & S2); [eapply slice_nil_panics; eauto|].
  destruct (slice_ok o r) as (r3 & E3 & S3); [eapply slice_nil_panics; eauto|].
  rewrite E3. f_equal. rewrite H1 in E1. rewrite H2 in E2. apply ok_inj in E1, E2. subst r1' r2'.
  eapply sliced_fun; [exact S3|]. rewrite Hb, He, Hk.
  eapply sliced_compose; [apply within_intersection; assumption | exact S1 | exact S2].
Qed.
Print Assumptions C29_slice_twice.

(** C29: whatever the options (NaN bounds included) slicing is idempotent. *)
Theorem C29_slice_idempotent : forall o r r1, slice o r = Ok r1 -> slice o r1 = Ok r1.
Proof.
  intros o r r1 H1.
  destruct (slice_ok o r) as (r1' & E1 & S1); [eapply slice_nil_panics; eauto|].
  rewrite H1 in E1. apply ok_inj in E1. subst r1'.
  destruct (slice_ok o r1) as (r2 & E2 & S2); [eapply sliced_no_nil; eauto|].
  rewrite E2. f_equal.
  pose proof (sliced_compose _ _ _ _ _ _ _ _ _ _ _ (within_self _ _) S1 S2) as S3.
  rewrite andb_diag in S3. symmetry. eapply sliced_fun; eauto.
Qed.
Print Assumptions C29_slice_idempotent.

(** C29: slices of a valid recording without NaN times are valid. *)
Theorem C29_slice_valid : forall o r r', nan_free r ->
  validate [] r = Ok true -> slice o r = Ok r' -> validate [] r' = Ok true.
Proof.
  intros o r r' Hf Hv Hs. pose proof (slice_nil_panics _ _ _ Hs) as Hn.
  destruct (slice_ok o r Hn) as (r1 & E1 & S1). rewrite Hs in E1. apply ok_inj in E1. subst r1.
  destruct (validate_spec [] r Hn) as (ok & E & Hok). rewrite Hv in E. apply ok_inj in E. subst ok.
  destruct (validate_spec [] r') as (ok & -> & Hok'); [eapply sliced_no_nil; eauto|].
  f_equal. apply Hok'. intros _. eapply sliced_chrono; eauto. now apply Hok.
Qed.
Print Assumptions C29_slice_valid.
(** ... with a NaN between two captures it is false. *)
Theorem C29_slice_valid_nan_refuted : exists r r',
  validate [] r = Ok true /\ slice [] r = Ok r' /\ validate [] r' = Ok false.
Proof.
  exists (mkRec [] [] [Some (mkColl [] (BFloat [(t 2, f0); (fnan, f0); (t 1, f0)]))] [] [] [] []).
  eexists. vm_compute. auto.
Qed.
Print Assumptions C29_slice_valid_nan_refuted.

(** C29: cutting at [m] loses and duplicates nothing: for every collection
    the two halves together are the whole, and put end to end they are the
    whole in order when the collection is in chronological order. *)
Theorem C29_slice_split : forall o1 o2 o r r1 r2 r3,
  let b := begin_opt fminf o in
  let e := end_opt fpinf o in
  let m := end_opt fpinf o1 in
  begin_opt fminf o1 = b -> begin_opt fminf o2 = m -> end_opt fpinf o2 = e ->
  fle b m = true -> fle m e = true ->
  slice o1 r = Ok r1 -> slice o2 r = Ok r2 -> slice o r = Ok r3 ->
  length (tree_colls r1) = length (tree_colls r3) /\
  length (tree_colls r2) = length (tree_colls r3) /\
  forall i c c1 c2 c3,
    nth_error (tree_colls r) i = Some c -> nth_error (tree_colls r1) i = Some c1 ->
    nth_error (tree_colls r2) i = Some c2 -> nth_error (tree_colls r3) i = Some c3 ->
    Permutation (captures c3) (captures c1 ++ captures c2) /\
    (time_sorted c -> captures c3 = captures c1 ++ captures c2).
Proof.
  intros o1 o2 o r r1 r2 r3 b e m Hb1 Hb2 He2 Hbm Hme H1 H2 H3.
  pose proof (slice_nil_panics _ _ _ H1) as Hn.
  destruct (slice_ok o1 r Hn) as (x1 & E1 & S1). rewrite H1 in E1. apply ok_inj in E1. subst x1.
  destruct (slice_ok o2 r Hn) as (x2 & E2 & S2). rewrite H2 in E2. apply ok_inj in E2. subst x2.
  destruct (slice_ok o r Hn) as (x3 & E3 & S3). rewrite H3 in E3. apply ok_inj in E3. subst x3.
  rewrite Hb1 in S1. rewrite Hb2, He2 in S2. fold b e in S3. fold m in S1.
  apply sliced_tree_colls in S1, S2, S3.
  pose proof (Forall2_len S1). pose proof (Forall2_len S2). pose proof (Forall2_len S3).
  split; [congruence|]. split; [congruence|].
  intros i c c1 c2 c3 Hc Hc1 Hc2 Hc3.
  rewrite (coll_sliced_captures _ _ _ _ (Forall2_nth _ _ _ _ _ S1 i c c1 Hc Hc1)).
  rewrite (coll_sliced_captures _ _ _ _ (Forall2_nth _ _ _ _ _ S2 i c c2 Hc Hc2)).
  rewrite (coll_sliced_captures _ _ _ _ (Forall2_nth _ _ _ _ _ S3 i c c3 Hc Hc3)).
  destruct (kept_split _ b m e (captures c) Hbm Hme) as [K1 K2]. split; [exact K1|].
  intro Hs. apply K2. rewrite captures_times. exact Hs.
Qed.
Print Assumptions C29_slice_split.

Example C29_example :
  exists a b, slice [EndOfSlice (t 2)] sample = Ok a /\ slice [BeginningOfSlice (t 2)] sample = Ok b /\
    length (tree_times a) = 4%nat /\ length (tree_times b) = 4%nat /\
    length (tree_times sample) = 8%nat.
Proof. eexists. eexists. vm_compute. auto. Qed.

(** C30: Validate accepts exactly the trees all of whose collections are
    chronological; switched off it accepts everything.  (The option list holds
    the arguments of RequireChronologicalCapture; the last one counts.) *)
Theorem C30_validate : forall opts r, no_nil r ->
  exists ok, validate opts r = Ok ok /\
    (ok = true <-> (last opts true = true -> forall c, In c (tree_colls r) -> chronological c)).
Proof.
  intros opts r Hn. destruct (validate_spec opts r Hn) as (ok & E & H). exists ok.
  split; [exact E|]. unfold validate_opts_of in H. now rewrite validate_opts_last in H.
Qed.
Print Assumptions C30_validate.
(** C30: without NaN times, chronological means sorted. *)
Theorem C30_sorted : forall c, (forall u, In u (c_times c) -> is_nan u = false) ->
  chronological c <-> time_sorted c.
Proof. exact chrono_sorted. Qed.
Print Assumptions C30_sorted.
Example C30_example : no_nil sample /\
  validate [] sample = Ok false /\ validate [true; false] sample = Ok true /\
  (exists r', slice [EndOfSlice (t 2)] sample = Ok r' /\ validate [] r' = Ok true).
Proof.
  split; [apply sample_no_nil|]. split; [reflexivity|]. split; [reflexivity|].
  eexists. split; vm_compute; reflexivity.
Qed.

(** C31: start and end of a valid, NaN-free recording are its least and
    greatest capture times, +Inf and -Inf if there are none; the duration is
    their difference. *)
Theorem C31_start_end : forall r, no_nil r -> validate [] r = Ok true -> nan_free r ->
  exists mn mx, rec_start r = Ok mn /\ rec_end r = Ok mx /\ rec_duration r = Ok (fsub mx mn) /\
    (tree_times r = [] -> mn = fpinf /\ mx = fminf) /\
    (tree_times r <> [] -> least mn (tree_times r) /\ greatest mx (tree_times r)).
Proof.
  intros r Hn Hv Hf.
  destruct (validate_spec [] r Hn) as (ok & E & Hok). rewrite Hv in E. apply ok_inj in E. subst ok.
  assert (Hs : forall c, In c (tree_colls r) -> time_sorted c).
  { intros c Hc. apply chrono_sorted; [|now apply Hok].
    intros u Hu. apply Hf. apply in_flat_map. eauto. }
  destruct (start_end_ok r Hn Hs Hf) as (mn & mx & Es & Ee & Hmn & Hmx).
  exists mn, mx. unfold rec_duration. rewrite Es, Ee. repeat split; auto.
  - destruct Hmn as (_ & [Hm|Hm] & _); [assumption|]. rewrite H in Hm. destruct Hm.
  - destruct Hmx as (_ & [Hm|Hm] & _); [assumption|]. rewrite H in Hm. destruct Hm.
  - now apply inf_least.
  - apply Hmn.
  - now apply sup_greatest.
  - apply Hmx.
Qed.
Print Assumptions C31_start_end.
Example C31_example : exists r, no_nil r /\ validate [] r = Ok true /\ nan_free r /\
  rec_start r = Ok (t 0) /\ rec_end r = Ok (t 5) /\
  exists d, rec_duration r = Ok d /\ b64_compare d (t 5) = Some Eq.
Proof.
  exists (mkRec [] [] [Some (mkColl [] (BFloat [(t 1, f0); (t 5, f0)]))]
    [Some (mkRec [] [] [Some (mkColl [] (BFloat [(t 0, f0); (t 0, f0); (t 3, f0)]))] [] [] [] [])]
    [] [] []).
  split.
  { constructor; [intros o [<-|[]]; discriminate|]. intros o [<-|[]].
    eexists. split; [reflexivity|]. constructor; [intros o [<-|[]]; discriminate | intros o []]. }
  split; [vm_compute; reflexivity|]. split.
  { intros u Hu. vm_compute in Hu.
    repeat (destruct Hu as [<-|Hu]; [vm_compute; reflexivity|]). destruct Hu. }
  split; [vm_compute; reflexivity|]. split; [vm_compute; reflexivity|].
  eexists. split; [reflexivity | vm_compute; reflexivity].
Qed.
(** Without the chronological requirement the claim is false. *)
Theorem C31_unsorted_refuted : exists r mn mx, no_nil r /\ nan_free r /\
  rec_start r = Ok mn /\ rec_end r = Ok mx /\
  ~ least mn (tree_times r) /\ ~ greatest mx (tree_times r).
Proof.
  exists (mkRec [] [] [Some (mkColl [] (BFloat [(t 2, f0); (t 5, f0); (t 1, f0); (t 3, f0)]))] [] [] [] []).
  exists (t 2), (t 3). split.
  { constructor; [intros o [<-|[]]; discriminate|]. intros o []. }
  split.
  { intros u Hu. vm_compute in Hu.
    repeat (destruct Hu as [<-|Hu]; [vm_compute; reflexivity|]). destruct Hu. }
  split; [vm_compute; reflexivity|]. split; [vm_compute; reflexivity|]. split; intros [_ H].
  - assert (E : fle (t 2) (t 1) = true) by (apply H; right; right; left; reflexivity).
    vm_compute in E. discriminate.
  - assert (E : fle (t 5) (t 3) = true) by (apply H; right; left; reflexivity).
    vm_compute in E. discriminate.
Qed.
Print Assumptions C31_unsorted_refuted.

(** C40: only the last option of each kind matters, so options of different
    kinds commute; and the same settings govern every depth (C28_slice uses
    one interval for the whole tree). *)
Theorem C40_slice_last_wins : forall o1 o2 r,
  begin_opt fminf o1 = begin_opt fminf o2 -> end_opt fpinf o1 = end_opt fpinf o2 ->
  keep_opt true o1 = keep_opt true o2 -> slice o1 r = slice o2 r.
Proof.
  intros o1 o2 r Hb He Hk.
  induction r as [id name colls recs md bins refs IH] using recording_ind'. cbn [slice].
  rewrite !slice_opts_spec, Hb, He, Hk.
  replace (map_res (fun c => match c with None => Panic | Some c => do c' <- slice o1 c; Ok (Some c') end) recs)
    with (map_res (fun c => match c with None => Panic | Some c => do c' <- slice o2 c; Ok (Some c') end) recs);
    [reflexivity|].
  clear -IH. induction recs as [|o recs IHr]; [reflexivity|]. cbn [map_res].
  rewrite IHr by (intros; apply IH; now right). destruct o as [c|]; [|reflexivity].
  now rewrite (IH c) by now left.
Qed.
Print Assumptions C40_slice_last_wins.
Theorem C40_slice_commute : forall p x y q r,
  (forall b b', ~ (x = BeginningOfSlice b /\ y = BeginningOfSlice b')) ->
  (forall b b', ~ (x = EndOfSlice b /\ y = EndOfSlice b')) ->
  (forall b b', ~ (x = KeepBinariesInSlice b /\ y = KeepBinariesInSlice b')) ->
  slice (p ++ x :: y :: q) r = slice (p ++ y :: x :: q) r.
Proof.
  intros p x y q r H1 H2 H3. apply C40_slice_last_wins.
  - generalize fminf. induction p as [|z p IH]; intro d; cbn [app begin_opt].
    + destruct x, y; auto. exfalso. eapply H1; eauto.
    + destruct z; apply IH.
  - generalize fpinf. induction p as [|z p IH]; intro d; cbn [app end_opt].
    + destruct x, y; auto. exfalso. eapply H2; eauto.
    + destruct z; apply IH.
  - generalize true. induction p as [|z p IH]; intro d; cbn [app keep_opt].
    + destruct x, y; auto. exfalso. eapply H3; eauto.
    + destruct z; apply IH.
Qed.
Print Assumptions C40_slice_commute.
Theorem C40_validate_last_wins : forall o1 o2 r,
  last o1 true = last o2 true -> validate o1 r = validate o2 r.
Proof.
  intros o1 o2 r H.
  assert (E : validate_opts_of o1 = validate_opts_of o2).
  { unfold validate_opts_of. now rewrite !validate_opts_last. }
  induction r as [id name colls recs md bins refs IH] using recording_ind'.
  rewrite !validate_unfold, E.
  replace (val_recs o1 recs) with (val_recs o2 recs); [reflexivity|].
  clear -IH. induction recs as [|o recs IHr]; [reflexivity|]. cbn [val_recs].
  rewrite IHr by (intros; apply IH; now right). destruct o as [c|]; [|reflexivity].
  now rewrite (IH c) by now left.
Qed.
Print Assumptions C40_validate_last_wins.
Example C40_example :
  slice [BeginningOfSlice (t 0); EndOfSlice (t 3); BeginningOfSlice (t 1)] sample
  = slice [EndOfSlice (t 3); BeginningOfSlice (t 1)] sample /\
  validate [true; false] sample <> validate [false; true] sample.
Proof. split; [apply C40_slice_last_wins; reflexivity | vm_compute; discriminate]. Qed.
