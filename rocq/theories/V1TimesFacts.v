(** Start, end, duration and event count of version 1 messages. *)
From Coq Require Import Lia Permutation.
From Flocq Require Import IEEE754.Binary.
From Verif Require Import Base BaseFacts Floats SpecFloat FloatFacts Near32Facts Metadata Recording SpecRec RecordingFacts.
From Verif Require Import RapV1 SpecV1.

Lemma fold_lower : forall l mn l0, inf_of mn l0 ->
  inf_of (fold_left lower l mn) (l0 ++ numbers (map f64_of_f32 l)).
Proof.
  induction l as [|t l IH]; intros mn l0 H; cbn [fold_left map numbers filter]; change (Binary.is_nan 53 1024) with is_nan.
  - now rewrite app_nil_r.
  - fold (numbers (map f64_of_f32 l)). change (lower mn t) with (if flt (f64_of_f32 t) mn then f64_of_f32 t else mn). destruct (is_nan (f64_of_f32 t)) eqn:En; cbn [negb].
    + apply IH. destruct (flt (f64_of_f32 t) mn) eqn:E; [|exact H].
      apply flt_iff in E as (a & b & Ha & _). destruct (f64_of_f32 t); discriminate.
    + change (f64_of_f32 t :: ?x) with ([f64_of_f32 t] ++ x). rewrite app_assoc. apply IH. apply inf_of_join; [exact H|].
      split; [exact En|]. split; [right; now left|]. intros u [<-|[]]. now apply fle_refl.
Qed.
Lemma fold_raise : forall l mx l0, sup_of mx l0 ->
  sup_of (fold_left raise l mx) (l0 ++ numbers (map f64_of_f32 l)).
Proof.
  induction l as [|t l IH]; intros mx l0 H; cbn [fold_left map numbers filter]; change (Binary.is_nan 53 1024) with is_nan.
  - now rewrite app_nil_r.
  - fold (numbers (map f64_of_f32 l)). change (raise mx t) with (if fgt (f64_of_f32 t) mx then f64_of_f32 t else mx). destruct (is_nan (f64_of_f32 t)) eqn:En; cbn [negb].
    + apply IH. unfold fgt. destruct (flt mx (f64_of_f32 t)) eqn:E; [|exact H].
      apply flt_iff in E as (a & b & _ & Hb & _). destruct (f64_of_f32 t); discriminate.
    + change (f64_of_f32 t :: ?x) with ([f64_of_f32 t] ++ x). rewrite app_assoc. apply IH. apply sup_of_join; [exact H|].
      split; [exact En|]. split; [right; now left|]. intros u [<-|[]]. now apply fle_refl.
Qed.
Lemma numbers_app : forall a b, numbers (a ++ b) = numbers a ++ numbers b.
Proof. intros. apply filter_app. Qed.
Lemma subject_perm : forall l0 s,
  Permutation ((((l0 ++ numbers (map f64_of_f32 (map ve_time (vs_events s)))) ++ numbers (map f64_of_f32 (map vv_time (vs_pos s))))
                ++ numbers (map f64_of_f32 (map vv_time (vs_rot s)))) ++ numbers (map f64_of_f32 (map vl_time (vs_life s))))
    (l0 ++ numbers (subject_times s)).
Proof.
  intros. unfold subject_times. rewrite !map_app, !numbers_app, <- !app_assoc. apply Permutation_app_head.
  rewrite !app_assoc. apply Permutation_app_tail. rewrite <- app_assoc. apply Permutation_app_comm.
Qed.
Lemma v1_start_inf : forall m, inf_of (v1_start m) (numbers (v1_times m)).
Proof.
  intro m. unfold v1_start, v1_times. rewrite numbers_app, <- (map_map ve_time f64_of_f32).
  assert (H0 : inf_of (fold_left lower (map ve_time (vr_events m)) fpinf) (numbers (map f64_of_f32 (map ve_time (vr_events m))))).
  { apply (fold_lower _ fpinf []). split; [reflexivity|]. split; [now left|]. intros t []. }
  revert H0. generalize (fold_left lower (map ve_time (vr_events m)) fpinf) (numbers (map f64_of_f32 (map ve_time (vr_events m)))).
  induction (vr_subjects m) as [|s l IH]; intros mn l0 H; cbn [fold_left flat_map].
  - cbn [numbers filter]. now rewrite app_nil_r.
  - rewrite numbers_app, app_assoc. apply IH. eapply inf_of_perm; [apply subject_perm|].
    now repeat apply fold_lower.
Qed.
Lemma v1_end_sup : forall m, sup_of (v1_end m) (numbers (v1_times m)).
Proof.
  intro m. unfold v1_end, v1_times. rewrite numbers_app, <- (map_map ve_time f64_of_f32).
  assert (H0 : sup_of (fold_left raise (map ve_time (vr_events m)) fminf) (numbers (map f64_of_f32 (map ve_time (vr_events m))))).
  { apply (fold_raise _ fminf []). split; [reflexivity|]. split; [now left|]. intros t []. }
  revert H0. generalize (fold_left raise (map ve_time (vr_events m)) fminf) (numbers (map f64_of_f32 (map ve_time (vr_events m)))).
  induction (vr_subjects m) as [|s l IH]; intros mn l0 H; cbn [fold_left flat_map].
  - cbn [numbers filter]. now rewrite app_nil_r.
  - rewrite numbers_app, app_assoc. apply IH. eapply sup_of_perm; [apply subject_perm|].
    now repeat apply fold_raise.
Qed.
(** The imported recording has the same times, in the same order. *)
Lemma import_times : forall parse_f32 m, tree_times (v1_to_std parse_f32 m) = v1_times m.
Proof.
  intros. unfold tree_times, v1_times, v1_to_std, old_events. cbn [tree_colls flat_map app c_times c_body].
  f_equal; [rewrite map_map; reflexivity|].
  induction (vr_subjects m) as [|s l IH]; [reflexivity|].
  cbn [map flat_map]. rewrite flat_map_app, <- IH. f_equal.
  unfold old_subject, subject_times, old_events. cbn [tree_colls flat_map app c_times c_body map].
  rewrite !map_app, !map_map, app_nil_r. reflexivity.
Qed.
Lemma import_no_nil : forall parse_f32 m, no_nil (v1_to_std parse_f32 m).
Proof.
  intros. constructor; [intros o [<-|[]]; discriminate|]. intros o Ho. apply in_map_iff in Ho as (s & <- & _).
  eexists. split; [reflexivity|]. constructor; [|intros o []].
  intros o [<-|[<-|[<-|[<-|[]]]]]; discriminate.
Qed.
Lemma import_events : forall parse_f32 m,
  lenN (flat_map coll_events (tree_colls (v1_to_std parse_f32 m))) = v1_event_count m.
Proof.
  intros. unfold v1_event_count, v1_to_std, old_events. cbn [tree_colls flat_map app coll_events c_body].
  rewrite lenN_app. replace (lenN (map (old_event parse_f32) (vr_events m))) with (lenN (vr_events m)) by (unfold lenN; now rewrite map_length).
  generalize (lenN (vr_events m)) as n. induction (vr_subjects m) as [|s l IH]; intro n; cbn [map flat_map fold_left].
  - cbn. lia.
  - rewrite <- IH, flat_map_app, lenN_app.
    replace (lenN (flat_map coll_events (tree_colls (old_subject parse_f32 s)))) with (lenN (vs_events s)); [lia|].
    unfold old_subject, old_events. cbn [tree_colls flat_map app coll_events c_body].
    rewrite !app_nil_r. unfold lenN. now rewrite map_length.
Qed.
