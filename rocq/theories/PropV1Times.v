(** Properties of the version 1 helpers: C48. *)
From Coq Require Import Strings.String Lia.
From Flocq Require Import IEEE754.Binary.
From Verif Require Import Base BaseFacts Floats SpecFloat FloatFacts Metadata Recording SpecRec RecordingFacts.
From Verif Require Import Text RapV1 SpecV1 V1TimesFacts PropRecording.
Local Open Scope N_scope.

(** ** C48 *)
(** Whatever the order of the captures: the least and the greatest time, NaNs aside. *)
Theorem C48_start_end : forall m,
  (numbers (v1_times m) = [] -> v1_start m = fpinf /\ v1_end m = fminf) /\
  (numbers (v1_times m) <> [] -> least (v1_start m) (numbers (v1_times m)) /\ greatest (v1_end m) (numbers (v1_times m))) /\
  v1_duration m = fsub (v1_end m) (v1_start m).
Proof.
  intro m. pose proof (v1_start_inf m) as Hs. pose proof (v1_end_sup m) as He. split; [|split; [|reflexivity]].
  - intro E. rewrite E in *. destruct Hs as (_ & [Hs|[]] & _), He as (_ & [He|[]] & _). auto.
  - split; [now apply inf_least | now apply sup_greatest].
Qed.
Print Assumptions C48_start_end.
(** If the imported recording is chronological, the functions for recordings agree
    with these (as numbers: zeroes may differ in sign). *)
Theorem C48_agrees : forall parse_f32 m,
  validate [] (v1_to_std parse_f32 m) = Ok true -> (forall t, In t (v1_times m) -> is_nan t = false) ->
  exists mn mx, rec_start (v1_to_std parse_f32 m) = Ok mn /\ rec_end (v1_to_std parse_f32 m) = Ok mx /\
    fle mn (v1_start m) = true /\ fle (v1_start m) mn = true /\ fle mx (v1_end m) = true /\ fle (v1_end m) mx = true.
Proof.
  intros pf m Hv Hn.
  assert (En : numbers (v1_times m) = v1_times m).
  { unfold numbers. induction (v1_times m) as [|t l IH]; [reflexivity|]. cbn [filter]; change (Binary.is_nan 53 1024 t) with (is_nan t).
    rewrite (Hn t (or_introl eq_refl)). cbn [negb]. f_equal. apply IH. intros. apply Hn. now right. }
  destruct (C31_start_end (v1_to_std pf m)) as (mn & mx & Es & Ee & _ & H0 & H1); auto using import_no_nil.
  { intros t Ht. rewrite import_times in Ht. now apply Hn. }
  rewrite import_times in H0, H1. exists mn, mx. split; [exact Es|]. split; [exact Ee|].
  destruct (C48_start_end m) as (G0 & G1 & _). rewrite En in G0, G1.
  destruct (v1_times m) as [|t l] eqn:E.
  - destruct (H0 eq_refl) as [-> ->]. destruct (G0 eq_refl) as [-> ->]. repeat split.
  - destruct H1 as [[Hi1 Hl1] [Hi2 Hl2]]; [discriminate|]. destruct G1 as [[Gi1 Gl1] [Gi2 Gl2]]; [discriminate|]. auto.
Qed.
Print Assumptions C48_agrees.
(** The count is that of the event captures of the imported recording. *)
Theorem C48_events : forall parse_f32 m,
  lenN (flat_map coll_events (tree_colls (v1_to_std parse_f32 m))) = v1_event_count m.
Proof. exact import_events. Qed.
Print Assumptions C48_events.

Definition old_f (n : positive) (e : Z) H : f32 := B754_finite 24 128 false n e H.
Definition t1 : f32 := old_f 8388608 (-23) eq_refl.
Definition t2 : f32 := old_f 8388608 (-22) eq_refl.
Definition t4 : f32 := old_f 8388608 (-21) eq_refl.
Definition times_demo (a b : f32) : v1_rec :=
  mkV1Rec (lit "old") []
    [mkV1Subject 1 (lit "s") [] [mkV1Event t4 (lit "hit") [] []] [mkV1Life t2 0]
       [mkV1Vec a t1 t1 t1; mkV1Vec b t1 t1 t1] []]
    [mkV1Event t2 (lit "boom") [] []].
Lemma times_demo_numbers : forall t, In t (v1_times (times_demo t1 t4)) -> is_nan t = false.
Proof. intros t H. repeat (destruct H as [<-|H]; [reflexivity|]). destruct H. Qed.
Definition same_number (a b : f64) : bool := fle a b && fle b a.
Example C48_example :
  validate [] (v1_to_std (fun _ => None) (times_demo t1 t4)) = Ok true /\
  same_number (v1_start (times_demo t1 t4)) (f64_of_f32 t1) = true /\
  same_number (v1_end (times_demo t1 t4)) (f64_of_f32 t4) = true /\
  v1_event_count (times_demo t1 t4) = 2 /\
  match rec_start (v1_to_std (fun _ => None) (times_demo t1 t4)) with Ok t => same_number t (f64_of_f32 t1) | _ => false end = true /\
  match rec_end (v1_to_std (fun _ => None) (times_demo t1 t4)) with Ok t => same_number t (f64_of_f32 t4) | _ => false end = true.
Proof. repeat split; vm_compute; reflexivity. Qed.
(** Chronological order matters for the agreement: here the position captures are
    swapped, the functions for recordings look at the first and the last capture of a
    collection only, and miss time 1. *)
Theorem C48_unordered_refuted : ~ (forall parse_f32 m, (forall t, In t (v1_times m) -> is_nan t = false) ->
  exists mn, rec_start (v1_to_std parse_f32 m) = Ok mn /\ fle mn (v1_start m) = true).
Proof.
  intro H. destruct (H (fun _ => None) (times_demo t4 t1)) as (mn & E & Hle).
  { intros t Ht. repeat (destruct Ht as [<-|Ht]; [reflexivity|]). destruct Ht. }
  assert (E' : match rec_start (v1_to_std (fun _ => None) (times_demo t4 t1)) with
               | Ok mn => fle mn (v1_start (times_demo t4 t1)) | _ => false end = false) by (vm_compute; reflexivity).
  rewrite E, Hle in E'. discriminate.
Qed.
Print Assumptions C48_unordered_refuted.
