(** Slice, Validate, RecordingStart/End/Duration. *)
From Coq Require Import ZArith Reals Lra Lia Sorted Permutation.
From Verif Require Import Base BaseFacts Floats SpecFloat FloatFacts Metadata Recording SpecRec.

Lemma map_res_ok : forall {A B} (f : A -> res B) (P : A -> B -> Prop) l,
  (forall x, In x l -> exists y, f x = Ok y /\ P x y) ->
  exists ys, map_res f l = Ok ys /\ Forall2 P l ys.
Proof.
  intros A B f P l. induction l as [|x l IH]; intro H; cbn [map_res].
  - eauto.
  - destruct (H x) as (y & -> & Hy); [now left|].
    destruct IH as (ys & -> & Hys); [intros; apply H; now right|].
    cbn [bind]. eauto.
Qed.
Lemma map_res_inv : forall {A B} (f : A -> res B) l ys,
  map_res f l = Ok ys -> Forall2 (fun x y => f x = Ok y) l ys.
Proof.
  intros A B f l. induction l as [|x l IH]; intros ys H; cbn [map_res] in H.
  - apply ok_inj in H. subst. constructor.
  - apply bind_ok in H as (y & Hy & H). apply bind_ok in H as (zs & Hz & H).
    apply ok_inj in H. subst. constructor; auto.
Qed.

(** options *)
Lemma slice_opts_fold : forall l o,
  fold_left apply_slice_opt l o =
  mkSO (begin_opt (so_begin o) l) (end_opt (so_end o) l) (keep_opt (so_keep o) l).
Proof.
  induction l as [|x l IH]; intros [b e k]; [reflexivity|].
  cbn [fold_left begin_opt end_opt keep_opt].
  rewrite IH. destruct x; reflexivity.
Qed.
Lemma slice_opts_spec : forall l,
  slice_opts_of l = mkSO (begin_opt fminf l) (end_opt fpinf l) (keep_opt true l).
Proof. intro l. unfold slice_opts_of. now rewrite slice_opts_fold. Qed.

Lemma slice_caps_filter : forall A b e (l : list (f64 * A)), slice_caps b e l = kept b e l.
Proof.
  induction l as [|c l IH]; [reflexivity|]. unfold kept in *. cbn [slice_caps filter].
  change (falls_within (fst c) b e) with (within b e (fst c)).
  now rewrite IH.
Qed.
Lemma slice_times_filter : forall b e l, slice_times b e l = filter (within b e) l.
Proof.
  induction l as [|t l IH]; [reflexivity|]. cbn [slice_times filter].
  change (falls_within t b e) with (within b e t). now rewrite IH.
Qed.
Lemma c_slice_sliced : forall b e c, coll_sliced b e c (c_slice b e c).
Proof.
  intros b e [n body]. split; [reflexivity|].
  destruct body; cbn; try apply slice_caps_filter.
  - split; [reflexivity | apply slice_caps_filter].
  - split; [reflexivity | apply slice_times_filter].
Qed.
Lemma coll_sliced_fun : forall b e c c1, coll_sliced b e c c1 -> c1 = c_slice b e c.
Proof.
  intros b e [n body] [n1 body1] [Hn H]. cbn in Hn, H. subst n1. unfold c_slice. cbn.
  f_equal. destruct body, body1; try contradiction; rewrite ?slice_caps_filter, ?slice_times_filter;
    try congruence; destruct H; congruence.
Qed.

Theorem slice_ok : forall opts r, no_nil r ->
  exists r', slice opts r = Ok r' /\
             sliced (begin_opt fminf opts) (end_opt fpinf opts) (keep_opt true opts) r r'.
Proof.
  intros opts r. induction r as [id name colls recs md bins refs IH] using recording_ind'.
  intro Hn. inversion Hn as [? ? ? ? ? ? ? Hc Hr]; subst. cbn [slice].
  rewrite slice_opts_spec. cbn [so_begin so_end so_keep].
  edestruct (map_res_ok (fun c => match c with
      | None => Panic | Some c => do c' <- slice opts c; Ok (Some c') end)
    (fun o o' => exists c c', o = Some c /\ o' = Some c' /\
        sliced (begin_opt fminf opts) (end_opt fpinf opts) (keep_opt true opts) c c') recs)
    as (recs' & -> & Hrecs).
  { intros o Ho. destruct (Hr o Ho) as (c & -> & Hcn). destruct (IH c Ho Hcn) as (c' & -> & Hs).
    cbn. exists (Some c'). split; eauto. }
  cbn [bind].
  edestruct (map_res_ok (fun c => match c with
      | None => Panic
      | Some c => Ok (Some (c_slice (begin_opt fminf opts) (end_opt fpinf opts) c)) end)
    (fun o o' => exists c c', o = Some c /\ o' = Some c' /\
        coll_sliced (begin_opt fminf opts) (end_opt fpinf opts) c c') colls)
    as (colls' & -> & Hcolls).
  { intros o Ho. destruct o as [c|]; [|now apply Hc in Ho].
    exists (Some (c_slice (begin_opt fminf opts) (end_opt fpinf opts) c)).
    split; [reflexivity|]. exists c. eexists. repeat split; try apply c_slice_sliced. }
  cbn [bind]. eexists. split; [reflexivity|]. now constructor.
Qed.

Theorem slice_nil_panics : forall opts r r', slice opts r = Ok r' -> no_nil r.
Proof.
  intros opts r. induction r as [id name colls recs md bins refs IH] using recording_ind'.
  intros r' H. cbn [slice] in H. apply bind_ok in H as (rs & Hrs & H).
  apply bind_ok in H as (cs & Hcs & _). apply map_res_inv in Hrs, Hcs. constructor.
  - intros o Ho ->. revert Ho. induction Hcs as [|x y l l' Hxy Hl IHl]; [now intros []|].
    intros [->|H]; [discriminate | auto].
  - intros o Ho.
    assert (exists o', match o with
      | None => Panic | Some c => do c' <- slice opts c; Ok (Some c') end = Ok o') as [o' E].
    { clear IH. revert Ho. induction Hrs as [|x y l l' Hxy Hl IHl]; [now intros []|].
      intros [->|H]; [eauto | auto]. }
    destruct o as [c|]; [|discriminate]. exists c. split; [reflexivity|].
    apply bind_ok in E as (c' & E & _). eapply IH; eauto.
Qed.

(** the relation determines the result *)
Theorem sliced_fun : forall b e k r r1 r2, sliced b e k r r1 -> sliced b e k r r2 -> r1 = r2.
Proof.
  intros b e k r. induction r as [id name colls recs md bins refs IH] using recording_ind'.
  intros r1 r2 H1 H2. inversion H1 as [? ? ? cs1 ? rs1 ? ? ? Hc1 Hr1]; subst.
  inversion H2 as [? ? ? cs2 ? rs2 ? ? ? Hc2 Hr2]; subst. f_equal.
  - clear -Hc1 Hc2. revert cs2 Hc2.
    induction Hc1 as [|x y l l' (c & c' & -> & -> & H) Hl IHl]; intros cs2 Hc2;
      inversion Hc2 as [|? ? ? ? (d & d' & Hd & -> & H') ?]; subst; [reflexivity|].
    injection Hd as <-. f_equal; auto. f_equal.
    rewrite (coll_sliced_fun _ _ _ _ H). now rewrite (coll_sliced_fun _ _ _ _ H').
  - clear -Hr1 Hr2 IH. revert rs2 Hr2.
    induction Hr1 as [|x y l l' (c & c' & -> & -> & H) Hl IHl]; intros rs2 Hr2;
      inversion Hr2 as [|? ? ? ? (d & d' & Hd & -> & H') ?]; subst; [reflexivity|].
    injection Hd as <-. f_equal.
    + f_equal. eapply IH; eauto. now left.
    + apply IHl; auto. intros c0 Hin. apply IH. now right.
Qed.
Lemma sliced_no_nil : forall b e k r r', sliced b e k r r' -> no_nil r'.
Proof.
  intros b e k r. induction r as [id name colls recs md bins refs IH] using recording_ind'.
  intros r' H. inversion H as [? ? ? cs ? rs ? ? ? Hc Hr]; subst. constructor.
  - intros o Ho ->. clear -Ho Hc. induction Hc as [|x y l l' (c & c' & -> & -> & H) Hl IHl]; [destruct Ho|].
    destruct Ho as [H'|Ho]; [discriminate | auto].
  - intros o Ho. clear -Ho Hr IH. induction Hr as [|x y l l' (c & c' & -> & -> & H) Hl IHl]; [destruct Ho|].
    destruct Ho as [<-|Ho].
    + exists c'. split; [reflexivity|]. eapply IH; eauto. now left.
    + apply IHl; auto. intros c0 Hin. apply IH. now right.
Qed.

(** composition: filters compose *)
Lemma filter_filter : forall A (f g : A -> bool) l,
  filter f (filter g l) = filter (fun x => g x && f x) l.
Proof.
  induction l as [|x l IH]; [reflexivity|]. cbn [filter].
  destruct (g x) eqn:Eg; cbn [filter andb]; rewrite IH; auto.
Qed.
Lemma coll_sliced_compose : forall b1 e1 b2 e2 b e c c1 c2,
  (forall t, within b e t = within b1 e1 t && within b2 e2 t) ->
  coll_sliced b1 e1 c c1 -> coll_sliced b2 e2 c1 c2 -> coll_sliced b e c c2.
Proof.
  intros b1 e1 b2 e2 b e c c1 c2 Hw [N1 H1] [N2 H2]. split; [congruence|].
  assert (K : forall A (l : list (f64 * A)), kept b2 e2 (kept b1 e1 l) = kept b e l).
  { intros. unfold kept. rewrite filter_filter. apply filter_ext. intro. now rewrite Hw. }
  destruct (c_body c), (c_body c1), (c_body c2); try contradiction; subst; auto.
  - destruct H1, H2. subst. auto.
  - destruct H1, H2. subst. split; [reflexivity|]. rewrite filter_filter. apply filter_ext.
    intro. now rewrite Hw.
Qed.
Theorem sliced_compose : forall b1 e1 k1 b2 e2 k2 b e r r1 r2,
  (forall t, within b e t = within b1 e1 t && within b2 e2 t) ->
  sliced b1 e1 k1 r r1 -> sliced b2 e2 k2 r1 r2 -> sliced b e (k1 && k2) r r2.
Proof.
  intros b1 e1 k1 b2 e2 k2 b e r.
  induction r as [id name colls recs md bins refs IH] using recording_ind'.
  intros r1 r2 Hw H1 H2. inversion H1 as [? ? ? cs1 ? rs1 ? ? ? Hc1 Hr1]; subst.
  inversion H2 as [? ? ? cs2 ? rs2 ? ? ? Hc2 Hr2]; subst.
  replace (if k2 then if k1 then bins else [] else [])
    with (if k1 && k2 then bins else []) by (now destruct k1, k2).
  constructor.
  - clear -Hc1 Hc2 Hw. revert cs2 Hc2.
    induction Hc1 as [|x y l l' (c & c' & -> & -> & H) Hl IHl]; intros cs2 Hc2;
      inversion Hc2 as [|? ? ? ? (d & d' & Hd & -> & H') ?]; subst; [constructor|].
    injection Hd as <-. constructor; auto. exists c, d'. repeat split; auto;
      eapply coll_sliced_compose; eauto.
  - clear -Hr1 Hr2 Hw IH. revert rs2 Hr2.
    induction Hr1 as [|x y l l' (c & c' & -> & -> & H) Hl IHl]; intros rs2 Hr2;
      inversion Hr2 as [|? ? ? ? (d & d' & Hd & -> & H') ?]; subst; [constructor|].
    injection Hd as <-. constructor.
    + exists c, d'. repeat split; auto. eapply IH; eauto. now left.
    + apply IHl; auto. intros c0 Hin. apply IH. now right.
Qed.

(** intersection of intervals *)
Definition later (a b : f64) : f64 := if flt a b then b else a.
Definition earlier (a b : f64) : f64 := if flt b a then b else a.
Lemma within_iff : forall b e t, within b e t = true <->
  exists x y z, xval b = Some x /\ xval t = Some y /\ xval e = Some z /\ (x <= y < z)%R.
Proof.
  intros b e t. unfold within. rewrite andb_true_iff, fle_iff, flt_iff. split.
  - intros [(x & y & Hx & Hy & H) (y' & z & Hy' & Hz & H')].
    rewrite Hy in Hy'. injection Hy' as <-. exists x, y, z. auto.
  - intros (x & y & z & Hx & Hy & Hz & H). split; [exists x, y | exists y, z]; intuition.
Qed.
Lemma bool_eq : forall a b : bool, (a = true <-> b = true) -> a = b.
Proof. intros [] []; intuition. Qed.
Lemma within_intersection : forall b1 e1 b2 e2,
  is_nan b1 = false -> is_nan b2 = false -> is_nan e1 = false -> is_nan e2 = false ->
  forall t, within (later b1 b2) (earlier e1 e2) t = within b1 e1 t && within b2 e2 t.
Proof.
  intros b1 e1 b2 e2 Hb1 Hb2 He1 He2 t.
  apply xval_not_nan in Hb1 as [x1 Hb1]. apply xval_not_nan in Hb2 as [x2 Hb2].
  apply xval_not_nan in He1 as [z1 He1]. apply xval_not_nan in He2 as [z2 He2].
  apply bool_eq. rewrite andb_true_iff, !within_iff. unfold later, earlier.
  assert (Hl : xval (if flt b1 b2 then b2 else b1) = Some (Rmax x1 x2)).
  { destruct (flt b1 b2) eqn:E.
    - apply flt_iff in E as (a & b & Ha & Hb & E). rewrite Rmax_right; congruence || (rewrite Hb1 in Ha; rewrite Hb2 in Hb; injection Ha as <-; injection Hb as <-; lra).
    - apply (flt_false _ _ x1 x2) in E; auto. rewrite Rmax_left by assumption. assumption. }
  assert (He : xval (if flt e2 e1 then e2 else e1) = Some (Rmin z1 z2)).
  { destruct (flt e2 e1) eqn:E.
    - apply flt_iff in E as (a & b & Ha & Hb & E). rewrite He2 in Ha; rewrite He1 in Hb.
      injection Ha as <-. injection Hb as <-. rewrite Rmin_right by lra. assumption.
    - apply (flt_false _ _ z2 z1) in E; auto. rewrite Rmin_left by assumption. assumption. }
  rewrite Hl, He. split.
  - intros (x & y & z & Hx & Hy & Hz & H). injection Hx as <-. injection Hz as <-.
    unfold Rmax, Rmin in H. destruct (Rle_dec x1 x2), (Rle_dec z1 z2);
      split; [exists x1, y, z1|exists x2, y, z2|exists x1, y, z1|exists x2, y, z2
             |exists x1, y, z1|exists x2, y, z2|exists x1, y, z1|exists x2, y, z2];
      repeat split; auto; lra.
  - intros [(a1 & y & c1 & Ha1 & Hy & Hc1 & H1) (a2 & y' & c2 & Ha2 & Hy' & Hc2 & H2)].
    rewrite Hy in Hy'. injection Hy' as <-.
    assert (a1 = x1) by congruence. assert (a2 = x2) by congruence.
    assert (c1 = z1) by congruence. assert (c2 = z2) by congruence. subst.
    exists (Rmax x1 x2), y, (Rmin z1 z2). repeat split; auto.
    + apply Rmax_lub; lra.
    + apply Rmin_glb_lt; lra.
Qed.
Lemma within_self : forall b e t, within b e t = within b e t && within b e t.
Proof. intros. now destruct (within b e t). Qed.

(** splitting *)
Lemma within_split : forall b m e t, fle b m = true -> fle m e = true ->
  within b e t = within b m t || within m e t /\ within b m t && within m e t = false.
Proof.
  intros b m e t Hbm Hme.
  apply fle_iff in Hbm as (x & y & Hx & Hy & H1). apply fle_iff in Hme as (y' & z & Hy' & Hz & H2).
  rewrite Hy in Hy'. injection Hy' as <-. unfold within.
  destruct (xval t) as [u|] eqn:Ht.
  - assert (A : fle b t = if Rle_dec x u then true else false).
    { destruct (Rle_dec x u) as [H|H].
      - apply fle_iff. exists x, u. auto.
      - apply not_true_is_false. rewrite fle_iff. intros (a & c & Ha & Hc & Hac).
        assert (a = x) by congruence. assert (c = u) by congruence. subst. lra. }
    assert (B : fle m t = if Rle_dec y u then true else false).
    { destruct (Rle_dec y u) as [H|H].
      - apply fle_iff. exists y, u. auto.
      - apply not_true_is_false. rewrite fle_iff. intros (a & c & Ha & Hc & Hac).
        assert (a = y) by congruence. assert (c = u) by congruence. subst. lra. }
    assert (C : flt t m = if Rle_dec y u then false else true).
    { destruct (Rle_dec y u) as [H|H].
      - apply (flt_false t m u y); auto.
      - apply flt_iff. exists u, y. repeat split; auto. lra. }
    assert (D : flt t e = if Rle_dec z u then false else true).
    { destruct (Rle_dec z u) as [H|H].
      - apply (flt_false t e u z); auto.
      - apply flt_iff. exists u, z. repeat split; auto. lra. }
    rewrite A, B, C, D.
    destruct (Rle_dec x u), (Rle_dec y u), (Rle_dec z u); cbn; auto; lra.
  - destruct t; try discriminate. destruct b, m, e; auto.
Qed.
Lemma filter_partition : forall A (f g h : A -> bool) l,
  (forall x, h x = f x || g x /\ f x && g x = false) ->
  Permutation (filter h l) (filter f l ++ filter g l).
Proof.
  intros A f g h l H. induction l as [|x l IH]; [constructor|]. cbn [filter].
  destruct (H x) as [-> Hx]. destruct (f x), (g x); try discriminate; cbn [orb app].
  - now constructor.
  - now apply Permutation_cons_app.
  - assumption.
Qed.
(** in a sorted list the early part comes first *)
Lemma filter_partition_sorted : forall A (f g h : A -> bool) l,
  (forall x, h x = f x || g x /\ f x && g x = false) ->
  StronglySorted (fun x y => g x = true -> f y = false) l ->
  filter h l = filter f l ++ filter g l.
Proof.
  intros A f g h l H Hs. induction l as [|x l IH]; [reflexivity|]. cbn [filter].
  inversion Hs as [|? ? Hs' Hx]; subst. rewrite IH by assumption.
  destruct (H x) as [-> Hfg]. destruct (f x), (g x) eqn:Eg; try discriminate; cbn [orb app]; auto.
  assert (E : filter f l = []).
  { clear -Hx. induction l as [|y l IHl]; [reflexivity|]. inversion Hx; subst. cbn [filter].
    rewrite H1 by reflexivity. auto. }
  now rewrite E.
Qed.

(** ** Chronology *)
Lemma chrono_scan_spec : forall l prev,
  chrono_scan prev l = true <->
  forall i t u, nth_error (prev :: l) i = Some t -> nth_error (prev :: l) (S i) = Some u ->
    flt u t = false.
Proof.
  induction l as [|x l IH]; intro prev; cbn [chrono_scan].
  - split; [|reflexivity]. intros _ i t u _ H. cbn in H. now destruct i.
  - destruct (flt x prev) eqn:E.
    + split; [discriminate|]. intro H. rewrite (H O prev x) in E; auto.
    + rewrite IH. split; intros H i t u Ht Hu.
      * destruct i as [|i]; [cbn in Ht, Hu; congruence|]. eapply (H i); eauto.
      * eapply (H (S i)); eauto.
Qed.
Lemma c_chrono_spec : forall c, c_chrono c = true <-> chronological c.
Proof.
  intro c. unfold c_chrono, chronological. destruct (c_times c) as [|t l] eqn:E.
  - split; [|reflexivity]. intros _ i t u H. now destruct i.
  - apply chrono_scan_spec.
Qed.
Lemma chrono_sorted : forall c, (forall t, In t (c_times c) -> is_nan t = false) ->
  chronological c <-> time_sorted c.
Proof.
  intros c Hn. unfold chronological, time_sorted. induction (c_times c) as [|x l IH].
  - split; [constructor|]. intros _ i t u H. now destruct i.
  - assert (Hl : forall t, In t l -> is_nan t = false) by (intros; apply Hn; now right).
    specialize (IH Hl). split.
    + intro H.
      assert (Hs : StronglySorted (fun t u : f64 => fle t u = true) l).
      { apply IH. intros i t u Ht Hu. apply (H (S i)); assumption. }
      constructor; [assumption|].
      destruct l as [|y l]; [constructor|].
      assert (Hxy : fle x y = true).
      { destruct (xval_not_nan x (Hn x (or_introl eq_refl))) as [a Ha].
        destruct (xval_not_nan y (Hl y (or_introl eq_refl))) as [b Hb].
        apply fle_iff. exists a, b. repeat split; auto.
        apply (flt_false y x b a Hb Ha). apply (H O); reflexivity. }
      constructor; [assumption|].
      inversion Hs as [|? ? _ Hy]; subst. eapply Forall_impl; [|exact Hy].
      cbn. intros z Hz. apply fle_iff in Hxy as (a & b & Ha & Hb & Hab).
      apply fle_iff in Hz as (b' & d & Hb' & Hd & Hbd). apply fle_iff. exists a, d.
      repeat split; auto. assert (b' = b) by congruence. subst. lra.
    + intros H i t u Ht Hu. inversion H as [|? ? Hs Hx]; subst.
      assert (Htu : fle t u = true).
      { destruct i as [|i].
        - cbn in Ht. injection Ht as <-. rewrite Forall_forall in Hx. apply Hx.
          eapply (nth_error_In l 0). exact Hu.
        - apply IH with (i := i) (t := t) (u := u) in Hs; [|exact Ht|exact Hu].
          destruct (xval_not_nan t (Hn t (nth_error_In _ _ Ht))) as [a Ha].
          destruct (xval_not_nan u (Hn u (nth_error_In _ _ Hu))) as [b Hb].
          apply fle_iff. exists a, b. repeat split; auto. now apply (flt_false u t b a Hb Ha). }
      apply fle_iff in Htu as (a & b & Ha & Hb & Hab).
      now apply (flt_false u t b a Hb Ha).
Qed.

(** the nested loops of Validate as functions on lists *)
Section ValRecs.
  Variable opts : list bool.
  Fixpoint val_recs (l : list (option recording)) : res bool :=
    match l with
    | [] => Ok true
    | None :: _ => Panic
    | Some c :: l' => do b <- validate opts c; if b then val_recs l' else Ok false
    end.
End ValRecs.
Fixpoint val_colls (l : list (option coll)) : res bool :=
  match l with
  | [] => Ok true
  | None :: _ => Panic
  | Some c :: l' => if c_chrono c then val_colls l' else Ok false
  end.
Lemma validate_unfold : forall opts id name colls recs md bins refs,
  validate opts (mkRec id name colls recs md bins refs) =
  (do ok <- val_recs opts recs;
   if ok then if validate_opts_of opts then val_colls colls else Ok true else Ok false).
Proof. reflexivity. Qed.

Theorem validate_spec : forall opts r, no_nil r ->
  exists ok, validate opts r = Ok ok /\
    (ok = true <-> (validate_opts_of opts = true ->
                    forall c, In c (tree_colls r) -> chronological c)).
Proof.
  intros opts r. induction r as [id name colls recs md bins refs IH] using recording_ind'.
  intro Hn. inversion Hn as [? ? ? ? ? ? ? Hc Hr]; subst. rewrite validate_unfold.
  cbn [tree_colls].
  set (F := fun o : option recording => match o with Some c => tree_colls c | None => [] end).
  set (G := fun o : option coll => match o with Some c => [c] | None => [] end).
  assert (H1 : exists ok, val_recs opts recs = Ok ok /\
     (ok = true <-> (validate_opts_of opts = true ->
                     forall c, In c (flat_map F recs) -> chronological c))).
  { clear Hn Hc. induction recs as [|o recs IHr]; cbn [val_recs flat_map].
    - exists true. split; [reflexivity|]. split; [|reflexivity]. intros _ _ c [].
    - destruct (Hr o) as (c & -> & Hcn); [now left|].
      destruct (IH c (or_introl eq_refl) Hcn) as (ok & -> & Hok). cbn [bind].
      destruct ok.
      + destruct IHr as (ok' & E & Hok'); [intros; apply IH; auto; now right
          | intros; apply Hr; now right|].
        exists ok'. split; [assumption|]. rewrite Hok'. split; intros H Hv d Hd.
        * apply in_app_or in Hd as [Hd|Hd]; [now apply Hok | auto].
        * apply H; auto. apply in_or_app. now right.
      + exists false. split; [reflexivity|]. rewrite Hok. split; intros H Hv d Hd.
        * exfalso. assert (false = true) by (apply Hok; assumption). discriminate.
        * apply H; auto. apply in_or_app. now left. }
  destruct H1 as (ok & -> & Hok). cbn [bind].
  assert (H2 : exists ok, val_colls colls = Ok ok /\
     (ok = true <-> forall c, In c (flat_map G colls) -> chronological c)).
  { clear -Hc. induction colls as [|o colls IHc]; cbn [val_colls flat_map].
    - exists true. split; [reflexivity|]. split; [|reflexivity]. intros _ c [].
    - destruct o as [c|]; [|exfalso; apply (Hc None); [now left | reflexivity]].
      destruct (c_chrono c) eqn:E.
      + destruct IHc as (ok' & E' & Hok'); [intros; apply Hc; now right|].
        exists ok'. split; [assumption|]. rewrite Hok'. cbn [app]. split; intros H d Hd.
        * destruct Hd as [<-|Hd]; [now apply c_chrono_spec | auto].
        * apply H. now right.
      + exists false. split; [reflexivity|]. split; [discriminate|]. intro H.
        rewrite <- E. apply c_chrono_spec, H. now left. }
  destruct H2 as (ok2 & E2 & Hok2).
  destruct ok.
  - destruct (validate_opts_of opts) eqn:Ev.
    + exists ok2. split; [assumption|]. rewrite Hok2. split; intros H.
      * intros _ c Hin. apply in_app_or in Hin as [Hin|Hin]; [auto | now apply Hok].
      * intros c Hin. apply H; auto. apply in_or_app. now left.
    + exists true. split; [reflexivity|]. split; [discriminate | reflexivity].
  - exists false. split; [reflexivity|]. rewrite Hok. split; intros H Hv d Hd.
    + exfalso. assert (false = true) by (apply Hok; assumption). discriminate.
    + apply H; auto. apply in_or_app. now right.
Qed.

Lemma last_cons : forall A (l : list A) x d, last (x :: l) d = last l x.
Proof.
  induction l as [|y l IH]; intros x d; [reflexivity|].
  change (last (x :: y :: l) d) with (last (y :: l) d). now rewrite !IH.
Qed.
Lemma validate_opts_last : forall l d, fold_left (fun _ b : bool => b) l d = last l d.
Proof.
  induction l as [|x l IH]; intro d; [reflexivity|]. cbn [fold_left]. now rewrite IH, last_cons.
Qed.

(** slicing keeps chronology when times are not NaN *)
Lemma filter_sorted : forall A (R : A -> A -> Prop) f l,
  StronglySorted R l -> StronglySorted R (filter f l).
Proof.
  intros A R f l H. induction H as [|x l Hs IH Hx]; [constructor|]. cbn [filter].
  destruct (f x); [|assumption]. constructor; [assumption|].
  rewrite Forall_forall in *. intros y Hy. apply filter_In in Hy as [Hy _]. auto.
Qed.
Lemma coll_sliced_times : forall b e c c', coll_sliced b e c c' ->
  c_times c' = filter (within b e) (c_times c).
Proof.
  intros b e c c' [_ H]. unfold c_times.
  assert (K : forall A (l : list (f64 * A)), map fst (kept b e l) = filter (within b e) (map fst l)).
  { induction l as [|x l IH]; [reflexivity|]. unfold kept in *. cbn.
    destruct (within b e (fst x)); cbn; now rewrite IH. }
  destruct (c_body c), (c_body c'); try contradiction; subst; auto;
    destruct H; subst; auto.
Qed.
Lemma sliced_tree_colls : forall b e k r r', sliced b e k r r' ->
  Forall2 (coll_sliced b e) (tree_colls r) (tree_colls r').
Proof.
  intros b e k r. induction r as [id name colls recs md bins refs IH] using recording_ind'.
  intros r' H. inversion H as [? ? ? cs ? rs ? ? ? Hc Hr]; subst. cbn [tree_colls].
  apply Forall2_app.
  - clear -Hc. induction Hc as [|x y l l' (c & c' & -> & -> & H) Hl IHl]; [constructor|].
    cbn [flat_map app]. constructor; auto.
  - clear -Hr IH. induction Hr as [|x y l l' (c & c' & -> & -> & H) Hl IHl]; [constructor|].
    cbn [flat_map]. apply Forall2_app.
    + eapply IH; eauto. now left.
    + apply IHl. intros; eapply IH; eauto. now right.
Qed.
Lemma Forall2_in_r : forall A B (R : A -> B -> Prop) l l', Forall2 R l l' ->
  forall y, In y l' -> exists x, In x l /\ R x y.
Proof.
  intros A B R l l' H. induction H as [|x y l l' Hxy Hl IH]; intros z Hz; [destruct Hz|].
  destruct Hz as [<-|Hz].
  - exists x. split; [now left | assumption].
  - destruct (IH z Hz) as (w & Hw & Hr). exists w. split; [now right | assumption].
Qed.
Lemma sliced_chrono : forall b e k r r', sliced b e k r r' -> nan_free r ->
  (forall c, In c (tree_colls r) -> chronological c) ->
  (forall c, In c (tree_colls r') -> chronological c).
Proof.
  intros b e k r r' H Hn Hv c' Hc'.
  destruct (Forall2_in_r _ _ _ _ _ (sliced_tree_colls _ _ _ _ _ H) c' Hc') as (c & Hc & Hs).
  assert (Hnc : forall t, In t (c_times c) -> is_nan t = false).
  { intros t Ht. apply Hn. unfold tree_times. apply in_flat_map. eauto. }
  specialize (Hv c Hc). rewrite chrono_sorted in Hv by assumption.
  apply chrono_sorted.
  - intros t Ht. rewrite (coll_sliced_times _ _ _ _ Hs) in Ht. apply filter_In in Ht as [Ht _]. auto.
  - unfold time_sorted in *. rewrite (coll_sliced_times _ _ _ _ Hs). now apply filter_sorted.
Qed.

(** ** Start and end *)
Fixpoint start_recs (l : list (option recording)) (m : f64) : res f64 :=
  match l with
  | [] => Ok m
  | None :: _ => Panic
  | Some c :: l' => do x <- rec_start c; start_recs l' (if flt x m then x else m)
  end.
Fixpoint start_colls (l : list (option coll)) (m : f64) : res f64 :=
  match l with
  | [] => Ok m
  | None :: _ => Panic
  | Some c :: l' =>
      start_colls l' match c_times c with
                     | [] => m
                     | t :: _ => if flt t m then t else m
                     end
  end.
Lemma rec_start_unfold : forall id name colls recs md bins refs,
  rec_start (mkRec id name colls recs md bins refs) =
  (do m <- start_recs recs fpinf; start_colls colls m).
Proof. reflexivity. Qed.
Fixpoint end_recs (l : list (option recording)) (m : f64) : res f64 :=
  match l with
  | [] => Ok m
  | None :: _ => Panic
  | Some c :: l' => do x <- rec_end c; end_recs l' (if fgt x m then x else m)
  end.
Fixpoint end_colls (l : list (option coll)) (m : f64) : res f64 :=
  match l with
  | [] => Ok m
  | None :: _ => Panic
  | Some c :: l' =>
      end_colls l' match c_times c with
                   | [] => m
                   | t :: ts => let x := last ts t in if fgt x m then x else m
                   end
  end.
Lemma rec_end_unfold : forall id name colls recs md bins refs,
  rec_end (mkRec id name colls recs md bins refs) =
  (do m <- end_recs recs fminf; end_colls colls m).
Proof. reflexivity. Qed.

(** [mn] is the least of [l] and +Inf *)
Definition inf_of (mn : f64) (l : list f64) : Prop :=
  is_nan mn = false /\ (mn = fpinf \/ In mn l) /\ forall t, In t l -> fle mn t = true.
Definition sup_of (mx : f64) (l : list f64) : Prop :=
  is_nan mx = false /\ (mx = fminf \/ In mx l) /\ forall t, In t l -> fle t mx = true.

Lemma fle_trans : forall a b c, fle a b = true -> fle b c = true -> fle a c = true.
Proof.
  intros a b c H1 H2. apply fle_iff in H1 as (x & y & Hx & Hy & H1).
  apply fle_iff in H2 as (y' & z & Hy' & Hz & H2). apply fle_iff. exists x, z.
  repeat split; auto. assert (y' = y) by congruence. subst. lra.
Qed.
Lemma fle_refl : forall a, is_nan a = false -> fle a a = true.
Proof.
  intros a H. apply xval_not_nan in H as [x H]. apply fle_iff. exists x, x. repeat split; auto. lra.
Qed.
Lemma fle_total : forall a b, is_nan a = false -> is_nan b = false -> flt a b = false -> fle b a = true.
Proof.
  intros a b Ha Hb H. apply xval_not_nan in Ha as [x Ha]. apply xval_not_nan in Hb as [y Hb].
  apply fle_iff. exists y, x. repeat split; auto. now apply (flt_false a b x y).
Qed.
Lemma flt_le : forall a b, flt a b = true -> fle a b = true.
Proof.
  intros a b H. apply flt_iff in H as (x & y & Hx & Hy & H). apply fle_iff. exists x, y.
  repeat split; auto. lra.
Qed.
Lemma inf_of_join : forall a l b l', inf_of a l -> inf_of b l' ->
  inf_of (if flt b a then b else a) (l ++ l').
Proof.
  intros a l b l' (Na & Ia & La) (Nb & Ib & Lb). destruct (flt b a) eqn:E.
  - apply flt_le in E. split; [assumption|]. split.
    + destruct Ib; [now left | right; apply in_or_app; now right].
    + intros t Ht. apply in_app_or in Ht as [Ht|Ht]; [|auto]. eapply fle_trans; eauto.
  - apply fle_total in E; auto. split; [assumption|]. split.
    + destruct Ia; [now left | right; apply in_or_app; now left].
    + intros t Ht. apply in_app_or in Ht as [Ht|Ht]; [auto|]. eapply fle_trans; eauto.
Qed.
Lemma sup_of_join : forall a l b l', sup_of a l -> sup_of b l' ->
  sup_of (if fgt b a then b else a) (l ++ l').
Proof.
  intros a l b l' (Na & Ia & La) (Nb & Ib & Lb). unfold fgt. destruct (flt a b) eqn:E.
  - apply flt_le in E. split; [assumption|]. split.
    + destruct Ib; [now left | right; apply in_or_app; now right].
    + intros t Ht. apply in_app_or in Ht as [Ht|Ht]; [|auto]. eapply fle_trans; eauto.
  - apply fle_total in E; auto. split; [assumption|]. split.
    + destruct Ia; [now left | right; apply in_or_app; now left].
    + intros t Ht. apply in_app_or in Ht as [Ht|Ht]; [auto|]. eapply fle_trans; eauto.
Qed.
Lemma inf_of_perm : forall a l l', Permutation l l' -> inf_of a l -> inf_of a l'.
Proof.
  intros a l l' H (Na & Ia & La). split; [assumption|]. split.
  - destruct Ia; [now left | right; eapply Permutation_in; eauto].
  - intros t Ht. apply La. eapply Permutation_in; [apply Permutation_sym; eauto | assumption].
Qed.
Lemma sup_of_perm : forall a l l', Permutation l l' -> sup_of a l -> sup_of a l'.
Proof.
  intros a l l' H (Na & Ia & La). split; [assumption|]. split.
  - destruct Ia; [now left | right; eapply Permutation_in; eauto].
  - intros t Ht. apply La. eapply Permutation_in; [apply Permutation_sym; eauto | assumption].
Qed.
Lemma sorted_first : forall t l, StronglySorted (fun a b => fle a b = true) (t :: l) ->
  is_nan t = false -> inf_of t (t :: l).
Proof.
  intros t l H Ht. inversion H as [|? ? _ Hx]; subst. rewrite Forall_forall in Hx.
  split; [assumption|]. split; [right; now left|]. intros u [<-|Hu]; auto using fle_refl.
Qed.
Lemma sorted_last : forall l t, StronglySorted (fun a b => fle a b = true) (t :: l) ->
  (forall u, In u (t :: l) -> is_nan u = false) -> sup_of (last l t) (t :: l).
Proof.
  induction l as [|x l IH]; intros t H Hn.
  - assert (is_nan t = false) by (apply Hn; now left).
    split; [assumption|]. split; [right; now left|]. intros u [<-|[]]. now apply fle_refl.
  - inversion H as [|? ? Hs Hx]; subst.
    destruct (IH x Hs) as (N1 & I1 & L1); [intros; apply Hn; now right|].
    assert (E : last (x :: l) t = last l x).
    { apply last_cons. }
    rewrite E. split; [assumption|]. split.
    + destruct I1 as [I1|I1]; [now left | right; now right].
    + intros u [<-|Hu]; [|auto]. eapply fle_trans; [|apply L1; now left].
      rewrite Forall_forall in Hx. apply Hx. now left.
Qed.

Lemma start_colls_ok : forall colls m l0,
  (forall o, In o colls -> o <> None) ->
  (forall c, In (Some c) colls -> time_sorted c /\ forall t, In t (c_times c) -> is_nan t = false) ->
  inf_of m l0 ->
  exists m', start_colls colls m = Ok m' /\
    inf_of m' (l0 ++ flat_map c_times
      (flat_map (fun o => match o with Some c => [c] | None => [] end) colls)).
Proof.
  induction colls as [|o colls IH]; intros m l0 Hc Hs Hm; cbn [start_colls flat_map].
  - exists m. now rewrite app_nil_r.
  - destruct o as [c|]; [|exfalso; apply (Hc None); [now left | reflexivity]].
    cbn [app flat_map]. rewrite app_assoc. apply IH.
    + intros; apply Hc; now right.
    + intros; apply Hs; now right.
    + destruct (Hs c) as [Hsc Hnc]; [now left|]. unfold time_sorted in Hsc.
      destruct (c_times c) as [|t ts]; [now rewrite app_nil_r|].
      apply inf_of_join; auto. apply sorted_first; auto. apply Hnc. now left.
Qed.
Lemma end_colls_ok : forall colls m l0,
  (forall o, In o colls -> o <> None) ->
  (forall c, In (Some c) colls -> time_sorted c /\ forall t, In t (c_times c) -> is_nan t = false) ->
  sup_of m l0 ->
  exists m', end_colls colls m = Ok m' /\
    sup_of m' (l0 ++ flat_map c_times
      (flat_map (fun o => match o with Some c => [c] | None => [] end) colls)).
Proof.
  induction colls as [|o colls IH]; intros m l0 Hc Hs Hm; cbn [end_colls flat_map].
  - exists m. now rewrite app_nil_r.
  - destruct o as [c|]; [|exfalso; apply (Hc None); [now left | reflexivity]].
    cbn [app flat_map]. rewrite app_assoc. apply IH.
    + intros; apply Hc; now right.
    + intros; apply Hs; now right.
    + destruct (Hs c) as [Hsc Hnc]; [now left|]. unfold time_sorted in Hsc.
      destruct (c_times c) as [|t ts]; [now rewrite app_nil_r|].
      apply sup_of_join; auto. apply sorted_last; auto.
Qed.
Lemma tree_colls_child : forall c d id name colls recs md bins refs,
  In (Some c) recs -> In d (tree_colls c) ->
  In d (tree_colls (mkRec id name colls recs md bins refs)).
Proof.
  intros. cbn [tree_colls]. apply in_or_app. right. apply in_flat_map. now exists (Some c).
Qed.
Lemma tree_colls_own : forall c id name colls recs md bins refs,
  In (Some c) colls -> In c (tree_colls (mkRec id name colls recs md bins refs)).
Proof.
  intros. cbn [tree_colls]. apply in_or_app. left. apply in_flat_map. exists (Some c).
  split; [assumption | now left].
Qed.

Theorem start_end_ok : forall r, no_nil r ->
  (forall c, In c (tree_colls r) -> time_sorted c) -> nan_free r ->
  exists mn mx, rec_start r = Ok mn /\ rec_end r = Ok mx /\
    inf_of mn (tree_times r) /\ sup_of mx (tree_times r).
Proof.
  induction r as [id name colls recs md bins refs IH] using recording_ind'.
  intros Hn Hs Hf. inversion Hn as [? ? ? ? ? ? ? Hc Hr]; subst.
  rewrite rec_start_unfold, rec_end_unfold.
  set (F := fun o : option recording => match o with Some c => tree_colls c | None => [] end).
  assert (Hfin : forall c, In c (tree_colls (mkRec id name colls recs md bins refs)) ->
                 forall t, In t (c_times c) -> is_nan t = false).
  { intros c Hin t Ht. apply Hf. unfold tree_times. apply in_flat_map. eauto. }
  assert (IH' : forall c, In (Some c) recs -> exists mn mx, rec_start c = Ok mn /\ rec_end c = Ok mx /\
    inf_of mn (tree_times c) /\ sup_of mx (tree_times c)).
  { intros c Hin. apply IH; auto.
    - destruct (Hr _ Hin) as (c' & E & H). injection E as ->. exact H.
    - intros d Hd. apply Hs. eapply tree_colls_child; eauto.
    - intros t Ht. unfold tree_times in Ht. apply in_flat_map in Ht as (d & Hd & Ht).
      eapply Hfin; eauto. eapply tree_colls_child; eauto. }
  assert (H1 : forall l a b l0, (forall o, In o l -> In o recs) -> inf_of a l0 -> sup_of b l0 ->
     exists mn mx, start_recs l a = Ok mn /\ end_recs l b = Ok mx /\
       inf_of mn (l0 ++ flat_map c_times (flat_map F l)) /\
       sup_of mx (l0 ++ flat_map c_times (flat_map F l))).
  { induction l as [|o l IHl]; intros a b l0 Hsub Ha Hb; cbn [start_recs end_recs flat_map].
    - rewrite app_nil_r. exists a, b. auto.
    - assert (Ho : In o recs) by (apply Hsub; now left).
      destruct (Hr o Ho) as (c & -> & _).
      destruct (IH' c Ho) as (x & y & -> & -> & Hx & Hy). cbn [bind].
      rewrite flat_map_app, app_assoc. apply IHl.
      + intros; apply Hsub; now right.
      + now apply inf_of_join.
      + now apply sup_of_join. }
  destruct (H1 recs fpinf fminf []) as (a & b & -> & -> & Ha & Hb); auto.
  { split; [reflexivity|]. split; [now left | intros t []]. }
  { split; [reflexivity|]. split; [now left | intros t []]. }
  cbn [bind app] in *.
  assert (Hown : forall c, In (Some c) colls -> time_sorted c /\ forall t, In t (c_times c) -> is_nan t = false).
  { intros c Hin. pose proof (tree_colls_own c id name colls recs md bins refs Hin). split; [auto | eauto]. }
  destruct (start_colls_ok colls a _ Hc Hown Ha) as (mn & -> & Hmn).
  destruct (end_colls_ok colls b _ Hc Hown Hb) as (mx & -> & Hmx).
  exists mn, mx. split; [reflexivity|]. split; [reflexivity|].
  unfold tree_times. cbn [tree_colls]. rewrite flat_map_app.
  split.
  - eapply inf_of_perm; [|exact Hmn]. apply Permutation_app_comm.
  - eapply sup_of_perm; [|exact Hmx]. apply Permutation_app_comm.
Qed.

Lemma inf_least : forall m l, inf_of m l -> l <> [] -> least m l.
Proof.
  intros m l (Hn & Hin & Hle) Hl. split; [|assumption]. destruct Hin as [->|]; [|assumption].
  destruct l as [|t l]; [congruence|]. left.
  specialize (Hle t (or_introl eq_refl)). apply fle_iff in Hle as (a & b & Ha & Hb & H).
  rewrite xval_fpinf in Ha. injection Ha as <-. apply xval_top. rewrite Hb. f_equal.
  pose proof (xval_range t b Hb). lra.
Qed.
Lemma sup_greatest : forall m l, sup_of m l -> l <> [] -> greatest m l.
Proof.
  intros m l (Hn & Hin & Hle) Hl. split; [|assumption]. destruct Hin as [->|]; [|assumption].
  destruct l as [|t l]; [congruence|]. left.
  specialize (Hle t (or_introl eq_refl)). apply fle_iff in Hle as (a & b & Ha & Hb & H).
  rewrite xval_fminf in Hb. injection Hb as <-. apply xval_bot. rewrite Ha. f_equal.
  pose proof (xval_range t a Ha). lra.
Qed.

Lemma map_kept : forall A B (f : f64 * A -> f64 * B) b e l, (forall x, fst (f x) = fst x) ->
  map f (kept b e l) = kept b e (map f l).
Proof.
  intros A B f b e l Hf. unfold kept. induction l as [|x l IH]; [reflexivity|]. cbn.
  rewrite Hf. destruct (within b e (fst x)); cbn; now rewrite IH.
Qed.
Lemma coll_sliced_captures : forall b e c c', coll_sliced b e c c' ->
  captures c' = kept b e (captures c).
Proof.
  intros b e c c' [_ H]. unfold captures.
  destruct (c_body c), (c_body c'); try contradiction; subst; try (apply map_kept; reflexivity).
  - destruct H; subst. apply map_kept. reflexivity.
  - destruct H; subst. unfold kept. induction times as [|x l IH]; [reflexivity|]. cbn.
    destruct (within b e x); cbn; now rewrite IH.
Qed.
Lemma captures_times : forall c, map fst (captures c) = c_times c.
Proof.
  intro c. unfold captures, c_times. destruct (c_body c); rewrite map_map; auto.
  rewrite <- (map_id times) at 2. reflexivity.
Qed.
Lemma Forall2_nth : forall A B (R : A -> B -> Prop) l l', Forall2 R l l' ->
  forall i x y, nth_error l i = Some x -> nth_error l' i = Some y -> R x y.
Proof.
  intros A B R l l' H. induction H as [|x y l l' Hxy Hl IH]; intros i a b Ha Hb.
  - destruct i; discriminate.
  - destruct i as [|i]; cbn in Ha, Hb; [congruence | eauto].
Qed.
Lemma kept_split : forall A b m e (l : list (f64 * A)),
  fle b m = true -> fle m e = true ->
  Permutation (kept b e l) (kept b m l ++ kept m e l) /\
  (StronglySorted (fun u v => fle u v = true) (map fst l) ->
   kept b e l = kept b m l ++ kept m e l).
Proof.
  intros A b m e l Hb He. split.
  - apply filter_partition. intro x. now apply within_split.
  - intro Hs. apply filter_partition_sorted; [intro x; now apply within_split|].
    clear -Hs. induction l as [|x l IH]; [constructor|]. cbn [map] in Hs.
    inversion Hs as [|? ? Hs' Hx]; subst. constructor; auto.
    rewrite Forall_forall in *. intros y Hy Hg.
    assert (Hxy : fle (fst x) (fst y) = true) by (apply Hx; now apply in_map).
    apply within_iff in Hg as (a & c & d & Ha & Hc & Hd & H).
    apply fle_iff in Hxy as (c' & u & Hc' & Hu & H').
    apply not_true_is_false. rewrite within_iff. intros (a' & u' & d' & Ha' & Hu' & Hd' & H'').
    assert (c' = c) by congruence. assert (u' = u) by congruence. assert (d' = a) by congruence.
    subst. lra.
Qed.
