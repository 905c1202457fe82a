(** Comparisons of floats, in terms of real numbers. *)
From Coq Require Import ZArith Reals Lra Lia.
From Flocq Require Import Core IEEE754.BinarySingleNaN IEEE754.Binary IEEE754.Bits.
From Verif Require Import Base Floats SpecFloat.
Local Open Scope R_scope.

Lemma xinf_pos : 0 < xinf.
Proof. apply bpow_gt_0. Qed.
Lemma finite_range : forall x, - xinf < B2R 53 1024 x < xinf.
Proof.
  intros x. pose proof (abs_B2R_lt_emax 53 1024 x) as H. apply Rabs_def2 in H.
  unfold xinf. split; [apply H | apply H].
Qed.
#[global] Opaque xinf.

Lemma xval_finite : forall x, is_finite 53 1024 x = true -> xval x = Some (B2R 53 1024 x).
Proof. now intros []. Qed.
Lemma xval_nan : forall x, xval x = None <-> is_nan 53 1024 x = true.
Proof. intros []; cbn; split; congruence. Qed.
Lemma xval_not_nan : forall x, is_nan 53 1024 x = false -> exists r, xval x = Some r.
Proof. intros []; cbn; try congruence; eauto. Qed.
Lemma xval_range : forall x r, xval x = Some r -> - xinf <= r <= xinf.
Proof.
  pose proof xinf_pos as H0.
  intros x r H. destruct (is_finite 53 1024 x) eqn:F.
  - rewrite xval_finite in H by assumption. injection H as <-.
    pose proof (finite_range x). lra.
  - destruct x as [s|s|s pl Hp|s m e Hm]; try discriminate.
    cbn in H. injection H as <-. destruct s; lra.
Qed.

Lemma compare_xval : forall x y a b, xval x = Some a -> xval y = Some b ->
  b64_compare x y = Some (Rcompare a b).
Proof.
  intros x y a b Hx Hy.
  destruct (is_finite 53 1024 x) eqn:Fx, (is_finite 53 1024 y) eqn:Fy.
  - rewrite xval_finite in Hx, Hy by assumption. injection Hx as <-. injection Hy as <-.
    apply Bcompare_correct; assumption.
  - destruct y as [s|s|s pl Hp|s m e Hm]; try discriminate.
    pose proof (finite_range x) as H.
    rewrite xval_finite in Hx by assumption. injection Hx as <-. cbn in Hy. injection Hy as <-.
    destruct s; [rewrite Rcompare_Gt by apply H | rewrite Rcompare_Lt by apply H];
      clear H; destruct x as [s'|s'|s' pl' Hp'|s' m' e' Hm']; try discriminate; reflexivity.
  - destruct x as [s|s|s pl Hp|s m e Hm]; try discriminate.
    pose proof (finite_range y) as H.
    rewrite xval_finite in Hy by assumption. injection Hy as <-. cbn in Hx. injection Hx as <-.
    destruct s; [rewrite Rcompare_Lt by apply H | rewrite Rcompare_Gt by apply H];
      clear H; destruct y as [s'|s'|s' pl' Hp'|s' m' e' Hm']; try discriminate; reflexivity.
  - pose proof xinf_pos as H0.
    destruct x as [s|s|s pl Hp|s m e Hm]; try discriminate;
    destruct y as [s'|s'|s' pl' Hp'|s' m' e' Hm']; try discriminate.
    cbn in Hx, Hy. injection Hx as <-. injection Hy as <-.
    destruct s, s'; cbn; f_equal; symmetry;
      (apply Rcompare_Lt; lra) || (apply Rcompare_Gt; lra) || (apply Rcompare_Eq; reflexivity).
Qed.

Lemma flt_iff : forall x y, flt x y = true <->
  exists a b, xval x = Some a /\ xval y = Some b /\ a < b.
Proof.
  intros x y. unfold flt. split.
  - destruct (xval x) as [a|] eqn:Ex.
    2:{ destruct x; try discriminate. }
    destruct (xval y) as [b|] eqn:Ey.
    2:{ destruct y; try discriminate. destruct x; discriminate. }
    rewrite (compare_xval x y a b) by assumption. intro H.
    exists a, b. repeat split; auto. destruct (Rcompare_spec a b); try discriminate. assumption.
  - intros (a & b & Hx & Hy & H). rewrite (compare_xval x y a b) by assumption.
    now rewrite Rcompare_Lt.
Qed.
Lemma fle_iff : forall x y, fle x y = true <->
  exists a b, xval x = Some a /\ xval y = Some b /\ a <= b.
Proof.
  intros x y. unfold fle. split.
  - destruct (xval x) as [a|] eqn:Ex.
    2:{ destruct x; try discriminate. }
    destruct (xval y) as [b|] eqn:Ey.
    2:{ destruct y; try discriminate. destruct x; discriminate. }
    rewrite (compare_xval x y a b) by assumption. intro H.
    exists a, b. repeat split; auto. destruct (Rcompare_spec a b); try discriminate; lra.
  - intros (a & b & Hx & Hy & H). rewrite (compare_xval x y a b) by assumption.
    destruct (Rcompare_spec a b); auto; lra.
Qed.
Lemma flt_false : forall x y a b, xval x = Some a -> xval y = Some b ->
  flt x y = false <-> b <= a.
Proof.
  intros x y a b Hx Hy. unfold flt. rewrite (compare_xval x y a b) by assumption.
  destruct (Rcompare_spec a b); split; intro; try discriminate; try reflexivity; lra.
Qed.
Lemma xval_fpinf : xval fpinf = Some (xinf).
Proof. reflexivity. Qed.
Lemma xval_fminf : xval fminf = Some (- xinf).
Proof. reflexivity. Qed.
Lemma xval_top : forall x, xval x = Some (xinf) -> x = fpinf.
Proof.
  intros x H. pose proof xinf_pos as H0.
  destruct (is_finite 53 1024 x) eqn:F.
  - rewrite xval_finite in H by assumption. injection H as H.
    pose proof (finite_range x). lra.
  - destruct x as [s|s|s pl Hp|s m e Hm]; try discriminate. cbn in H. injection H as H.
    destruct s; [lra | reflexivity].
Qed.
Lemma xval_bot : forall x, xval x = Some (- xinf) -> x = fminf.
Proof.
  intros x H. pose proof xinf_pos as H0.
  destruct (is_finite 53 1024 x) eqn:F.
  - rewrite xval_finite in H by assumption. injection H as H.
    pose proof (finite_range x). lra.
  - destruct x as [s|s|s pl Hp|s m e Hm]; try discriminate. cbn in H. injection H as H.
    destruct s; [reflexivity | lra].
Qed.
