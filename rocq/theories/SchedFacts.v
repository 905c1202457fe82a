(** Any two transports that deliver the same bytes are read alike, whatever the
    bytes are. *)
From Coq Require Import Lia.
From Verif Require Import Base BaseFacts IO Spec IOFacts Floats BinaryIO Metadata Recording Encoding TimeIO Writer Reader.
From Verif Require Import SpecFile LinkFacts SafeFacts.
Local Open Scope N_scope.

(** asking for more than there is *)
Lemma read_full_short : forall S (R : Reader S) eager I, delivers R eager I ->
  forall n s d, I s d -> lenN d < n ->
  exists s', read_full R n s = Ok (d, Some (match d with [] => EEOF | _ => EUnexpectedEOF end), s') /\ I s' [].
Proof.
  intros S R eager I HR n s d HI Hn. unfold read_full.
  assert (H : forall f need acc s d, I s d -> lenN d < need -> (length d < f)%nat ->
    exists s', read_at_least R f need acc s =
      Ok (acc ++ d, Some (match acc ++ d with [] => EEOF | _ => EUnexpectedEOF end), s') /\ I s' []).
  { induction f as [|f IH]; intros need acc s0 d0 HI0 Hneed Hf; [lia|]. cbn [read_at_least].
    destruct (N.eqb_spec need 0) as [H0|H0]; [lia|]. destruct d0 as [|b d0].
    - destruct (d_eof _ _ _ HR s0 need HI0 H0) as (s' & -> & HI'). cbn [bind].
      destruct (N.eqb_spec (need - lenN (@nil Coq.Init.Byte.byte)) 0) as [H1|H1]; [cbn in H1; lia|].
      exists s'. rewrite app_nil_r. split; [|assumption]. now destruct acc.
    - destruct (d_more _ _ _ HR s0 (b :: d0) need HI0) as (p & q & e & s' & -> & Epq & Hp & Hl & HI' & He); try congruence.
      cbn [bind]. rewrite Epq in *. rewrite lenN_app in Hneed. rewrite app_length in Hf.
      assert (Hlen : (0 < length p)%nat) by (destruct p; [congruence | cbn; lia]).
      destruct He as [->|(_ & -> & ->)].
      + destruct (IH (need - lenN p) (acc ++ p) s' q HI' ltac:(lia) ltac:(lia)) as (s'' & E & HI'').
        exists s''. rewrite app_assoc. auto.
      + cbn in Hneed. destruct (N.eqb_spec (need - lenN p) 0) as [H1|H1]; [lia|].
        exists s'. rewrite app_nil_r. split; [|assumption]. now destruct (acc ++ p). }
  pose proof (d_left _ _ _ HR s d HI) as Hl.
  destruct (H (Datatypes.S (rleft R s)) n [] s d HI Hn ltac:(lia)) as (s' & E & HI'). exists s'. split; [|assumption].
  exact E.
Qed.

Section Sched.
Context {S1 S2 : Type} (R1 : Reader S1) (R2 : Reader S2).
Context (I1 : S1 -> bytes -> Prop) (I2 : S2 -> bytes -> Prop).
Hypothesis H1 : delivers R1 false I1.
Hypothesis H2 : delivers R2 false I2.
Definition level (s1 : S1) (s2 : S2) : Prop := exists d, I1 s1 d /\ I2 s2 d.
Definition never (s : S1) : Prop := False.
Lemma one_level : linked level never True (rread R1 1) (rread R2 1).
Proof.
  split; [|contradiction]. intros s1 s2 (d & HI1 & HI2). destruct d as [|b d].
  - destruct (d_eof _ _ _ H1 s1 1 HI1) as (s1' & -> & HI1'); [discriminate|].
    destruct (d_eof _ _ _ H2 s2 1 HI2) as (s2' & -> & HI2'); [discriminate|].
    cbn. right. exists s2'. split; [reflexivity|]. now exists [].
  - destruct (read_byte_ok R1 false I1 (delivers_serves _ _ _ H1) s1 b d HI1 (or_introl eq_refl)) as (s1' & -> & HI1').
    destruct (read_byte_ok R2 false I2 (delivers_serves _ _ _ H2) s2 b d HI2 (or_introl eq_refl)) as (s2' & -> & HI2').
    cbn. right. exists s2'. split; [reflexivity|]. now exists d.
Qed.
Lemma full_level : forall n, linked level never True (read_full R1 n) (read_full R2 n).
Proof.
  intro n. split; [|contradiction]. intros s1 s2 (d & HI1 & HI2). destruct (N.le_gt_cases n (lenN d)) as [Hn|Hn].
  - rewrite <- (take_drop n d) in HI1, HI2.
    assert (Hlen : lenN (takeN n d) = n) by (rewrite lenN_take; lia).
    destruct (read_full_ok R1 _ I1 (delivers_serves _ _ _ H1) n s1 _ _ HI1 Hlen) as (s1' & -> & HI1').
    destruct (read_full_ok R2 _ I2 (delivers_serves _ _ _ H2) n s2 _ _ HI2 Hlen) as (s2' & -> & HI2').
    cbn. right. exists s2'. split; [reflexivity|]. now exists (dropN n d).
  - destruct (read_full_short _ R1 _ I1 H1 n s1 d HI1 Hn) as (s1' & -> & HI1').
    destruct (read_full_short _ R2 _ I2 H2 n s2 d HI2 Hn) as (s2' & -> & HI2').
    cbn. right. exists s2'. split; [reflexivity|]. now exists [].
Qed.
End Sched.

(** Reading the payload from readers that answer alike *)
Lemma payload_link : forall S1 S2 (R1 : Reader S1) (R2 : Reader S2) (Rel : S1 -> S2 -> Prop),
  linked Rel (fun _ => False) True (rread R1 1) (rread R2 1) ->
  (forall n, linked Rel (fun _ => False) True (read_full R1 n) (read_full R2 n)) ->
  forall encs n, linked Rel (fun _ => False) True (read_payload R1 encs n) (read_payload R2 encs n).
Proof.
  intros S1 S2 R1 R2 Rel Hone Hfull encs n.
  assert (Hds : forall s : S1, False -> ~ True) by contradiction.
  unfold read_payload. apply link_bind; [exact Hds | now apply read_headers_link|].
  intros [[hs n1] [e|]]; [apply link_ret|].
  apply link_bind; [exact Hds | now apply read_string_array_link|].
  intros [[keys m] [e|]]; [apply link_ret|]. cbv zeta.
  apply link_bind; [exact Hds | | intros [[rec m'] [e|]]; apply link_ret].
  split; [|contradiction]. intros s1 s2 HR.
  assert (Hn : linked Rel (fun _ => False) True (build (build_fuel R1 s1) keys encs hs R1) (build (build_fuel R2 s2) keys encs hs R2)).
  { unfold build_fuel. apply nested_link. apply body_link; [intros s Hs; contradiction|].
    now apply er_link with (Dead := fun _ => False). }
  now apply Hn.
Qed.

Lemma sim_ok : forall S1 S2 (Rel : S1 -> S2 -> Prop) A (m1 : res (A * S1)) (m2 : res (A * S2)),
  sim Rel (fun _ => False) True m1 m2 -> m1 <> Stuck -> m2 <> Stuck ->
  (m1 = Panic /\ m2 = Panic) \/ exists v s1 s2, m1 = Ok (v, s1) /\ m2 = Ok (v, s2) /\ Rel s1 s2.
Proof.
  intros S1 S2 Rel A m1 m2 H Hm1 Hm2. destruct m1 as [[v s1]| |]; [| |congruence].
  - right. destruct m2 as [[v2 s2]| |]; [| |congruence]; cbn in H; destruct H as [[]|(s & E & HR)]; [|discriminate].
    apply ok_inj in E. injection E as -> ->. repeat eexists; eauto.
  - left. destruct m2 as [[v2 s2]| |]; [| |congruence]; cbn in H; auto.
Qed.

(** only version 1 files reach the version 1 reader *)
Lemma read_v1_unused : forall reg v1 v1' IZ S (R : Reader S) eager I, delivers R eager I ->
  forall s d, I s d -> (forall d', d <> x01 :: d') -> read reg v1 IZ R s = read reg v1' IZ R s.
Proof.
  intros reg v1 v1' IZ S R eager I HR s d HI Hd. unfold read, get_version. destruct d as [|b d].
  - destruct (d_eof _ _ _ HR s 1 HI) as (s' & -> & _); [discriminate|]. reflexivity.
  - destruct (d_more _ _ _ HR s (b :: d) 1 HI) as (p & q & e & s' & -> & Epq & Hp & Hl & _ & _); try discriminate.
    cbn [bind]. destruct e; [reflexivity|]. cbn [bind].
    destruct p as [|b' p]; [congruence|]. injection Epq as -> _. cbn [hd].
    destruct (N.eqb_spec (b2n b') 1) as [E|E]; [|reflexivity].
    exfalso. apply (Hd d). f_equal. rewrite <- (n2b_b2n b'), E. reflexivity.
Qed.

Theorem read_schedule : forall reg v1 IZ, Forall ends reg -> inflation_ends IZ -> inflation_uniform IZ ->
  forall S1 S2 (R1 : Reader S1) (R2 : Reader S2) I1 I2, delivers R1 false I1 -> delivers R2 false I2 ->
  forall s1 s2 d, I1 s1 d -> I2 s2 d -> (forall d', d <> x01 :: d') ->
  (read reg v1 IZ R1 s1 = Panic /\ read reg v1 IZ R2 s2 = Panic) \/
  exists result t1 t2, read reg v1 IZ R1 s1 = Ok (result, t1) /\ read reg v1 IZ R2 s2 = Ok (result, t2).
Proof.
  intros reg v1 IZ Hreg HIZ HU S1 S2 R1 R2 I1 I2 H1 H2 s1 s2 d HI1 HI2 Hd.
  set (v0 := (fun _ _ _ => Panic) : v1_reader).
  rewrite (read_v1_unused reg v1 v0 IZ _ _ _ _ H1 s1 d HI1 Hd), (read_v1_unused reg v1 v0 IZ _ _ _ _ H2 s2 d HI2 Hd).
  assert (E1 : read reg v0 IZ R1 s1 <> Stuck) by (eapply read_ends; eauto; discriminate).
  assert (E2 : read reg v0 IZ R2 s2 <> Stuck) by (eapply read_ends; eauto; discriminate).
  pose proof (one_level R1 R2 I1 I2 H1 H2) as Hone. pose proof (full_level R1 R2 I1 I2 H1 H2) as Hfull.
  change (@never S1) with (fun _ : S1 => False) in *.
  set (Rel := level I1 I2) in *.
  assert (HR : Rel s1 s2) by (exists d; auto). clear Hd HI1 HI2 d.
  assert (Hstep : forall A (m1 : res (A * S1)) (m2 : res (A * S2)) B1 B2 (k1 : A * S1 -> res B1) (k2 : A * S2 -> res B2),
    sim Rel (fun _ => False) True m1 m2 -> bind m1 k1 <> Stuck -> bind m2 k2 <> Stuck ->
    (bind m1 k1 = Panic /\ bind m2 k2 = Panic) \/
    exists v a1 a2, m1 = Ok (v, a1) /\ m2 = Ok (v, a2) /\ Rel a1 a2).
  { intros A m1 m2 B1 B2 k1 k2 Hs Hb1 Hb2.
    destruct (sim_ok _ _ _ _ m1 m2 Hs) as [[-> ->]|H]; auto; intros ->; contradiction. }
  unfold read in *.
  assert (Hg : sim Rel (fun _ => False) True (get_version R1 s1) (get_version R2 s2)).
  { apply get_version_link; auto. }
  destruct (Hstep _ _ _ _ _ _ _ Hg E1 E2) as [H|([[v n] e] & a1 & a2 & Xa & Xb & HR1)]; [now left|]. rewrite Xa in E1 |- *. rewrite Xb in E2 |- *. clear Xa Xb. cbn [bind] in *.
  destruct e as [e|]; [right; eauto|].
  destruct (v =? 1); [left; split; reflexivity|]. destruct (negb (v =? 2)); [right; eauto|].
  assert (He : sim Rel (fun _ => False) True (read_encoders R1 reg a1) (read_encoders R2 reg a2)).
  { apply read_encoders_link; auto. }
  destruct (Hstep _ _ _ _ _ _ _ He E1 E2) as [H|([[es m] e] & b1 & b2 & Xa & Xb & HR2)]; [now left|]. rewrite Xa in E1 |- *. rewrite Xb in E2 |- *. clear Xa Xb. cbn [bind] in *.
  destruct e as [e|]; [right; eauto|].
  destruct (Hstep _ _ _ _ _ _ _ (proj1 Hone b1 b2 HR2) E1 E2) as [H|([p e] & c1 & c2 & Xa & Xb & HR3)]; [now left|]. rewrite Xa in E1 |- *. rewrite Xb in E2 |- *. clear Xa Xb. cbn [bind] in *.
  destruct e as [e|]; [right; eauto|].
  destruct (b2n (hd x00 p) =? 1).
  - destruct (HU S1 S2 R1 R2 I1 I2 H1 H2) as (Q & Hnew & Hq). destruct HR3 as (d & HI1 & HI2).
    assert (Hr : forall n, linked Q (fun _ => False) True (rread (iz_read IZ S1 R1) n) (rread (iz_read IZ S2 R2) n)).
    { intro k. split; [|contradiction]. intros t1 t2 HQ. destruct (Hq t1 t2 k HQ) as (q & e & t1' & t2' & -> & -> & HQ').
      cbn. eauto. }
    assert (HP : sim Q (fun _ => False) True (read_payload (iz_read IZ S1 R1) es (n + m + lenN p) (iz_new IZ S1 c1))
       (read_payload (iz_read IZ S2 R2) es (n + m + lenN p) (iz_new IZ S2 c2))).
    { apply payload_link; [apply Hr | apply full_link; auto; contradiction | eapply Hnew; eauto]. }
    destruct (sim_ok _ _ _ _ _ _ HP) as [[-> ->]|(r & t1 & t2 & -> & -> & _)].
    + intro E; rewrite E in E1; now apply E1.
    + intro E; rewrite E in E2; now apply E2.
    + now left.
    + right. cbn [bind]. eauto.
  - pose proof (proj1 (payload_link _ _ R1 R2 Rel Hone Hfull es (n + m + lenN p)) c1 c2 HR3) as HP.
    destruct (sim_ok _ _ _ _ _ _ HP) as [[-> ->]|(r & t1 & t2 & -> & -> & _)].
    + intro E; rewrite E in E1; now apply E1.
    + intro E; rewrite E in E2; now apply E2.
    + now left.
    + right. cbn [bind]. eauto.
Qed.
