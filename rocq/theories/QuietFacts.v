(** Reading the beginning of a file does not panic, if reading the whole file
    does not.  The two runs are those of TruncFacts.v; [quiet] adds to [linked]
    that the cut run does not panic when the whole run ends, and says what may
    come back ([Q]) when the cut reader fails underway.  [hush] is about the
    runs that start with a reader that has already failed. *)
From Coq Require Import Lia.
From Verif Require Import Base BaseFacts IO Spec IOFacts Floats BinaryIO Metadata Recording Encoding TimeIO Writer Reader.
From Verif Require Import SpecFile LinkFacts SafeFacts TruncFacts.
Local Open Scope N_scope.

Lemma make_ok_le : forall k n m, n <= m -> make_ok k m = true -> make_ok k n = true.
Proof. intros k n m H. unfold make_ok. rewrite !N.leb_le. intro H1. nia. Qed.

Section Quiet.
Context {S1 S2 : Type} (Rel : S1 -> S2 -> Prop) (Dead : S1 -> Prop).
Hypothesis excl : forall s1 s2, Rel s1 s2 -> ~ Dead s1.
Notation "P ~~ Q" := (linked Rel Dead False P Q) (at level 70).

Definition quiet {A} (Q : A -> A -> Prop) (P1 : S1 -> res (A * S1)) (P2 : S2 -> res (A * S2)) : Prop :=
  forall s1 s2 v2 s2', Rel s1 s2 -> P2 s2 = Ok (v2, s2') ->
  match P1 s1 with
  | Panic => False
  | Ok (v1, s1') => Dead s1' -> Q v1 v2
  | Stuck => True
  end.
Definition hush {A} (D : A -> Prop) (P1 : S1 -> res (A * S1)) : Prop :=
  forall s1, Dead s1 -> match P1 s1 with Panic => False | Ok (v, _) => D v | Stuck => True end.
Definition any {A} (v : A) : Prop := True.
Definition any2 {A} (v w : A) : Prop := True.

Lemma quiet_ret : forall A Q (v : A) w, quiet Q (fun s => Ok (v, s)) (fun s => Ok (w, s)).
Proof. intros A Q v w s1 s2 v2 s2' HR _ Hd. destruct (excl _ _ HR Hd). Qed.
Lemma quiet_panic : forall A Q (P1 : S1 -> res (A * S1)), quiet Q P1 (fun _ => Panic).
Proof. intros A Q P1 s1 s2 v2 s2' _ E. discriminate. Qed.
Lemma quiet_stuck : forall A Q (P1 : S1 -> res (A * S1)), quiet Q P1 (fun _ => Stuck).
Proof. intros A Q P1 s1 s2 v2 s2' _ E. discriminate. Qed.
Lemma quiet_stuck_l : forall A Q P2, quiet (A := A) Q (fun _ => Stuck) P2.
Proof. intros A Q P1 s1 s2 v2 s2' _ E. exact I. Qed.
Lemma quiet_weak : forall A (Q Q' : A -> A -> Prop) P1 P2, (forall v w, Q v w -> Q' v w) -> quiet Q P1 P2 -> quiet Q' P1 P2.
Proof.
  intros A Q Q' P1 P2 HQ H s1 s2 v2 s2' HR E. specialize (H _ _ _ _ HR E). destruct (P1 s1) as [[v s]| |]; auto.
Qed.
Lemma quiet_make : forall A Q k n (P1 : S1 -> res (A * S1)) P2, quiet Q P1 P2 ->
  quiet Q (fun s => go_make k n (P1 s)) (fun s => go_make k n (P2 s)).
Proof. intros A Q k n P1 P2 H. unfold go_make. destruct (make_ok k n); [exact H | apply quiet_panic]. Qed.
Lemma quiet_bind : forall A B (Qa : A -> A -> Prop) (Qb : B -> B -> Prop) P1 P2 k1 k2,
  P1 ~~ P2 -> quiet Qa P1 P2 -> (forall v, quiet Qb (k1 v) (k2 v)) ->
  (forall v1 v2 s2 w2 s2', Qa v1 v2 -> k2 v2 s2 = Ok (w2, s2') -> hush (fun w1 => Qb w1 w2) (k1 v1)) ->
  quiet Qb (fun s => bind (P1 s) (fun x => let (v, s') := x in k1 v s'))
           (fun s => bind (P2 s) (fun x => let (v, s') := x in k2 v s')).
Proof.
  intros A B Qa Qb P1 P2 k1 k2 [HL _] HP Hk Hh s1 s2 w2 s2' HR E.
  destruct (P2 s2) as [[v2 t2]| |] eqn:E2; cbn [bind] in E; try discriminate.
  specialize (HL _ _ HR). specialize (HP _ _ _ _ HR E2). rewrite E2 in HL.
  destruct (P1 s1) as [[v1 t1]| |]; cbn [bind]; auto. cbn in HL.
  destruct HL as [Hd|(t & Et & HR')].
  - specialize (Hh _ _ _ _ _ (HP Hd) E t1 Hd). destruct (k1 v1 t1) as [[w1 s1']| |]; auto.
  - apply ok_inj in Et. injection Et as <- <-. exact (Hk v2 _ _ _ _ HR' E).
Qed.
Lemma hush_ret : forall A (D : A -> Prop) v, D v -> hush D (fun s => Ok (v, s)).
Proof. intros A D v H s Hd. exact H. Qed.
Lemma hush_stuck : forall A (D : A -> Prop), hush D (fun _ => Stuck).
Proof. intros A D s Hd. exact I. Qed.
Lemma hush_weak : forall A (D D' : A -> Prop) P1, (forall v, D v -> D' v) -> hush D P1 -> hush D' P1.
Proof.
  intros A D D' P1 HD H s1 Hd. specialize (H _ Hd). destruct (P1 s1) as [[v s]| |]; auto.
Qed.
Lemma hush_bind : forall A B (Da : A -> Prop) (Db : B -> Prop) P1 (P2 : S2 -> res (A * S2)) k1,
  P1 ~~ P2 -> hush Da P1 -> (forall v, Da v -> hush Db (k1 v)) ->
  hush Db (fun s => bind (P1 s) (fun x => let (v, s') := x in k1 v s')).
Proof.
  intros A B Da Db P1 P2 k1 [_ HL] HP Hk s1 Hd. specialize (HL _ Hd). specialize (HP _ Hd).
  destruct (P1 s1) as [[v1 t1]| |]; cbn [bind]; auto. exact (Hk _ HP _ HL).
Qed.
Lemma hush_make : forall A D k n (P1 : S1 -> res (A * S1)), make_ok k n = true -> hush D P1 ->
  hush D (fun s => go_make k n (P1 s)).
Proof. intros A D k n P1 E H. unfold go_make. now rewrite E. Qed.
Lemma hush_loop : forall A n (b1 : S1 -> res (A * S1)) (b2 : S2 -> res (A * S2)), b1 ~~ b2 -> hush any b1 -> hush any (loop n b1).
Proof.
  intros A n b1 b2 HL H. induction n as [|n IH]; cbn [loop]; [now apply hush_ret|].
  eapply hush_bind; [exact HL | exact H |]. intros v _.
  eapply hush_bind; [exact (link_loop Rel Dead False (fun _ _ f => f) _ n b1 b2 HL) | exact IH |]. intros l _. now apply hush_ret.
Qed.
Lemma quiet_loop : forall A n (b1 : S1 -> res (A * S1)) (b2 : S2 -> res (A * S2)), b1 ~~ b2 ->
  quiet any2 b1 b2 ->
  ((exists s2 v s2', b2 s2 = Ok (v, s2')) -> hush any b1) -> quiet any2 (loop n b1) (loop n b2).
Proof.
  intros A n b1 b2 HL H Hh. induction n as [|n IH]; cbn [loop]; [apply quiet_ret|].
  intros s1 s2 w2 s2' HR E.
  assert (Hb : hush any b1).
  { destruct (b2 s2) as [[v t]| |] eqn:Eb; cbn [bind] in E; try discriminate. apply Hh. eauto. }
  revert s1 s2 w2 s2' HR E.
  pose proof (link_loop Rel Dead False (fun _ _ f => f) _ n b1 b2 HL) as HLL.
  eapply quiet_bind; [exact HL | exact H | |].
  - intro v. eapply quiet_bind; [exact HLL | exact IH | intro; apply quiet_ret |].
    intros v1 v2 s2 w2 s2' _ _. now apply hush_ret.
  - intros v1 v2 s2 w2 s2' _ _. eapply hush_bind; [exact HLL | eapply hush_loop; eauto |].
    intros l _. now apply hush_ret.
Qed.
Lemma hush_loop_err : forall A n (b1 : S1 -> res ((A + err) * S1)) (b2 : S2 -> res ((A + err) * S2)), b1 ~~ b2 -> hush any b1 ->
  hush any (loop_err n b1).
Proof.
  intros A n b1 b2 HL H. induction n as [|n IH]; cbn [loop_err]; [now apply hush_ret|].
  eapply hush_bind; [exact HL | exact H |]. intros [v|e] _; [|now apply hush_ret].
  eapply hush_bind; [exact (link_loop_err Rel Dead False (fun _ _ f => f) _ n b1 b2 HL) | exact IH |].
  intros [l|e] _; now apply hush_ret.
Qed.
Lemma quiet_loop_err : forall A n (b1 : S1 -> res ((A + err) * S1)) (b2 : S2 -> res ((A + err) * S2)), b1 ~~ b2 ->
  quiet any2 b1 b2 -> ((exists s2 v s2', b2 s2 = Ok (v, s2')) -> hush any b1) -> quiet any2 (loop_err n b1) (loop_err n b2).
Proof.
  intros A n b1 b2 HL H Hh. induction n as [|n IH]; cbn [loop_err]; [apply quiet_ret|].
  intros s1 s2 w2 s2' HR E.
  assert (Hb : hush any b1).
  { destruct (b2 s2) as [[v t]| |] eqn:Eb; cbn [bind] in E; try discriminate. apply Hh. eauto. }
  revert s1 s2 w2 s2' HR E.
  pose proof (link_loop_err Rel Dead False (fun _ _ f => f) _ n b1 b2 HL) as HLL.
  eapply quiet_bind; [exact HL | exact H | |].
  - intros [v|e]; [|apply quiet_ret]. eapply quiet_bind; [exact HLL | exact IH | intros [?|?]; apply quiet_ret |].
    intros v1 v2 s2 w2 s2' _ _. destruct v1; now apply hush_ret.
  - intros v1 v2 s2 w2 s2' _ _. destruct v1 as [v|e]; [|now apply hush_ret].
    eapply hush_bind; [exact HLL | eapply hush_loop_err; eauto |].
    intros [l|e] _; now apply hush_ret.
Qed.
End Quiet.

(** ** Readers that stay failed *)
Definition short (n : N) (v w : bytes * option err) : Prop := snd v <> None /\ lenN (fst v) < n.
Definition none_left (v : bytes * option err) : Prop := fst v = [] /\ snd v <> None.
Record tame {S1 S2} (R1 : Reader S1) (R2 : Reader S2) (Rel : S1 -> S2 -> Prop) (Dead : S1 -> Prop) : Prop := {
  t_excl : forall s1 s2, Rel s1 s2 -> ~ Dead s1;
  t_link : forall n, linked Rel Dead False (rread R1 n) (rread R2 n);
  t_quiet : forall n, quiet Rel Dead (short n) (rread R1 n) (rread R2 n);
  t_hush : forall n, n <> 0 -> hush Dead none_left (rread R1 n) }.

Lemma full_short : forall S (R : Reader S) n s p e s', read_full R n s = Ok (p, Some e, s') -> lenN p < n.
Proof.
  intros S R n s p e s'. unfold read_full.
  assert (H : forall f need acc s, read_at_least R f need acc s = Ok (p, Some e, s') -> lenN p < lenN acc + need).
  { induction f as [|f IH]; intros need acc s0; cbn [read_at_least]; destruct (N.eqb_spec need 0) as [H0|H0]; try discriminate.
    destruct (rread R need s0) as [[[q x] s1]| |]; cbn [bind]; try discriminate.
    destruct x as [x|].
    - destruct (N.eqb_spec (need - lenN q) 0) as [H1|H1]; [discriminate|]. intro E.
      assert (p = acc ++ q) as -> by (destruct x; try destruct (acc ++ q) eqn:Ea; apply ok_inj in E; injection E; congruence).
      rewrite lenN_app. lia.
    - intro E. destruct (N.le_gt_cases (lenN q) need) as [Hl|Hl].
      + apply IH in E. rewrite lenN_app in E. lia.
      + replace (need - lenN q) with 0 in E by lia. destruct f; discriminate E. }
  intro E. apply H in E. cbn in E. exact E.
Qed.

Section Full.
Context {S1 S2 : Type} (R1 : Reader S1) (R2 : Reader S2) (Rel : S1 -> S2 -> Prop) (Dead : S1 -> Prop).
Hypothesis HT : tame R1 R2 Rel Dead.
Let ns : forall s, Dead s -> ~ False := fun _ _ f => f.

Lemma full_tame_link : forall n, linked Rel Dead False (read_full R1 n) (read_full R2 n).
Proof. apply full_link; [exact ns | exact (t_link _ _ _ _ HT)]. Qed.
Lemma full_quiet : forall n, quiet Rel Dead (short n) (read_full R1 n) (read_full R2 n).
Proof.
  intro n.
  assert (H : forall f1 f2 need acc s1 s2 v2 s2', Rel s1 s2 -> read_at_least R2 f2 need acc s2 = Ok (v2, s2') ->
    match read_at_least R1 f1 need acc s1 with
    | Panic => False | Stuck => True
    | Ok (v1, s1') => Dead s1' -> snd v1 <> None
    end).
  { induction f1 as [|f1 IH]; intros f2 need acc s1 s2 v2 s2' HR E; cbn [read_at_least];
      destruct (N.eqb_spec need 0) as [H0|H0]; try exact I;
      try (intro Hd; destruct (t_excl _ _ _ _ HT _ _ HR Hd)).
    destruct f2 as [|f2]; cbn [read_at_least] in E; (destruct (N.eqb_spec need 0) as [H0'|_]; [lia|]); [discriminate|].
    destruct (rread R2 need s2) as [[[p2 e2] t2]| |] eqn:E2; cbn [bind] in E; try discriminate.
    pose proof (proj1 (t_link _ _ _ _ HT need) _ _ HR) as HL.
    pose proof (t_quiet _ _ _ _ HT need _ _ _ _ HR E2) as HQ. rewrite E2 in HL.
    destruct (rread R1 need s1) as [[[p1 e1] t1]| |]; cbn [bind]; auto. cbn in HL.
    destruct HL as [Hd|(t & Et & HR')].
    - destruct (HQ Hd) as [Hs Hl]. cbn in Hs, Hl. destruct e1 as [e1|]; [|congruence].
      destruct (N.eqb_spec (need - lenN p1) 0) as [H1|H1]; [lia|]. destruct e1; try discriminate. destruct (acc ++ p1); discriminate.
    - apply ok_inj in Et. injection Et as <- <- <-. destruct e2 as [e2|].
      + assert (Hn : ~ Dead t1) by (intro Hd; exact (t_excl _ _ _ _ HT _ _ HR' Hd)).
        destruct (need - lenN p2 =? 0); [tauto|]. destruct e2; try tauto. destruct (acc ++ p2); tauto.
      + exact (IH _ _ _ _ _ _ _ HR' E). }
  intros s1 s2 v2 s2' HR E. unfold read_full in *. specialize (H (Datatypes.S (rleft R1 s1)) _ _ _ _ _ _ _ HR E).
  destruct (read_at_least R1 _ n [] s1) as [[[p e] s1']| |] eqn:E1; auto. intro Hd. specialize (H Hd).
  cbn in H. destruct e as [e|]; [|congruence]. split; [exact H|]. exact (full_short _ R1 _ _ _ _ _ E1).
Qed.
Lemma full_hush : forall n, n <> 0 -> hush Dead none_left (read_full R1 n).
Proof.
  intros n Hn s1 Hd. unfold read_full. cbn [read_at_least]. destruct (N.eqb_spec n 0) as [H0|_]; [congruence|].
  pose proof (t_hush _ _ _ _ HT n Hn s1 Hd) as H.
  destruct (rread R1 n s1) as [[[p e] t]| |]; cbn [bind]; auto. destruct H as [H1 H2]. cbn in H1, H2. subst p.
  destruct e as [e|]; [|congruence]. cbn [app]. destruct (N.eqb_spec (n - lenN (@nil byte)) 0) as [H0|H0]; [cbn in H0; lia|].
  destruct e; now split.
Qed.
Lemma full_hush_any : forall n, hush Dead any (read_full R1 n).
Proof.
  intro n. destruct (N.eq_dec n 0) as [->|Hn].
  - intros s1 Hd. exact I.
  - eapply hush_weak; [|apply full_hush, Hn]. intros; exact I.
Qed.

(** an ErrReader on top *)
Lemma er_tame : tame (err_reader R1) (err_reader R2) (er_rel Rel) (er_dead Dead).
Proof.
  split.
  - intros e1 e2 (_ & _ & HR) Hd. exact (t_excl _ _ _ _ HT _ _ HR Hd).
  - intro n. apply er_link. exact full_tame_link.
  - intros n e1 e2 v2 e2' (He & Hn & HR) E. cbn [rread err_reader] in *. rewrite <- He in E.
    destruct (er_err e1) as [x|].
    + intro Hd. destruct (t_excl _ _ _ _ HT _ _ HR Hd).
    + destruct (read_full R2 n (er_in e2)) as [[v t]| |] eqn:E2; cbn [bind] in E; try discriminate.
      pose proof (full_quiet n _ _ _ _ HR E2) as HQ.
      destruct (read_full R1 n (er_in e1)) as [[[p x] t1]| |]; cbn [bind]; auto.
  - intros n Hn e1 Hd. cbn [rread err_reader]. destruct (er_err e1) as [x|] eqn:Ex.
    + split; [reflexivity | discriminate].
    + pose proof (full_hush n Hn _ Hd) as H. destruct (read_full R1 n (er_in e1)) as [[[p x] t]| |]; cbn [bind]; auto.
Qed.
End Full.

(** The ErrReader on top of the reader of a part of a file *)
Section Base.
Context {S1 S2 : Type} (R1 : Reader S1) (R2 : Reader S2).
Context (e2 : bool) (I1 : S1 -> bytes -> Prop) (I2 : S2 -> bytes -> Prop) (rest : bytes).
Hypothesis H1 : breaks R1 I1.
Hypothesis H2 : delivers R2 e2 I2.
Lemma full_no_panic : forall n s d, I1 s d -> read_full R1 n s <> Panic.
Proof.
  intros n s d HI. unfold read_full.
  enough (H : forall f need acc s d, I1 s d -> read_at_least R1 f need acc s <> Panic) by eauto.
  clear s d HI. induction f as [|f IH]; intros need acc s d HI; cbn [read_at_least]; destruct (N.eqb_spec need 0) as [H0|H0]; try discriminate.
  assert (H : exists p e s' q, rread R1 need s = Ok (p, e, s') /\ I1 s' q).
  { destruct (H1 s d need HI H0) as (p & q & e & s' & E & _ & _ & HI' & _). eauto 6. }
  destruct H as (p & e & s' & q & -> & HI'). cbn [bind]. destruct e as [e|]; [|eauto].
  destruct (need - lenN p =? 0); [discriminate|]. destruct e; try discriminate. destruct (acc ++ p); discriminate.
Qed.
Hypothesis Hrest : more e2 rest.
Lemma cut_tame : tame (err_reader R1) (err_reader R2) (er_cut I1 I2 rest) er_failed.
Proof.
  split.
  - intros x1 x2 (H & _) Hd. now apply Hd.
  - exact (er_cut_link R1 R2 e2 I1 I2 rest H1 H2).
  - intros n x1 x2 v2 x2' (Hx1 & Hx2 & Hn & (d & HI1 & _)) _. cbn [rread err_reader]. rewrite Hx1.
    pose proof (full_no_panic n _ _ HI1) as Hp. destruct (read_full R1 n (er_in x1)) as [[[p x] t]| |] eqn:E; cbn [bind]; auto.
    unfold er_failed. cbn [er_err]. intro Hd. destruct x as [x|]; [|congruence]. split; [exact Hd|].
    exact (full_short _ R1 _ _ _ _ _ E).
  - intros n Hn x1 Hd. unfold er_failed in Hd. cbn [rread err_reader]. destruct (er_err x1); [|congruence].
    split; [reflexivity | discriminate].
Qed.
End Base.

(** ** The parsers *)
Section Parsers.
Context {S1 S2 : Type} (R1 : Reader S1) (R2 : Reader S2) (Rel : S1 -> S2 -> Prop) (Dead : S1 -> Prop).
Hypothesis HT : tame R1 R2 Rel Dead.
Let ns : forall s, Dead s -> ~ False := fun _ _ f => f.
Let excl := t_excl _ _ _ _ HT.
Let one := t_link _ _ _ _ HT 1.
Let two := t_link _ _ _ _ HT 2.
Let full := full_tame_link _ _ _ _ HT.
Notation qu := (quiet Rel Dead).
Notation hu := (hush Dead).

(** an error was reported *)
Definition bad {A} (v w : A * option err) : Prop := snd v <> None.
Definition bad1 {A} (v : A * option err) : Prop := snd v <> None.
Definition low (v w : N * N * option err) : Prop := fst (fst v) <= fst (fst w) /\ snd v <> None.
Definition zero (v : N * N * option err) : Prop := fst (fst v) = 0 /\ snd v <> None.
Definition empty {A B} (v w : list A * B * option err) : Prop := fst (fst v) = [] /\ snd v <> None.
Definition empty1 {A B} (v : list A * B * option err) : Prop := fst (fst v) = [] /\ snd v <> None.
(** a failed binary.Read has no value *)
Definition novalue (v w : option bytes * option err) : Prop := fst v = None /\ snd v <> None.

Ltac open_ :=
  repeat match goal with v : (_ * _)%type |- _ => destruct v end.
Ltac stop :=
  intros; open_; unfold novalue, bad, bad1, low, zero, empty, empty1, short, none_left, any, any2 in *; cbn [fst snd] in *;
  repeat match goal with H : _ /\ _ |- _ => destruct H end;
  repeat match goal with
  | H : ?e <> None |- context [match ?e with _ => _ end] => destruct e; [|congruence]
  | |- context [match ?e with _ => _ end] => destruct e
  end; try congruence;
  try (apply hush_ret; cbn [fst snd]; repeat split; auto; congruence).
Lemma read_one_hush : hu none_left (rread R1 1).
Proof. apply (t_hush _ _ _ _ HT). discriminate. Qed.
Let ulink := read_uvarint_link R1 R2 Rel Dead False ns one.
Let slink := read_string_link R1 R2 Rel Dead False ns one full.
Let blink := read_bytes_array_link R1 R2 Rel Dead False ns one full.

Lemma uvarint_grows : forall f i x sh b n s v s', read_uvarint_loop R2 f i x sh b n s = Ok (v, s') -> x <= fst (fst v).
Proof.
  induction f as [|f IH]; intros i x sh b n s v s'; cbn [read_uvarint_loop].
  - intro E. apply ok_inj in E. injection E as <- _. cbn. lia.
  - destruct (rread R2 1 s) as [[[p e] t]| |]; cbn [bind]; try discriminate.
    assert (Hlor : forall y, x <= N.lor x y).
    { intro y. assert (Hle : N.ldiff x (N.lor x y) = 0).
      { apply N.bits_inj_0. intro k. rewrite N.ldiff_spec, N.lor_spec. destruct (N.testbit x k); reflexivity. }
      apply N.ldiff_le in Hle. exact Hle. }
    destruct e as [e|]; [intro E; apply ok_inj in E; injection E as <- _; cbn; lia|].
    destruct (b2n (hd b p) <? 128).
    + destruct ((i =? 9) && (1 <? b2n (hd b p))); intro E; apply ok_inj in E; injection E as <- _; cbn [fst]; [lia | apply Hlor].
    + intro E. apply IH in E. specialize (Hlor (wrap64 (N.shiftl (N.land (b2n (hd b p)) 127) sh))). lia.
Qed.
Lemma uvarint_quiet : qu low (read_uvarint R1) (read_uvarint R2).
Proof.
  assert (HL : forall f i x sh b n, linked Rel Dead False (read_uvarint_loop R1 f i x sh b n) (read_uvarint_loop R2 f i x sh b n)).
  { induction f as [|f IH]; intros i x sh b n; cbn [read_uvarint_loop]; [apply link_ret|].
    apply link_bind; [exact ns | exact one |]. intros [p e]. destruct e; [apply link_ret|].
    destruct (b2n (hd b p) <? 128); [destruct (_ && _)|]; try apply link_ret. apply IH. }
  assert (H : forall f i x sh b n, qu low (read_uvarint_loop R1 f i x sh b n) (read_uvarint_loop R2 f i x sh b n)).
  { induction f as [|f IH]; intros i x sh b n; cbn [read_uvarint_loop]; [apply (quiet_ret _ _ excl)|].
    eapply quiet_bind; [exact one | exact (t_quiet _ _ _ _ HT 1) | |].
    - intros [p e]. destruct e; [apply (quiet_ret _ _ excl)|].
      destruct (b2n (hd b p) <? 128); [destruct (_ && _)|]; try apply (quiet_ret _ _ excl). apply IH.
    - intros [p1 q1] [p2 q2] s2 w2 s2' [Hq _] E. cbn in Hq. destruct q1 as [q1|]; [|congruence].
      apply hush_ret. split; [cbn [fst] | discriminate].
      assert (Hlor : forall y, x <= N.lor x y).
      { intro y. assert (Hle : N.ldiff x (N.lor x y) = 0).
        { apply N.bits_inj_0. intro k. rewrite N.ldiff_spec, N.lor_spec. destruct (N.testbit x k); reflexivity. }
        apply N.ldiff_le in Hle. exact Hle. }
      destruct q2 as [q2|]; [apply ok_inj in E; injection E as <- _; cbn; lia|].
      destruct (b2n (hd b p2) <? 128).
      + destruct ((i =? 9) && (1 <? b2n (hd b p2))); apply ok_inj in E; injection E as <- _; cbn [fst]; [lia | apply Hlor].
      + apply uvarint_grows in E. specialize (Hlor (wrap64 (N.shiftl (N.land (b2n (hd b p2)) 127) sh))). lia. }
  exact (H _ _ _ _ _ _).
Qed.
Lemma uvarint_hush : hu zero (read_uvarint R1).
Proof.
  unfold read_uvarint. cbn [read_uvarint_loop]. eapply hush_bind; [exact one | exact read_one_hush |].
  intros [p e] [_ He]. cbn in He. destruct e; [|congruence]. now apply hush_ret.
Qed.
Lemma string_quiet : qu bad (read_string R1) (read_string R2).
Proof.
  unfold read_string. eapply quiet_bind; [exact ulink | exact uvarint_quiet | | stop].
  intros [[len n] e]. destruct e; [apply (quiet_ret _ _ excl)|]. apply quiet_make.
  eapply quiet_bind; [apply full | apply full_quiet, HT | | stop].
  intros [p e]. destruct e; apply (quiet_ret _ _ excl).
Qed.
Lemma string_hush : hu bad1 (read_string R1).
Proof. unfold read_string. eapply hush_bind; [exact ulink | exact uvarint_hush | stop]. Qed.
Lemma bytes_quiet : qu empty (read_bytes_array R1) (read_bytes_array R2).
Proof.
  unfold read_bytes_array. eapply quiet_bind; [exact ulink | exact uvarint_quiet | | stop].
  intros [[len n] e]. destruct e; [apply (quiet_ret _ _ excl)|]. apply quiet_make.
  eapply quiet_bind; [apply full | apply full_quiet, HT | |].
  - intros [p e]. destruct e as [[]|]; try destruct (lenN p =? len); apply (quiet_ret _ _ excl).
  - intros [p1 q1] v2 s2 w2 s2' [Hq Hl] _. cbn in Hq, Hl. destruct q1 as [q1|]; [|congruence].
    destruct q1; try (apply hush_ret; split; [reflexivity | discriminate]).
    destruct (N.eqb_spec (lenN p1) len) as [El|_]; [lia|]. apply hush_ret; split; [reflexivity | discriminate].
Qed.
Lemma bytes_hush : hu empty1 (read_bytes_array R1).
Proof. unfold read_bytes_array. eapply hush_bind; [exact ulink | exact uvarint_hush | stop]. Qed.
Lemma strings_quiet : qu bad (read_string_array R1) (read_string_array R2).
Proof.
  assert (HL : forall k n, linked Rel Dead False (read_strings R1 k n) (read_strings R2 k n)).
  { induction k as [|k IH]; intro n; cbn [read_strings]; [apply link_ret|].
    apply link_bind; [exact ns | exact slink |]. intros [[x m] e]. destruct e; [apply link_ret|].
    apply link_bind; [exact ns | apply IH |]. intros [[y t] e]. destruct e; apply link_ret. }
  assert (H : forall k n, qu bad (read_strings R1 k n) (read_strings R2 k n)).
  { induction k as [|k IH]; intro n; cbn [read_strings]; [apply (quiet_ret _ _ excl)|].
    eapply quiet_bind; [exact slink | exact string_quiet | | stop].
    intros [[x m] e]. destruct e; [apply (quiet_ret _ _ excl)|].
    eapply quiet_bind; [apply HL | apply IH | | stop]. intros [[y t] e]. destruct e; apply (quiet_ret _ _ excl). }
  unfold read_string_array. eapply quiet_bind; [exact ulink | exact uvarint_quiet | | stop].
  intros [[len n] e]. destruct e; [apply (quiet_ret _ _ excl)|]. apply quiet_make. apply H.
Qed.
Let ualink := read_uvarint_array_link R1 R2 Rel Dead False ns one.
Lemma uvarints_quiet : qu bad (read_uvarint_array R1) (read_uvarint_array R2).
Proof.
  assert (HL : forall k n, linked Rel Dead False (read_uvarints R1 k n) (read_uvarints R2 k n)).
  { induction k as [|k IH]; intro n; cbn [read_uvarints]; [apply link_ret|].
    apply link_bind; [exact ns | exact ulink |]. intros [[x m] e]. destruct e; [apply link_ret|].
    apply link_bind; [exact ns | apply IH |]. intros [[y t] e]. destruct e; apply link_ret. }
  assert (H : forall k n, qu bad (read_uvarints R1 k n) (read_uvarints R2 k n)).
  { induction k as [|k IH]; intro n; cbn [read_uvarints]; [apply (quiet_ret _ _ excl)|].
    eapply quiet_bind; [exact ulink | exact uvarint_quiet | | stop].
    intros [[x m] e]. destruct e; [apply (quiet_ret _ _ excl)|].
    eapply quiet_bind; [apply HL | apply IH | | stop]. intros [[y t] e]. destruct e; apply (quiet_ret _ _ excl). }
  unfold read_uvarint_array. eapply quiet_bind; [exact ulink | exact uvarint_quiet | | stop].
  intros [[len n] e]. destruct e; [apply (quiet_ret _ _ excl)|]. apply quiet_make. apply H.
Qed.
Lemma uvarints_hush : hu bad1 (read_uvarint_array R1).
Proof. unfold read_uvarint_array. eapply hush_bind; [exact ulink | exact uvarint_hush | stop]. Qed.
Let brlink := binary_read_link R1 R2 Rel Dead False ns full.
Lemma binary_quiet : forall k, qu novalue (binary_read R1 k) (binary_read R2 k).
Proof.
  intro k. unfold binary_read. eapply quiet_bind; [apply full | apply full_quiet, HT | |].
  - intros [p e]. destruct e; apply (quiet_ret _ _ excl).
  - intros [p e] v2 s2 w2 s2' [He _] _. cbn in He. destruct e; [|congruence]. apply hush_ret. split; [reflexivity | discriminate].
Qed.
Lemma floats_quiet : forall k, qu bad (read_float64s R1 k) (read_float64s R2 k).
Proof.
  induction k as [|k IH]; cbn [read_float64s]; [apply (quiet_ret _ _ excl)|].
  eapply quiet_bind; [apply brlink | apply binary_quiet | |].
  - intros [[p|] [e|]]; try apply (quiet_ret _ _ excl).
    eapply quiet_bind; [apply (read_float64s_link R1 R2 Rel Dead False ns full) | apply IH | | stop].
    intros [l [e|]]; apply (quiet_ret _ _ excl).
  - intros [p e] v2 s2 w2 s2' [Hp He] _. cbn in Hp, He. subst p. apply hush_ret. exact He.
Qed.
Lemma property_with_quiet : forall g1 g2, (forall c, linked Rel Dead False (g1 c) (g2 c)) ->
  (forall c, qu bad (g1 c) (g2 c)) -> qu bad (read_property_with R1 g1) (read_property_with R2 g2).
Proof.
  intros g1 g2 HL H. unfold read_property_with. eapply quiet_bind; [exact one | exact (t_quiet _ _ _ _ HT 1) | | stop].
  intros [p e]. destruct e; [apply (quiet_ret _ _ excl) | apply H].
Qed.
Lemma entries_quiet : forall p1 p2, linked Rel Dead False p1 p2 -> qu bad p1 p2 -> forall ks acc,
  qu bad (read_entries p1 ks acc) (read_entries p2 ks acc).
Proof.
  intros p1 p2 HL H. induction ks as [|k ks IH]; intro acc; cbn [read_entries]; [apply (quiet_ret _ _ excl)|].
  eapply quiet_bind; [exact HL | exact H | | stop].
  intros [[p|] [e|]]; try apply (quiet_ret _ _ excl); apply IH.
Qed.
Lemma props_quiet : forall p1 p2, linked Rel Dead False p1 p2 -> qu bad p1 p2 -> forall k,
  qu bad (read_props p1 k) (read_props p2 k).
Proof.
  intros p1 p2 HL H. induction k as [|k IH]; cbn [read_props]; [apply (quiet_ret _ _ excl)|].
  eapply quiet_bind; [exact HL | exact H | | stop].
  intros [[p|] [e|]]; try apply (quiet_ret _ _ excl);
    (eapply quiet_bind; [apply (read_props_link Rel Dead False ns p1 p2 HL) | apply IH | | stop];
     intros [l [e|]]; apply (quiet_ret _ _ excl)).
Qed.
Lemma nested_with_quiet : forall p1 p2, linked Rel Dead False p1 p2 -> qu bad p1 p2 ->
  qu bad (read_nested_with R1 p1) (read_nested_with R2 p2).
Proof.
  intros p1 p2 HL H. unfold read_nested_with.
  eapply quiet_bind; [exact (read_string_array_link R1 R2 Rel Dead False ns one full) | exact strings_quiet | | stop].
  intros [[ks n] e]. destruct e; [apply (quiet_ret _ _ excl)|]. now apply entries_quiet.
Qed.

Ltac qs := repeat (cbn beta iota; match goal with
  | |- quiet _ _ _ (fun s => Ok (_, s)) (fun t => Ok (_, t)) => apply (quiet_ret _ _ excl)
  | |- quiet _ _ _ _ (fun _ => Panic) => apply quiet_panic
  | |- quiet _ _ _ _ (fun _ => Stuck) => apply quiet_stuck
  | |- quiet _ _ _ (fun s => go_make _ _ _) _ => apply quiet_make
  | |- quiet _ _ _ (fun s => match ?x with _ => _ end) _ => destruct x
  | |- quiet _ _ _ (fun s => bind _ _) _ => eapply quiet_bind; [solve [eauto with nocore] | solve [eauto with nocore] | intro | stop]
  end).
Lemma prop_data_quiet : forall f1 f2 c, qu bad (read_prop_data R1 f1 c) (read_prop_data R2 f2 c).
Proof.
  induction f1 as [|f1 IH]; intros f2 c; [apply quiet_stuck_l|].
  destruct f2 as [|f2]; [apply quiet_stuck|].
  pose proof (read_prop_data_link R1 R2 Rel Dead False ns one full f1 f2) as HL.
  pose proof string_quiet. pose proof binary_quiet. pose proof floats_quiet.
  pose proof (read_property_with_link R1 R2 Rel Dead False ns one _ _ HL) as HPL.
  pose proof (property_with_quiet _ _ HL (IH f2)) as HPQ.
  pose proof (read_nested_with_link R1 R2 Rel Dead False ns one full _ _ HPL).
  pose proof (nested_with_quiet _ _ HPL HPQ).
  pose proof (read_float64s_link R1 R2 Rel Dead False ns full).
  pose proof bytes_quiet. pose proof uvarint_quiet.
  pose proof (fun c => read_props_link Rel Dead False ns _ _ (HL c)).
  pose proof (fun c => props_quiet _ _ (HL c) (IH f2 c)).
  pose proof (t_quiet _ _ _ _ HT 1) as Hq1. pose proof one. pose proof slink. pose proof brlink. pose proof blink. pose proof ulink.
  clear IH HPL HPQ. cbn [read_prop_data]. qs.
Qed.

Lemma property_quiet : qu bad (read_property R1) (read_property R2).
Proof.
  intros s1 s2 v2 s2' HR E. unfold read_property in *.
  refine (property_with_quiet _ _ _ _ _ _ _ _ HR E).
  - intro c. apply (read_prop_data_link R1 R2 Rel Dead False ns one full).
  - intro c. apply prop_data_quiet.
Qed.
Lemma md_quiet : forall keys, qu bad (read_md R1 keys) (read_md R2 keys).
Proof.
  intro keys. pose proof property_quiet. pose proof (read_property_link R1 R2 Rel Dead False ns one full).
  assert (H1 : forall is acc, qu bad (read_md_entries R1 keys is acc) (read_md_entries R2 keys is acc)).
  { induction is as [|i is IH]; intro acc; cbn [read_md_entries]; qs; apply IH. }
  unfold read_md. pose proof uvarints_quiet. pose proof ualink. qs. apply H1.
Qed.
Lemma md_hush : forall keys, hu bad1 (read_md R1 keys).
Proof. intro keys. unfold read_md. eapply hush_bind; [exact ualink | exact uvarints_hush | stop]. Qed.

Lemma string_any : hu any (read_string R1).
Proof. eapply hush_weak; [|exact string_hush]. intros; exact I. Qed.
Lemma md_any : forall keys, hu any (read_md R1 keys).
Proof. intro keys. eapply hush_weak; [|exact (md_hush keys)]. intros; exact I. Qed.
Let mlink := read_md_link R1 R2 Rel Dead False ns one full.
Lemma read_ref_hush : forall keys, hu any (read_ref R1 keys).
Proof.
  intro keys. unfold read_ref.
  eapply hush_bind; [exact slink | exact string_any |]. intros [[name n] e] _.
  eapply hush_bind; [exact slink | exact string_any |]. intros [[uri m] e1] _.
  eapply hush_bind; [exact ulink | exact uvarint_hush |]. intros [[size k] e2] _.
  eapply hush_bind; [exact (mlink keys) | exact (md_any keys) |]. intros r _. now apply hush_ret.
Qed.
Lemma read_ref_quiet : forall keys, qu any2 (read_ref R1 keys) (read_ref R2 keys).
Proof.
  intro keys. unfold read_ref.
  assert (Hm : forall name uri size, hu any (fun s => do (r, s) <- read_md R1 keys s; Ok (Some (mkRef name uri size (fst r)), s))).
  { intros. eapply hush_bind; [exact (mlink keys) | exact (md_any keys) |]. intros r _. now apply hush_ret. }
  assert (Hs : forall name uri, hu any (fun s => do (r, s) <- read_uvarint R1 s; let '(size, _, _) := r in
    do (r, s) <- read_md R1 keys s; Ok (Some (mkRef name uri size (fst r)), s))).
  { intros. eapply hush_bind; [exact ulink | exact uvarint_hush |]. intros [[size k] e2] _. apply Hm. }
  eapply quiet_bind; [exact slink | exact string_quiet | |].
  - intros [[name n] e].
    eapply quiet_bind; [exact slink | exact string_quiet | |].
    + intros [[uri n1] e1].
      eapply quiet_bind; [exact ulink | exact uvarint_quiet | |].
      * intros [[size n2] e2]. eapply quiet_bind; [exact (mlink keys) | exact (md_quiet keys) | intro; apply (quiet_ret _ _ excl) |].
        intros. now apply hush_ret.
      * intros [[size n2] e2] v2 s2 w2 s2' _ _. apply Hm.
    + intros [[uri n1] e1] v2 s2 w2 s2' _ _. apply Hs.
  - intros [[name n] e] v2 s2 w2 s2' _ _.
    eapply hush_bind; [exact slink | exact string_any |]. intros [[uri m] e1] _. apply Hs.
Qed.
Lemma read_bin_tail : forall keys name size, make_ok 1 size = true ->
  hu any (fun s => do (r, s) <- read_md R1 keys s;
    let md := fst r in
    go_make 1 size
      (do (pe, s) <- read_full R1 size s;
       let d := fill (repeat x00 (N.to_nat size)) (fst pe) in
       Ok (Some (mkBin name d (lenN d) md), s))).
Proof.
  intros keys name size H. eapply hush_bind; [exact (mlink keys) | exact (md_any keys) |]. intros r _. cbv zeta.
  apply hush_make; [exact H|]. eapply hush_bind; [apply full | apply (full_hush_any _ _ _ _ HT) |]. intros pe _. now apply hush_ret.
Qed.
Lemma read_bin_hush : forall keys, hu any (read_bin R1 keys).
Proof.
  intro keys. unfold read_bin.
  eapply hush_bind; [exact slink | exact string_any |]. intros [[name n] e] _.
  eapply hush_bind; [exact ulink | exact uvarint_hush |]. intros [[size k] e2] [Hz _]. cbn in Hz. subst size.
  now apply read_bin_tail.
Qed.
Lemma read_bin_quiet : forall keys, qu any2 (read_bin R1 keys) (read_bin R2 keys).
Proof.
  intro keys. unfold read_bin.
  eapply quiet_bind; [exact slink | exact string_quiet | |].
  - intros [[name n] e]. eapply quiet_bind; [exact ulink | exact uvarint_quiet | |].
    + intros [[size k] e2]. eapply quiet_bind; [exact (mlink keys) | exact (md_quiet keys) | |].
      * intro r. cbv zeta. apply quiet_make. eapply quiet_bind; [apply full | apply full_quiet, HT | intro; apply (quiet_ret _ _ excl) |].
        intros. now apply hush_ret.
      * intros r r2 s2 w2 s2' _ E. cbv zeta in *. unfold go_make in E.
        destruct (make_ok 1 size) eqn:Em; [|discriminate]. apply hush_make; [exact Em|].
        eapply hush_bind; [apply full | apply (full_hush_any _ _ _ _ HT) |]. intros pe _. now apply hush_ret.
    + intros [[size k] e2] [[size' k'] e2'] s2 w2 s2' [Hl _] E. cbn in Hl.
      apply read_bin_tail. apply (make_ok_le 1 size size' Hl).
      destruct (read_md R2 keys s2) as [[r t]| |]; cbn [bind] in E; try discriminate. cbv zeta in E. unfold go_make in E.
      destruct (make_ok 1 size'); [reflexivity | discriminate].
  - intros [[name n] e] v2 s2 w2 s2' _ _.
    eapply hush_bind; [exact ulink | exact uvarint_hush |]. intros [[size k] e2] [Hz _]. cbn in Hz. subst size.
    now apply read_bin_tail.
Qed.

(** capture times: a failed reader leaves some list *)
Let rd32l := rd32_link R1 R2 Rel Dead False ns full.
Let rd64l := rd64_link R1 R2 Rel Dead False ns full.
Lemma binary_any : forall k, hu any (binary_read R1 k).
Proof.
  intro k. unfold binary_read. eapply hush_bind; [apply full | apply (full_hush_any _ _ _ _ HT) |].
  intros [p [e|]] _; now apply hush_ret.
Qed.
Lemma rd32_any : forall x, hu any (rd32 R1 x).
Proof.
  intro x. unfold rd32. eapply hush_bind; [apply brlink | apply binary_any |]. intros [[p|] e] _; now apply hush_ret.
Qed.
Lemma rd64_any : forall x, hu any (rd64 R1 x).
Proof.
  intro x. unfold rd64. eapply hush_bind; [apply brlink | apply binary_any |]. intros [[p|] e] _; now apply hush_ret.
Qed.
Lemma rd32_quiet : forall x, qu bad (rd32 R1 x) (rd32 R2 x).
Proof.
  intro x. unfold rd32. eapply quiet_bind; [apply brlink | apply binary_quiet | |].
  - intros [[p|] e]; apply (quiet_ret _ _ excl).
  - intros [p e] v2 s2 w2 s2' [Hp He] _. cbn in Hp, He. subst p. apply hush_ret. exact He.
Qed.
Lemma rd64_quiet : forall x, qu bad (rd64 R1 x) (rd64 R2 x).
Proof.
  intro x. unfold rd64. eapply quiet_bind; [apply brlink | apply binary_quiet | |].
  - intros [[p|] e]; apply (quiet_ret _ _ excl).
  - intros [p e] v2 s2 w2 s2' [Hp He] _. cbn in Hp, He. subst p. apply hush_ret. exact He.
Qed.
Lemma unsteps_any : forall k cur mx buf, hu any (time_unsteps R1 k cur mx buf).
Proof.
  induction k as [|k IH]; intros cur mx buf; cbn [time_unsteps]; [now apply hush_ret|].
  eapply hush_bind; [exact two | apply (t_hush _ _ _ _ HT); discriminate |]. intros pe _. cbv zeta.
  eapply hush_bind; [apply (time_unsteps_link R1 R2 Rel Dead False ns two) | apply IH |]. intros l _. now apply hush_ret.
Qed.
Lemma unsteps_quiet : forall k cur mx buf, qu any2 (time_unsteps R1 k cur mx buf) (time_unsteps R2 k cur mx buf).
Proof.
  induction k as [|k IH]; intros cur mx buf; cbn [time_unsteps]; [apply (quiet_ret _ _ excl)|].
  eapply quiet_bind; [exact two | apply (t_quiet _ _ _ _ HT) | |].
  - intro pe. cbv zeta. eapply quiet_bind; [apply (time_unsteps_link R1 R2 Rel Dead False ns two) | apply IH | |].
    + intro l. apply (quiet_ret _ _ excl).
    + intros. now apply hush_ret.
  - intros pe v2 s2 w2 s2' _ _. cbv zeta.
    eapply hush_bind; [apply (time_unsteps_link R1 R2 Rel Dead False ns two) | apply unsteps_any |]. intros l _. now apply hush_ret.
Qed.
Lemma time64_quiet : forall n, qu any2 (decode_time64 R1 n) (decode_time64 R2 n).
Proof.
  intro n. unfold decode_time64. apply quiet_make.
  assert (HL : linked Rel Dead False (fun s => do (r, s1) <- rd64 R1 f0 s; Ok (fst r, s1)) (fun s => do (r, s1) <- rd64 R2 f0 s; Ok (fst r, s1))).
  { apply link_bind; [exact ns | apply rd64l | intro; apply link_ret]. }
  eapply quiet_bind; [exact (link_loop Rel Dead False ns _ _ _ _ HL) | | intro; apply (quiet_ret _ _ excl) | intros; now apply hush_ret].
  apply quiet_loop; [exact excl | exact HL | |].
  - eapply quiet_bind; [apply rd64l | apply rd64_quiet | intro; apply (quiet_ret _ _ excl) | intros; now apply hush_ret].
  - intros _. eapply hush_bind; [apply rd64l | apply rd64_any | intros; now apply hush_ret].
Qed.
Lemma time32_quiet : forall n, qu any2 (decode_time32 R1 n) (decode_time32 R2 n).
Proof.
  intro n. unfold decode_time32. apply quiet_make.
  assert (HL : linked Rel Dead False (fun s => do (r, s1) <- rd32 R1 f32_0 s; Ok (f64_of_f32 (fst r), s1)) (fun s => do (r, s1) <- rd32 R2 f32_0 s; Ok (f64_of_f32 (fst r), s1))).
  { apply link_bind; [exact ns | apply rd32l | intro; apply link_ret]. }
  eapply quiet_bind; [exact (link_loop Rel Dead False ns _ _ _ _ HL) | | intro; apply (quiet_ret _ _ excl) | intros; now apply hush_ret].
  apply quiet_loop; [exact excl | exact HL | |].
  - eapply quiet_bind; [apply rd32l | apply rd32_quiet | intro; apply (quiet_ret _ _ excl) | intros; now apply hush_ret].
  - intros _. eapply hush_bind; [apply rd32l | apply rd32_any | intros; now apply hush_ret].
Qed.
Lemma time16_quiet : forall n, qu any2 (decode_time16 R1 n) (decode_time16 R2 n).
Proof.
  intro n. unfold decode_time16. destruct (n =? 0); [apply (quiet_ret _ _ excl)|].
  pose proof (time_unsteps_link R1 R2 Rel Dead False ns two). pose proof unsteps_quiet.
  pose proof rd32l. pose proof rd32_quiet. qs.
Qed.
Lemma time_quiet : qu any2 (decode_time R1) (decode_time R2).
Proof.
  unfold decode_time. eapply quiet_bind; [exact one | exact (t_quiet _ _ _ _ HT 1) | | stop].
  intros [p e]. destruct e; [apply (quiet_ret _ _ excl)|].
  eapply quiet_bind; [exact ulink | exact uvarint_quiet | | stop].
  intros [[n m] e]. destruct e; [apply (quiet_ret _ _ excl)|].
  destruct (b2n (hd x00 p)) as [|[[]|[]|]]; try apply (quiet_ret _ _ excl);
    first [apply time64_quiet | apply time32_quiet | apply time16_quiet].
Qed.
Lemma time_hush : hu any (decode_time R1).
Proof. unfold decode_time. eapply hush_bind; [exact one | exact read_one_hush | stop]. Qed.
Let tlink := decode_time_link R1 R2 Rel Dead False ns one full two.

(** ** A stream.  Where the reader has failed, the payload is empty, and the
    decoder must cope with that. *)
Definition calm (e : encoder) (h : bytes) : Prop := forall name times, e_decode e name h [] times <> Panic.
Definition all_calm (encs : list encoder) (hs : list bytes) : Prop :=
  forall i e h, nthN encs i = Some e -> nthN hs i = Some h -> calm e h.
Lemma calm_low : forall encs hs i j, all_calm encs hs -> i <= j -> nthN encs j <> None -> nthN hs j <> None ->
  exists e h, nthN encs i = Some e /\ nthN hs i = Some h /\ calm e h.
Proof.
  intros encs hs i j HC Hij H1 H2.
  assert (Hlt : forall A (l : list A), nthN l j <> None -> exists x, nthN l i = Some x).
  { intros A l H. destruct (nthN l j) eqn:E; [|congruence]. apply nthN_some_lt in E.
    destruct (nthN l i) eqn:E'; [eauto|]. exfalso. rewrite nthN_nth_error in E'. apply nth_error_None in E'. unfold lenN in E. lia. }
  destruct (Hlt _ _ H1) as (e & Ee). destruct (Hlt _ _ H2) as (h & Eh). eauto 6.
Qed.
Lemma stream_ok_index : forall encs hs s v s', read_stream R2 encs hs s = Ok (v, s') ->
  exists ix, nthN encs ix <> None /\ nthN hs ix <> None.
Proof.
  intros encs hs s v s'. unfold read_stream.
  destruct (read_uvarint R2 s) as [[[[ix n] e] t]| |]; cbn [bind]; try discriminate.
  destruct (read_string R2 t) as [[[[name m] e1] t1]| |]; cbn [bind]; try discriminate.
  destruct (decode_time R2 t1) as [[[times e2] t2]| |]; cbn [bind]; try discriminate.
  destruct (read_bytes_array R2 t2) as [[[[b k] e3] t3]| |]; cbn [bind]; try discriminate.
  destruct (nthN encs ix) eqn:E1; [|discriminate]. destruct (nthN hs ix) eqn:E2; [|discriminate].
  intros _. exists ix. split; congruence.
Qed.
Definition finish (encs : list encoder) (hs : list bytes) (ix : N) (name : str) (times : list f64) (b : bytes) {S} (s : S)
  : res (option coll * S) :=
  match nthN encs ix, nthN hs ix with
  | Some enc, Some h => do r <- e_decode enc name h b times; Ok (fst r, s)
  | _, _ => Panic
  end.
Lemma finish_hush : forall encs hs ix name times, (exists e h, nthN encs ix = Some e /\ nthN hs ix = Some h /\ calm e h) ->
  hu any (fun s => finish encs hs ix name times [] s).
Proof.
  intros encs hs ix name times (e & h & E1 & E2 & HC) s Hd. unfold finish. rewrite E1, E2.
  specialize (HC name times). destruct (e_decode e name h [] times); cbn [bind]; auto. exact I.
Qed.
Section Tail.
Context (encs : list encoder) (hs : list bytes).
Definition tail3 {S} (R : Reader S) ix name times (s : S) :=
  do (r, s) <- read_bytes_array R s; let '(b, _, _) := r in finish encs hs ix name times b s.
Definition tail2 {S} (R : Reader S) ix name (s : S) := do (r, s) <- decode_time R s; let (times, _) := r in tail3 R ix name times s.
Definition tail1 {S} (R : Reader S) ix (s : S) := do (r, s) <- read_string R s; let '(name, _, _) := r in tail2 R ix name s.
Hypothesis HC : all_calm encs hs.
Lemma finish_link : forall ix name times b, linked Rel Dead False (fun s => finish encs hs ix name times b s) (fun s => finish encs hs ix name times b s).
Proof.
  intros. unfold finish. destruct (nthN encs ix) as [e|]; [|apply link_panic].
  destruct (nthN hs ix) as [h|]; [|apply link_panic].
  destruct (e_decode e name h b times); cbn [bind]; [apply link_ret | apply link_panic | apply link_stuck_l].
Qed.
Lemma finish_quiet : forall ix name times b, qu any2 (fun s => finish encs hs ix name times b s) (fun s => finish encs hs ix name times b s).
Proof.
  intros. unfold finish. destruct (nthN encs ix) as [e|]; [|apply quiet_panic].
  destruct (nthN hs ix) as [h|]; [|apply quiet_panic].
  destruct (e_decode e name h b times); cbn [bind]; [apply (quiet_ret _ _ excl) | apply quiet_panic | apply quiet_stuck].
Qed.
Lemma tail3_hush : forall ix name times, (exists e h, nthN encs ix = Some e /\ nthN hs ix = Some h /\ calm e h) -> hu any (tail3 R1 ix name times).
Proof.
  intros ix name times H. unfold tail3. eapply hush_bind; [exact blink | exact bytes_hush |].
  intros [[b n] e] [Hb _]. cbn in Hb. subst b. now apply finish_hush.
Qed.
Lemma tail2_hush : forall ix name, (exists e h, nthN encs ix = Some e /\ nthN hs ix = Some h /\ calm e h) -> hu any (tail2 R1 ix name).
Proof.
  intros ix name H. unfold tail2. eapply hush_bind; [exact tlink | exact time_hush |]. intros [t e] _. now apply tail3_hush.
Qed.
Lemma tail1_hush : forall ix, (exists e h, nthN encs ix = Some e /\ nthN hs ix = Some h /\ calm e h) -> hu any (tail1 R1 ix).
Proof.
  intros ix H. unfold tail1. eapply hush_bind; [exact slink | exact string_any |]. intros [[t n] e] _. now apply tail2_hush.
Qed.
Lemma tail3_index : forall ix name times s v s', tail3 R2 ix name times s = Ok (v, s') -> nthN encs ix <> None /\ nthN hs ix <> None.
Proof.
  intros ix name times s v s'. unfold tail3, finish.
  destruct (read_bytes_array R2 s) as [[[[b k] e3] t3]| |]; cbn [bind]; try discriminate.
  destruct (nthN encs ix) eqn:E1; [|discriminate]. destruct (nthN hs ix) eqn:E2; [|discriminate]. split; congruence.
Qed.
Lemma tail2_index : forall ix name s v s', tail2 R2 ix name s = Ok (v, s') -> nthN encs ix <> None /\ nthN hs ix <> None.
Proof.
  intros ix name s v s'. unfold tail2. destruct (decode_time R2 s) as [[[times e2] t2]| |]; cbn [bind]; try discriminate.
  apply tail3_index.
Qed.
Lemma tail1_index : forall ix s v s', tail1 R2 ix s = Ok (v, s') -> nthN encs ix <> None /\ nthN hs ix <> None.
Proof.
  intros ix s v s'. unfold tail1. destruct (read_string R2 s) as [[[[name m] e1] t1]| |]; cbn [bind]; try discriminate.
  apply tail2_index.
Qed.
Lemma stream_hush : (exists j, nthN encs j <> None /\ nthN hs j <> None) -> hu any (read_stream R1 encs hs).
Proof.
  intros (j & H1 & H2). change (read_stream R1 encs hs) with (fun s => do (r, s) <- read_uvarint R1 s; let '(ix, _, _) := r in tail1 R1 ix s).
  eapply hush_bind; [exact ulink | exact uvarint_hush |]. intros [[ix n] e] [Hz _]. cbn in Hz. subst ix.
  apply tail1_hush. apply (calm_low encs hs 0 j); auto. lia.
Qed.
Lemma stream_quiet : qu any2 (read_stream R1 encs hs) (read_stream R2 encs hs).
Proof.
  change (read_stream R1 encs hs) with (fun s => do (r, s) <- read_uvarint R1 s; let '(ix, _, _) := r in tail1 R1 ix s).
  change (read_stream R2 encs hs) with (fun s => do (r, s) <- read_uvarint R2 s; let '(ix, _, _) := r in tail1 R2 ix s).
  eapply quiet_bind; [exact ulink | exact uvarint_quiet | |].
  - intros [[ix n] e]. unfold tail1. eapply quiet_bind; [exact slink | exact string_quiet | |].
    + intros [[name m] e1]. unfold tail2. eapply quiet_bind; [exact tlink | exact time_quiet | |].
      * intros [times e2]. unfold tail3. eapply quiet_bind; [exact blink | exact bytes_quiet | |].
        -- intros [[b k] e3]. apply finish_quiet.
        -- intros [[b k] e3] [[b' k'] e3'] s2 w2 s2' [Hb _] E. cbn in Hb. subst b. apply finish_hush.
           unfold finish in E. destruct (nthN encs ix) eqn:E1; [|discriminate]. destruct (nthN hs ix) eqn:E2; [|discriminate]. eauto 6.
      * intros [t1 q1] [t2 q2] s2 w2 s2' _ E. apply tail3_hush. apply tail3_index in E as [E1 E2]. apply (calm_low encs hs ix ix); auto. lia.
    + intros [[t1 m1] q1] [[t2 m2] q2] s2 w2 s2' _ E. apply tail2_hush. apply tail2_index in E as [E1 E2]. apply (calm_low encs hs ix ix); auto. lia.
  - intros [[ix n] e] [[ix' n'] e'] s2 w2 s2' [Hl _] E. cbn in Hl. apply tail1_hush. apply tail1_index in E as [E1 E2].
    apply (calm_low encs hs ix ix'); auto.
Qed.
End Tail.
End Parsers.

(** ** Recordings *)
Section Body.
Context (keys : list str) (encs : list encoder) (hs : list bytes).
Hypothesis HC : all_calm encs hs.
Definition children (f : nat) {S} (R : Reader S) (n : N) (s : er S) : res ((list (option recording) + err) * er S) :=
  loop_err (N.to_nat n)
    (fun s => do (r, s1) <- build f keys encs hs (err_reader R) s;
              let '(c, _, e) := r in
              match e with Some e => Ok (inr e, s1) | None => Ok (inl c, s1) end) s.
Definition part4 (f : nat) {S} (R : Reader S) id name colls md refs bins (n : N) (s : er S)
  : res (option recording * option err * er S) :=
  go_make 16 n
  (do (rl, s) <- children f R n s;
   match rl with
   | inr e => Ok (None, Some e, s)
   | inl recs => Ok (Some (mkRec id name colls recs md bins refs), None, s)
   end).
Definition part3 (f : nat) {S} (R : Reader S) id name colls md refs (n : N) (s : er S)
  : res (option recording * option err * er S) :=
  go_make 16 n
  (do (bins, s) <- loop (N.to_nat n) (read_bin (err_reader R) keys) s;
   do (r, s) <- read_uvarint (err_reader R) s;
   let '(nrecs, _, _) := r in part4 f R id name colls md refs bins nrecs s).
Definition part2 (f : nat) {S} (R : Reader S) id name colls md (n : N) (s : er S)
  : res (option recording * option err * er S) :=
  go_make 16 n
  (do (refs, s) <- loop (N.to_nat n) (read_ref (err_reader R) keys) s;
   do (r, s) <- read_uvarint (err_reader R) s;
   let '(nbins, _, _) := r in part3 f R id name colls md refs nbins s).
Definition part1 (f : nat) {S} (R : Reader S) id name md (n : N) (s : er S)
  : res (option recording * option err * er S) :=
  go_make 16 n
  (do (colls, s) <- loop (N.to_nat n) (read_stream (err_reader R) encs hs) s;
   do (r, s) <- read_uvarint (err_reader R) s;
   let '(nrefs, _, _) := r in part2 f R id name colls md nrefs s).
Lemma body_parts : forall f S (R : Reader S) s, body f keys encs hs R s =
  do (r, s) <- read_string (err_reader R) s;
  let '(id, _, _) := r in
  do (r, s) <- read_string (err_reader R) s;
  let '(name, _, _) := r in
  do (r, s) <- read_md (err_reader R) keys s;
  let (md, e) := r in
  match e with
  | Some e => Ok (None, Some e, s)
  | None => do (r, s) <- read_uvarint (err_reader R) s; let '(n, _, _) := r in part1 f R id name md n s
  end.
Proof. reflexivity. Qed.

Section Step.
Context {S1 S2 : Type} (R1 : Reader S1) (R2 : Reader S2) (Rel : er S1 -> er S2 -> Prop) (Dead : er S1 -> Prop).
Context (f1 f2 : nat).
Hypothesis HT : tame (err_reader R1) (err_reader R2) Rel Dead.
Notation E1 := (err_reader R1).
Notation E2 := (err_reader R2).
Hypothesis HBL : linked Rel Dead False (build f1 keys encs hs E1) (build f2 keys encs hs E2).
Hypothesis HBQ : quiet Rel Dead any2 (build f1 keys encs hs E1) (build f2 keys encs hs E2).
Hypothesis HBH : hush Dead any (build f1 keys encs hs E1).
Let ns : forall s, Dead s -> ~ False := fun _ _ f => f.
Let excl := t_excl _ _ _ _ HT.
Let one := t_link _ _ _ _ HT 1.
Let two := t_link _ _ _ _ HT 2.
Let full := full_tame_link _ _ _ _ HT.
Let ulink := read_uvarint_link E1 E2 Rel Dead False ns one.
Let slink := read_string_link E1 E2 Rel Dead False ns one full.
Let mlink := read_md_link E1 E2 Rel Dead False ns one full keys.
Let reflink := read_ref_link E1 E2 Rel Dead False ns one full keys.
Let binlink := read_bin_link E1 E2 Rel Dead False ns one full keys.
Let stlink := read_stream_link E1 E2 Rel Dead False ns one full two encs hs.
Notation qu := (quiet Rel Dead).
Notation hu := (hush Dead).

Lemma child_link : linked Rel Dead False
  (fun s => do (r, s1) <- build f1 keys encs hs E1 s; let '(c, _, e) := r in match e with Some e => Ok (inr e, s1) | None => Ok (inl c, s1) end)
  (fun s => do (r, s1) <- build f2 keys encs hs E2 s; let '(c, _, e) := r in match e with Some e => Ok (inr e, s1) | None => Ok (inl c, s1) end).
Proof. apply link_bind; [exact ns | exact HBL |]. intros [[c n] [e|]]; apply link_ret. Qed.
Lemma children_link : forall n, linked Rel Dead False (children f1 R1 n) (children f2 R2 n).
Proof. intro n. unfold children. apply link_loop_err; [exact ns | exact child_link]. Qed.
Lemma child_hush : hu any
  (fun s => do (r, s1) <- build f1 keys encs hs E1 s; let '(c, _, e) := r in match e with Some e => Ok (inr e, s1) | None => Ok (inl c, s1) end).
Proof. eapply hush_bind; [exact HBL | exact HBH |]. intros [[c n] [e|]] _; now apply hush_ret. Qed.
Lemma children_hush : forall n, hu any (children f1 R1 n).
Proof. intro n. unfold children. eapply hush_loop_err; [exact child_link | exact child_hush]. Qed.
Lemma children_quiet : forall n, qu any2 (children f1 R1 n) (children f2 R2 n).
Proof.
  intro n. unfold children. apply quiet_loop_err; [exact excl | exact child_link | | intros _; exact child_hush].
  eapply quiet_bind; [exact HBL | exact HBQ | |].
  - intros [[c m] [e|]]; apply (quiet_ret _ _ excl).
  - intros [[c m] [e|]] v2 s2 w2 s2' _ _; now apply hush_ret.
Qed.
Lemma part4_hush : forall id name colls md refs bins n, make_ok 16 n = true -> hu any (part4 f1 R1 id name colls md refs bins n).
Proof.
  intros. unfold part4. apply hush_make; [assumption|]. eapply hush_bind; [apply children_link | apply children_hush |].
  intros [l|e] _; now apply hush_ret.
Qed.
Lemma part4_quiet : forall id name colls md refs bins n,
  qu any2 (part4 f1 R1 id name colls md refs bins n) (part4 f2 R2 id name colls md refs bins n).
Proof.
  intros. unfold part4. apply quiet_make. eapply quiet_bind; [apply children_link | apply children_quiet | |].
  - intros [l|e]; apply (quiet_ret _ _ excl).
  - intros [l|e] v2 s2 w2 s2' _ _; now apply hush_ret.
Qed.
Lemma part4_room : forall id name colls md refs bins n s v, part4 f2 R2 id name colls md refs bins n s = Ok v -> make_ok 16 n = true.
Proof. intros id name colls md refs bins n s v. unfold part4, go_make. destruct (make_ok 16 n); [reflexivity | discriminate]. Qed.
Lemma num4_hush : forall id name colls md refs bins, hu any (fun s => do (r, s) <- read_uvarint E1 s;
   let '(n, _, _) := r in part4 f1 R1 id name colls md refs bins n s).
Proof.
  intros. eapply hush_bind; [exact ulink | exact (uvarint_hush _ _ _ _ HT) |].
  intros [[n m] e] [Hz _]. cbn in Hz. subst n. now apply part4_hush.
Qed.
Lemma num4_quiet : forall id name colls md refs bins, qu any2 
   (fun s => do (r, s) <- read_uvarint E1 s; let '(n, _, _) := r in part4 f1 R1 id name colls md refs bins n s)
   (fun s => do (r, s) <- read_uvarint E2 s; let '(n, _, _) := r in part4 f2 R2 id name colls md refs bins n s).
Proof.
  intros. eapply quiet_bind; [exact ulink | exact (uvarint_quiet _ _ _ _ HT) | |].
  - intros [[n m] e]. apply part4_quiet.
  - intros [[n m] e] [[n' m'] e'] s2 w2 s2' [Hl _] E. apply part4_hush. apply part4_room in E. exact (make_ok_le _ _ _ Hl E).
Qed.

Lemma part3_hush : forall id name colls md refs n, make_ok 16 n = true -> hu any (part3 f1 R1 id name colls md refs n).
Proof.
  intros. unfold part3. apply hush_make; [assumption|].
  eapply hush_bind; [exact (link_loop _ _ _ ns _ _ _ _ binlink) | exact (hush_loop _ _ _ _ _ _ binlink (read_bin_hush _ _ _ _ HT keys)) |].
  intros l _. apply num4_hush.
Qed.
Lemma part3_quiet : forall id name colls md refs n,
  qu any2 (part3 f1 R1 id name colls md refs n) (part3 f2 R2 id name colls md refs n).
Proof.
  intros. unfold part3. apply quiet_make.
  eapply quiet_bind; [exact (link_loop _ _ _ ns _ _ _ _ binlink) | | intro; apply num4_quiet | intros; apply num4_hush].
  apply quiet_loop; [exact excl | exact binlink | exact (read_bin_quiet _ _ _ _ HT keys) | intros _; exact (read_bin_hush _ _ _ _ HT keys)].
Qed.
Lemma num3_hush : forall id name colls md refs, hu any (fun s => do (r, s) <- read_uvarint E1 s;
   let '(n, _, _) := r in part3 f1 R1 id name colls md refs n s).
Proof.
  intros. eapply hush_bind; [exact ulink | exact (uvarint_hush _ _ _ _ HT) |].
  intros [[n m] e] [Hz _]. cbn in Hz. subst n. now apply part3_hush.
Qed.
Lemma num3_quiet : forall id name colls md refs, qu any2
   (fun s => do (r, s) <- read_uvarint E1 s; let '(n, _, _) := r in part3 f1 R1 id name colls md refs n s)
   (fun s => do (r, s) <- read_uvarint E2 s; let '(n, _, _) := r in part3 f2 R2 id name colls md refs n s).
Proof.
  intros. eapply quiet_bind; [exact ulink | exact (uvarint_quiet _ _ _ _ HT) | |].
  - intros [[n m] e]. apply part3_quiet.
  - intros [[n m] e] [[n' m'] e'] s2 w2 s2' [Hl _] E. apply part3_hush. unfold part3, go_make in E.
    destruct (make_ok 16 n') eqn:Em; [|discriminate]. exact (make_ok_le _ _ _ Hl Em).
Qed.
Lemma part2_hush : forall id name colls md n, make_ok 16 n = true -> hu any (part2 f1 R1 id name colls md n).
Proof.
  intros. unfold part2. apply hush_make; [assumption|].
  eapply hush_bind; [exact (link_loop _ _ _ ns _ _ _ _ reflink) | exact (hush_loop _ _ _ _ _ _ reflink (read_ref_hush _ _ _ _ HT keys)) |].
  intros l _. apply num3_hush.
Qed.
Lemma part2_quiet : forall id name colls md n,
  qu any2 (part2 f1 R1 id name colls md n) (part2 f2 R2 id name colls md n).
Proof.
  intros. unfold part2. apply quiet_make.
  eapply quiet_bind; [exact (link_loop _ _ _ ns _ _ _ _ reflink) | | intro; apply num3_quiet | intros; apply num3_hush].
  apply quiet_loop; [exact excl | exact reflink | exact (read_ref_quiet _ _ _ _ HT keys) | intros _; exact (read_ref_hush _ _ _ _ HT keys)].
Qed.
Lemma num2_hush : forall id name colls md, hu any (fun s => do (r, s) <- read_uvarint E1 s;
   let '(n, _, _) := r in part2 f1 R1 id name colls md n s).
Proof.
  intros. eapply hush_bind; [exact ulink | exact (uvarint_hush _ _ _ _ HT) |].
  intros [[n m] e] [Hz _]. cbn in Hz. subst n. now apply part2_hush.
Qed.
Lemma num2_quiet : forall id name colls md, qu any2
   (fun s => do (r, s) <- read_uvarint E1 s; let '(n, _, _) := r in part2 f1 R1 id name colls md n s)
   (fun s => do (r, s) <- read_uvarint E2 s; let '(n, _, _) := r in part2 f2 R2 id name colls md n s).
Proof.
  intros. eapply quiet_bind; [exact ulink | exact (uvarint_quiet _ _ _ _ HT) | |].
  - intros [[n m] e]. apply part2_quiet.
  - intros [[n m] e] [[n' m'] e'] s2 w2 s2' [Hl _] E. apply part2_hush. unfold part2, go_make in E.
    destruct (make_ok 16 n') eqn:Em; [|discriminate]. exact (make_ok_le _ _ _ Hl Em).
Qed.
Lemma part1_hush : forall id name md n, make_ok 16 n = true ->
  (n <> 0 -> exists j, nthN encs j <> None /\ nthN hs j <> None) -> hu any (part1 f1 R1 id name md n).
Proof.
  intros id name md n Hm Hj. unfold part1. apply hush_make; [assumption|].
  eapply hush_bind; [exact (link_loop _ _ _ ns _ _ _ _ stlink) | | intros l _; apply num2_hush].
  destruct (N.eq_dec n 0) as [->|Hn]; [apply (hush_ret Dead _ any); exact I|].
  exact (hush_loop _ _ _ _ _ _ stlink (stream_hush _ _ _ _ HT encs hs HC (Hj Hn))).
Qed.
Lemma part1_quiet : forall id name md n,
  qu any2 (part1 f1 R1 id name md n) (part1 f2 R2 id name md n).
Proof.
  intros. unfold part1. apply quiet_make.
  eapply quiet_bind; [exact (link_loop _ _ _ ns _ _ _ _ stlink) | | intro; apply num2_quiet | intros; apply num2_hush].
  apply quiet_loop; [exact excl | exact stlink | exact (stream_quiet _ _ _ _ HT encs hs HC) |].
  intros (s2 & v & s2' & E). apply (stream_hush _ _ _ _ HT encs hs HC). exact (stream_ok_index _ _ _ _ _ _ E).
Qed.
Lemma num1_hush : forall id name md, hu any (fun s => do (r, s) <- read_uvarint E1 s;
   let '(n, _, _) := r in part1 f1 R1 id name md n s).
Proof.
  intros. eapply hush_bind; [exact ulink | exact (uvarint_hush _ _ _ _ HT) |].
  intros [[n m] e] [Hz _]. cbn in Hz. subst n. apply part1_hush; [reflexivity | congruence].
Qed.
Lemma num1_quiet : forall id name md, qu any2
   (fun s => do (r, s) <- read_uvarint E1 s; let '(n, _, _) := r in part1 f1 R1 id name md n s)
   (fun s => do (r, s) <- read_uvarint E2 s; let '(n, _, _) := r in part1 f2 R2 id name md n s).
Proof.
  intros. eapply quiet_bind; [exact ulink | exact (uvarint_quiet _ _ _ _ HT) | |].
  - intros [[n m] e]. apply part1_quiet.
  - intros [[n m] e] [[n' m'] e'] s2 w2 s2' [Hl _] E. cbn in Hl. unfold part1, go_make in E.
    destruct (make_ok 16 n') eqn:Em; [|discriminate]. apply part1_hush; [exact (make_ok_le _ _ _ Hl Em)|].
    intro Hn. destruct (N.to_nat n') as [|k] eqn:Ek; [lia|]. cbn [loop] in E.
    destruct (read_stream E2 encs hs s2) as [[v t]| |] eqn:Es; cbn [bind] in E; try discriminate.
    exact (stream_ok_index _ _ _ _ _ _ Es).
Qed.
Lemma md_then_hush : forall id name, hu any (fun s => do (r, s) <- read_md E1 keys s;
  let (md, e) := r in
  match e with
  | Some e => Ok (None, Some e, s)
  | None => do (r, s) <- read_uvarint E1 s; let '(n, _, _) := r in part1 f1 R1 id name md n s
  end).
Proof.
  intros. eapply hush_bind; [exact mlink | exact (md_any _ _ _ _ HT keys) |].
  intros [md [e|]] _; [now apply hush_ret | apply num1_hush].
Qed.
Lemma name_then_hush : forall id, hu any (fun s => do (r, s) <- read_string E1 s;
  let '(name, _, _) := r in
  do (r, s) <- read_md E1 keys s;
  let (md, e) := r in
  match e with
  | Some e => Ok (None, Some e, s)
  | None => do (r, s) <- read_uvarint E1 s; let '(n, _, _) := r in part1 f1 R1 id name md n s
  end).
Proof.
  intros. eapply hush_bind; [exact slink | exact (string_any _ _ _ _ HT) |].
  intros [[name n] e] _. apply md_then_hush.
Qed.
Lemma body_hush : hu any (body f1 keys encs hs R1).
Proof.
  intros s Hd. rewrite body_parts. revert s Hd. fold (@hush (er S1) Dead (option recording * option err) any
    (fun s => do (r, s0) <- read_string E1 s; (let '(id, _, _) := r in
      do (r0, s1) <- read_string E1 s0; (let '(name, _, _) := r0 in
      do (r1, s2) <- read_md E1 keys s1; (let (md, e) := r1 in
      match e with Some e => Ok (None, Some e, s2)
      | None => do (r, s) <- read_uvarint E1 s2; let '(n, _, _) := r in part1 f1 R1 id name md n s end))))).
  eapply hush_bind; [exact slink | exact (string_any _ _ _ _ HT) |].
  intros [[id n] e] _. apply name_then_hush.
Qed.
Lemma body_quiet : qu any2 (body f1 keys encs hs R1) (body f2 keys encs hs R2).
Proof.
  intros s1 s2 v2 s2' HR E. rewrite body_parts in *. revert s1 s2 v2 s2' HR E.
  match goal with |- forall s1 s2 v2 s2', Rel s1 s2 -> @?B s2 = Ok (v2, s2') -> match @?A s1 with _ => _ end =>
    change (qu any2 A B) end.
  eapply quiet_bind; [exact slink | exact (string_quiet _ _ _ _ HT) | |].
  - intros [[id n] e]. eapply quiet_bind; [exact slink | exact (string_quiet _ _ _ _ HT) | |].
    + intros [[name m] e1]. eapply quiet_bind; [exact mlink | exact (md_quiet _ _ _ _ HT keys) | |].
      * intros [md [e2|]]; [apply (quiet_ret _ _ excl) | apply num1_quiet].
      * intros [md [e2|]] v2 s2 w2 s2' _ _; [apply hush_ret; exact I | apply num1_hush].
    + intros [[name m] e1] v2 s2 w2 s2' _ _. apply md_then_hush.
  - intros [[id m] e1] v2 s2 w2 s2' _ _. apply name_then_hush.
Qed.
End Step.
End Body.

Section Build.
Context (keys : list str) (encs : list encoder) (hs : list bytes).
Hypothesis HC : all_calm encs hs.
Lemma build_link : forall f1 f2 S1 S2 (R1 : Reader S1) (R2 : Reader S2) Rel Dead, tame R1 R2 Rel Dead ->
  linked Rel Dead False (build f1 keys encs hs R1) (build f2 keys encs hs R2).
Proof.
  intros f1 f2 S1 S2 R1 R2 Rel Dead HT.
  destruct f1 as [|f1]; [apply link_stuck_l|].
  assert (H : forall f2, linked Rel Dead False (build (Datatypes.S f1) keys encs hs R1) (build (Datatypes.S f2) keys encs hs R2)).
  { intro f. apply nested_link. apply body_link; [auto|]. exact (t_link _ _ _ _ (er_tame _ _ _ _ HT)). }
  destruct f2 as [|f2]; [|apply H]. exact (link_fuel _ _ _ _ _ _ (H O)).
Qed.
Lemma build_tame : forall f1 f2 S1 S2 (R1 : Reader S1) (R2 : Reader S2) Rel Dead, tame R1 R2 Rel Dead ->
  quiet Rel Dead any2 (build f1 keys encs hs R1) (build f2 keys encs hs R2) /\
  hush Dead any (build f1 keys encs hs R1).
Proof.
  induction f1 as [|f1 IH]; intros f2 S1 S2 R1 R2 Rel Dead HT.
  { split; [apply quiet_stuck_l | apply hush_stuck]. }
  pose proof (er_tame _ _ _ _ HT) as HE. split.
  - destruct f2 as [|f2]; [apply quiet_stuck|]. intros s1 s2 v2 s2' HR E. rewrite build_eq in *.
    destruct (body f2 keys encs hs R2 (new_er s2)) as [[r2 t2]| |] eqn:E2; cbn [bind] in E; try discriminate.
    assert (HR' : er_rel Rel (new_er s1) (new_er s2)) by (repeat split; exact HR).
    pose proof (body_quiet keys encs hs HC R1 R2 _ _ f1 f2 HE (build_link _ _ _ _ _ _ _ _ HE)
      (proj1 (IH f2 _ _ _ _ _ _ HE)) (proj2 (IH f2 _ _ _ _ _ _ HE)) _ _ _ _ HR' E2) as H.
    destruct (body f1 keys encs hs R1 (new_er s1)) as [[[r e] t]| |]; cbn [bind]; auto.
  - intros s1 Hd. rewrite build_eq.
    pose proof (body_hush keys encs hs HC R1 R2 _ _ f1 O HE (build_link _ _ _ _ _ _ _ _ HE)
      (proj2 (IH O _ _ _ _ _ _ HE)) (new_er s1) Hd) as H.
    destruct (body f1 keys encs hs R1 (new_er s1)) as [[[r e] t]| |]; cbn [bind]; auto.
Qed.
End Build.

(** ** Read itself *)
Section Top.
Context {S1 S2 : Type} (R1 : Reader S1) (R2 : Reader S2).
Context (e2 : bool) (I1 : S1 -> bytes -> Prop) (I2 : S2 -> bytes -> Prop) (rest : bytes).
Hypothesis H1 : breaks R1 I1.
Hypothesis H2 : delivers R2 e2 I2.
Hypothesis Hrest : more e2 rest.
Notation cut := (cut I1 I2 rest).
Notation esim := (esim I1 I2 rest).

(** no panic, if the whole file can be read *)
Definition still {A} (P1 : S1 -> res (A * option err * S1)) (P2 : S2 -> res (A * option err * S2)) : Prop :=
  forall s1 s2 r, cut s1 s2 -> P2 s2 = Ok r -> P1 s1 <> Panic.
Lemma still_ret : forall A (v : A * option err) P2, still (fun s => Ok (v, s)) P2.
Proof. intros A v P2 s1 s2 r _ _. discriminate. Qed.
Lemma still_bind : forall A B (P1 : S1 -> res (A * option err * S1)) P2
  (k1 : A * option err -> S1 -> res (B * option err * S1)) k2,
  esim P1 P2 -> still P1 P2 -> (forall v, still (k1 (v, None)) (k2 (v, None))) -> (forall v e s, k1 (v, Some e) s <> Panic) ->
  still (fun s => bind (P1 s) (fun x => let (v, s') := x in k1 v s'))
        (fun s => bind (P2 s) (fun x => let (v, s') := x in k2 v s')).
Proof.
  intros A B P1 P2 k1 k2 HE HP Hk Hf s1 s2 r HC E. specialize (HE s1 s2 HC).
  destruct (P2 s2) as [[v2 t2]| |] eqn:E2; cbn [bind] in E; try discriminate.
  specialize (HP _ _ _ HC E2). destruct (P1 s1) as [[[v [e|]] t1]| |]; cbn [bind]; [apply Hf | | congruence | discriminate].
  destruct HE as [He|(t & Et & HC')]; [congruence|]. apply ok_inj in Et. injection Et as -> ->.
  exact (Hk v _ _ _ HC' E).
Qed.
Lemma still_make : forall A a n (P1 : S1 -> res (A * option err * S1)) P2, still P1 P2 ->
  still (fun s => go_make a n (P1 s)) (fun s => go_make a n (P2 s)).
Proof.
  intros A a n P1 P2 H. unfold go_make. destruct (make_ok a n); [exact H|]. intros s1 s2 r _ E. discriminate.
Qed.
Lemma still_full : forall n, still (read_full R1 n) (read_full R2 n).
Proof. intros n s1 s2 r (d & HI & _) _. exact (full_no_panic R1 I1 H1 n s1 d HI). Qed.
Lemma still_one : still (rread R1 1) (rread R2 1).
Proof.
  intros s1 s2 r (d & HI & _) _. destruct (H1 s1 d 1 HI) as (p & q & e & s' & -> & _); discriminate.
Qed.
Ltac done := intros; repeat match goal with v : (_ * _)%type |- _ => destruct v end; discriminate.
Let c1 := one_cut R1 R2 e2 I1 I2 rest H1 H2 Hrest.
Let cf := full_cut R1 R2 e2 I1 I2 rest H1 H2.
Let cu := uvarint_cut R1 R2 e2 I1 I2 rest H1 H2 Hrest.
Let cs := string_cut R1 R2 e2 I1 I2 rest H1 H2 Hrest.
Lemma still_uvarint : still (read_uvarint R1) (read_uvarint R2).
Proof.
  assert (H : forall f i x sh b n, still (read_uvarint_loop R1 f i x sh b n) (read_uvarint_loop R2 f i x sh b n)).
  { induction f as [|f IH]; intros i x sh b n; cbn [read_uvarint_loop]; [apply still_ret|].
    apply still_bind; [exact c1 | exact still_one | | done].
    intros p. cbn beta iota. destruct (b2n (hd b p) <? 128); [destruct (_ && _)|]; try apply still_ret. apply IH. }
  apply H.
Qed.
Lemma still_string : still (read_string R1) (read_string R2).
Proof.
  unfold read_string. apply still_bind; [exact cu | exact still_uvarint | | done]. intros [len n]. cbn beta iota.
  apply still_make. apply still_bind; [apply cf | apply still_full | | done]. intro p. apply still_ret.
Qed.
Lemma still_bytes : still (read_bytes_array R1) (read_bytes_array R2).
Proof.
  unfold read_bytes_array. apply still_bind; [exact cu | exact still_uvarint | | done]. intros [len n]. cbn beta iota.
  apply still_make. apply still_bind; [apply cf | apply still_full | |].
  - intro p. cbn beta iota. destruct (lenN p =? len); apply still_ret.
  - intros p e s. destruct e; try discriminate. destruct (lenN p =? len); discriminate.
Qed.
Lemma still_strings : still (read_string_array R1) (read_string_array R2).
Proof.
  assert (HE : forall k n, esim (read_strings R1 k n) (read_strings R2 k n)).
  { induction k as [|k IH]; intro n; cbn [read_strings]; [apply esim_ret|].
    apply esim_bind; [exact cs | |]. 
    - intros [x m]. cbn beta iota. apply esim_bind; [apply IH | intros [xs t]; apply esim_ret | intros [xs t] e s; exact I].
    - intros [x m] e s. exact I. }
  assert (H : forall k n, still (read_strings R1 k n) (read_strings R2 k n)).
  { induction k as [|k IH]; intro n; cbn [read_strings]; [apply still_ret|].
    apply still_bind; [exact cs | exact still_string | | done]. intros [x m]. cbn beta iota.
    apply still_bind; [apply HE | apply IH | | done]. intros [xs t]. apply still_ret. }
  unfold read_string_array. apply still_bind; [exact cu | exact still_uvarint | | done]. intros [len n]. cbn beta iota.
  apply still_make. apply H.
Qed.
Lemma still_versions : forall k n, still (read_versions R1 k n) (read_versions R2 k n).
Proof.
  induction k as [|k IH]; intro n; cbn [read_versions]; [apply still_ret|].
  apply still_bind; [exact cu | exact still_uvarint | | done]. intros [x m]. cbn beta iota.
  apply still_bind; [apply (versions_cut R1 R2 e2 I1 I2 rest H1 H2 Hrest) | apply IH | | done]. intros [xs t]. apply still_ret.
Qed.
Lemma still_encoders : forall reg, still (read_encoders R1 reg) (read_encoders R2 reg).
Proof.
  intro reg. unfold read_encoders.
  apply still_bind; [exact (strings_cut R1 R2 e2 I1 I2 rest H1 H2 Hrest) | exact still_strings | | done]. intros [sigs n]. cbn beta iota.
  apply still_bind; [apply (versions_cut R1 R2 e2 I1 I2 rest H1 H2 Hrest) | apply still_versions | | done]. intros [vs n2]. cbn beta iota.
  destruct (find_encoders reg (combine sigs vs)); apply still_ret.
Qed.
Lemma still_headers : forall k n, still (read_headers R1 k n) (read_headers R2 k n).
Proof.
  induction k as [|k IH]; intro n; cbn [read_headers]; [apply still_ret|].
  apply still_bind; [exact (bytes_cut R1 R2 e2 I1 I2 rest H1 H2 Hrest) | exact still_bytes | | done]. intros [x m]. cbn beta iota.
  apply still_bind; [apply (headers_cut R1 R2 e2 I1 I2 rest H1 H2 Hrest) | apply IH | | done]. intros [xs t]. apply still_ret.
Qed.
Lemma still_build : forall keys encs hs f1 f2, all_calm encs hs ->
  forall s1 s2 r, cut s1 s2 -> build f2 keys encs hs R2 s2 = Ok r -> build f1 keys encs hs R1 s1 <> Panic.
Proof.
  intros keys encs hs f1 f2 HA s1 s2 r HC E. destruct f1 as [|f1]; [discriminate|]. destruct f2 as [|f2]; [discriminate|].
  rewrite build_eq in *. pose proof (cut_tame R1 R2 e2 I1 I2 rest H1 H2) as HT.
  destruct (body f2 keys encs hs R2 (new_er s2)) as [[r2 t2]| |] eqn:E2; cbn [bind] in E; try discriminate.
  assert (HC' : er_cut I1 I2 rest (new_er s1) (new_er s2)) by (repeat split; exact HC).
  pose proof (body_quiet keys encs hs HA R1 R2 _ _ f1 f2 HT (build_link keys encs hs _ _ _ _ _ _ _ _ HT)
    (proj1 (build_tame keys encs hs HA f1 f2 _ _ _ _ _ _ HT)) (proj2 (build_tame keys encs hs HA f1 f2 _ _ _ _ _ _ HT)) _ _ _ _ HC' E2) as H.
  destruct (body f1 keys encs hs R1 (new_er s1)) as [[[r1 e] t]| |]; cbn [bind]; [discriminate | contradiction | discriminate].
Qed.
(** [s2] is where the headers start *)
Lemma still_payload : forall encs n s1 s2 r, cut s1 s2 ->
  (forall n hs m t, read_headers R2 (length encs) n s2 = Ok (hs, m, None, t) -> all_calm encs hs) ->
  read_payload R2 encs n s2 = Ok r -> read_payload R1 encs n s1 <> Panic.
Proof.
  intros encs n s1 s2 r HC HA E. unfold read_payload in *.
  pose proof (headers_cut R1 R2 e2 I1 I2 rest H1 H2 Hrest (length encs) n s1 s2 HC) as HE.
  destruct (read_headers R2 (length encs) n s2) as [[[[hs2 m2] x2] t2]| |] eqn:E2; cbn [bind] in E; try discriminate.
  pose proof (still_headers _ _ _ _ _ HC E2) as HS.
  destruct (read_headers R1 (length encs) n s1) as [[[[hs m] [e|]] t1]| |]; cbn [bind]; try discriminate; [|congruence].
  destruct HE as [He|(t & Et & HC1)]; [congruence|]. apply ok_inj in Et. injection Et as -> -> -> ->.
  specialize (HA _ _ _ _ E2).
  pose proof (strings_cut R1 R2 e2 I1 I2 rest H1 H2 Hrest t1 t HC1) as HE.
  destruct (read_string_array R2 t) as [[[[ks2 k2] x2] u2]| |] eqn:E3; cbn [bind] in E; try discriminate.
  pose proof (still_strings _ _ _ HC1 E3) as HS1.
  destruct (read_string_array R1 t1) as [[[[ks k] [e|]] u1]| |]; cbn [bind]; try discriminate; [|congruence].
  destruct HE as [He|(u & Eu & HC2)]; [congruence|]. apply ok_inj in Eu. injection Eu as -> -> -> ->. cbv zeta in *.
  destruct (build (build_fuel R2 u) ks encs hs R2 u) as [[[[rec q] x] w]| |] eqn:Eb; cbn [bind] in E; try discriminate.
  pose proof (still_build ks encs hs (build_fuel R1 u1) _ HA _ _ _ HC2 Eb) as HB.
  destruct (build (build_fuel R1 u1) ks encs hs R1 u1) as [[[[? ?] [?|]] ?]| |]; cbn [bind]; try discriminate; now destruct (HB eq_refl).
Qed.
(** Read comes as far as the payload, or stops with an error. *)
Lemma open_cut : forall reg v1 IZ s1 s2 n0 a2 xs k b2 p c2, cut s1 s2 ->
  get_version R2 s2 = Ok (2, n0, None, a2) -> read_encoders R2 reg a2 = Ok (xs, k, None, b2) -> rread R2 1 b2 = Ok (p, None, c2) ->
  (exists rec m e s', read reg v1 IZ R1 s1 = Ok (rec, m, Some e, s')) \/ read reg v1 IZ R1 s1 = Stuck \/
  exists c1, cut c1 c2 /\ read reg v1 IZ R1 s1 =
    if b2n (hd x00 p) =? 1 then
      do (r, s) <- read_payload (iz_read IZ S1 R1) xs (n0 + k + lenN p) (iz_new IZ S1 c1); Ok (r, inr s)
    else do (r, s) <- read_payload R1 xs (n0 + k + lenN p) c1; Ok (r, inl s).
Proof.
  intros reg v1 IZ s1 s2 n0 a2 xs k b2 p c2 HC Ev2 Ees2 Eo2. unfold read.
  pose proof (version_cut R1 R2 e2 I1 I2 rest H1 H2 Hrest s1 s2 HC) as HV.
  assert (Hgv : get_version R1 s1 <> Panic).
  { unfold get_version in *. pose proof (still_one s1 s2) as Ho.
    destruct (rread R2 1 s2) as [r2| |]; cbn [bind] in Ev2; try discriminate.
    specialize (Ho _ HC eq_refl). destruct (rread R1 1 s1) as [[[? [?|]] ?]| |]; cbn [bind]; try discriminate; now destruct (Ho eq_refl). }
  destruct (get_version R1 s1) as [[[[v m0] e] a1]| |]; cbn [bind]; [| congruence | auto].
  destruct e as [e|]; [left; eauto 6|]. destruct HV as [HV|(a & Ev & HC1)]; [congruence|].
  rewrite Ev2 in Ev. apply ok_inj in Ev. injection Ev as <- <- <-. change (2 =? 1) with false. change (2 =? 2) with true. cbn [negb]. cbv iota.
  pose proof (encoders_cut R1 R2 e2 I1 I2 rest H1 H2 Hrest reg a1 a2 HC1) as HEn.
  pose proof (still_encoders reg _ _ _ HC1 Ees2) as HS.
  destruct (read_encoders R1 reg a1) as [[[[es k1] e] b1]| |]; cbn [bind]; [| congruence | auto].
  destruct e as [e|]; [left; eauto 6|]. destruct HEn as [HEn|(b & Ee & HC2)]; [congruence|].
  rewrite Ees2 in Ee. apply ok_inj in Ee. injection Ee as <- <- <-.
  pose proof (c1 b1 b2 HC2) as HO. pose proof (still_one _ _ _ HC2 Eo2) as HS1.
  destruct (rread R1 1 b1) as [[[p1 e] cc1]| |]; cbn [bind]; [| congruence | auto].
  destruct e as [e|]; [left; eauto 6|]. destruct HO as [HO|(c & Eo & HC3)]; [congruence|].
  rewrite Eo2 in Eo. apply ok_inj in Eo. injection Eo as <- <-. right. right. exists cc1. split; [exact HC3 | reflexivity].
Qed.
End Top.
