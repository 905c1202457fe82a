(** Reading the beginning of an input whose whole can be read: either an error is
    reported, or the same values come back and as much is missing as before. *)
From Coq Require Import Lia.
From Verif Require Import Base BaseFacts IO Spec IOFacts Floats BinaryIO Metadata Encoding Reader SpecFile LinkFacts SafeFacts TruncFacts QuietFacts.
Local Open Scope N_scope.

Section Cut.
Context {S1 S2 : Type} (R1 : Reader S1) (R2 : Reader S2).
Context (e2 : bool) (I1 : S1 -> bytes -> Prop) (I2 : S2 -> bytes -> Prop) (rest : bytes).
Hypothesis H1 : breaks R1 I1.
Hypothesis H2 : delivers R2 e2 I2.
Hypothesis Hrest : more e2 rest.
(** what is known of the first reader once it has failed *)
Context (over : S1 -> Prop).
Hypothesis one_over : forall s p e s', rread R1 1 s = Ok (p, Some e, s') -> over s'.
Hypothesis full_over : forall n s p e s', read_full R1 n s = Ok (p, Some e, s') -> over s'.
Notation cut := (cut I1 I2 rest).

Definition csim {A} (P1 : S1 -> res (A * option err * S1)) (P2 : S2 -> res (A * option err * S2)) : Prop :=
  forall s1 s2 v2 x2 s2', cut s1 s2 -> P2 s2 = Ok (v2, x2, s2') ->
  match P1 s1 with
  | Ok (v, None, s1') => v = v2 /\ x2 = None /\ cut s1' s2'
  | Ok (_, Some _, s1') => x2 = None -> over s1'
  | Stuck => True
  | Panic => False
  end.
Definition reports {S A} (s : S) (m : res (A * option err * S)) : Prop :=
  match m with Ok (_, Some _, s') => s' = s | _ => False end.

Lemma csim_ret : forall A (v : A) e, csim (fun s => Ok (v, e, s)) (fun s => Ok (v, e, s)).
Proof. intros A v e s1 s2 v2 x2 s2' HC E. apply ok_inj in E. injection E as <- <- <-. destruct e; auto. discriminate. Qed.
Lemma csim_stuck : forall A (P2 : S2 -> res (A * option err * S2)), csim (fun _ => Stuck) P2.
Proof. intros A P2 s1 s2 v2 x2 s2' _ _. exact I. Qed.
Lemma csim_stuck_r : forall A (P1 : S1 -> res (A * option err * S1)), csim P1 (fun _ => Stuck).
Proof. intros A P1 s1 s2 v2 x2 s2' _ E. discriminate. Qed.
Lemma csim_panic : forall A (P1 : S1 -> res (A * option err * S1)), csim P1 (fun _ => Panic).
Proof. intros A P1 s1 s2 v2 x2 s2' _ E. discriminate. Qed.
Lemma csim_bind : forall A B (P1 : S1 -> res (A * option err * S1)) P2
  (k1 : A * option err -> S1 -> res (B * option err * S1)) k2,
  csim P1 P2 -> (forall v, csim (k1 (v, None)) (k2 (v, None))) -> (forall v e s, reports s (k1 (v, Some e) s)) ->
  (forall v e s, reports s (k2 (v, Some e) s)) ->
  csim (fun s => bind (P1 s) (fun x => let (v, s') := x in k1 v s'))
       (fun s => bind (P2 s) (fun x => let (v, s') := x in k2 v s')).
Proof.
  intros A B P1 P2 k1 k2 HP Hk Hf Hf2 s1 s2 v2 x2 s2' HC E.
  destruct (P2 s2) as [[[w x] t]| |] eqn:E2; cbn [bind] in E; try discriminate.
  specialize (HP s1 s2 w x t HC E2).
  destruct (P1 s1) as [[[v [e|]] s1']| |]; cbn [bind]; auto.
  - specialize (Hf v e s1'). unfold reports in Hf. destruct (k1 (v, Some e) s1') as [[[u [y|]] s']| |]; try contradiction.
    subst s'. intros ->. apply HP. destruct x as [x|]; [|reflexivity]. specialize (Hf2 w x t). rewrite E in Hf2. contradiction.
  - destruct HP as (-> & -> & HC'). exact (Hk w _ _ _ _ _ HC' E).
Qed.
Lemma csim_make : forall A a n (P1 : S1 -> res (A * option err * S1)) P2, csim P1 P2 ->
  csim (fun s => go_make a n (P1 s)) (fun s => go_make a n (P2 s)).
Proof. intros A a n P1 P2 H. unfold go_make. destruct (make_ok a n); [exact H | apply csim_panic]. Qed.

Lemma one_c : csim (rread R1 1) (rread R2 1).
Proof.
  intros s1 s2 v2 x2 s2' HC E. pose proof (one_cut R1 R2 e2 I1 I2 rest H1 H2 Hrest s1 s2 HC) as H.
  destruct (rread R1 1 s1) as [[[v [e|]] s1']| |] eqn:E1; auto.
  - eauto.
  - destruct H as [H|(t & Et & HC')]; [congruence|]. rewrite Et in E. apply ok_inj in E. injection E as <- <- <-. auto.
  - destruct HC as (d & HI & _). destruct (H1 s1 d 1 HI) as (p & q & e & s' & E' & _); [discriminate|]. congruence.
Qed.
Lemma full_c : forall n, csim (read_full R1 n) (read_full R2 n).
Proof.
  intros n s1 s2 v2 x2 s2' HC E. pose proof (full_cut R1 R2 e2 I1 I2 rest H1 H2 n s1 s2 HC) as H.
  destruct (read_full R1 n s1) as [[[v [e|]] s1']| |] eqn:E1; auto.
  - eauto.
  - destruct H as [H|(t & Et & HC')]; [congruence|]. rewrite Et in E. apply ok_inj in E. injection E as <- <- <-. auto.
  - destruct HC as (d & HI & _). exact (full_no_panic R1 I1 H1 n s1 d HI E1).
Qed.

Ltac done := intros; repeat match goal with v : (_ * _)%type |- _ => destruct v | v : option _ |- _ => destruct v end; reflexivity.
Ltac step :=
  match goal with
  | |- csim (fun s => Ok (_, _, s)) _ => apply csim_ret
  | |- csim (fun s => Stuck) _ => apply csim_stuck
  | |- csim _ (fun s => Stuck) => apply csim_stuck_r
  | |- csim _ (fun s => Panic) => apply csim_panic
  | |- csim (fun s => go_make _ _ _) _ => apply csim_make
  | |- csim (fun s => match ?x with _ => _ end) _ => destruct x
  | |- csim (fun s => bind _ _) _ => apply csim_bind; [| intro | try done | try done]
  end.
Ltac steps := repeat (cbn beta iota; step).
Lemma uvarint_c : csim (read_uvarint R1) (read_uvarint R2).
Proof.
  assert (H : forall f i x sh b n, csim (read_uvarint_loop R1 f i x sh b n) (read_uvarint_loop R2 f i x sh b n)).
  { induction f as [|f IH]; intros i x sh b n; cbn [read_uvarint_loop]; [apply csim_ret|].
    steps; auto using one_c. }
  apply H.
Qed.
Lemma string_c : csim (read_string R1) (read_string R2).
Proof. unfold read_string. steps; auto using uvarint_c, full_c. Qed.
Lemma strings_c : csim (read_string_array R1) (read_string_array R2).
Proof.
  assert (H : forall k n, csim (read_strings R1 k n) (read_strings R2 k n)).
  { induction k as [|k IH]; intro n; cbn [read_strings]; [apply csim_ret|]. steps; auto using string_c. }
  unfold read_string_array. steps; auto using uvarint_c.
Qed.
Lemma uvarints_c : csim (read_uvarint_array R1) (read_uvarint_array R2).
Proof.
  assert (H : forall k n, csim (read_uvarints R1 k n) (read_uvarints R2 k n)).
  { induction k as [|k IH]; intro n; cbn [read_uvarints]; [apply csim_ret|]. steps; auto using uvarint_c. }
  unfold read_uvarint_array. steps; auto using uvarint_c.
Qed.
Lemma bytes_c : csim (read_bytes_array R1) (read_bytes_array R2).
Proof.
  unfold read_bytes_array. apply csim_bind; [apply uvarint_c | | done | done]. intros [len n]. cbn beta iota.
  apply csim_make. intros s1 s2 v2 x2 s2' HC E.
  destruct (read_full R2 len s2) as [[[q x] t]| |] eqn:E2'; cbn [bind] in E; try discriminate.
  pose proof (full_c len s1 s2 q x t HC E2') as H.
  destruct (read_full R1 len s1) as [[[p [e|]] s1']| |] eqn:E1; cbn [bind]; auto.
  - assert (Ho : over s1') by eauto. destruct e; auto. apply full_eof in E1 as [-> E1].
    destruct (N.eqb_spec (lenN (@nil Coq.Init.Byte.byte)) len) as [El|El]; [cbn in El; lia | auto].
  - destruct H as (-> & -> & HC'). destruct (lenN q =? len); apply ok_inj in E; injection E as <- <- <-; auto. discriminate.
Qed.
Lemma binary_c : forall k, csim (binary_read R1 k) (binary_read R2 k).
Proof. intro k. unfold binary_read. steps; auto using full_c. Qed.
Lemma floats_c : forall k, csim (read_float64s R1 k) (read_float64s R2 k).
Proof. induction k as [|k IH]; cbn [read_float64s]; steps; auto using binary_c. Qed.
Lemma property_with_c : forall g1 g2, (forall c, csim (g1 c) (g2 c)) -> csim (read_property_with R1 g1) (read_property_with R2 g2).
Proof. intros g1 g2 H. unfold read_property_with. steps; auto using one_c. Qed.
Lemma entries_c : forall p1 p2, csim p1 p2 -> forall ks acc, csim (read_entries p1 ks acc) (read_entries p2 ks acc).
Proof. intros p1 p2 H. induction ks as [|k ks IH]; intro acc; cbn [read_entries]; steps; auto. Qed.
Lemma props_c : forall p1 p2, csim p1 p2 -> forall k, csim (read_props p1 k) (read_props p2 k).
Proof. intros p1 p2 H. induction k as [|k IH]; cbn [read_props]; steps; auto. Qed.
Lemma nested_with_c : forall p1 p2, csim p1 p2 -> csim (read_nested_with R1 p1) (read_nested_with R2 p2).
Proof. intros p1 p2 H. unfold read_nested_with. steps; auto using strings_c, entries_c. Qed.
Lemma prop_data_c : forall f1 f2 c, csim (read_prop_data R1 f1 c) (read_prop_data R2 f2 c).
Proof.
  induction f1 as [|f1 IH]; intros f2 c; [apply csim_stuck|]. destruct f2 as [|f2]; [apply csim_stuck_r|].
  cbn [read_prop_data].
  assert (Hn : csim (read_nested_with R1 (read_property_with R1 (read_prop_data R1 f1))) (read_nested_with R2 (read_property_with R2 (read_prop_data R2 f2))))
    by (apply nested_with_c, property_with_c; auto).
  assert (Hp : forall k c, csim (read_props (read_prop_data R1 f1 c) k) (read_props (read_prop_data R2 f2 c) k)) by (intros; apply props_c; auto).
  pose proof string_c. pose proof bytes_c. pose proof binary_c. pose proof uvarint_c. pose proof floats_c. pose proof one_c.
  steps; auto; intros v e s; do 4 (destruct v as [|? v]; try reflexivity).
Qed.
Lemma property_c : csim (read_property R1) (read_property R2).
Proof.
  intros s1 s2 v2 x2 s2' HC E. unfold read_property in *.
  exact (property_with_c (read_prop_data R1 (prop_fuel R1 s1)) (read_prop_data R2 (prop_fuel R2 s2)) (prop_data_c _ _) s1 s2 v2 x2 s2' HC E).
Qed.
End Cut.
