(** Reading the beginning of a file: without an error only if the whole file
    would have been read the same way. *)
From Coq Require Import Lia.
From Verif Require Import Base BaseFacts IO Spec IOFacts Floats BinaryIO Metadata Recording Encoding TimeIO Writer Reader.
From Verif Require Import SpecFile LinkFacts SafeFacts.
Local Open Scope N_scope.

(** ReadFull reports io.EOF only when nothing was read. *)
Lemma full_eof : forall S (R : Reader S) n s p s', read_full R n s = Ok (p, Some EEOF, s') -> p = [] /\ n <> 0.
Proof.
  intros S R n s p s'. unfold read_full.
  assert (H : forall f need acc s, read_at_least R f need acc s = Ok (p, Some EEOF, s') -> p = [] /\ lenN acc + need <> 0).
  { induction f as [|f IH]; intros need acc s0; cbn [read_at_least]; destruct (N.eqb_spec need 0) as [H0|H0]; try discriminate.
    destruct (rread R need s0) as [[[q e] s1]| |]; cbn [bind]; try discriminate.
    destruct e as [e|]; [|intro E; apply IH in E as [-> E]; split; [reflexivity | lia]].
    destruct (need - lenN q =? 0); [discriminate|].
    destruct e; try discriminate. destruct (acc ++ q) eqn:Ea; [|discriminate].
    intro E. apply ok_inj in E. injection E as <- _. split; [reflexivity | lia]. }
  intro E. apply H in E. cbn in E. exact E.
Qed.

Lemma delivers_breaks : forall S (R : Reader S) eager I, delivers R eager I -> breaks R I.
Proof.
  intros S R eager I H s d n HI Hn. destruct d as [|b d].
  - destruct (d_eof _ _ _ H s n HI Hn) as (s' & E & HI'). exists [], [], (Some EEOF), s'. repeat split; auto; [cbn; lia | discriminate].
  - destruct (d_more _ _ _ H s (b :: d) n HI) as (p & q & e & s' & E & Ed & Hp & Hl & HI' & _); try discriminate; auto.
    exists p, q, e, s'. auto.
Qed.
Lemma full_breaks : forall S (R : Reader S) I, breaks R I -> forall n s d p s', I s d -> read_full R n s = Ok (p, None, s') ->
  exists q, d = p ++ q /\ lenN p = n /\ I s' q.
Proof.
  intros S R I H n s d p s' HI E. unfold read_full in E.
  assert (HF : forall f need acc s d, I s d -> read_at_least R f need acc s = Ok (p, None, s') ->
    exists p' q, p = acc ++ p' /\ d = p' ++ q /\ lenN p' = need /\ I s' q).
  { clear -H. intro f. induction f as [|f IH]; intros need acc s d HI E; cbn [read_at_least] in E; destruct (N.eqb_spec need 0) as [H0|H0]; try discriminate.
    1, 2: apply ok_inj in E; injection E as -> ->; exists [], d; rewrite app_nil_r; auto.
    destruct (H s d need HI H0) as (p1 & q & e & s1 & E1 & -> & Hl & HI1 & He). rewrite E1 in E. cbn [bind] in E.
    destruct e as [e|].
    - destruct (N.eqb_spec (need - lenN p1) 0) as [Hz|Hz].
      + apply ok_inj in E. injection E as <- <-. exists p1, q. repeat split; auto. lia.
      + destruct e; try discriminate. destruct (acc ++ p1); discriminate.
    - destruct (IH _ _ _ _ HI1 E) as (p2 & q2 & -> & -> & Hl2 & HI2). exists (p1 ++ p2), q2.
      rewrite <- !app_assoc. repeat split; auto. rewrite lenN_app. lia. }
  destruct (HF _ _ _ _ _ HI E) as (p' & q & -> & -> & Hl & Hq). exists q. auto.
Qed.

Section Trunc.
Context {S1 S2 : Type} (R1 : Reader S1) (R2 : Reader S2).
Context (e2 : bool) (I1 : S1 -> bytes -> Prop) (I2 : S2 -> bytes -> Prop) (rest : bytes).
Hypothesis H1 : breaks R1 I1.
Hypothesis H2 : delivers R2 e2 I2.
Hypothesis Hrest : more e2 rest.

Definition cut (s1 : S1) (s2 : S2) : Prop := exists d, I1 s1 d /\ I2 s2 (d ++ rest).
Definition esim {A} (P1 : S1 -> res (A * option err * S1)) (P2 : S2 -> res (A * option err * S2)) : Prop :=
  forall s1 s2, cut s1 s2 ->
  match P1 s1 with
  | Ok (v, e, s1') => e <> None \/ exists s2', P2 s2 = Ok (v, e, s2') /\ cut s1' s2'
  | _ => True
  end.
Definition fails {A} (m : res (A * option err * S1)) : Prop :=
  match m with Ok (_, None, _) => False | _ => True end.
Lemma esim_ret : forall A (v : A) e, esim (fun s => Ok (v, e, s)) (fun s => Ok (v, e, s)).
Proof. intros A v e s1 s2 H. right. eauto. Qed.
Lemma esim_bind : forall A B (P1 : S1 -> res (A * option err * S1)) P2
  (k1 : A * option err -> S1 -> res (B * option err * S1)) k2,
  esim P1 P2 -> (forall v, esim (k1 (v, None)) (k2 (v, None))) -> (forall v e s, fails (k1 (v, Some e) s)) ->
  esim (fun s => bind (P1 s) (fun x => let (v, s') := x in k1 v s'))
       (fun s => bind (P2 s) (fun x => let (v, s') := x in k2 v s')).
Proof.
  intros A B P1 P2 k1 k2 HP Hk Hf s1 s2 HC. specialize (HP s1 s2 HC).
  destruct (P1 s1) as [[[v e] s1']| |]; cbn [bind]; auto.
  destruct HP as [He|(s2' & E & HC')].
  - destruct e as [e|]; [|congruence]. specialize (Hf v e s1'). unfold fails in Hf.
    destruct (k1 (v, Some e) s1') as [[[w [x|]] s']| |]; auto. now left.
  - rewrite E. cbn [bind]. destruct e as [e|]; [|now apply Hk].
    specialize (Hf v e s1'). unfold fails in Hf.
    destruct (k1 (v, Some e) s1') as [[[w [x|]] s']| |]; auto. now left.
Qed.
Lemma esim_make : forall A a n (P1 : S1 -> res (A * option err * S1)) P2, esim P1 P2 ->
  esim (fun s => go_make a n (P1 s)) (fun s => go_make a n (P2 s)).
Proof.
  intros A a n P1 P2 H. unfold go_make. destruct (make_ok a n); [exact H|]. intros s1 s2 _. exact I.
Qed.

Lemma one_cut : esim (rread R1 1) (rread R2 1).
Proof.
  intros s1 s2 (d & HI1 & HI2). destruct (H1 s1 d 1 HI1) as (p & q & e & s' & -> & -> & Hl & HI' & He); [discriminate|].
  destruct e as [e|]; [left; discriminate|]. specialize (He eq_refl).
  destruct p as [|b [|? p]]; [congruence | | rewrite !lenN_cons in Hl; lia]. cbn [app] in HI2.
  destruct (read_byte_ok R2 e2 I2 (delivers_serves _ _ _ H2) s2 b (q ++ rest) HI2) as (s2' & -> & HI2').
  { destruct Hrest as [H|H]; [now left|]. right. intro E. apply app_eq_nil in E as [_ E]. congruence. }
  right. exists s2'. split; [reflexivity|]. now exists q.
Qed.
Lemma full_cut : forall n, esim (read_full R1 n) (read_full R2 n).
Proof.
  intros n s1 s2 (d & HI1 & HI2).
  destruct (read_full R1 n s1) as [[[p e] s1']| |] eqn:E; auto. destruct e as [e|]; [now left|].
  destruct (full_breaks _ _ _ H1 _ _ _ _ _ HI1 E) as (q & -> & Hl & HI'). rewrite <- app_assoc in HI2.
  destruct (read_full_ok R2 e2 I2 (delivers_serves _ _ _ H2) n s2 _ _ HI2 Hl) as (s2' & -> & HI2').
  right. exists s2'. split; [reflexivity|]. now exists q.
Qed.
Ltac done := intros; repeat match goal with v : (_ * _)%type |- _ => destruct v end; exact I.
Ltac step :=
  match goal with
  | |- esim (fun s => Ok (_, _, s)) _ => apply esim_ret
  | |- esim (fun s => go_make _ _ _) _ => apply esim_make
  | |- esim (fun s => let '(_, _) := ?x in _) _ => destruct x
  | |- esim (fun s => if ?x then _ else _) _ => destruct x
  | |- esim (fun s => bind _ _) _ => apply esim_bind; [| intro | try done]
  end.
Ltac steps := repeat (cbn beta iota; step).
Lemma uvarint_cut : esim (read_uvarint R1) (read_uvarint R2).
Proof.
  assert (H : forall f i x sh b n, esim (read_uvarint_loop R1 f i x sh b n) (read_uvarint_loop R2 f i x sh b n)).
  { induction f as [|f IH]; intros i x sh b n; cbn [read_uvarint_loop]; [apply esim_ret|].
    steps; auto using one_cut. }
  apply H.
Qed.
Lemma string_cut : esim (read_string R1) (read_string R2).
Proof. unfold read_string. steps; auto using uvarint_cut, full_cut. Qed.
Lemma bytes_cut : esim (read_bytes_array R1) (read_bytes_array R2).
Proof.
  unfold read_bytes_array. apply esim_bind; [apply uvarint_cut | | done]. intros [len n]. cbn beta iota.
  apply esim_make. intros s1 s2 HC. pose proof (full_cut len s1 s2 HC) as H.
  destruct (read_full R1 len s1) as [[[p e] s1']| |] eqn:E; cbn [bind]; auto.
  destruct H as [He|(s2' & -> & HC')].
  - destruct e as [e|]; [|congruence]. destruct e; try (left; discriminate).
    apply full_eof in E as [-> E]. destruct (N.eqb_spec (lenN (@nil Coq.Init.Byte.byte)) len) as [El|El]; [cbn in El; lia | now left].
  - cbn [bind]. destruct e as [[]|]; try (left; discriminate);
      (destruct (lenN p =? len); [right; eexists; split; [reflexivity | exact HC'] | left; discriminate]).
Qed.
Lemma strings_cut : esim (read_string_array R1) (read_string_array R2).
Proof.
  assert (H : forall k n, esim (read_strings R1 k n) (read_strings R2 k n)).
  { induction k as [|k IH]; intro n; cbn [read_strings]; [apply esim_ret|]. steps; auto using string_cut. }
  unfold read_string_array. steps; auto using uvarint_cut.
Qed.
Lemma versions_cut : forall k n, esim (read_versions R1 k n) (read_versions R2 k n).
Proof.
  induction k as [|k IH]; intro n; cbn [read_versions]; [apply esim_ret|].
  steps; auto using uvarint_cut.
Qed.
Lemma encoders_cut : forall reg, esim (read_encoders R1 reg) (read_encoders R2 reg).
Proof.
  intro reg. unfold read_encoders. steps; auto using strings_cut, versions_cut.
  cbn beta iota. match goal with |- context [find_encoders ?a ?b] => destruct (find_encoders a b) end; apply esim_ret.
Qed.
Lemma headers_cut : forall k n, esim (read_headers R1 k n) (read_headers R2 k n).
Proof.
  induction k as [|k IH]; intro n; cbn [read_headers]; [apply esim_ret|]. steps; auto using bytes_cut.
Qed.
Lemma version_cut : esim (get_version R1) (get_version R2).
Proof. unfold get_version. steps; auto using one_cut. Qed.

(** the ErrReaders on top of the two readers *)
Definition er_cut (x1 : er S1) (x2 : er S2) : Prop :=
  er_err x1 = None /\ er_err x2 = None /\ er_n x1 = er_n x2 /\ cut (er_in x1) (er_in x2).
Definition er_failed (x1 : er S1) : Prop := er_err x1 <> None.
Lemma er_cut_link : forall n, linked er_cut er_failed False (rread (err_reader R1) n) (rread (err_reader R2) n).
Proof.
  intro n. split.
  - intros x1 x2 (Hx1 & Hx2 & Hn & HC). cbn [rread err_reader]. rewrite Hx1, Hx2, <- Hn.
    pose proof (full_cut n _ _ HC) as H.
    destruct (read_full R1 n (er_in x1)) as [[[p e] s1']| |]; cbn [bind]; [| |exact I].
    + destruct H as [He|(s2' & -> & HC')].
      * destruct (do (px, s2) <- read_full R2 n (er_in x2); _) as [[? ?]| |]; cbn; auto.
      * cbn [bind]. destruct e as [e|]; [left; discriminate|]. right. eexists. split; [reflexivity|].
        repeat split. exact HC'.
    + destruct (do (px, s2) <- read_full R2 n (er_in x2); _) as [[? ?]| |]; cbn; auto; contradiction.
  - intros x1 Hx. unfold er_failed in Hx. cbn [rread err_reader]. destruct (er_err x1) eqn:E; [|congruence].
    cbn. unfold er_failed. congruence.
Qed.
Lemma build_cut : forall keys encs hs f1 f2 s1 s2, cut s1 s2 ->
  match build f1 keys encs hs R1 s1 with
  | Ok (rec, n, e, s1') => e <> None \/ build f2 keys encs hs R2 s2 = Stuck \/
      exists s2', build f2 keys encs hs R2 s2 = Ok (rec, n, e, s2') /\ cut s1' s2'
  | _ => True
  end.
Proof.
  intros keys encs hs f1 f2 s1 s2 HC. destruct f1 as [|f1]; [exact I|]. rewrite build_eq.
  destruct f2 as [|f2].
  { destruct (body f1 keys encs hs R1 (new_er s1)) as [[[rec e] x]| |]; cbn [bind build]; auto. }
  assert (HC0 : er_cut (new_er s1) (new_er s2)) by (repeat split; exact HC).
  assert (Hds : forall x, er_failed x -> ~ False) by auto.
  pose proof (proj1 (body_link keys encs hs f1 f2 S1 S2 R1 R2 _ _ _ Hds er_cut_link) _ _ HC0) as H.
  rewrite build_eq.
  destruct (body f1 keys encs hs R1 (new_er s1)) as [[[rec e] x1]| |]; cbn [bind]; auto.
  destruct (body f2 keys encs hs R2 (new_er s2)) as [[[rec2 x] x2]| |]; cbn [bind]; auto; cbn in H.
  - destruct H as [H|(x3 & E & Hx1 & Hx2 & Hn & HC')].
    + left. destruct e; [discriminate | exact H].
    + apply ok_inj in E. injection E as -> -> ->. right. right. rewrite Hx1, Hx2, Hn. eexists. split; [reflexivity | exact HC'].
  - destruct H as [H|(x3 & E & _)]; [|discriminate]. left. destruct e; [discriminate | exact H].
Qed.
Lemma payload_cut : forall encs n, Forall ends encs -> esim (read_payload R1 encs n) (read_payload R2 encs n).
Proof.
  intros encs n He.
  unfold read_payload. apply esim_bind; [apply headers_cut | | done]. intros [hs n1]. cbn beta iota.
  apply esim_bind; [apply strings_cut | | done]. intros [keys m]. cbn beta iota zeta.
  apply esim_bind; [| intros [rec m']; apply esim_ret | done].
  intros s1 s2 HC. pose proof (build_cut keys encs hs (build_fuel R1 s1) (build_fuel R2 s2) s1 s2 HC) as H.
  destruct (build (build_fuel R1 s1) keys encs hs R1 s1) as [[[[rec k] e] s1']| |]; auto.
  destruct H as [H|[H|H]]; auto.
  exfalso. destruct HC as (d & _ & HI2). pose proof (delivers_finite _ _ _ _ H2) as HF.
  assert (HV : exists d0, I2 s2 d0 /\ length (d ++ rest) = length d0) by eauto.
  pose proof (build_safe keys encs hs He (build_fuel R2 s2) _ _ _ HF s2 _ HV) as Hs. rewrite H in Hs. apply Hs.
  unfold build_fuel. pose proof (f_left _ _ HF _ _ HV). lia.
Qed.
End Trunc.
