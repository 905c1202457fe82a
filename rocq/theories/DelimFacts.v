(** Uncompressed files end where Read stops: what it returns depends on the
    bytes it has counted and on no others. *)
From Coq Require Import Lia.
From Verif Require Import Base BaseFacts IO Spec IOFacts Floats BinaryIO Metadata Recording Encoding TimeIO Writer Reader.
From Verif Require Import SpecFile LinkFacts SafeFacts TruncFacts SchedFacts.
Local Open Scope N_scope.

(** what a transport still has to deliver is determined by its state *)
Lemma delivers_det : forall S (R : Reader S) e I, delivers R e I -> forall s d d', I s d -> I s d' -> d = d'.
Proof.
  intros S R e I H s d. remember (length d) as k eqn:Ek. revert s d Ek.
  induction k as [k IH] using (well_founded_induction Wf_nat.lt_wf). intros s d -> d' Hd Hd'.
  destruct d as [|b d], d' as [|b' d']; auto.
  - destruct (d_eof _ _ _ H s 1 Hd) as (s' & E & _); [discriminate|].
    destruct (d_more _ _ _ H s (b' :: d') 1 Hd') as (p & q & x & t & E' & _ & Hp & _); try discriminate. congruence.
  - destruct (d_eof _ _ _ H s 1 Hd') as (s' & E & _); [discriminate|].
    destruct (d_more _ _ _ H s (b :: d) 1 Hd) as (p & q & x & t & E' & _ & Hp & _); try discriminate. congruence.
  - destruct (d_more _ _ _ H s (b' :: d') 1 Hd') as (p & q & x & t & E & Ep & Hp & _ & Hq & _); try discriminate.
    destruct (d_more _ _ _ H s (b :: d) 1 Hd) as (p2 & q2 & x2 & t2 & E2 & Ep2 & Hp2 & _ & Hq2 & _); try discriminate.
    rewrite E in E2. apply ok_inj in E2. injection E2 as <- _ <-. rewrite Ep, Ep2. f_equal.
    eapply IH; [| reflexivity | exact Hq2 | exact Hq]. rewrite Ep2, app_length. destruct p; [congruence | cbn; lia].
Qed.
(** ReadFull stores what it consumes *)
Lemma full_consumes : forall S (R : Reader S) e I, delivers R e I -> forall n s d, I s d ->
  exists p x s' q, read_full R n s = Ok (p, x, s') /\ d = p ++ q /\ I s' q /\ (x = None -> lenN p = n) /\ (x <> None -> q = []).
Proof.
  intros S R e I H n s d HI. destruct (N.le_gt_cases n (lenN d)) as [Hn|Hn].
  - rewrite <- (take_drop n d) in HI.
    destruct (read_full_ok R _ I (delivers_serves _ _ _ H) n s _ _ HI) as (s' & E & HI'); [rewrite lenN_take; lia|].
    exists (takeN n d), None, s', (dropN n d). rewrite take_drop, lenN_take. repeat split; auto; try lia. congruence.
  - destruct (read_full_short _ R _ I H n s d HI Hn) as (s' & E & HI').
    exists d, (Some (match d with [] => EEOF | _ => EUnexpectedEOF end)), s', []. rewrite app_nil_r. repeat split; auto. discriminate.
Qed.

(** ** What is counted is what is consumed *)
Section Count.
Context {S : Type} (R : Reader S) (I : S -> bytes -> Prop).
Hypothesis H : delivers R false I.

(** [n0] bytes have been counted before *)
Definition exact {A} (n0 : N) (P : S -> res (A * N * option err * S)) : Prop :=
  forall s d v n s', I s d -> P s = Ok (v, n, None, s') -> exists p q, d = p ++ q /\ I s' q /\ n = n0 + lenN p.
Lemma exact_ret : forall A (v : A) n, exact n (fun s => Ok (v, n, None, s)).
Proof. intros A v n s d v' n' s' HI E. apply ok_inj in E. injection E as _ <- <-. exists [], d. repeat split; auto. cbn. lia. Qed.
Lemma exact_err : forall A (v : A) n0 n e, exact n0 (fun s => Ok (v, n, Some e, s)).
Proof. intros A v n0 n e s d v' n' s' HI E. discriminate. Qed.
Lemma one_consumes : forall s d p s', I s d -> rread R 1 s = Ok (p, None, s') -> lenN p = 1 /\ exists q, d = p ++ q /\ I s' q.
Proof.
  intros s d p s' HI E. destruct d as [|b d].
  - destruct (d_eof _ _ _ H s 1 HI) as (t & E' & _); [discriminate|]. congruence.
  - destruct (read_byte_ok R false I (delivers_serves _ _ _ H) s b d HI (or_introl eq_refl)) as (t & E' & HI').
    rewrite E in E'. apply ok_inj in E'. injection E' as -> ->. split; [reflexivity|]. now exists d.
Qed.
Lemma uvarint_exact : exact 0 (read_uvarint R).
Proof.
  assert (HL : forall f i x sh b n, exact i (read_uvarint_loop R f i x sh b n)).
  { induction f as [|f IH]; intros i x sh b n s d v n' s' HI E; cbn [read_uvarint_loop] in E; [discriminate|].
    destruct (rread R 1 s) as [[[p e] s1]| |] eqn:E1; cbn [bind] in E; try discriminate.
    destruct e as [e|]; [discriminate|]. destruct (one_consumes _ _ _ _ HI E1) as (Hp & q & -> & HI1).
    match goal with E : context [if ?c then _ else _] |- _ => destruct c end.
    - match type of E with context [if ?c then _ else _] => destruct c end; [discriminate|].
      apply ok_inj in E. injection E as _ <- <-. exists p, q. repeat split; auto; lia.
    - destruct (IH _ _ _ _ _ s1 q v n' s' HI1 E) as (p' & q' & -> & HI' & ->).
      exists (p ++ p'), q'. rewrite <- app_assoc, lenN_app. repeat split; auto; lia. }
  apply HL.
Qed.
Lemma string_exact : exact 0 (read_string R).
Proof.
  intros s d v n s' HI E. unfold read_string, go_make in E.
  destruct (read_uvarint R s) as [[[[len m] [e|]] s1]| |] eqn:E1; cbn [bind] in E; try discriminate.
  destruct (uvarint_exact s d len m s1 HI E1) as (p & q & -> & HI1 & ->).
  destruct (make_ok 1 len); [|discriminate].
  destruct (full_consumes _ R _ I H len s1 q HI1) as (p2 & x & s2 & q2 & E2 & -> & HI2 & _). rewrite E2 in E. cbn [bind] in E.
  destruct x; [discriminate|]. apply ok_inj in E. injection E as _ <- <-.
  exists (p ++ p2), q2. rewrite <- app_assoc, lenN_app. repeat split; auto; lia.
Qed.
Lemma bytes_exact : exact 0 (read_bytes_array R).
Proof.
  intros s d v n s' HI E. unfold read_bytes_array, go_make in E.
  destruct (read_uvarint R s) as [[[[len m] [e|]] s1]| |] eqn:E1; cbn [bind] in E; try discriminate.
  destruct (uvarint_exact s d len m s1 HI E1) as (p & q & -> & HI1 & ->).
  destruct (make_ok 1 len); [|discriminate].
  destruct (full_consumes _ R _ I H len s1 q HI1) as (p2 & x & s2 & q2 & E2 & -> & HI2 & _). rewrite E2 in E. cbn [bind] in E.
  assert (E' : n = 0 + lenN p + lenN p2 /\ s2 = s').
  { destruct x as [[]|]; try discriminate; destruct (lenN p2 =? len); try discriminate; apply ok_inj in E; injection E as _ <- <-; auto. }
  destruct E' as [-> <-].
  exists (p ++ p2), q2. rewrite <- app_assoc, lenN_app. repeat split; auto; lia.
Qed.
Lemma strings_exact : exact 0 (read_string_array R).
Proof.
  assert (HL : forall k n, exact n (read_strings R k n)).
  { induction k as [|k IH]; intros n s d v n' s' HI E; cbn [read_strings] in E; [eapply exact_ret; eauto|].
    destruct (read_string R s) as [[[[x m] [e|]] s1]| |] eqn:E1; cbn [bind] in E; try discriminate.
    destruct (string_exact s d x m s1 HI E1) as (p & q & -> & HI1 & ->).
    destruct (read_strings R k (n + (0 + lenN p)) s1) as [[[[xs t] [e|]] s2]| |] eqn:E2; cbn [bind] in E; try discriminate.
    destruct (IH _ s1 q xs t s2 HI1 E2) as (p2 & q2 & -> & HI2 & ->). apply ok_inj in E. injection E as _ <- <-.
    exists (p ++ p2), q2. rewrite <- app_assoc, lenN_app. repeat split; auto; lia. }
  intros s d v n s' HI E. unfold read_string_array, go_make in E.
  destruct (read_uvarint R s) as [[[[len m] [e|]] s1]| |] eqn:E1; cbn [bind] in E; try discriminate.
  destruct (uvarint_exact s d len m s1 HI E1) as (p & q & -> & HI1 & ->).
  destruct (make_ok 16 len); [|discriminate].
  destruct (HL _ _ s1 q v n s' HI1 E) as (p2 & q2 & -> & HI2 & ->).
  exists (p ++ p2), q2. rewrite <- app_assoc, lenN_app. repeat split; auto; lia.
Qed.
Lemma versions_exact : forall k n, exact n (read_versions R k n).
Proof.
  induction k as [|k IH]; intros n s d v n' s' HI E; cbn [read_versions] in E; [eapply exact_ret; eauto|].
  destruct (read_uvarint R s) as [[[[x m] [e|]] s1]| |] eqn:E1; cbn [bind] in E; try discriminate.
  destruct (uvarint_exact s d x m s1 HI E1) as (p & q & -> & HI1 & ->).
  destruct (read_versions R k (n + (0 + lenN p)) s1) as [[[[xs t] e] s2]| |] eqn:E2; cbn [bind] in E; try discriminate.
  apply ok_inj in E. injection E as _ <- -> <-.
  destruct (IH _ s1 q xs t s2 HI1 E2) as (p2 & q2 & -> & HI2 & ->).
  exists (p ++ p2), q2. rewrite <- app_assoc, lenN_app. repeat split; auto; lia.
Qed.
Lemma headers_exact : forall k n, exact n (read_headers R k n).
Proof.
  induction k as [|k IH]; intros n s d v n' s' HI E; cbn [read_headers] in E; [eapply exact_ret; eauto|].
  destruct (read_bytes_array R s) as [[[[x m] [e|]] s1]| |] eqn:E1; cbn [bind] in E; try discriminate.
  destruct (bytes_exact s d x m s1 HI E1) as (p & q & -> & HI1 & ->).
  destruct (read_headers R k (n + (0 + lenN p)) s1) as [[[[xs t] [e|]] s2]| |] eqn:E2; cbn [bind] in E; try discriminate.
  apply ok_inj in E. injection E as _ <- <-.
  destruct (IH _ s1 q xs t s2 HI1 E2) as (p2 & q2 & -> & HI2 & ->).
  exists (p ++ p2), q2. rewrite <- app_assoc, lenN_app. repeat split; auto; lia.
Qed.
Lemma encoders_exact : forall reg, exact 0 (read_encoders R reg).
Proof.
  intros reg s d v n s' HI E. unfold read_encoders in E.
  destruct (read_string_array R s) as [[[[x m] [e|]] s1]| |] eqn:E1; cbn [bind] in E; try discriminate.
  destruct (strings_exact s d x m s1 HI E1) as (p & q & -> & HI1 & ->).
  destruct (read_versions R (length x) (0 + lenN p) s1) as [[[[xs t] [e|]] s2]| |] eqn:E2; cbn [bind] in E; try discriminate.
  destruct (find_encoders reg (combine x xs)); [|discriminate]. apply ok_inj in E. injection E as _ <- <-.
  destruct (versions_exact _ _ s1 q xs t s2 HI1 E2) as (p2 & q2 & -> & HI2 & ->).
  exists (p ++ p2), q2. rewrite <- app_assoc, lenN_app. repeat split; auto; lia.
Qed.

(** the counter of an ErrReader *)
Definition tally (d : bytes) (e1 e2 : er S) : Prop :=
  e1 = e2 /\ exists p q, d = p ++ q /\ I (er_in e1) q /\ er_n e1 = lenN p.
Lemma tally_link : forall d n, linked (tally d) (fun _ => False) True (rread (err_reader R) n) (rread (err_reader R) n).
Proof.
  intros d n. split; [|contradiction]. intros e1 e2 [<- (p & q & -> & HI & Hn)]. cbn [rread err_reader].
  destruct (er_err e1) as [x|] eqn:Ex.
  - cbn. right. exists e1. split; [reflexivity|]. split; [reflexivity|]. exists p, q. auto.
  - destruct (full_consumes _ R _ I H n (er_in e1) q HI) as (p2 & x & s2 & q2 & -> & -> & HI2 & _). cbn [bind sim]. right.
    eexists. split; [reflexivity|]. split; [reflexivity|]. exists (p ++ p2), q2. cbn [er_in er_n].
    rewrite <- app_assoc, lenN_app. repeat split; auto; lia.
Qed.
Lemma build_exact : forall f keys encs hs, exact 0 (build f keys encs hs R).
Proof.
  intros f keys encs hs s d v n s' HI E. destruct f as [|f]; [discriminate|]. rewrite build_eq in E.
  assert (H0 : tally d (new_er s) (new_er s)) by (split; [reflexivity|]; exists [], d; auto).
  assert (Hds : forall x : er S, False -> ~ True) by contradiction.
  pose proof (proj1 (body_link keys encs hs f f S S R R _ _ _ Hds (tally_link d)) _ _ H0) as K.
  destruct (body f keys encs hs R (new_er s)) as [[[rec e] x]| |]; cbn [bind] in E; try discriminate.
  cbn in K. destruct K as [[]|(x2 & E2 & _ & p & q & -> & HI' & Hn)]. apply ok_inj in E. injection E as _ <- _ <-.
  exists p, q. repeat split; auto.
Qed.
Lemma payload_exact : forall encs n, exact n (read_payload R encs n).
Proof.
  intros encs n s d v n' s' HI E. unfold read_payload in E.
  destruct (read_headers R (length encs) n s) as [[[[hs m] [e|]] s1]| |] eqn:E1; cbn [bind] in E; try discriminate.
  destruct (headers_exact _ _ s d hs m s1 HI E1) as (p & q & -> & HI1 & ->).
  destruct (read_string_array R s1) as [[[[keys m] [e|]] s2]| |] eqn:E2; cbn [bind] in E; try discriminate.
  destruct (strings_exact s1 q keys m s2 HI1 E2) as (p2 & q2 & -> & HI2 & ->). cbv zeta in E.
  destruct (build (build_fuel R s2) keys encs hs R s2) as [[[[rec m] [e|]] s3]| |] eqn:E3; cbn [bind] in E; try discriminate.
  destruct (build_exact _ _ _ _ s2 q2 rec m s3 HI2 E3) as (p3 & q3 & -> & HI3 & ->).
  apply ok_inj in E. injection E as _ <- <-.
  exists (p ++ p2 ++ p3), q3. rewrite <- !app_assoc, !lenN_app. repeat split; auto; lia.
Qed.
Lemma read_exact : forall reg v1 IZ s d rec n s', I s d -> (forall d', d <> x01 :: d') ->
  read reg v1 IZ R s = Ok (rec, n, None, inl s') -> exists p q, d = p ++ q /\ I s' q /\ n = lenN p /\ p <> [].
Proof.
  intros reg v1 IZ s d rec n s' HI Hd E.
  rewrite (read_v1_unused reg v1 (fun _ _ _ => Panic) IZ _ _ _ _ H s d HI Hd) in E. unfold read, get_version in E.
  destruct (rread R 1 s) as [[[p [e|]] s1]| |] eqn:E1; cbn [bind] in E; try discriminate.
  destruct (one_consumes _ _ _ _ HI E1) as (Hp & q & -> & HI1).
  destruct (b2n (hd x00 p) =? 1); [discriminate|]. destruct (negb (b2n (hd x00 p) =? 2)); [discriminate|].
  destruct (read_encoders R reg s1) as [[[[es m] [e|]] s2]| |] eqn:E2; cbn [bind] in E; try discriminate.
  destruct (encoders_exact reg s1 q es m s2 HI1 E2) as (p2 & q2 & -> & HI2 & ->).
  destruct (rread R 1 s2) as [[[p3 [e|]] s3]| |] eqn:E3; cbn [bind] in E; try discriminate.
  destruct (one_consumes _ _ _ _ HI2 E3) as (Hp3 & q3 & -> & HI3).
  destruct (b2n (hd x00 p3) =? 1).
  { destruct (read_payload (iz_read IZ S R) es _ _) as [[[[? ?] ?] ?]| |]; cbn [bind] in E; discriminate. }
  destruct (read_payload R es (lenN p + (0 + lenN p2) + lenN p3) s3) as [[[[rec' n'] x] s4]| |] eqn:E4; cbn [bind] in E; try discriminate.
  apply ok_inj in E. injection E as -> -> -> ->.
  destruct (payload_exact _ _ s3 q3 rec n s' HI3 E4) as (p4 & q4 & -> & HI4 & ->).
  exists (p ++ p2 ++ p3 ++ p4), q4. rewrite <- !app_assoc, !lenN_app. repeat split; auto; [lia|].
  intro Ep. apply app_eq_nil in Ep as [-> _]. discriminate.
Qed.

(** Without success no more is counted than was consumed *)
Definition upto {A} (n0 : N) (P : S -> res (A * N * option err * S)) : Prop :=
  forall s d v n e s', I s d -> P s = Ok (v, n, e, s') -> exists p q, d = p ++ q /\ I s' q /\ n <= n0 + lenN p.
Lemma upto_ret : forall A (v : A) n0 n e, n <= n0 -> upto n0 (fun s => Ok (v, n, e, s)).
Proof. intros A v n0 n e Hn s d v' n' e' s' HI E. apply ok_inj in E. injection E as _ <- _ <-. exists [], d. repeat split; auto. cbn. lia. Qed.
Lemma upto_bind : forall A B (P : S -> res (A * N * option err * S)) (k : A -> N -> option err -> S -> res (B * N * option err * S)) n0,
  upto 0 P -> (forall v m e, upto (n0 + m) (k v m e)) ->
  upto n0 (fun s => bind (P s) (fun x => let (r, s') := x in let '(v, m, e) := r in k v m e s')).
Proof.
  intros A B P k n0 HP Hk s d v n e s' HI E. destruct (P s) as [[[[w m] x] s1]| |] eqn:E1; cbn [bind] in E; try discriminate.
  destruct (HP s d w m x s1 HI E1) as (p & q & -> & HI1 & Hm).
  destruct (Hk w m x s1 q v n e s' HI1 E) as (p2 & q2 & -> & HI2 & Hn).
  exists (p ++ p2), q2. rewrite <- app_assoc, lenN_app. repeat split; auto; lia.
Qed.
Lemma upto_full : forall A len n0 (k : bytes -> option err -> S -> res (A * N * option err * S)),
  (forall p e, upto (n0 + lenN p) (k p e)) ->
  upto n0 (fun s => bind (read_full R len s) (fun x => let (r, s') := x in let (p, e) := r in k p e s')).
Proof.
  intros A len n0 k Hk s d v n e s' HI E.
  destruct (full_consumes _ R _ I H len s d HI) as (p & x & s1 & q & E1 & -> & HI1 & _). rewrite E1 in E. cbn [bind] in E.
  destruct (Hk p x s1 q v n e s' HI1 E) as (p2 & q2 & -> & HI2 & Hn).
  exists (p ++ p2), q2. rewrite <- app_assoc, lenN_app. repeat split; auto; lia.
Qed.
Lemma upto_one : forall A n0 (k : bytes -> option err -> S -> res (A * N * option err * S)),
  (forall p e, lenN p <= 1 -> (e = None -> lenN p = 1) -> upto (n0 + lenN p) (k p e)) ->
  upto n0 (fun s => bind (rread R 1 s) (fun x => let (r, s') := x in let (p, e) := r in k p e s')).
Proof.
  intros A n0 k Hk s d v n e s' HI E. destruct d as [|b d].
  - destruct (d_eof _ _ _ H s 1 HI) as (s1 & E1 & HI1); [discriminate|]. rewrite E1 in E. cbn [bind] in E.
    destruct (Hk [] (Some EEOF) ltac:(cbn; lia) ltac:(discriminate) s1 [] v n e s' HI1 E) as (p2 & q2 & E2 & HI2 & Hn).
    exists p2, q2. repeat split; auto. cbn in Hn. lia.
  - destruct (read_byte_ok R false I (delivers_serves _ _ _ H) s b d HI (or_introl eq_refl)) as (s1 & E1 & HI1).
    rewrite E1 in E. cbn [bind] in E.
    destruct (Hk [b] None ltac:(cbn; lia) (fun _ => eq_refl) s1 d v n e s' HI1 E) as (p2 & q2 & -> & HI2 & Hn).
    exists (b :: p2), q2. repeat split; auto. rewrite lenN_cons. change (lenN [b]) with 1 in Hn. lia.
Qed.
Lemma upto_le : forall A (P : S -> res (A * N * option err * S)) n0 n1, n0 <= n1 -> upto n0 P -> upto n1 P.
Proof.
  intros A P n0 n1 Hn HP s d v n e s' HI E. destruct (HP s d v n e s' HI E) as (p & q & Ed & HI' & Hl).
  exists p, q. repeat split; auto. lia.
Qed.
Lemma upto_make : forall A a n n0 (P : S -> res (A * N * option err * S)), upto n0 P -> upto n0 (fun s => go_make a n (P s)).
Proof. intros A a n n0 P HP. unfold go_make. destruct (make_ok a n); [exact HP|]. intros s d v m e s' _ E. discriminate. Qed.

Lemma uvarint_upto : upto 0 (read_uvarint R).
Proof.
  assert (HL : forall f i x sh b n, i <= n -> upto n (read_uvarint_loop R f i x sh b n)).
  { induction f as [|f IH]; intros i x sh b n Hi; cbn [read_uvarint_loop]; [apply upto_ret; lia|].
    apply upto_one. intros p e Hp He. cbv zeta. destruct e as [e|]; [apply upto_ret; lia|]. specialize (He eq_refl).
    destruct (b2n (hd b p) <? 128); [|apply IH; lia].
    destruct ((i =? 9) && (1 <? b2n (hd b p))); apply upto_ret; lia. }
  apply HL. lia.
Qed.
Lemma string_upto : upto 0 (read_string R).
Proof.
  unfold read_string. apply upto_bind; [apply uvarint_upto|]. intros len n [e|]; [apply upto_ret; lia|].
  apply upto_make, upto_full. intros p [e|]; apply upto_ret; lia.
Qed.
Lemma bytes_upto : upto 0 (read_bytes_array R).
Proof.
  unfold read_bytes_array. apply upto_bind; [apply uvarint_upto|]. intros len n [e|]; [apply upto_ret; lia|].
  apply upto_make, upto_full. intros p e. destruct e as [[]|]; try (apply upto_ret; lia); destruct (lenN p =? len); apply upto_ret; lia.
Qed.
Lemma upto_seq : forall A B (P : S -> res (A * N * option err * S)) (k : A -> N -> option err -> S -> res (B * N * option err * S)) n0,
  upto n0 P -> (forall v m e, upto m (k v m e)) ->
  upto n0 (fun s => bind (P s) (fun x => let (r, s') := x in let '(v, m, e) := r in k v m e s')).
Proof.
  intros A B P k n0 HP Hk s d v n e s' HI E. destruct (P s) as [[[[w m] x] s1]| |] eqn:E1; cbn [bind] in E; try discriminate.
  destruct (HP s d w m x s1 HI E1) as (p & q & -> & HI1 & Hm).
  destruct (Hk w m x s1 q v n e s' HI1 E) as (p2 & q2 & -> & HI2 & Hn).
  exists (p ++ p2), q2. rewrite <- app_assoc, lenN_app. repeat split; auto; lia.
Qed.
Lemma strings_upto : upto 0 (read_string_array R).
Proof.
  assert (HL : forall k n, upto n (read_strings R k n)).
  { induction k as [|k IH]; intro n; cbn [read_strings]; [apply upto_ret; lia|].
    apply upto_bind; [apply string_upto|]. intros x m [e|]; [apply upto_ret; lia|].
    apply upto_seq; [apply IH|]. intros xs t [e|]; apply upto_ret; lia. }
  unfold read_string_array. apply upto_bind; [apply uvarint_upto|]. intros len n [e|]; [apply upto_ret; lia|].
  apply upto_make, HL.
Qed.
Lemma versions_upto : forall k n, upto n (read_versions R k n).
Proof.
  induction k as [|k IH]; intro n; cbn [read_versions]; [apply upto_ret; lia|].
  apply upto_bind; [apply uvarint_upto|]. intros x m [e|]; [apply upto_ret; lia|].
  apply upto_seq; [apply IH|]. intros xs t e; apply upto_ret; lia.
Qed.
Lemma headers_upto : forall k n, upto n (read_headers R k n).
Proof.
  induction k as [|k IH]; intro n; cbn [read_headers]; [apply upto_ret; lia|].
  apply upto_bind; [apply bytes_upto|]. intros x m [e|]; [apply upto_ret; lia|].
  apply upto_seq; [apply IH|]. intros xs t [e|]; apply upto_ret; lia.
Qed.
Lemma encoders_upto : forall reg, upto 0 (read_encoders R reg).
Proof.
  intro reg. unfold read_encoders. apply upto_bind; [apply strings_upto|]. intros x m [e|]; [apply upto_ret; lia|].
  apply upto_seq; [apply versions_upto|]. intros vs t [e|]; [apply upto_ret; lia|].
  destruct (find_encoders reg (combine x vs)); apply upto_ret; lia.
Qed.
Lemma build_upto : forall f keys encs hs, upto 0 (build f keys encs hs R).
Proof.
  intros f keys encs hs s d v n e0 s' HI E. destruct f as [|f]; [discriminate|]. rewrite build_eq in E.
  assert (H0 : tally d (new_er s) (new_er s)) by (split; [reflexivity|]; exists [], d; auto).
  assert (Hds : forall x : er S, False -> ~ True) by contradiction.
  pose proof (proj1 (body_link keys encs hs f f S S R R _ _ _ Hds (tally_link d)) _ _ H0) as K.
  destruct (body f keys encs hs R (new_er s)) as [[[rec e] x]| |]; cbn [bind] in E; try discriminate.
  cbn in K. destruct K as [[]|(x2 & E2 & _ & p & q & -> & HI' & Hn)]. apply ok_inj in E. injection E as _ <- _ <-.
  exists p, q. repeat split; auto. lia.
Qed.
Lemma payload_upto : forall encs n, upto n (read_payload R encs n).
Proof.
  intros encs n. unfold read_payload. apply upto_seq; [apply headers_upto|]. intros hs m [e|]; [apply upto_ret; lia|].
  apply upto_bind; [apply strings_upto|]. intros keys k e. cbv zeta. destruct e as [e|]; [apply upto_ret; lia|].
  intros s d v n' e' s' HI E.
  destruct (build (build_fuel R s) keys encs hs R s) as [[[[rec b] x] s1]| |] eqn:E1; cbn [bind] in E; try discriminate.
  destruct (build_upto _ _ _ _ s d rec b x s1 HI E1) as (p & q & -> & HI1 & Hb). exists p, q. split; [reflexivity|].
  destruct x; apply ok_inj in E; injection E as _ <- _ <-; (split; [exact HI1 | lia]).
Qed.
Lemma read_upto : forall reg v1 IZ s d rec n e s', I s d -> (forall d', d <> x01 :: d') ->
  read reg v1 IZ R s = Ok (rec, n, e, inl s') -> exists p q, d = p ++ q /\ I s' q /\ n <= lenN p.
Proof.
  intros reg v1 IZ s d rec n e s' HI Hd E.
  rewrite (read_v1_unused reg v1 (fun _ _ _ => Panic) IZ _ _ _ _ H s d HI Hd) in E.
  assert (HP : upto 0 (fun s => match read reg (fun _ _ _ => Panic) IZ R s with
     | Ok (r, inl t) => Ok (r, t) | _ => Stuck end)).
  { clear -H. intros s d v n e s' HI E. unfold read, get_version in E.
    pose proof (upto_one (option recording) 0 (fun p e s1 => match e with
      | Some e => Ok (None, lenN p, Some e, s1)
      | None => if b2n (hd x00 p) =? 1 then Stuck else if negb (b2n (hd x00 p) =? 2) then Ok (None, lenN p, Some (EBadVersion (b2n (hd x00 p))), s1)
        else do (r, s2) <- read_encoders R reg s1; let '(encs, m, e) := r in
          match e with Some e => Ok (None, lenN p + m, Some e, s2)
          | None => do (pe, s3) <- rread R 1 s2; let (p2, e) := pe in
             match e with Some e => Ok (None, lenN p + m + lenN p2, Some e, s3)
             | None => if b2n (hd x00 p2) =? 1 then Stuck else read_payload R encs (lenN p + m + lenN p2) s3 end end end)) as K.
    eapply K; [|exact HI|].
    - clear K. intros p x Hp Hx. destruct x as [x|]; [apply upto_ret; lia|].
      destruct (b2n (hd x00 p) =? 1); [intros ? ? ? ? ? ? _ X; discriminate|]. destruct (negb (b2n (hd x00 p) =? 2)); [apply upto_ret; lia|].
      apply upto_bind; [apply encoders_upto|]. intros es m [x|]; [apply upto_ret; lia|].
      apply upto_one. intros p2 x Hp2 Hx2. destruct x as [x|]; [apply upto_ret; lia|].
      destruct (b2n (hd x00 p2) =? 1); [intros ? ? ? ? ? ? _ X; discriminate|].
      eapply upto_le; [|apply payload_upto]. lia.
    - cbv beta. destruct (rread R 1 s) as [[[p x] s1]| |]; cbn [bind] in E |- *; try discriminate.
      destruct x as [x|]; cbn [bind] in E |- *; [exact E|].
      destruct (b2n (hd x00 p) =? 1); [discriminate|]. destruct (negb (b2n (hd x00 p) =? 2)); [exact E|].
      destruct (read_encoders R reg s1) as [[[[es m] x] s2]| |]; cbn [bind] in E |- *; try discriminate.
      destruct x as [x|]; [exact E|].
      destruct (rread R 1 s2) as [[[p2 x] s3]| |]; cbn [bind] in E |- *; try discriminate.
      destruct x as [x|]; [exact E|]. destruct (b2n (hd x00 p2) =? 1).
      + destruct (read_payload (iz_read IZ S R) es _ _) as [[? ?]| |]; discriminate.
      + destruct (read_payload R es (lenN p + m + lenN p2) s3) as [[r t]| |]; cbn [bind] in E; try discriminate. exact E. }
  destruct (HP s d rec n e s' HI) as (p & q & -> & HI' & Hn); [now rewrite E|]. exists p, q. auto.
Qed.
End Count.


(** ** Other bytes behind the file *)
Section Swap.
Context {S1 S2 : Type} (R1 : Reader S1) (R2 : Reader S2).
Context (I1 : S1 -> bytes -> Prop) (I2 : S2 -> bytes -> Prop) (rest1 rest2 : bytes).
Hypothesis H1 : delivers R1 false I1.
Hypothesis H2 : delivers R2 false I2.
Hypothesis Hrest : rest1 <> [].
Definition swap (s1 : S1) (s2 : S2) : Prop := exists q, I1 s1 (q ++ rest1) /\ I2 s2 (q ++ rest2).
Definition beyond (s1 : S1) : Prop := exists q, I1 s1 q /\ lenN q < lenN rest1.
Lemma beyond_strict : forall s1, beyond s1 -> ~ False. Proof. auto. Qed.
Lemma rest_pos : 0 < lenN rest1. Proof. destruct rest1; [congruence | rewrite lenN_cons; lia]. Qed.

Lemma swap_one : linked swap beyond False (rread R1 1) (rread R2 1).
Proof.
  pose proof rest_pos as Hr. split.
  - intros s1 s2 (q & HI1 & HI2). destruct q as [|b q]; cbn [app] in *.
    + destruct rest1 as [|b r] eqn:Er; [congruence|].
      destruct (read_byte_ok R1 false I1 (delivers_serves _ _ _ H1) s1 b r HI1 (or_introl eq_refl)) as (s1' & -> & HI1').
      assert (Hb : beyond s1') by (exists r; split; [exact HI1'|]; rewrite Er, lenN_cons; lia).
      unfold sim. destruct (rread R2 1 s2); auto.
    + destruct (read_byte_ok R1 false I1 (delivers_serves _ _ _ H1) s1 b _ HI1 (or_introl eq_refl)) as (s1' & -> & HI1').
      destruct (read_byte_ok R2 false I2 (delivers_serves _ _ _ H2) s2 b _ HI2 (or_introl eq_refl)) as (s2' & -> & HI2').
      cbn. right. exists s2'. split; [reflexivity|]. now exists q.
  - intros s1 (q & HI & Hq). destruct q as [|b q].
    + destruct (d_eof _ _ _ H1 s1 1 HI) as (s1' & -> & HI'); [discriminate|]. cbn. now exists [].
    + destruct (read_byte_ok R1 false I1 (delivers_serves _ _ _ H1) s1 b q HI (or_introl eq_refl)) as (s1' & -> & HI1').
      cbn. exists q. split; [exact HI1'|]. rewrite lenN_cons in Hq. lia.
Qed.
Lemma swap_full : forall n, linked swap beyond False (read_full R1 n) (read_full R2 n).
Proof.
  pose proof rest_pos as Hr. intro n. split.
  - intros s1 s2 (q & HI1 & HI2). destruct (N.le_gt_cases n (lenN q)) as [Hn|Hn].
    + rewrite <- (take_drop n q), <- app_assoc in HI1, HI2.
      assert (Hlen : lenN (takeN n q) = n) by (rewrite lenN_take; lia).
      destruct (read_full_ok R1 _ I1 (delivers_serves _ _ _ H1) n s1 _ _ HI1 Hlen) as (s1' & -> & HI1').
      destruct (read_full_ok R2 _ I2 (delivers_serves _ _ _ H2) n s2 _ _ HI2 Hlen) as (s2' & -> & HI2').
      cbn. right. exists s2'. split; [reflexivity|]. now exists (dropN n q).
    + destruct (full_consumes _ R1 _ I1 H1 n s1 _ HI1) as (p & x & s1' & q' & -> & Eq & HI' & Hx & Hx').
      assert (Hb : beyond s1').
      { exists q'. split; [exact HI'|]. destruct x as [x|]; [rewrite Hx' by discriminate; exact Hr|].
        apply (f_equal (@lenN _)) in Eq. rewrite !lenN_app in Eq. rewrite Hx in Eq by reflexivity. lia. }
      unfold sim. destruct (read_full R2 n s2); auto.
  - intros s1 (q & HI & Hq). destruct (full_consumes _ R1 _ I1 H1 n s1 _ HI) as (p & x & s1' & q' & -> & -> & HI' & _).
    cbn. exists q'. split; [exact HI'|]. rewrite lenN_app in Hq. lia.
Qed.
Lemma swap_payload : forall encs n, linked swap beyond False (read_payload R1 encs n) (read_payload R2 encs n).
Proof.
  intros encs n. pose proof swap_one as Hone. pose proof swap_full as Hfull. pose proof beyond_strict as Hds.
  unfold read_payload. apply link_bind; [exact Hds | now apply read_headers_link|].
  intros [[hs n1] [e|]]; [apply link_ret|].
  apply link_bind; [exact Hds | now apply read_string_array_link|].
  intros [[keys m] [e|]]; [apply link_ret|]. cbv zeta.
  apply link_bind; [exact Hds | | intros [[rec m'] [e|]]; apply link_ret].
  assert (Hn : forall f1 f2, linked swap beyond False (build (Datatypes.S f1) keys encs hs R1) (build (Datatypes.S f2) keys encs hs R2)).
  { intros f1 f2. apply nested_link. apply body_link; [auto|]. now apply er_link. }
  split; [intros s1 s2 HR | intros s1 Hd]; unfold build_fuel; [now apply Hn | exact (proj2 (Hn _ O) s1 Hd)].
Qed.
Lemma swap_read : forall reg v1 IZ s1 s2 d rec n s1', Forall ends reg -> inflation_ends IZ ->
  I1 s1 (d ++ rest1) -> I2 s2 (d ++ rest2) -> d <> [] -> (forall d', d ++ rest1 <> x01 :: d') ->
  read reg v1 IZ R1 s1 = Ok (rec, n, None, inl s1') -> I1 s1' rest1 ->
  exists s2', read reg v1 IZ R2 s2 = Ok (rec, n, None, inl s2') /\ I2 s2' rest2.
Proof.
  intros reg v1 IZ s1 s2 d rec n s1' Hreg HIZ HI1 HI2 Hd0 Hd E HI'.
  assert (Hd2 : forall d', d ++ rest2 <> x01 :: d').
  { intros d' E'. destruct d as [|b d]; [congruence|]. cbn in E'. injection E' as -> _. now apply (Hd (d ++ rest1)). }
  set (v0 := (fun _ _ _ => Panic) : v1_reader).
  rewrite (read_v1_unused reg v1 v0 IZ _ _ _ _ H1 s1 _ HI1 Hd) in E.
  rewrite (read_v1_unused reg v1 v0 IZ _ _ _ _ H2 s2 _ HI2 Hd2).
  assert (E2 : read reg v0 IZ R2 s2 <> Stuck) by (eapply read_ends; eauto; discriminate).
  assert (Hnb : ~ beyond s1').
  { intros (q & Hq & Hl). rewrite (delivers_det _ _ _ _ H1 _ _ _ Hq HI') in Hl. lia. }
  assert (Hend : forall t2, swap s1' t2 -> I2 t2 rest2).
  { intros t2 (q & Hq1 & Hq2). pose proof (delivers_det _ _ _ _ H1 _ _ _ Hq1 HI') as Eq.
    assert (q = []) as -> by (destruct q; [reflexivity|]; apply (f_equal (@length _)) in Eq; rewrite app_length in Eq; cbn in Eq; lia).
    exact Hq2. }
  assert (HR : swap s1 s2) by (now exists d). clear Hd Hd2 HI1 HI2 Hd0 d.
  pose proof swap_one as Hone. pose proof swap_full as Hfull. pose proof beyond_strict as Hds.
  assert (Hk : forall A (P1 : S1 -> res (A * S1)) (P2 : S2 -> res (A * S2)) a1 a2 v b1,
    linked swap beyond False P1 P2 -> swap a1 a2 -> P1 a1 = Ok (v, b1) -> P2 a2 <> Stuck -> ~ beyond b1 ->
    exists b2, P2 a2 = Ok (v, b2) /\ swap b1 b2).
  { intros A P1 P2 a1 a2 v b1 [HL _] Ha EP Hs Hb. specialize (HL _ _ Ha). rewrite EP in HL. unfold sim in HL.
    destruct (P2 a2) as [[v2 b2]| |]; [| |congruence]; (destruct HL as [HL|(b & Eb & Hb2)]; [contradiction|]).
    - apply ok_inj in Eb. injection Eb as -> ->. eauto.
    - discriminate. }
  assert (Hdoom : forall A (P1 : S1 -> res (A * S1)) (P2 : S2 -> res (A * S2)) a1 v b1,
    linked swap beyond False P1 P2 -> P1 a1 = Ok (v, b1) -> ~ beyond b1 -> ~ beyond a1).
  { intros A P1 P2 a1 v b1 [_ HL] EP Hb Ha. apply HL in Ha. rewrite EP in Ha. contradiction. }
  unfold read in *.
  destruct (get_version R1 s1) as [[[[v m] [e|]] a1]| |] eqn:Ea; cbn [bind] in E; try discriminate.
  destruct (v =? 1) eqn:Ev1; [discriminate|]. destruct (negb (v =? 2)) eqn:Ev2; [discriminate|].
  destruct (read_encoders R1 reg a1) as [[[[es m2] [e|]] b1]| |] eqn:Eb; cbn [bind] in E; try discriminate.
  destruct (rread R1 1 b1) as [[[p [e|]] c1]| |] eqn:Ec; cbn [bind] in E; try discriminate.
  destruct (b2n (hd x00 p) =? 1) eqn:Ef.
  { destruct (read_payload (iz_read IZ S1 R1) es _ _) as [[[[? ?] ?] ?]| |]; cbn [bind] in E; discriminate. }
  destruct (read_payload R1 es (m + m2 + lenN p) c1) as [[r d1]| |] eqn:Ed; cbn [bind] in E; try discriminate.
  apply ok_inj in E. injection E as -> ->.
  pose proof (get_version_link R1 R2 swap beyond False Hds Hone) as Lv.
  pose proof (read_encoders_link R1 R2 swap beyond False Hds Hone Hfull reg) as Le.
  pose proof (swap_payload es (m + m2 + lenN p)) as Lp.
  pose proof (Hdoom _ _ _ _ _ _ Lp Ed Hnb) as Nc. pose proof (Hdoom _ _ _ _ _ _ Hone Ec Nc) as Nb.
  pose proof (Hdoom _ _ _ _ _ _ Le Eb Nb) as Na.
  destruct (Hk _ _ _ _ _ _ _ Lv HR Ea) as (a2 & Xa & Ra); [intro X; now rewrite X in E2 | exact Na |]. rewrite Xa in *. cbn [bind] in *.
  rewrite Ev1, Ev2 in *.
  destruct (Hk _ _ _ _ _ _ _ Le Ra Eb) as (b2 & Xb & Rb); [intro X; now rewrite X in E2 | exact Nb |]. rewrite Xb in *. cbn [bind] in *.
  destruct (Hk _ _ _ _ _ _ _ Hone Rb Ec) as (c2 & Xc & Rc); [intro X; now rewrite X in E2 | exact Nc |]. rewrite Xc in *. cbn [bind] in *.
  rewrite Ef in *.
  destruct (Hk _ _ _ _ _ _ _ Lp Rc Ed) as (d2 & Xd & Rd); [intro X; now rewrite X in E2 | exact Hnb |]. rewrite Xd. cbn [bind].
  exists d2. split; [reflexivity|]. now apply Hend.
Qed.
End Swap.

(** ** More bytes behind a file that was read to the end of the input *)
Section Extend.
Context {S1 S2 : Type} (R1 : Reader S1) (R2 : Reader S2).
Context (I1 : S1 -> bytes -> Prop) (I2 : S2 -> bytes -> Prop) (rest : bytes).
Hypothesis H1 : delivers R1 false I1.
Hypothesis H2 : delivers R2 false I2.
Lemma extend_read : forall reg v1 IZ s1 s2 d rec n t1, Forall ends reg ->
  I1 s1 d -> I2 s2 (d ++ rest) -> (forall d', d <> x01 :: d') ->
  read reg v1 IZ R1 s1 = Ok (rec, n, None, t1) ->
  match t1 with
  | inl s1' => exists s2', read reg v1 IZ R2 s2 = Ok (rec, n, None, inl s2') /\ cut I1 I2 rest s1' s2'
  | inr _ => forall v s2', read reg v1 IZ R2 s2 <> Ok (v, inl s2')
  end.
Proof.
  intros reg v1 IZ s1 s2 d rec n t1 Hreg HI1 HI2 Hd E.
  assert (Hd0 : d <> []).
  { intros ->. unfold read, get_version in E. destruct (d_eof _ _ _ H1 s1 1 HI1) as (s' & E' & _); [discriminate|].
    rewrite E' in E. discriminate. }
  assert (Hd2 : forall d', d ++ rest <> x01 :: d').
  { intros d' E'. destruct d as [|b d]; [congruence|]. cbn in E'. injection E' as -> _. now apply (Hd d). }
  set (v0 := (fun _ _ _ => Panic) : v1_reader).
  rewrite (read_v1_unused reg v1 v0 IZ _ _ _ _ H1 s1 _ HI1 Hd) in E.
  assert (Ev0 : read reg v1 IZ R2 s2 = read reg v0 IZ R2 s2) by exact (read_v1_unused reg v1 v0 IZ _ _ _ _ H2 s2 _ HI2 Hd2).
  assert (HC : cut I1 I2 rest s1 s2) by (now exists d). clear Hd Hd2 HI1 HI2 Hd0 d.
  pose proof (delivers_breaks _ _ _ _ H1) as HB. assert (Hm : more false rest) by (now left).
  unfold read in E. unfold read in Ev0 at 2.
  pose proof (version_cut R1 R2 false I1 I2 rest HB H2 Hm s1 s2 HC) as K.
  destruct (get_version R1 s1) as [[[[v m] [e|]] a1]| |]; cbn [bind] in E; try discriminate.
  destruct K as [K|(a2 & Xa & Ca)]; [congruence|]. rewrite Xa in Ev0. cbn [bind] in Ev0.
  destruct (v =? 1) eqn:Ev1; [discriminate|]. destruct (negb (v =? 2)) eqn:Ev2; [discriminate|].
  pose proof (encoders_cut R1 R2 false I1 I2 rest HB H2 Hm reg a1 a2 Ca) as K2.
  destruct (read_encoders R1 reg a1) as [[[[es m2] [e|]] b1]| |] eqn:Eb; cbn [bind] in E; try discriminate.
  destruct K2 as [K2|(b2 & Xb & Cb)]; [congruence|]. rewrite Xb in Ev0. cbn [bind] in Ev0.
  pose proof (one_cut R1 R2 false I1 I2 rest HB H2 Hm b1 b2 Cb) as K3.
  destruct (rread R1 1 b1) as [[[p [e|]] c1]| |] eqn:Ec; cbn [bind] in E; try discriminate.
  destruct K3 as [K3|(c2 & Xc & Cc)]; [congruence|]. rewrite Xc in Ev0. cbn [bind] in Ev0.
  destruct (b2n (hd x00 p) =? 1) eqn:Ef.
  - destruct (read_payload (iz_read IZ S1 R1) es _ _) as [[r y]| |]; cbn [bind] in E; try discriminate.
    apply ok_inj in E. injection E as _ <-. intros w s2' X. rewrite X in Ev0.
    destruct (read_payload (iz_read IZ S2 R2) es _ _) as [[r' y']| |]; cbn [bind] in Ev0; discriminate.
  - pose proof (payload_cut R1 R2 false I1 I2 rest HB H2 Hm es (m + m2 + lenN p)) as K4.
    destruct (read_payload R1 es (m + m2 + lenN p) c1) as [[[[r k] x] d1]| |] eqn:Ed; cbn [bind] in E; try discriminate.
    apply ok_inj in E. injection E as -> -> -> <-.
    assert (He : Forall ends es).
    { rewrite Forall_forall in *. intros y Hy. apply Hreg. eapply read_encoders_in; eauto. }
    specialize (K4 He c1 c2 Cc). rewrite Ed in K4. destruct K4 as [K4|(d2 & Xd & Cd)]; [congruence|].
    rewrite Xd in Ev0. cbn [bind] in Ev0. exists d2. split; [exact Ev0 | exact Cd].
Qed.
End Extend.

Theorem read_delimited : forall reg v1 IZ, Forall ends reg -> inflation_ends IZ ->
  forall S (R : Reader S) I s d rec n s', delivers R false I -> I s d -> (forall d', d <> x01 :: d') ->
  read reg v1 IZ R s = Ok (rec, n, None, inl s') ->
  exists file rest, d = file ++ rest /\ lenN file = n /\ I s' rest /\
  forall S2 (R2 : Reader S2) I2 s2 rest2, delivers R2 false I2 -> I2 s2 (file ++ rest2) ->
  exists s2', read reg v1 IZ R2 s2 = Ok (rec, n, None, inl s2') /\ I2 s2' rest2.
Proof.
  intros reg v1 IZ Hreg HIZ S R I s d rec n s' HR HI Hd E.
  destruct (read_exact R I HR reg v1 IZ s d rec n s' HI Hd E) as (file & rest & -> & HI' & -> & Hf).
  exists file, rest. repeat split; auto. intros S2 R2 I2 s2 rest2 HR2 HI2.
  destruct rest as [|b rest].
  - rewrite app_nil_r in *.
    destruct (extend_read R R2 I I2 rest2 HR HR2 reg v1 IZ s s2 file rec (lenN file) (inl s') Hreg HI HI2 Hd E) as (s2' & E2 & q & Hq & Hq2).
    exists s2'. split; [exact E2|]. rewrite (delivers_det _ _ _ _ HR _ _ _ Hq HI') in Hq2. exact Hq2.
  - eapply (swap_read R R2 I I2 (b :: rest) rest2); eauto; discriminate.
Qed.
