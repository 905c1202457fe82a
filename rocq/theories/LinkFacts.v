(** Two runs of the same parser on two readers: if the readers answer alike, so
    do the parsers.  [Rel] relates the states of readers that have answered
    alike so far; a state is [Dead] once its reader has failed in a way the
    other one need not have.  Running out of the model's fuel is not an answer
    (SafeFacts.v shows that it does not happen). *)
From Coq Require Import Lia.
From Verif Require Import Base BaseFacts IO Spec IOFacts Floats BinaryIO Metadata Recording Encoding TimeIO Reader.
Local Open Scope N_scope.

Section Link.
Context {S1 S2 : Type} (Rel : S1 -> S2 -> Prop) (Dead : S1 -> Prop) (strict : Prop).
Hypothesis dead_strict : forall s, Dead s -> ~ strict.

Definition sim {A} (m1 : res (A * S1)) (m2 : res (A * S2)) : Prop :=
  match m1, m2 with
  | Stuck, _ | _, Stuck => True
  | Ok (v, s1), _ => Dead s1 \/ exists s2, m2 = Ok (v, s2) /\ Rel s1 s2
  | Panic, _ => strict -> m2 = Panic
  end.
Definition doomed {A} (m1 : res (A * S1)) : Prop :=
  match m1 with Ok (_, s1) => Dead s1 | _ => True end.
Definition linked {A} (P1 : S1 -> res (A * S1)) (P2 : S2 -> res (A * S2)) : Prop :=
  (forall s1 s2, Rel s1 s2 -> sim (P1 s1) (P2 s2)) /\ (forall s1, Dead s1 -> doomed (P1 s1)).

Lemma doomed_sim : forall A s (m1 : res (A * S1)) m2, Dead s -> doomed m1 -> sim m1 m2.
Proof.
  intros A s m1 m2 Hs H. destruct m1 as [[v s1]| |]; cbn in *; auto.
  - destruct m2; auto.
  - destruct m2; auto; intro Hst; destruct (dead_strict s Hs Hst).
Qed.

Lemma link_ret : forall A (v : A), linked (fun s => Ok (v, s)) (fun s => Ok (v, s)).
Proof. intros A v. split; cbn; eauto. Qed.
Lemma link_panic : forall A, linked (A := A) (fun _ => Panic) (fun _ => Panic).
Proof. intros A. split; cbn; auto. Qed.
Lemma link_stuck : forall A, linked (A := A) (fun _ => Stuck) (fun _ => Stuck).
Proof. intros A. split; cbn; auto. Qed.
Lemma link_stuck_l : forall A P2, linked (A := A) (fun _ => Stuck) P2.
Proof. intros A P2. split; cbn; auto. Qed.

Lemma link_bind : forall A B (P1 : S1 -> res (A * S1)) P2 (k1 : A -> S1 -> res (B * S1)) k2,
  linked P1 P2 -> (forall v, linked (k1 v) (k2 v)) ->
  linked (fun s => bind (P1 s) (fun x => let (v, s') := x in k1 v s'))
         (fun s => bind (P2 s) (fun x => let (v, s') := x in k2 v s')).
Proof.
  intros A B P1 P2 k1 k2 [HP HD] Hk. split.
  - intros s1 s2 HR. specialize (HP s1 s2 HR).
    destruct (P1 s1) as [[v s1']| |]; cbn [bind]; [| |exact I].
    + destruct (P2 s2) as [[v2 s2']| |]; cbn in HP.
      * destruct HP as [HP|(s & E & HR')].
        -- eapply doomed_sim; [exact HP|]. now apply Hk.
        -- apply ok_inj in E. injection E as <- <-. cbn [bind]. now apply Hk.
      * destruct HP as [HP|(s & E & _)]; [|discriminate].
        eapply doomed_sim; [exact HP|]. now apply Hk.
      * cbn [bind]. unfold sim. destruct (k1 v s1') as [[? ?]| |]; exact I.
    + destruct (P2 s2) as [[v2 s2']| |]; cbn in HP |- *; auto.
      * unfold sim. destruct (k2 v2 s2') as [[? ?]| |]; auto; intro Hst; discriminate (HP Hst).
  - intros s1 Hd. specialize (HD s1 Hd). destruct (P1 s1) as [[v s1']| |]; cbn [bind]; try exact I.
    now apply Hk.
Qed.
Lemma link_make : forall A k n (P1 : S1 -> res (A * S1)) P2, linked P1 P2 ->
  linked (fun s => go_make k n (P1 s)) (fun s => go_make k n (P2 s)).
Proof.
  intros A k n P1 P2 H. unfold go_make. destruct (make_ok k n); [exact H | apply link_panic].
Qed.
Lemma link_loop : forall A n (b1 : S1 -> res (A * S1)) b2, linked b1 b2 -> linked (loop n b1) (loop n b2).
Proof.
  intros A n b1 b2 H. induction n as [|n IH]; cbn [loop]; [apply link_ret|].
  apply link_bind; [exact H|]. intro a. apply link_bind; [exact IH|]. intro l. apply link_ret.
Qed.
Lemma link_loop_err : forall A n (b1 : S1 -> res ((A + err) * S1)) b2, linked b1 b2 ->
  linked (loop_err n b1) (loop_err n b2).
Proof.
  intros A n b1 b2 H. induction n as [|n IH]; cbn [loop_err]; [apply link_ret|].
  apply link_bind; [exact H|]. intros [a|e]; [|apply link_ret].
  apply link_bind; [exact IH|]. intros [l|e]; apply link_ret.
Qed.
End Link.


(** Readers that answer alike: one-byte reads and ReadFull is all the parsers
    use. *)
Section Parsers.
Context {S1 S2 : Type} (R1 : Reader S1) (R2 : Reader S2).
Context (Rel : S1 -> S2 -> Prop) (Dead : S1 -> Prop) (strict : Prop).
Notation "P ~~ Q" := (linked Rel Dead strict P Q) (at level 70).
Hypothesis dead_strict : forall s, Dead s -> ~ strict.
Hypothesis one : rread R1 1 ~~ rread R2 1.
Hypothesis full : forall n, read_full R1 n ~~ read_full R2 n.

Ltac use := eauto with nocore.
Ltac step :=
  match goal with
  | |- linked _ _ _ (fun s => Ok (_, s)) _ => apply link_ret
  | |- linked _ _ _ (fun _ => Panic) _ => apply link_panic
  | |- linked _ _ _ (fun _ => Stuck) _ => apply link_stuck_l
  | |- linked _ _ _ (fun s => go_make _ _ _) _ => apply link_make
  | |- linked _ _ _ (fun s => match ?x with _ => _ end) _ => destruct x
  | |- linked _ _ _ (fun s => bind _ _) _ => apply link_bind; [exact dead_strict | |intro]
  end.
Ltac steps := repeat (cbn beta iota; step).

Lemma read_uvarint_link : read_uvarint R1 ~~ read_uvarint R2.
Proof.
  assert (H : forall f i x sh b n, read_uvarint_loop R1 f i x sh b n ~~ read_uvarint_loop R2 f i x sh b n).
  { induction f as [|f IH]; intros i x sh b n; cbn [read_uvarint_loop]; steps; auto. }
  apply H.
Qed.
Lemma read_string_link : read_string R1 ~~ read_string R2.
Proof. unfold read_string. pose proof read_uvarint_link. steps; auto. Qed.
Lemma read_bytes_array_link : read_bytes_array R1 ~~ read_bytes_array R2.
Proof. unfold read_bytes_array. pose proof read_uvarint_link. steps; auto. Qed.
Lemma read_string_array_link : read_string_array R1 ~~ read_string_array R2.
Proof.
  assert (H : forall k n, read_strings R1 k n ~~ read_strings R2 k n).
  { pose proof read_string_link. induction k as [|k IH]; intro n; cbn [read_strings]; steps; auto. }
  unfold read_string_array. pose proof read_uvarint_link. steps; auto.
Qed.
Lemma read_uvarint_array_link : read_uvarint_array R1 ~~ read_uvarint_array R2.
Proof.
  pose proof read_uvarint_link.
  assert (H1 : forall k n, read_uvarints R1 k n ~~ read_uvarints R2 k n).
  { induction k as [|k IH]; intro n; cbn [read_uvarints]; steps; auto. }
  unfold read_uvarint_array. steps; auto.
Qed.
Lemma binary_read_link : forall k, binary_read R1 k ~~ binary_read R2 k.
Proof. intro k. unfold binary_read. steps; auto. Qed.
Lemma rd32_link : forall x, rd32 R1 x ~~ rd32 R2 x.
Proof. intro x. unfold rd32. pose proof binary_read_link. steps; auto. Qed.
Lemma rd64_link : forall x, rd64 R1 x ~~ rd64 R2 x.
Proof. intro x. unfold rd64. pose proof binary_read_link. steps; auto. Qed.
Lemma read_float64s_link : forall k, read_float64s R1 k ~~ read_float64s R2 k.
Proof. pose proof binary_read_link. induction k as [|k IH]; cbn [read_float64s]; steps; auto. Qed.
Lemma read_property_with_link : forall g1 g2, (forall c, g1 c ~~ g2 c) ->
  read_property_with R1 g1 ~~ read_property_with R2 g2.
Proof. intros g1 g2 H. unfold read_property_with. steps; auto. Qed.
Lemma read_entries_link : forall p1 p2, p1 ~~ p2 -> forall ks acc,
  read_entries p1 ks acc ~~ read_entries p2 ks acc.
Proof. intros p1 p2 H. induction ks as [|k ks IH]; intro acc; cbn [read_entries]; steps; auto. Qed.
Lemma read_props_link : forall p1 p2, p1 ~~ p2 -> forall k,
  read_props p1 k ~~ read_props p2 k.
Proof. intros p1 p2 H. induction k as [|k IH]; cbn [read_props]; steps; auto. Qed.
Lemma read_nested_with_link : forall p1 p2, p1 ~~ p2 ->
  read_nested_with R1 p1 ~~ read_nested_with R2 p2.
Proof.
  intros p1 p2 H. unfold read_nested_with. pose proof read_string_array_link.
  pose proof (read_entries_link p1 p2 H). steps; auto.
Qed.
Lemma link_fuel : forall A (P1 : S1 -> res (A * S1)) P2, P1 ~~ P2 -> P1 ~~ (fun _ => Stuck).
Proof.
  intros A P1 P2 [_ H]. split; [|exact H]. intros s1 s2 _. unfold sim. destruct (P1 s1) as [[? ?]| |]; exact I.
Qed.
Lemma read_prop_data_link : forall f1 f2 c, read_prop_data R1 f1 c ~~ read_prop_data R2 f2 c.
Proof.
  induction f1 as [|f1 IH]; intros f2 c; [apply link_stuck_l|].
  assert (H : forall f2, read_prop_data R1 (Datatypes.S f1) c ~~ read_prop_data R2 (Datatypes.S f2) c).
  { clear f2. intro f2. pose proof read_string_link. pose proof binary_read_link. pose proof read_float64s_link.
    pose proof (read_nested_with_link _ _ (read_property_with_link _ _ (IH f2))).
    pose proof read_bytes_array_link. pose proof read_uvarint_link.
    pose proof (fun c => read_props_link _ _ (IH f2 c)).
    cbn [read_prop_data]. steps; auto. }
  destruct f2 as [|f2]; [|apply H]. exact (link_fuel _ _ _ (H O)).
Qed.
Lemma read_property_link : read_property R1 ~~ read_property R2.
Proof.
  split.
  - intros s1 s2 HR. unfold read_property.
    apply (read_property_with_link _ _ (read_prop_data_link (prop_fuel R1 s1) (prop_fuel R2 s2))), HR.
  - intros s1 Hd. unfold read_property.
    apply (read_property_with_link _ _ (read_prop_data_link (prop_fuel R1 s1) 0)), Hd.
Qed.
Lemma read_md_link : forall keys, read_md R1 keys ~~ read_md R2 keys.
Proof.
  intro keys. pose proof read_property_link. pose proof read_uvarint_array_link.
  assert (H1 : forall is acc, read_md_entries R1 keys is acc ~~ read_md_entries R2 keys is acc).
  { induction is as [|i is IH]; intro acc; cbn [read_md_entries]; steps; auto. }
  unfold read_md. steps; auto.
Qed.
Lemma read_ref_link : forall keys, read_ref R1 keys ~~ read_ref R2 keys.
Proof.
  intro keys. pose proof read_string_link. pose proof read_uvarint_link. pose proof (read_md_link keys).
  unfold read_ref. steps; auto.
Qed.
Lemma read_bin_link : forall keys, read_bin R1 keys ~~ read_bin R2 keys.
Proof.
  intro keys. pose proof read_string_link. pose proof read_uvarint_link. pose proof (read_md_link keys).
  unfold read_bin. steps; auto.
Qed.
Lemma read_versions_link : forall k n, read_versions R1 k n ~~ read_versions R2 k n.
Proof. pose proof read_uvarint_link. induction k as [|k IH]; intro n; cbn [read_versions]; steps; auto. Qed.
Lemma read_encoders_link : forall reg, read_encoders R1 reg ~~ read_encoders R2 reg.
Proof.
  intro reg. pose proof read_string_array_link. pose proof read_versions_link. unfold read_encoders. steps; auto.
Qed.
Lemma read_headers_link : forall k n, read_headers R1 k n ~~ read_headers R2 k n.
Proof. pose proof read_bytes_array_link. induction k as [|k IH]; intro n; cbn [read_headers]; steps; auto. Qed.
Lemma get_version_link : get_version R1 ~~ get_version R2.
Proof. unfold get_version. steps; auto. Qed.

(** the capture times are read two bytes at a time, through an ErrReader *)
Hypothesis two : rread R1 2 ~~ rread R2 2.
Lemma time_unsteps_link : forall k cur mx buf, time_unsteps R1 k cur mx buf ~~ time_unsteps R2 k cur mx buf.
Proof. induction k as [|k IH]; intros cur mx buf; cbn [time_unsteps]; steps; auto. Qed.
Lemma decode_time_link : decode_time R1 ~~ decode_time R2.
Proof.
  pose proof rd32_link. pose proof rd64_link. pose proof time_unsteps_link. pose proof read_uvarint_link.
  assert (H3 : forall n, decode_time64 R1 n ~~ decode_time64 R2 n).
  { intro n. unfold decode_time64. steps. apply link_loop; auto. steps; auto. }
  assert (H4 : forall n, decode_time32 R1 n ~~ decode_time32 R2 n).
  { intro n. unfold decode_time32. steps. apply link_loop; auto. steps; auto. }
  assert (H5 : forall n, decode_time16 R1 n ~~ decode_time16 R2 n).
  { intro n. unfold decode_time16. steps; auto. }
  unfold decode_time. steps; auto.
Qed.
Lemma read_stream_link : forall encs hs, read_stream R1 encs hs ~~ read_stream R2 encs hs.
Proof.
  intros encs hs. pose proof read_string_link. pose proof read_uvarint_link. pose proof decode_time_link.
  pose proof read_bytes_array_link. unfold read_stream. steps; auto.
  match goal with |- linked _ _ _ (fun s => bind ?m _) _ => destruct m end; cbn [bind];
    [apply link_ret | apply link_panic | apply link_stuck_l].
Qed.
End Parsers.

(** ErrReaders over readers that answer alike *)
Section Wrap.
Context {S1 S2 : Type} (R1 : Reader S1) (R2 : Reader S2).
Context (Rel : S1 -> S2 -> Prop) (Dead : S1 -> Prop) (strict : Prop).
Hypothesis dead_strict : forall s, Dead s -> ~ strict.
Hypothesis full : forall n, linked Rel Dead strict (read_full R1 n) (read_full R2 n).
Definition er_rel (e1 : er S1) (e2 : er S2) : Prop :=
  er_err e1 = er_err e2 /\ er_n e1 = er_n e2 /\ Rel (er_in e1) (er_in e2).
Definition er_dead (e : er S1) : Prop := Dead (er_in e).
Lemma er_link : forall n, linked er_rel er_dead strict (rread (err_reader R1) n) (rread (err_reader R2) n).
Proof.
  intro n. destruct (full n) as [H1 H2]. split.
  - intros e1 e2 (He & Hn & HR). cbn [rread err_reader]. rewrite <- He.
    destruct (er_err e1) as [x|] eqn:Ex.
    + cbn. right. exists e2. split; [reflexivity|]. split; [congruence | auto].
    + specialize (H1 _ _ HR). rewrite <- Hn.
      destruct (read_full R1 n (er_in e1)) as [[[p x] s1]| |]; cbn [bind]; [| |exact I].
      * destruct (read_full R2 n (er_in e2)) as [[[p2 x2] s2]| |]; cbn [bind]; [| |exact I].
        -- cbn in H1. destruct H1 as [H1|(s & E & H1)]; [left; exact H1|].
           apply ok_inj in E. injection E as -> -> ->. right. eexists. split; [reflexivity|].
           repeat split. exact H1.
        -- cbn in H1. destruct H1 as [H1|(s & E & _)]; [left; exact H1 | discriminate].
      * destruct (read_full R2 n (er_in e2)) as [[[p2 x2] s2]| |]; cbn [bind]; cbn in H1 |- *; auto.
        intro Hst. discriminate (H1 Hst).
  - intros e1 Hd. unfold er_dead in Hd. cbn [rread err_reader].
    destruct (er_err e1); [exact Hd|]. specialize (H2 _ Hd).
    destruct (read_full R1 n (er_in e1)) as [[[p x] s1]| |]; cbn [bind]; cbn in H2 |- *; auto.
Qed.
End Wrap.


(** A reader that answers every Read alike answers ReadFull alike. *)
Lemma full_link : forall S1 S2 (R1 : Reader S1) (R2 : Reader S2) (Rel : S1 -> S2 -> Prop) (Dead : S1 -> Prop) (strict : Prop),
  (forall s, Dead s -> ~ strict) ->
  (forall n, linked Rel Dead strict (rread R1 n) (rread R2 n)) ->
  forall n, linked Rel Dead strict (read_full R1 n) (read_full R2 n).
Proof.
  intros S1 S2 R1 R2 Rel Dead strict Hds H n.
  assert (HL : forall f1 f2 need acc,
    linked Rel Dead strict (read_at_least R1 f1 need acc) (read_at_least R2 f2 need acc)).
  { induction f1 as [|f1 IH]; intros f2 need acc.
    - destruct f2; cbn [read_at_least]; destruct (need =? 0); try apply link_ret; apply link_stuck_l.
    - assert (HS : forall f2, linked Rel Dead strict (read_at_least R1 (Datatypes.S f1) need acc)
                                                     (read_at_least R2 (Datatypes.S f2) need acc)).
      { clear f2. intro f2. cbn [read_at_least]. destruct (need =? 0); [apply link_ret|].
        apply link_bind; [assumption | apply H |]. intros [p [e|]]; [|apply IH].
        destruct (need - lenN p =? 0); [apply link_ret|].
        destruct e; try apply link_ret. destruct (acc ++ p); apply link_ret. }
      destruct f2 as [|f2]; [|apply HS].
      cbn [read_at_least]. destruct (need =? 0) eqn:E.
      + specialize (HS O). cbn [read_at_least] in HS. now rewrite E in HS.
      + specialize (HS O). cbn [read_at_least] in HS. rewrite E in HS. exact (link_fuel _ _ _ _ _ _ HS). }
  split.
  - intros s1 s2 HR. unfold read_full. now apply HL.
  - intros s1 Hd. unfold read_full. exact (proj2 (HL _ O n []) s1 Hd).
Qed.

(** Nested recordings *)
Definition body (f : nat) (keys : list str) (encs : list encoder) (headers : list bytes)
  {S : Type} (R : Reader S) (s : er S) : res (option recording * option err * er S) :=
  let E := err_reader R in
  do (r, s) <- read_string E s;
  let '(id, _, _) := r in
  do (r, s) <- read_string E s;
  let '(name, _, _) := r in
  do (r, s) <- read_md E keys s;
  let (md, e) := r in
  match e with
  | Some e => Ok (None, Some e, s)
  | None =>
      do (r, s) <- read_uvarint E s;
      let '(nstreams, _, _) := r in
      go_make 16 nstreams
      (do (colls, s) <- loop (N.to_nat nstreams) (read_stream E encs headers) s;
       do (r, s) <- read_uvarint E s;
       let '(nrefs, _, _) := r in
       go_make 16 nrefs
       (do (refs, s) <- loop (N.to_nat nrefs) (read_ref E keys) s;
        do (r, s) <- read_uvarint E s;
        let '(nbins, _, _) := r in
        go_make 16 nbins
        (do (bins, s) <- loop (N.to_nat nbins) (read_bin E keys) s;
         do (r, s) <- read_uvarint E s;
         let '(nrecs, _, _) := r in
         go_make 16 nrecs
         (do (rl, s) <- loop_err (N.to_nat nrecs)
             (fun s => do (r, s1) <- build f keys encs headers E s;
                       let '(c, _, e) := r in
                       match e with
                       | Some e => Ok (inr e, s1)
                       | None => Ok (inl c, s1)
                       end) s;
          match rl with
          | inr e => Ok (None, Some e, s)
          | inl recs => Ok (Some (mkRec id name colls recs md bins refs), None, s)
          end))))
  end.
Lemma build_eq : forall f keys encs hs S (R : Reader S) s0,
  build (Datatypes.S f) keys encs hs R s0 =
  do (r, s) <- body f keys encs hs R (new_er s0);
  let '(rec, e) := r in
  Ok (rec, er_n s, match e with Some e => Some e | None => er_err s end, er_in s).
Proof.
  intros. cbn [build]. unfold body, go_make.
  repeat (first
   [ reflexivity
   | match goal with |- bind ?m _ = _ => destruct m as [[? ?]| |]; cbn [bind]; [|reflexivity|reflexivity] end
   | match goal with |- match ?x with _ => _ end = _ => destruct x end ]).
Qed.


(** From the body of a recording to a nested recording. *)
Lemma nested_link : forall keys encs hs f1 f2 S1 S2 (E1 : Reader S1) (E2 : Reader S2)
  (Rel : S1 -> S2 -> Prop) (Dead : S1 -> Prop) (strict : Prop),
  linked (er_rel Rel) (er_dead Dead) strict (body f1 keys encs hs E1) (body f2 keys encs hs E2) ->
  linked Rel Dead strict (build (Datatypes.S f1) keys encs hs E1) (build (Datatypes.S f2) keys encs hs E2).
Proof.
  intros keys encs hs f1 f2 S1 S2 E1 E2 Rel Dead strict [H1 H2]. split.
  - intros s1 s2 HR. rewrite !build_eq.
    assert (HR0 : er_rel Rel (new_er s1) (new_er s2)) by (repeat split; exact HR).
    specialize (H1 _ _ HR0).
    destruct (body f1 keys encs hs E1 (new_er s1)) as [[[rec e] s]| |]; cbn [bind]; [| |exact I];
      (destruct (body f2 keys encs hs E2 (new_er s2)) as [[[rec2 e2] s']| |]; cbn [bind]; [| |exact I]);
      cbn in H1.
    + destruct H1 as [H1|(s3 & E & He & Hn & HR')]; [left; exact H1|].
      apply ok_inj in E. injection E as -> -> ->. right. rewrite He, Hn. eexists. split; [reflexivity | exact HR'].
    + destruct H1 as [H1|(s3 & E & _)]; [left; exact H1 | discriminate].
    + cbn. intro Hst. discriminate (H1 Hst).
    + cbn. auto.
  - intros s1 Hd. rewrite build_eq. specialize (H2 (new_er s1) Hd).
    destruct (body f1 keys encs hs E1 (new_er s1)) as [[[rec e] s]| |]; cbn [bind]; [exact H2 | exact I | exact I].
Qed.

Lemma body_link : forall keys encs hs f1 f2 S1 S2 (R1 : Reader S1) (R2 : Reader S2)
  (Rel : er S1 -> er S2 -> Prop) (Dead : er S1 -> Prop) (strict : Prop),
  (forall s, Dead s -> ~ strict) ->
  (forall n, linked Rel Dead strict (rread (err_reader R1) n) (rread (err_reader R2) n)) ->
  linked Rel Dead strict (body f1 keys encs hs R1) (body f2 keys encs hs R2).
Proof.
  intros keys encs hs.
  assert (Hstep : forall f1 f2 S1 S2 (R1 : Reader S1) (R2 : Reader S2)
    (Rel : er S1 -> er S2 -> Prop) (Dead : er S1 -> Prop) (strict : Prop),
    (forall s, Dead s -> ~ strict) ->
    (forall n, linked Rel Dead strict (rread (err_reader R1) n) (rread (err_reader R2) n)) ->
    linked Rel Dead strict (build f1 keys encs hs (err_reader R1)) (build f2 keys encs hs (err_reader R2)) ->
    linked Rel Dead strict (body f1 keys encs hs R1) (body f2 keys encs hs R2)).
  { intros f1 f2 S1 S2 R1 R2 Rel Dead strict Hds Hr Hb.
    pose proof (full_link _ _ _ _ _ _ _ Hds Hr) as Hf.
    pose proof (read_string_link _ _ _ _ _ Hds (Hr 1) Hf) as H1.
    pose proof (read_uvarint_link _ _ _ _ _ Hds (Hr 1)) as H2.
    pose proof (read_md_link _ _ _ _ _ Hds (Hr 1) Hf keys) as H3.
    pose proof (read_stream_link _ _ _ _ _ Hds (Hr 1) Hf (Hr 2) encs hs) as H4.
    pose proof (read_ref_link _ _ _ _ _ Hds (Hr 1) Hf keys) as H5.
    pose proof (read_bin_link _ _ _ _ _ Hds (Hr 1) Hf keys) as H6.
    unfold body.
    repeat (cbn beta iota; match goal with
      | |- linked _ _ _ (fun s => Ok (_, s)) _ => apply link_ret
      | |- linked _ _ _ (fun s => go_make _ _ _) _ => apply link_make
      | |- linked _ _ _ (fun s => match ?x with _ => _ end) _ => destruct x
      | |- linked _ _ _ (fun s => bind _ _) _ => apply link_bind; [exact Hds | |intro]
      | |- linked _ _ _ (loop _ _) _ => apply link_loop; [exact Hds|]
      | |- linked _ _ _ (loop_err _ _) _ => apply link_loop_err; [exact Hds|]
      end; try assumption). }
  induction f1 as [|f1 IH]; intros f2 S1 S2 R1 R2 Rel Dead strict Hds Hr; apply Hstep; auto.
  - apply link_stuck_l.
  - pose proof (full_link _ _ _ _ _ _ _ Hds Hr) as Hf.
    assert (Hn : forall f2, linked Rel Dead strict (build (Datatypes.S f1) keys encs hs (err_reader R1))
                                        (build (Datatypes.S f2) keys encs hs (err_reader R2))).
    { clear f2. intro f2. apply nested_link. apply IH.
      - intros s Hs. now apply Hds in Hs.
      - now apply er_link. }
    destruct f2 as [|f2]; [|apply Hn]. exact (link_fuel _ _ _ _ _ _ (Hn O)).
Qed.
