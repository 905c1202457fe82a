(** The parsers never run out of the model's fuel, whatever the input: reading
    ends on every byte sequence. *)
From Coq Require Import Lia.
From Verif Require Import Base BaseFacts IO Spec IOFacts Floats BinaryIO Metadata Recording Encoding TimeIO Writer Reader SpecFile LinkFacts.
Local Open Scope N_scope.

Lemma delivers_finite : forall S (R : Reader S) eager I, delivers R eager I ->
  finite R (fun s k => exists d, I s d /\ k = length d).
Proof.
  intros S R eager I H. split.
  - intros s k n (d & HI & ->) Hn. destruct d as [|b d].
    + destruct (d_eof _ _ _ H s n HI Hn) as (s' & E & HI'). exists [], (Some EEOF), s', O.
      split; [exact E|]. split; [now exists []|]. split; [cbn; lia|]. split; [cbn; lia | discriminate].
    + destruct (d_more _ _ _ H s (b :: d) n HI) as (p & q & e & s' & E & Epq & Hp & Hl & HI' & _); [discriminate | assumption|].
      exists p, e, s', (length q). rewrite E, Epq, app_length. split; [reflexivity|]. split; [now exists q|]. split; [lia | auto].
  - intros s k (d & HI & ->). now apply (d_left _ _ _ H).
Qed.

Section Safe.
Context {S : Type} (R : Reader S) (V : S -> nat -> Prop).

Definition ok {A} (k : nat) (m : res (A * S)) : Prop :=
  match m with
  | Ok (_, s') => exists k', V s' k' /\ (k' <= k)%nat
  | Panic => True
  | Stuck => False
  end.
(** safe whenever at most [N] bytes are left *)
Definition safe {A} (N : nat) (P : S -> res (A * S)) : Prop :=
  forall s k, V s k -> (k <= N)%nat -> ok k (P s).
(** and something is consumed when the result is [good] *)
Definition eats {A} (good : A -> Prop) (P : S -> res (A * S)) : Prop :=
  forall s k, V s k ->
    match P s with
    | Ok (v, s') => exists k', V s' k' /\ (k' <= k)%nat /\ (good v -> (k' < k)%nat)
    | Panic => True
    | Stuck => False
    end.

Lemma safe_ret : forall A N (v : A), safe N (fun s => Ok (v, s)).
Proof. intros A N v s k H _. cbn. eauto. Qed.
Lemma safe_panic : forall A N, safe (A := A) N (fun s => Panic).
Proof. intros A N s k H _. exact I. Qed.
Lemma safe_le : forall A N M (P : S -> res (A * S)), safe N P -> (M <= N)%nat -> safe M P.
Proof. intros A N M P H HL s k HV Hk. apply H; [assumption | lia]. Qed.
Lemma safe_bind : forall A B N (P : S -> res (A * S)) (k : A -> S -> res (B * S)),
  safe N P -> (forall v, safe N (k v)) -> safe N (fun s => bind (P s) (fun x => let (v, s') := x in k v s')).
Proof.
  intros A B N P k HP Hk s n HV Hn. specialize (HP s n HV Hn).
  destruct (P s) as [[v s']| |]; cbn [bind]; [|exact I | exact HP].
  destruct HP as (k' & HV' & Hk'). specialize (Hk v s' k' HV' ltac:(lia)).
  destruct (k v s') as [[w s'']| |]; cbn in *; auto. destruct Hk as (k2 & ? & ?). exists k2. split; [assumption | lia].
Qed.
Lemma safe_eat : forall A B N good (P : S -> res (A * S)) (k : A -> S -> res (B * S)),
  eats good P -> (forall v, good v \/ safe N (k v)) ->
  (forall v M, good v -> (M < N)%nat -> safe M (k v)) ->
  safe N (fun s => bind (P s) (fun x => let (v, s') := x in k v s')).
Proof.
  intros A B N good P k HP Hk Hg s n HV Hn. specialize (HP s n HV).
  destruct (P s) as [[v s']| |]; cbn [bind]; [|exact I | exact HP].
  destruct HP as (k' & HV' & Hk' & Hgood).
  assert (H : ok k' (k v s')).
  { destruct (Hk v) as [Hv|Hv].
    - specialize (Hgood Hv). apply (Hg v k' Hv); [lia | assumption | lia].
    - apply Hv; [assumption | lia]. }
  destruct (k v s') as [[w s'']| |]; cbn in *; auto. destruct H as (k2 & ? & ?). exists k2. split; [assumption | lia].
Qed.
Lemma eats_safe : forall A good N (P : S -> res (A * S)), eats good P -> safe N P.
Proof.
  intros A good N P H s k HV _. specialize (H s k HV). destruct (P s) as [[v s']| |]; cbn; auto.
  destruct H as (k' & ? & ? & _). eauto.
Qed.
Lemma safe_make : forall A N a n (P : S -> res (A * S)), safe N P -> safe N (fun s => go_make a n (P s)).
Proof. intros A N a n P H. unfold go_make. destruct (make_ok a n); [exact H | apply safe_panic]. Qed.
Lemma safe_loop : forall A N n (b : S -> res (A * S)), safe N b -> safe N (loop n b).
Proof.
  intros A N n b H. induction n as [|n IH]; cbn [loop]; [apply safe_ret|].
  apply safe_bind; [exact H|]. intro a. apply safe_bind; [exact IH|]. intro. apply safe_ret.
Qed.
Lemma safe_loop_err : forall A N n (b : S -> res ((A + err) * S)), safe N b -> safe N (loop_err n b).
Proof.
  intros A N n b H. induction n as [|n IH]; cbn [loop_err]; [apply safe_ret|].
  apply safe_bind; [exact H|]. intros [a|e]; [|apply safe_ret].
  apply safe_bind; [exact IH|]. intros [l|e]; apply safe_ret.
Qed.

Hypothesis HR : finite R V.
Ltac step :=
  match goal with
  | |- safe _ (fun s => Ok (_, s)) => apply safe_ret
  | |- safe _ (fun _ => Panic) => apply safe_panic
  | |- safe _ (fun s => go_make _ _ _) => apply safe_make
  | |- safe _ (fun s => match ?x with _ => _ end) => destruct x
  | |- safe _ (fun s => bind _ _) => apply safe_bind; [|intro]
  end.
Ltac steps := repeat (cbn beta iota; step).
Definition no_err {A} (v : A * option err) : Prop := snd v = None.

Lemma read_eats : forall n, n <> 0 -> eats no_err (rread R n).
Proof.
  intros n Hn s k HV. destruct (f_read _ _ HR s k n HV Hn) as (p & e & s' & k' & -> & HV' & Hl & _ & Hp).
  exists k'. split; [assumption|]. split; [lia|]. unfold no_err. cbn. intro He. specialize (Hp He).
  destruct p; [congruence | cbn in Hl; lia].
Qed.
Lemma full_safe : forall n N, safe N (read_full R n).
Proof.
  intros n N s k HV _. unfold read_full.
  assert (H : forall f need acc s k0, V s k0 -> (k0 <= k)%nat -> (k0 < f)%nat -> ok k (read_at_least R f need acc s)).
  { induction f as [|f IH]; intros need acc s0 k0 HV0 Hk Hf; [lia|]. cbn [read_at_least].
    destruct (N.eqb_spec need 0); [cbn; eauto|].
    destruct (f_read _ _ HR s0 k0 need HV0 n0) as (p & e & s' & k' & -> & HV' & Hl & _ & Hp). cbn [bind].
    destruct e as [e|].
    - destruct (need - lenN p =? 0); [cbn; exists k'; split; [assumption | lia]|].
      destruct e; try (exists k'; split; [assumption | lia]).
      destruct (acc ++ p); exists k'; split; try assumption; lia.
    - apply (IH _ _ _ k'); [assumption | lia |]. specialize (Hp eq_refl). destruct p; [congruence | cbn in Hl; lia]. }
  apply (H _ _ _ s k HV); [lia|]. pose proof (f_left _ _ HR s k HV). lia.
Qed.
(** what ReadFull hands out *)
Lemma full_fills : forall n s k p e s', V s k -> read_full R n s = Ok (p, e, s') ->
  exists k', V s' k' /\ (length p + k' <= k)%nat /\ lenN p <= n /\ (e = None -> lenN p = n).
Proof.
  intros n s k p e s' HV. unfold read_full.
  assert (H : forall f need acc s k0, V s k0 -> (length acc + k0 <= k)%nat -> lenN acc + need = n ->
    read_at_least R f need acc s = Ok (p, e, s') ->
    exists k', V s' k' /\ (length p + k' <= k)%nat /\ lenN p <= n /\ (e = None -> lenN p = n)).
  { induction f as [|f IH]; intros need acc s0 k0 HV0 Hk Hn; cbn [read_at_least]; destruct (N.eqb_spec need 0) as [H0|H0].
    1,3: intro E; apply ok_inj in E; injection E as <- <- <-; exists k0; repeat split; auto; lia.
    { discriminate. }
    destruct (f_read _ _ HR s0 k0 need HV0 H0) as (q & x & s1 & k1 & -> & HV1 & Hl & Hln & Hq). cbn [bind].
    assert (Hlen : lenN (acc ++ q) + (need - lenN q) = n) by (rewrite lenN_app; lia).
    assert (Hk1 : (length (acc ++ q) + k1 <= k)%nat) by (rewrite app_length; lia).
    destruct x as [x|]; [|now apply IH with (k0 := k1)].
    assert (Hout : forall y, y <> None \/ need - lenN q = 0 -> Ok (acc ++ q, y, s1) = Ok (p, e, s') ->
      exists k', V s' k' /\ (length p + k' <= k)%nat /\ lenN p <= n /\ (e = None -> lenN p = n)).
    { intros y Hy E. apply ok_inj in E. injection E as <- <- <-. exists k1. repeat split; auto; [lia|].
      intros ->. destruct Hy; [congruence | lia]. }
    destruct (N.eqb_spec (need - lenN q) 0) as [H1|H1]; [now apply Hout; auto|].
    destruct x; try (apply Hout; left; discriminate).
    destruct (acc ++ q); apply Hout; left; discriminate. }
  apply (H _ _ _ s k HV); [cbn; lia | cbn; lia].
Qed.

(** nor does it panic *)
Lemma full_panic : forall n k s, V s k -> read_full R n s <> Panic.
Proof.
  intros n k s HV. unfold read_full.
  generalize (@nil Coq.Init.Byte.byte). generalize (Datatypes.S (rleft R s)). intros f. revert n s k HV.
  induction f as [|f IH]; intros n s k HV acc; cbn [read_at_least]; destruct (N.eqb_spec n 0); try discriminate.
  destruct (f_read _ _ HR s k n HV n0) as (p & e & s' & k' & -> & HV' & _). cbn [bind].
  destruct e as [e|]; [|now apply IH with (k := k')].
  destruct (n - lenN p =? 0); [discriminate|]. destruct e; try discriminate. destruct (acc ++ p); discriminate.
Qed.
Lemma read_uvarint_eats : eats no_err (read_uvarint R).
Proof.
  unfold read_uvarint.
  assert (H : forall f i x sh b n s k, V s k ->
    match read_uvarint_loop R f i x sh b n s with
    | Ok (v, s') => exists k', V s' k' /\ (k' <= k)%nat /\ (no_err v -> (k' < k)%nat)
    | Panic => True
    | Stuck => False
    end).
  { induction f as [|f IH]; intros i x sh b n s k HV; cbn [read_uvarint_loop].
    - exists k. split; [assumption|]. split; [lia|]. discriminate.
    - pose proof (read_eats 1 ltac:(discriminate) s k HV) as H1.
      destruct (rread R 1 s) as [[[p e] s']| |]; cbn [bind]; [|exact I | exact H1].
      destruct H1 as (k' & HV' & Hk' & Hlt). destruct e as [e|].
      { exists k'. split; [assumption|]. split; [lia | discriminate]. }
      specialize (Hlt eq_refl). destruct (b2n (hd b p) <? 128).
      + destruct ((i =? 9) && (1 <? b2n (hd b p))); exists k'; auto.
      + specialize (IH (i + 1) (N.lor x (wrap64 (N.shiftl (N.land (b2n (hd b p)) 127) sh))) (sh + 7) (hd b p)
                      (n + lenN p) s' k' HV').
        destruct (read_uvarint_loop R f _ _ _ _ _ s') as [[v s'']| |]; auto.
        destruct IH as (k2 & ? & ? & ?). exists k2. repeat split; auto; [lia | intro; specialize (H1 H2)]; lia. }
  intros s k HV. now apply H.
Qed.
Lemma read_uvarint_safe : forall N, safe N (read_uvarint R).
Proof. intro N. eapply eats_safe. apply read_uvarint_eats. Qed.
Lemma read_one_safe : forall N, safe N (rread R 1).
Proof. intro N. eapply eats_safe. now apply read_eats. Qed.
Lemma read_string_safe : forall N, safe N (read_string R).
Proof. intro N. unfold read_string. pose proof (read_uvarint_safe N). pose proof (fun n => full_safe n N). steps; auto. Qed.
Lemma read_bytes_array_safe : forall N, safe N (read_bytes_array R).
Proof. intro N. unfold read_bytes_array. pose proof (read_uvarint_safe N). pose proof (fun n => full_safe n N). steps; auto. Qed.
Lemma read_string_array_safe : forall N, safe N (read_string_array R).
Proof.
  intro N. pose proof (read_string_safe N). pose proof (read_uvarint_safe N).
  assert (H1 : forall k n, safe N (read_strings R k n)).
  { induction k as [|k IH]; intro n; cbn [read_strings]; steps; auto. }
  unfold read_string_array. steps; auto.
Qed.
Lemma read_uvarint_array_eats : eats no_err (read_uvarint_array R).
Proof.
  assert (H1 : forall N k n, safe N (read_uvarints R k n)).
  { intros N. pose proof (read_uvarint_safe N). induction k as [|k IH]; intro n; cbn [read_uvarints]; steps; auto. }
  intros s k HV. unfold read_uvarint_array. pose proof (read_uvarint_eats s k HV) as H.
  destruct (read_uvarint R s) as [[[[len n] e] s']| |]; cbn [bind]; [|exact I | exact H].
  destruct H as (k' & HV' & Hk' & Hlt). destruct e as [e|].
  { exists k'. split; [assumption|]. split; [lia | discriminate]. }
  specialize (Hlt eq_refl). unfold go_make. destruct (make_ok 8 len); [|exact I].
  specialize (H1 k' (N.to_nat len) n s' k' HV' ltac:(lia)).
  destruct (read_uvarints R (N.to_nat len) n s') as [[v s'']| |]; auto.
  destruct H1 as (k2 & ? & ?). exists k2. repeat split; auto; lia.
Qed.
Lemma binary_read_safe : forall N k, safe N (binary_read R k).
Proof. intros N k. unfold binary_read. pose proof (fun n => full_safe n N). steps; auto. Qed.
Lemma rd32_safe : forall N x, safe N (rd32 R x).
Proof. intros N x. unfold rd32. pose proof (binary_read_safe N). steps; auto. Qed.
Lemma rd64_safe : forall N x, safe N (rd64 R x).
Proof. intros N x. unfold rd64. pose proof (binary_read_safe N). steps; auto. Qed.
Lemma read_float64s_safe : forall N k, safe N (read_float64s R k).
Proof. intros N. pose proof (binary_read_safe N). induction k as [|k IH]; cbn [read_float64s]; steps; auto. Qed.
Lemma read_property_with_safe : forall N g, (forall c M, (M < N)%nat -> safe M (g c)) ->
  safe N (read_property_with R g).
Proof.
  intros N g H. unfold read_property_with. apply (safe_eat _ _ N no_err).
  - now apply read_eats.
  - intros [p [e|]]; [right; apply safe_ret | now left].
  - intros [p [e|]] M Hg HM; [discriminate | now apply H].
Qed.
Lemma read_entries_safe : forall N p, safe N p -> forall ks acc, safe N (read_entries p ks acc).
Proof. intros N p H. induction ks as [|k ks IH]; intro acc; cbn [read_entries]; steps; auto. Qed.
Lemma read_props_safe : forall N p, safe N p -> forall k, safe N (read_props p k).
Proof. intros N p H. induction k as [|k IH]; cbn [read_props]; steps; auto. Qed.
Lemma read_prop_data_safe : forall f N c, (N < f)%nat -> safe N (read_prop_data R f c).
Proof.
  induction f as [|f IH]; intros N c HN; [lia|].
  pose proof (read_string_safe N). pose proof (binary_read_safe N). pose proof (read_float64s_safe N).
  pose proof (read_bytes_array_safe N). pose proof (read_one_safe N).
  assert (Hn : safe N (read_nested_with R (read_property_with R (read_prop_data R f)))).
  { unfold read_nested_with. pose proof (read_string_array_safe N).
    assert (Hp : safe N (read_property_with R (read_prop_data R f))).
    { apply read_property_with_safe. intros c0 M HM. apply IH. lia. }
    pose proof (read_entries_safe N _ Hp). steps; auto. }
  assert (Ha : forall c', safe N (fun s =>
     do (r, s1) <- read_uvarint R s;
     let '(len, _, e) := r in
     match e with
     | Some e => Ok (None, Some e, s1)
     | None => go_make 16 len
         (do (r2, s2) <- read_props (read_prop_data R f c') (N.to_nat len) s1;
          match r2 with
          | (l, None) => Ok (Some (PArray c' l), None, s2)
          | (_, Some e) => Ok (None, Some e, s2)
          end)
     end)).
  { intro c'. apply (safe_eat _ _ N no_err); [apply read_uvarint_eats | |].
    - intros [[len n] [e|]]; [right; apply safe_ret | now left].
    - intros [[len n] [e|]] M Hg HM; [discriminate|]. cbn beta iota.
      pose proof (read_props_safe M _ (IH M c' ltac:(lia))). steps; auto. }
  cbn [read_prop_data].
  repeat (cbn beta iota; first [apply Ha | step]); auto.
Qed.
Lemma read_property_safe : forall N, safe N (read_property R).
Proof.
  intros N s k HV Hk. unfold read_property.
  apply (read_property_with_safe k); [|assumption | lia].
  intros c M HM. apply read_prop_data_safe. unfold prop_fuel. pose proof (f_left _ _ HR s k HV). lia.
Qed.
Lemma read_md_eats : forall keys, eats no_err (read_md R keys).
Proof.
  intros keys s k HV. unfold read_md. pose proof (read_uvarint_array_eats s k HV) as H.
  destruct (read_uvarint_array R s) as [[[[is n] e] s']| |]; cbn [bind]; [|exact I | exact H].
  destruct H as (k' & HV' & Hk' & Hlt). destruct e as [e|].
  { exists k'. split; [assumption|]. split; [lia | discriminate]. }
  specialize (Hlt eq_refl).
  assert (H1 : forall is acc, safe k' (read_md_entries R keys is acc)).
  { pose proof (read_property_safe k'). induction is0 as [|i is0 IH]; intro acc; cbn [read_md_entries]; steps; auto. }
  specialize (H1 is [] s' k' HV' ltac:(lia)).
  destruct (read_md_entries R keys is [] s') as [[v s'']| |]; auto.
  destruct H1 as (k2 & ? & ?). exists k2. repeat split; auto; lia.
Qed.
Lemma read_md_safe : forall N keys, safe N (read_md R keys).
Proof. intros N keys. eapply eats_safe. apply read_md_eats. Qed.
Lemma read_ref_safe : forall N keys, safe N (read_ref R keys).
Proof.
  intros N keys. pose proof (read_string_safe N). pose proof (read_uvarint_safe N). pose proof (read_md_safe N keys).
  unfold read_ref. steps; auto.
Qed.
Lemma read_bin_safe : forall N keys, safe N (read_bin R keys).
Proof.
  intros N keys. pose proof (read_string_safe N). pose proof (read_uvarint_safe N). pose proof (read_md_safe N keys).
  pose proof (fun n => full_safe n N). unfold read_bin. steps; auto.
Qed.
Lemma read_versions_safe : forall N k n, safe N (read_versions R k n).
Proof. intro N. pose proof (read_uvarint_safe N). induction k as [|k IH]; intro n; cbn [read_versions]; steps; auto. Qed.
Lemma read_encoders_safe : forall N reg, safe N (read_encoders R reg).
Proof.
  intros N reg. pose proof (read_string_array_safe N). pose proof (read_versions_safe N). unfold read_encoders. steps; auto.
Qed.
Lemma read_headers_safe : forall N k n, safe N (read_headers R k n).
Proof. intro N. pose proof (read_bytes_array_safe N). induction k as [|k IH]; intro n; cbn [read_headers]; steps; auto. Qed.
Lemma decode_time_safe : forall N, safe N (decode_time R).
Proof.
  intro N. pose proof (rd32_safe N). pose proof (rd64_safe N). pose proof (read_uvarint_safe N). pose proof (read_one_safe N).
  assert (H2' : forall k cur mx buf, safe N (time_unsteps R k cur mx buf)).
  { assert (safe N (rread R 2)) by (eapply eats_safe; now apply read_eats).
    induction k as [|k IH]; intros cur mx buf; cbn [time_unsteps]; steps; auto. }
  assert (H3 : forall n, safe N (decode_time64 R n)).
  { intro n. unfold decode_time64. steps. apply safe_loop. steps; auto. }
  assert (H4 : forall n, safe N (decode_time32 R n)).
  { intro n. unfold decode_time32. steps. apply safe_loop. steps; auto. }
  assert (H5 : forall n, safe N (decode_time16 R n)).
  { intro n. unfold decode_time16. steps; auto. }
  unfold decode_time. steps; auto.
Qed.
Lemma nthN_In : forall A (l : list A) i x, nthN l i = Some x -> In x l.
Proof.
  induction l as [|y l IH]; intros i x H; cbn in H; [discriminate|].
  destruct (i =? 0); [injection H as ->; now left | right; eauto].
Qed.
Lemma read_stream_safe : forall N encs hs, Forall ends encs -> safe N (read_stream R encs hs).
Proof.
  intros N encs hs He. pose proof (read_string_safe N). pose proof (read_uvarint_safe N). pose proof (decode_time_safe N).
  pose proof (read_bytes_array_safe N). unfold read_stream.
  do 4 (apply safe_bind; [auto|]; intro v; repeat match goal with v : (_ * _)%type |- _ => destruct v end; cbn beta iota).
  match goal with |- context [nthN encs ?i] => destruct (nthN encs i) as [e|] eqn:Ee end; [|apply safe_panic].
  match goal with |- context [nthN hs ?i] => destruct (nthN hs i) as [h|] end; [|apply safe_panic].
  apply nthN_In in Ee. rewrite Forall_forall in He. specialize (He e Ee).
  match goal with |- context [e_decode e ?a ?b ?c ?d] => specialize (He a b c d); destruct (e_decode e a b c d) end; cbn [bind];
    [apply safe_ret | apply safe_panic | congruence].
Qed.
End Safe.

(** An ErrReader ends too. *)
Lemma er_finite : forall S (R : Reader S) V, finite R V -> finite (err_reader R) (fun e k => V (er_in e) k).
Proof.
  intros S R V H. split.
  - intros e k n HV Hn. cbn [rread err_reader]. destruct (er_err e) as [x|] eqn:Ex.
    + exists [], (Some x), e, k. repeat split; auto; [cbn; lia | discriminate].
    + pose proof (full_safe R V H n k (er_in e) k HV ltac:(lia)) as Hs.
      pose proof (full_panic R V H n k (er_in e) HV) as Hp.
      destruct (read_full R n (er_in e)) as [[[p x] s1]| |] eqn:E; [|congruence | destruct Hs].
      destruct (full_fills R V H n _ k _ _ _ HV E) as (k' & HV' & Hl & Hln & Hf).
      cbn [bind]. exists p, x, (mkEr s1 x (er_n e + lenN p)), k'. repeat split; auto.
      intros He ->. specialize (Hf He). cbn in Hf. lia.
  - intros e k HV. cbn. now apply (f_left _ _ H).
Qed.

Lemma build_safe : forall keys encs hs, Forall ends encs -> forall f S (R : Reader S) V, finite R V ->
  forall s k, V s k -> (k < f)%nat -> ok V k (build f keys encs hs R s).
Proof.
  intros keys encs hs He. induction f as [|f IH]; intros S R V HR s k HV Hf; [lia|].
  rewrite build_eq. pose proof (er_finite _ _ _ HR) as HE.
  set (W := fun (e : er S) k => V (er_in e) k) in *.
  assert (Hb : ok W k (body f keys encs hs R (new_er s))).
  { unfold body. assert (HW : W (new_er s) k) by exact HV.
    pose proof (read_string_safe _ W HE k _ k HW ltac:(lia)) as H1.
    destruct (read_string (err_reader R) (new_er s)) as [[[[id ?] ?] s1]| |]; cbn [bind]; [|exact I | exact H1].
    destruct H1 as (k1 & HW1 & Hk1).
    pose proof (read_string_safe _ W HE k _ k1 HW1 ltac:(lia)) as H2.
    destruct (read_string (err_reader R) s1) as [[[[name ?] ?] s2]| |]; cbn [bind]; [|exact I | exact H2].
    destruct H2 as (k2 & HW2 & Hk2).
    pose proof (read_md_eats _ W HE keys _ k2 HW2) as H3.
    destruct (read_md (err_reader R) keys s2) as [[[md e] s3]| |]; cbn [bind]; [|exact I | exact H3].
    destruct H3 as (k3 & HW3 & Hk3 & Hlt). destruct e as [e|].
    { exists k3. split; [assumption | lia]. }
    specialize (Hlt eq_refl).
    enough (Hok : forall s, W s k3 -> ok W k3 (
      do (r, s) <- read_uvarint (err_reader R) s;
      let '(nstreams, _, _) := r in
      go_make 16 nstreams
      (do (colls, s) <- loop (N.to_nat nstreams) (read_stream (err_reader R) encs hs) s;
       do (r, s) <- read_uvarint (err_reader R) s;
       let '(nrefs, _, _) := r in
       go_make 16 nrefs
       (do (refs, s) <- loop (N.to_nat nrefs) (read_ref (err_reader R) keys) s;
        do (r, s) <- read_uvarint (err_reader R) s;
        let '(nbins, _, _) := r in
        go_make 16 nbins
        (do (bins, s) <- loop (N.to_nat nbins) (read_bin (err_reader R) keys) s;
         do (r, s) <- read_uvarint (err_reader R) s;
         let '(nrecs, _, _) := r in
         go_make 16 nrecs
         (do (rl, s) <- loop_err (N.to_nat nrecs)
             (fun s => do (r, s1) <- build f keys encs hs (err_reader R) s;
                       let '(c, _, e) := r in
                       match e with
                       | Some e => Ok (inr e, s1)
                       | None => Ok (inl c, s1)
                       end) s;
          match rl with
          | inr e => Ok (None, Some e, s)
          | inl recs => Ok (Some (mkRec id name colls recs md bins refs), None, s)
          end)))))).
    { specialize (Hok s3 HW3). match type of Hok with ok _ _ ?m => destruct m as [[v s4]| |] end; auto.
      destruct Hok as (k4 & ? & ?). exists k4. split; [assumption | lia]. }
    intros s0 Hs0. revert s0 Hs0.
    enough (Hsafe : forall s0, W s0 k3 -> (k3 <= k3)%nat -> _) by (intros s0 Hs0; exact (Hsafe s0 Hs0 (le_n _))).
    pose proof (read_uvarint_safe _ W HE k3) as U.
    pose proof (read_stream_safe _ W HE k3 encs hs He) as HS.
    pose proof (read_ref_safe _ W HE k3 keys) as HF.
    pose proof (read_bin_safe _ W HE k3 keys) as HB.
    assert (HN : safe W k3 (build f keys encs hs (err_reader R))).
    { intros s4 k4 H4 Hk4. apply IH; auto. lia. }
    refine ((fun H s0 Hs0 _ => H s0 k3 Hs0 (le_n _)) (_ : safe W k3 _)).
    repeat (cbn beta iota; match goal with
      | |- safe _ _ (fun s => Ok (_, s)) => apply safe_ret
      | |- safe _ _ (fun s => go_make _ _ _) => apply safe_make
      | |- safe _ _ (fun s => match ?x with _ => _ end) => destruct x
      | |- safe _ _ (fun s => bind _ _) => apply safe_bind; [|intro]
      | |- safe _ _ (loop _ _) => apply safe_loop
      | |- safe _ _ (loop_err _ _) => apply safe_loop_err
      end; auto). }
  destruct (body f keys encs hs R (new_er s)) as [[[rec e] s1]| |]; cbn [bind]; [|exact I | exact Hb].
  destruct Hb as (k' & HW' & Hk'). exists k'. auto.
Qed.

(** The built-in decoders *)
Definition all_flat (d : bytes) (k : nat) : Prop := k = length d.
Lemma flat_finite : finite flat all_flat.
Proof.
  split.
  - intros s k n -> Hn. cbn [rread flat]. destruct s as [|b s].
    + exists [], (Some EEOF), [], O. repeat split; try discriminate; cbn; lia.
    + exists (takeN n (b :: s)), None, (dropN n (b :: s)), (length (dropN n (b :: s))).
      split; [reflexivity|]. split; [reflexivity|].
      split; [rewrite <- (take_drop n (b :: s)) at 3; rewrite app_length; lia|].
      split; [rewrite lenN_take; lia|]. intros _. cbn [takeN]. destruct (N.eqb_spec n 0); [contradiction | discriminate].
  - intros s k ->. cbn. lia.
Qed.
Definition all_bufio (s : bytes * bytes) (k : nat) : Prop := k = length (fst s ++ snd s).
Lemma bufio_finite : finite bufio all_bufio.
Proof.
  pose proof (delivers_finite _ _ _ _ bufio_delivers) as [H1 H2]. split.
  - intros s k n Hk Hn. destruct (H1 s k n) as (p & e & s' & k' & E & (d & -> & ->) & H); [eexists; split; [reflexivity|exact Hk] | exact Hn|].
    exists p, e, s', (length (fst s' ++ snd s')). split; [exact E|]. split; [reflexivity | exact H].
  - intros s k Hk. apply H2. eexists. split; [reflexivity | exact Hk].
Qed.
Definition er_flat := er_finite _ _ _ flat_finite.

Lemma safe_flat : forall A (P : bytes -> res (A * bytes)), (forall N, safe all_flat N P) -> forall d, P d <> Stuck.
Proof. intros A P H d E. specialize (H _ d _ eq_refl (le_n _)). now rewrite E in H. Qed.
Lemma safe_bufio : forall A (P : bytes * bytes -> res (A * (bytes * bytes))), (forall N, safe all_bufio N P) -> forall s, P s <> Stuck.
Proof. intros A P H d E. specialize (H _ d _ eq_refl (le_n _)). now rewrite E in H. Qed.
Lemma safe_er : forall A (P : er bytes -> res (A * er bytes)),
  (forall N, safe (fun e k => all_flat (er_in e) k) N P) -> forall s, P s <> Stuck.
Proof. intros A P H d E. specialize (H _ d _ eq_refl (le_n _)). now rewrite E in H. Qed.

From Verif Require Import EncEvent EncEnum EncPosition EncEuler EncFloat.
Ltac nostuck lem := let H := fresh in pose proof lem as H;
  match type of H with ?m <> Stuck => destruct m; [ | discriminate | congruence ]; clear H; cbn [bind] end.

Lemma rd32v_flat : forall x y z d, rd32v flat x y z d <> Stuck.
Proof.
  intros x y z. apply safe_flat. intro N. pose proof (fun v => rd32_safe _ _ flat_finite N v).
  unfold rd32v. repeat (apply safe_bind; [auto|intro]). apply safe_ret.
Qed.
Lemma pos_ends : forall t, ends (position_encoder t).
Proof.
  intros t name h b ts. cbn [e_decode position_encoder]. unfold pos_decode. destruct b as [|tb d]; [discriminate|].
  assert (H32 : forall ts d, decode_raw32 ts d <> Stuck).
  { induction ts0 as [|t0 ts0 IH]; intro d0; cbn [decode_raw32]; [discriminate|].
    nostuck (rd32v_flat f32_0 f32_0 f32_0 d0). destruct a as [[[[x y] z] e] d1]. nostuck (IH d1). discriminate. }
  assert (Hoct : forall w u, decode_oct w u ts d <> Stuck).
  { intros w u. unfold decode_oct. destruct ts as [|t0 [|t1 ts']]; [discriminate| |].
    - nostuck (rd32v_flat f32_0 f32_0 f32_0 d). destruct a as [[[[x y] z] e] d1]. discriminate.
    - nostuck (rd32v_flat f32_0 f32_0 f32_0 d). destruct a as [[[[x y] z] e] d1].
      nostuck (rd32v_flat f32_0 f32_0 f32_0 d1). destruct a as [[[[? ?] ?] ?] d2].
      nostuck (rd32v_flat f32_0 f32_0 f32_0 d2). destruct a as [[[[? ?] ?] ?] d3]. discriminate. }
  destruct (b2n tb) as [|[[p|p|]|[p|p|]|]]; try discriminate.
  - destruct (decode_raw64 ts (zeros 8) d); discriminate.
  - nostuck (Hoct 3%nat bytes_to_cells24). destruct a as [l [e|]]; discriminate.
  - nostuck (Hoct 6%nat bytes_to_cells48). destruct a as [l [e|]]; discriminate.
  - nostuck (H32 ts d). discriminate.
Qed.
Lemma euler_ends : forall t, ends (euler_encoder t).
Proof.
  intros t name h b ts. cbn [e_decode euler_encoder]. unfold euler_decode. destruct b as [|tb d]; [discriminate|].
  assert (H32 : forall ts x y z d, euler_decode32 ts x y z d <> Stuck).
  { induction ts0 as [|t0 ts0 IH]; intros x y z d0; cbn [euler_decode32]; [discriminate|].
    nostuck (rd32v_flat x y z d0). destruct a as [[[[? ?] ?] ?] d1]. nostuck (IH f f0 f1 d1). discriminate. }
  assert (H16 : decode_raw16 ts d <> Stuck).
  { unfold decode_raw16. destruct ts as [|t0 [|t1 ts']]; try discriminate.
    nostuck (rd32v_flat f32_0 f32_0 f32_0 d). destruct a as [[[[x y] z] e] d1]. discriminate. }
  destruct (b2n tb) as [|[[p|p|]|[p|p|]|]]; try discriminate.
  - destruct (euler_decode64 ts (zeros 10) d); discriminate.
  - nostuck H16. destruct a as [l [e|]]; discriminate.
  - nostuck (H32 ts f32_0 f32_0 f32_0 d). discriminate.
Qed.
Lemma float_ends : forall t, ends (float_encoder t).
Proof.
  intros t name h b ts. cbn [e_decode float_encoder]. unfold float_decode. destruct b as [|tb d]; [discriminate|].
  set (W := fun (e : er bytes) k => all_flat (er_in e) k).
  assert (H64 : forall N ts v, safe W N (float_decode64 ts v)).
  { intros N. pose proof (fun v => rd64_safe _ _ er_flat N v).
    induction ts0 as [|t0 ts0 IH]; intro v; cbn [float_decode64]; [apply safe_ret|].
    apply safe_bind; [apply H|]. intros [? ?]. apply safe_bind; [auto|]. intro. apply safe_ret. }
  assert (H32 : forall N ts v, safe W N (float_decode32 ts v)).
  { intros N. pose proof (fun v => rd32_safe _ _ er_flat N v).
    induction ts0 as [|t0 ts0 IH]; intro v; cbn [float_decode32]; [apply safe_ret|].
    apply safe_bind; [apply H|]. intros [? ?]. apply safe_bind; [auto|]. intro. apply safe_ret. }
  assert (H16 : forall N, safe W N (float_decode_bst ts)).
  { intros N. pose proof (fun v => rd32_safe _ _ er_flat N v).
    assert (H2 : safe W N (rread (err_reader flat) 2)).
    { eapply eats_safe. apply (read_eats _ _ er_flat). discriminate. }
    assert (Hd : forall ts st du buf, safe W N (float_decode16 ts st du buf)).
    { induction ts0 as [|t0 ts0 IH]; intros st du buf; cbn [float_decode16]; [apply safe_ret|].
      apply safe_bind; [apply H2|]. intros [? ?]. apply safe_bind; [auto|]. intro. apply safe_ret. }
    unfold float_decode_bst. apply safe_bind; [auto|]. intro. apply safe_bind; [auto|]. intro. apply Hd. }
  match goal with |- bind ?m _ <> _ => assert (Hm : m <> Stuck) end.
  { destruct (b2n tb) as [|[[p|p|]|[p|p|]|]]; try discriminate.
    - now apply safe_er with (P := float_decode64 ts f0).
    - now apply safe_er with (P := float_decode_bst ts).
    - now apply safe_er with (P := float_decode32 ts f32_0). }
  match goal with |- bind ?m _ <> _ => destruct m as [[? ?]| |] end; cbn [bind]; congruence.
Qed.
Lemma enum_ends : ends enum_encoder.
Proof.
  intros name h b ts. cbn [e_decode enum_encoder]. unfold enum_decode.
  nostuck (safe_flat _ _ (fun N => read_string_array_safe _ _ flat_finite N) h).
  destruct a as [[[all n] e] ?]. destruct e; [discriminate|].
  nostuck (safe_er _ _ (fun N => eats_safe _ _ _ N _ (read_uvarint_array_eats _ _ er_flat)) (new_er b)).
  destruct a as [[[is ?] ?] s1].
  assert (Hp : pick all is <> Stuck).
  { induction is as [|i is IH]; cbn [pick]; [discriminate|]. destruct (nthN all i); [|discriminate]. nostuck IH. discriminate. }
  nostuck Hp.
  assert (Hd : forall N ts, safe (fun e k => all_flat (er_in e) k) N (dec_enums ts)).
  { intros N. pose proof (read_uvarint_safe _ _ er_flat N).
    induction ts0 as [|t0 ts0 IH]; cbn [dec_enums]; [apply safe_ret|].
    apply safe_bind; [auto|]. intros [[? ?] ?]. apply safe_bind; [auto|]. intro. apply safe_ret. }
  nostuck (safe_er _ _ (fun N => Hd N ts) s1). destruct a0 as [? ?]. discriminate.
Qed.
Lemma event_ends : ends event_encoder.
Proof.
  intros name h b ts. cbn [e_decode event_encoder]. unfold event_decode.
  assert (Hh : event_header h <> Stuck).
  { unfold event_header. pose proof (safe_flat _ _ (fun N => read_string_array_safe _ _ flat_finite N)) as Hs.
    nostuck (Hs h). destruct a as [[[? ?] ?] s1]. nostuck (Hs s1). destruct a as [[[? ?] ?] ?]. discriminate. }
  nostuck Hh. destruct a as [[names keys] [e|]]; [discriminate|].
  assert (Hb : forall is acc s, dec_block keys is acc s <> Stuck).
  { intros is acc. apply safe_bufio. intro N. revert acc. pose proof (read_property_safe _ _ bufio_finite N) as Hp.
    induction is as [|i is IH]; intro acc; cbn [dec_block]; [apply safe_ret|].
    apply safe_bind; [auto|]. intros [p [e|]]; [apply safe_ret|]. destruct (nthN keys i); [apply IH | apply safe_panic]. }
  assert (Hd : forall ts s, dec_events names keys ts s <> Stuck).
  { induction ts0 as [|t0 ts0 IH]; intro s; cbn [dec_events]; [discriminate|].
    nostuck (safe_bufio _ _ (fun N => read_uvarint_safe _ _ bufio_finite N) s).
    destruct a as [[[? ?] [?|]] s1]; [discriminate|].
    nostuck (safe_bufio _ _ (fun N => eats_safe _ _ _ N _ (read_uvarint_array_eats _ _ bufio_finite)) s1).
    destruct a as [[[is ?] [?|]] s2]; [discriminate|].
    nostuck (Hb is [] s2). destruct a as [[? [?|]] s3]; [discriminate|].
    destruct (nthN names n); [|discriminate]. nostuck (IH s3). destruct a as [? [?|]]; discriminate. }
  nostuck (Hd ts (new_bufio b)). destruct a as [? [?|]]; discriminate.
Qed.

Lemma read_payload_safe : forall S (R : Reader S) V, finite R V -> forall encs n N, Forall ends encs ->
  safe V N (read_payload R encs n).
Proof.
  intros S R V HR encs n N He. unfold read_payload.
  apply safe_bind; [now apply read_headers_safe|]. intros [[hs n1] [e|]]; [apply safe_ret|].
  apply safe_bind; [now apply read_string_array_safe|]. intros [[keys m] [e|]]; [apply safe_ret|].
  cbv zeta. apply safe_bind.
  - intros s k HV Hk. apply build_safe; auto. unfold build_fuel. pose proof (f_left _ _ HR s k HV). lia.
  - intros [[rec m'] [e|]]; apply safe_ret.
Qed.
Lemma find_encoders_in : forall reg l es, find_encoders reg l = inl es -> forall e, In e es -> In e reg.
Proof.
  assert (H1 : forall reg sig v found e, find_encoder reg sig v found = inl e -> In e reg \/ found = Some e).
  { induction reg as [|x reg IH]; intros sig v found e; cbn [find_encoder].
    - destruct found; [|discriminate]. intro E. injection E as ->. now right.
    - destruct (str_eqb (e_sig x) sig).
      + destruct (v <=? e_version x); [|discriminate]. intro E. apply IH in E as [E|E]; [left; now right|].
        injection E as ->. left. now left.
      + intro E. apply IH in E as [E|E]; [left; now right | now right]. }
  intro reg. induction l as [|[sig v] l IH]; intros es; cbn [find_encoders].
  - intro E. injection E as <-. contradiction.
  - destruct (find_encoder reg sig v None) as [x|] eqn:Ex; [|discriminate].
    destruct (find_encoders reg l) as [xs|]; [|discriminate]. intro E. injection E as <-.
    intros e [<-|He]; [|now apply (IH xs)]. apply H1 in Ex as [Ex|Ex]; [assumption | discriminate].
Qed.
Lemma read_encoders_in : forall S (R : Reader S) reg s es n s',
  read_encoders R reg s = Ok (es, n, None, s') -> forall e, In e es -> In e reg.
Proof.
  intros S R reg s es n s'. unfold read_encoders.
  destruct (read_string_array R s) as [[[[sigs n0] [e|]] s1]| |]; cbn [bind]; try discriminate.
  destruct (read_versions R (length sigs) n0 s1) as [[[[vs n2] [e|]] s2]| |]; cbn [bind]; try discriminate.
  destruct (find_encoders reg (combine sigs vs)) as [es'|] eqn:E; [|discriminate].
  intro H. apply ok_inj in H. injection H as <- <- <-. eapply find_encoders_in; eauto.
Qed.

(** Read comes to an end. *)
Lemma read_ends : forall reg (v1 : v1_reader) IZ S (R : Reader S) eager (I : S -> bytes -> Prop) s d,
  Forall ends reg -> (forall s d, I s d -> v1 S R s <> Stuck) -> inflation_ends IZ ->
  delivers R eager I -> I s d -> read reg v1 IZ R s <> Stuck.
Proof.
  intros reg v1 IZ S R eager I s d Hreg Hv1 HIZ HR HI.
  pose proof (delivers_finite _ _ _ _ HR) as HF. set (V := fun s k => exists d, I s d /\ k = length d) in *.
  assert (HV : V s (length d)) by (exists d; auto).
  unfold read, get_version.
  pose proof (read_one_safe R V HF _ s _ HV (le_n _)) as H1.
  destruct (rread R 1 s) as [[[p e] s1]| |]; cbn [bind]; [|discriminate | contradiction].
  destruct H1 as (k1 & HV1 & _). destruct e as [e|]; cbn [bind]; [discriminate|].
  destruct (b2n (hd x00 p) =? 1).
  { destruct HV1 as (d1 & HI1 & _). specialize (Hv1 s1 d1 HI1). destruct (v1 S R s1) as [[[[? ?] ?] ?]| |]; cbn [bind]; congruence. }
  destruct (negb (b2n (hd x00 p) =? 2)); [discriminate|].
  pose proof (read_encoders_safe R V HF _ reg s1 _ HV1 (le_n _)) as H2.
  destruct (read_encoders R reg s1) as [[[[es m] e] s2]| |] eqn:Ee; cbn [bind]; [|discriminate | contradiction].
  destruct H2 as (k2 & HV2 & _). destruct e as [e|]; cbn [bind]; [discriminate|].
  assert (Hes : Forall ends es).
  { rewrite Forall_forall in *. intros e He. apply Hreg. eapply read_encoders_in; eauto. }
  pose proof (read_one_safe R V HF _ s2 _ HV2 (le_n _)) as H3.
  destruct (rread R 1 s2) as [[[q e] s3]| |]; cbn [bind]; [|discriminate | contradiction].
  destruct H3 as (k3 & HV3 & _). destruct e as [e|]; cbn [bind]; [discriminate|].
  destruct (b2n (hd x00 q) =? 1).
  - destruct (HIZ S R eager I HR) as (W & HW & Hnew). destruct HV3 as (d3 & HI3 & _).
    destruct (Hnew s3 d3 HI3) as (k & Hk).
    pose proof (read_payload_safe _ _ W HW es (lenN p + m + lenN q) k Hes _ _ Hk (le_n _)) as H4.
    destruct (read_payload (iz_read IZ S R) es (lenN p + m + lenN q) (iz_new IZ S s3)) as [[? ?]| |]; cbn [bind];
      [discriminate | discriminate | contradiction].
  - pose proof (read_payload_safe _ _ V HF es (lenN p + m + lenN q) k3 Hes _ _ HV3 (le_n _)) as H4.
    destruct (read_payload R es (lenN p + m + lenN q) s3) as [[? ?]| |]; cbn [bind];
      [discriminate | discriminate | contradiction].
Qed.
