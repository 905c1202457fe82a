(** What Read returns without an error is well formed, whatever the input. *)
From Coq Require Import ZArith Lia.
From Verif Require Import Base BaseFacts IO Spec IOFacts Floats ByteFacts BinaryIO Metadata SpecMeta MetadataFacts Recording SpecRec.
From Verif Require Import Encoding TimeIO Writer Reader SpecFile LinkFacts SafeFacts SpecAccept.
From Verif Require Import EncEvent EncEnum EncPosition EncEuler EncFloat.
Local Open Scope N_scope.

Lemma set_keys : forall k v m x, In x (map fst (map_set k v m)) -> In x (map fst m) \/ x = k.
Proof.
  induction m as [|[a b] m IH]; cbn [map_set map fst In]; intros x H; [destruct H; auto|].
  destruct (str_eqb k a); cbn [map fst In] in H; destruct H as [H|H]; auto. destruct (IH x H); auto.
Qed.
Lemma map_set_built : forall k v m, built v -> built_block m -> built_block (map_set k v m).
Proof.
  intros k v m Hv Hm. apply built_block_iff in Hm as [Hn Ha]. apply built_block_iff.
  induction m as [|[a b] m IH]; cbn [map_set map fst] in *.
  - split; repeat constructor; auto.
  - inversion Hn; subst. inversion Ha; subst. destruct (str_eqb k a) eqn:E.
    + apply str_eqb_eq in E. subst a. split; [now constructor|]. constructor; auto.
    + destruct IH as [I1 I2]; auto. split; [|constructor; auto]. cbn [map fst]. constructor; [|exact I1].
      intro Hx. apply set_keys in Hx as [Hx| ->]; [contradiction|]. rewrite str_eqb_refl in E. discriminate.
Qed.

Section Post.
Context {S : Type} (R : Reader S) (V : S -> nat -> Prop).
(** what holds of the result, whatever the state *)
Definition post {A} (Q : A -> Prop) (P : S -> res (A * S)) : Prop :=
  forall s k, V s k -> match P s with Ok (v, s') => (exists k', V s' k') /\ Q v | _ => True end.
Lemma post_ret : forall A (Q : A -> Prop) v, Q v -> post Q (fun s => Ok (v, s)).
Proof. intros A Q v H s k HV. split; [eauto|exact H]. Qed.
Lemma post_panic : forall A (Q : A -> Prop), post Q (fun s => Panic).
Proof. intros A Q s k H. exact I. Qed.
Lemma post_bind : forall A B (Q : A -> Prop) (Q' : B -> Prop) (P : S -> res (A * S)) (k : A -> S -> res (B * S)),
  post Q P -> (forall v, Q v -> post Q' (k v)) -> post Q' (fun s => bind (P s) (fun x => let (v, s') := x in k v s')).
Proof.
  intros A B Q Q' P k HP Hk s n HV. specialize (HP s n HV).
  destruct (P s) as [[v s']| |]; cbn [bind]; try exact I. destruct HP as ((k' & HV') & Hq). exact (Hk v Hq s' k' HV').
Qed.
Lemma post_weaken : forall A (Q Q' : A -> Prop) P, post Q P -> (forall v, Q v -> Q' v) -> post Q' P.
Proof. intros A Q Q' P H HQ s k HV. specialize (H s k HV). destruct (P s) as [[v s']| |]; auto. destruct H; auto. Qed.
Lemma post_make : forall A (Q : A -> Prop) a n P, post Q P -> post Q (fun s => go_make a n (P s)).
Proof. intros A Q a n P H. unfold go_make. destruct (make_ok a n); [exact H|apply post_panic]. Qed.
Lemma post_loop : forall A (Q : A -> Prop) n b, post Q b -> post (Forall Q) (loop n b).
Proof.
  intros A Q n b H. induction n as [|n IH]; cbn [loop]; [apply post_ret; constructor|].
  eapply post_bind; [exact H|]. intros v Hv. eapply post_bind; [exact IH|]. intros l Hl. apply post_ret. now constructor.
Qed.
Definition good {A} (Q : A -> Prop) (v : A + err) : Prop := match v with inl a => Q a | inr _ => True end.
Lemma post_loop_err : forall A (Q : A -> Prop) n b, post (good Q) b -> post (good (Forall Q)) (loop_err n b).
Proof.
  intros A Q n b H. induction n as [|n IH]; cbn [loop_err]; [apply post_ret; constructor|].
  eapply post_bind; [exact H|]. intros [v|e] Hv; [|now apply post_ret].
  eapply post_bind; [exact IH|]. intros [l|e] Hl; apply post_ret; [now constructor|exact I].
Qed.
Lemma safe_post : forall A (P : S -> res (A * S)), (forall N, safe V N P) -> post (fun _ => True) P.
Proof.
  intros A P H s k HV. specialize (H k s k HV (le_n _)). unfold ok in H. destruct (P s) as [[v s']| |]; auto.
  destruct H as (k' & ? & _). split; eauto.
Qed.

Hypothesis HR : finite R V.
Ltac pstep :=
  match goal with
  | |- post _ (fun s => Ok (_, s)) => apply post_ret
  | |- post _ (fun _ => Panic) => apply post_panic
  | |- post _ (fun s => go_make _ _ _) => apply post_make
  | |- post _ (fun s => match ?x with _ => _ end) => destruct x
  | H : post _ ?P |- post _ (fun s => bind (?P s) _) => eapply post_bind; [exact H|intros ? ?]
  end.
Ltac psteps := repeat (cbn beta iota; pstep).

(** a result that comes without an error satisfies [Q] *)
Definition fine {A} (Q : A -> Prop) (v : A * option err) : Prop := snd v = None -> Q (fst v).
Lemma fine_ok : forall A (Q : A -> Prop) a, fine Q (a, None) -> Q a.
Proof. intros A Q a H. exact (H eq_refl). Qed.

Lemma binary_read_post : forall k, post (fine (fun o => exists p, o = Some p /\ lenN p = k)) (binary_read R k).
Proof.
  intros k s n HV. unfold binary_read. pose proof (full_safe R V HR k n s n HV (le_n _)) as H.
  destruct (read_full R k s) as [[[p e] s1]| |] eqn:E; cbn [bind]; try exact I.
  destruct (full_fills R V HR k s n p e s1 HV E) as (k' & HV' & _ & _ & Hp).
  destruct e as [e|]; (split; [eauto|]); unfold fine; cbn [fst snd]; [discriminate|eauto].
Qed.
Definition read_as (c : N) (o : option prop) : Prop := exists p, o = Some p /\ built p /\ prop_code p = Ok c.
Definition read_built (o : option prop) : Prop := exists p, o = Some p /\ built p.

Lemma read_entries_post : forall rp, post (fine read_built) rp -> forall ks acc, built_block acc ->
  post (fine built_block) (read_entries rp ks acc).
Proof.
  intros rp H. induction ks as [|k ks IH]; intros acc Ha; cbn [read_entries]; [apply post_ret; now intros _|].
  eapply post_bind; [exact H|]. intros [o [e|]] Ho; cbn beta iota.
  - destruct o; apply post_ret; intro E; discriminate.
  - apply fine_ok in Ho as (p & -> & Hp). apply IH. now apply map_set_built.
Qed.
Lemma read_props_post : forall c rp, post (fine (read_as c)) rp -> forall k,
  post (fine (Forall (fun v => prop_code v = Ok c /\ built v))) (read_props rp k).
Proof.
  intros c rp H. induction k as [|k IH]; cbn [read_props]; [apply post_ret; intros _; constructor|].
  eapply post_bind; [exact H|]. intros [o [e|]] Ho; cbn beta iota.
  - destruct o; apply post_ret; intro E; discriminate.
  - apply fine_ok in Ho as (p & -> & Hp & Hc). cbn beta iota.
    eapply post_bind; [exact IH|]. intros [l [e|]] Hl; apply post_ret; intro E; [discriminate|].
    constructor; [auto|]. now apply Hl.
Qed.
Lemma read_property_with_post : forall g, (forall c, post (fine (read_as c)) (g c)) ->
  post (fine read_built) (read_property_with R g).
Proof.
  intros g H. unfold read_property_with. pose proof (safe_post _ _ (fun N => read_one_safe R V HR N)) as H1.
  eapply post_bind; [exact H1|]. intros [p [e|]] _; [apply post_ret; intro E; discriminate|].
  eapply post_weaken; [apply H|]. intros [o e] Ho E. destruct (Ho E) as (x & ? & ? & _). exists x. auto.
Qed.
Lemma read_float64s_post : forall k, post (fine (fun l => length l = k)) (read_float64s R k).
Proof.
  induction k as [|k IH]; cbn [read_float64s]; [apply post_ret; now intros _|].
  eapply post_bind; [apply binary_read_post|]. intros [o [e|]] Ho; cbn beta iota.
  - destruct o; apply post_ret; intro E; discriminate.
  - apply fine_ok in Ho as (p & -> & _). cbn beta iota.
    eapply post_bind; [exact IH|]. intros [l [e|]] Hl; apply post_ret; intro E; [discriminate|].
    cbn [fst length]. f_equal. now apply Hl.
Qed.
Lemma signed_range : forall b z, (0 < b)%Z -> (0 <= z < 2 ^ b)%Z -> (- 2 ^ (b - 1) <= signed b z < 2 ^ (b - 1))%Z.
Proof.
  intros b z Hb Hz. unfold signed. replace (2 ^ b)%Z with (2 * 2 ^ (b - 1))%Z in *.
  - destruct (Z.ltb_spec z (2 ^ (b - 1))); lia.
  - rewrite <- Z.pow_succ_r by lia. f_equal. lia.
Qed.
Lemma built_array_intro : forall b ps, In b [0; 1; 2; 6; 7; 11; 12] -> Forall (fun v => prop_code v = Ok b /\ built v) ps ->
  built (PArray b ps).
Proof. intros b ps Hb H. apply built_array_iff. auto. Qed.
Ltac asread := let E := fresh in apply post_ret; intro E; first [discriminate E | eexists; split; [reflexivity|split; [|reflexivity]]].
Lemma read_prop_data_post : forall f c, post (fine (read_as c)) (read_prop_data R f c).
Proof.
  induction f as [|f IH]; intros c; cbn [read_prop_data]; [intros s k _; exact I|].
  assert (Hn : post (fine built_block) (read_nested_with R (read_property_with R (read_prop_data R f)))).
  { unfold read_nested_with. eapply post_bind; [exact (safe_post _ _ (fun N => read_string_array_safe R V HR N))|].
    intros [[ks n] [e|]] _; cbn beta iota; [apply post_ret; intro E; discriminate|].
    apply read_entries_post; [now apply read_property_with_post|]. apply built_block_iff. split; constructor. }
  assert (Ha : forall c', In c' [0; 1; 2; 6; 7; 11; 12] -> post (fine (read_as (13 + c'))) (fun s =>
     do (r, s1) <- read_uvarint R s;
     let '(len, _, e) := r in
     match e with
     | Some e => Ok (None, Some e, s1)
     | None => go_make 16 len
         (do (r2, s2) <- read_props (read_prop_data R f c') (N.to_nat len) s1;
          match r2 with
          | (l, None) => Ok (Some (PArray c' l), None, s2)
          | (_, Some e) => Ok (None, Some e, s2)
          end)
     end)).
  { intros c' Hc. eapply post_bind; [exact (safe_post _ _ (fun N => read_uvarint_safe R V HR N))|].
    intros [[len n] [e|]] _; cbn beta iota; [apply post_ret; intro E; discriminate|].
    apply post_make. eapply post_bind; [apply read_props_post, IH|]. intros [l [e|]] Hl; cbn beta iota; apply post_ret; intro E; [discriminate|].
    eexists. split; [reflexivity|]. split; [apply built_array_intro; [exact Hc|now apply Hl]|].
    cbn [prop_code]. f_equal. apply N.mod_small. repeat (destruct Hc as [<-|Hc]; [reflexivity|]). destruct Hc. }
  assert (Hstr : post (fun _ => True) (read_string R)) by exact (safe_post _ _ (fun N => read_string_safe R V HR N)).
  assert (Hby : post (fun _ => True) (read_bytes_array R)) by exact (safe_post _ _ (fun N => read_bytes_array_safe R V HR N)).
  assert (H1 : post (fun _ => True) (rread R 1)) by exact (safe_post _ _ (fun N => read_one_safe R V HR N)).
  pose proof binary_read_post as Hb. pose proof read_float64s_post as Hf.
  assert (D : forall s, post (fine (read_as s)) (fun x => Ok (None, Some (EBadProperty s), x))) by (intro; asread).
  destruct c as [|p]; [eapply post_bind; [exact Hstr|]; intros [[x n] [e|]] _; cbn beta iota; asread; exact I|].
  do 5 (try (destruct p as [p|p|]); try apply D).
  all: try apply (Ha 0); try apply (Ha 1); try apply (Ha 2); try apply (Ha 6); try apply (Ha 7); try apply (Ha 11); try apply (Ha 12).
  all: try (cbn [In]; tauto).
  - (* 11 *) eapply post_bind; [exact Hn|]. intros [m [e|]] Hm; cbn beta iota; asread. exact (Hm eq_refl).
  - (* 7 *) eapply post_bind; [apply (Hf 3%nat)|]. intros [l [e|]] Hl; cbn beta iota; [destruct l as [|? [|? [|? [|]]]]; asread|].
    apply fine_ok in Hl. destruct l as [|? [|? [|? [|]]]]; try discriminate Hl. asread. exact I.
  - (* 5 *) eapply post_bind; [exact H1|]. intros [p [e|]] _; cbn beta iota; asread. exact I.
  - (* 3 *) asread. exact I.
  - (* 18 *) eapply post_bind; [exact Hby|]. intros [[d n] [e|]] _; cbn beta iota; asread. left. eexists. reflexivity.
  - (* 6 *) eapply post_bind; [apply (Hf 2%nat)|]. intros [l [e|]] Hl; cbn beta iota; [destruct l as [|? [|? [|]]]; asread|].
    apply fine_ok in Hl. destruct l as [|? [|? [|]]]; try discriminate Hl. asread. exact I.
  - (* 12 *) eapply post_bind; [apply (Hb 8)|]. intros [o [e|]] Ho; cbn beta iota; [destruct o; asread|].
    apply fine_ok in Ho as (p & -> & Hp). cbn beta iota. asread. apply (signed_range 64); [reflexivity|].
    pose proof (le_val_range p) as Hr. replace (length p) with 8%nat in Hr by (unfold lenN in Hp; lia). exact Hr.
  - (* 16 *) eapply post_bind; [exact Hby|]. intros [[d n] [e|]] _; cbn beta iota; asread. right. eexists. reflexivity.
  - (* 4 *) asread. exact I.
  - (* 2 *) eapply post_bind; [apply (Hb 4)|]. intros [o [e|]] Ho; cbn beta iota; [destruct o; asread|].
    apply fine_ok in Ho as (p & -> & Hp). cbn beta iota. asread. exact I.
  - (* 1 *) eapply post_bind; [apply (Hb 4)|]. intros [o [e|]] Ho; cbn beta iota; [destruct o; asread|].
    apply fine_ok in Ho as (p & -> & Hp). cbn beta iota. asread. apply (signed_range 32); [reflexivity|].
    apply Z.mod_pos_bound. reflexivity.
Qed.
Lemma read_property_post : post (fine read_built) (read_property R).
Proof.
  intros s k HV. unfold read_property.
  exact (read_property_with_post _ (fun c => read_prop_data_post (prop_fuel R s) c) s k HV).
Qed.
Lemma read_md_post : forall keys, post (fun v => built_block (fst v)) (read_md R keys).
Proof.
  intros keys. assert (B0 : built_block []) by (apply built_block_iff; split; constructor). unfold read_md.
  eapply post_bind; [exact (safe_post _ _ (fun N => eats_safe _ _ _ N _ (read_uvarint_array_eats R V HR)))|].
  intros [[is n] [e|]] _; cbn beta iota; [now apply post_ret|].
  assert (H : forall is acc, built_block acc -> post (fun v => built_block (fst v)) (read_md_entries R keys is acc)).
  { clear is n. induction is as [|i is IH]; intros acc Ha; cbn [read_md_entries]; [now apply post_ret|].
    destruct (nthN keys i) as [key|]; [|apply post_panic].
    eapply post_bind; [exact read_property_post|]. intros [o [e|]] Ho; cbn beta iota.
    - destruct o; now apply post_ret.
    - apply fine_ok in Ho as (p & -> & Hp). apply IH. now apply map_set_built. }
  now apply H.
Qed.
Lemma lor_small : forall a b, a < 2 ^ 64 -> b < 2 ^ 64 -> N.lor a b < 2 ^ 64.
Proof.
  intros a b Ha Hb. destruct (N.eq_dec (N.lor a b) 0) as [->|Hz]; [reflexivity|].
  apply N.log2_lt_pow2; [lia|]. rewrite N.log2_lor. apply N.max_lub_lt.
  - destruct (N.eq_dec a 0) as [->|H]; [reflexivity|]. apply N.log2_lt_pow2; [lia|exact Ha].
  - destruct (N.eq_dec b 0) as [->|H]; [reflexivity|]. apply N.log2_lt_pow2; [lia|exact Hb].
Qed.
Lemma read_uvarint_post : post (fun v => fst (fst v) < 2 ^ 64) (read_uvarint R).
Proof.
  unfold read_uvarint.
  assert (W : forall a b, wrap64 (N.shiftl a b) < 2 ^ 64) by (intros; apply N.mod_lt; discriminate).
  assert (H : forall f i x sh b n, x < 2 ^ 64 -> post (fun v : N * N * option err => fst (fst v) < 2 ^ 64) (read_uvarint_loop R f i x sh b n)).
  { induction f as [|f IH]; intros i x sh b n Hx; cbn [read_uvarint_loop]; [now apply post_ret|].
    eapply post_bind; [exact (safe_post _ _ (fun N => read_one_safe R V HR N))|].
    intros [p [e|]] _; cbn beta iota; [now apply post_ret|]. cbv zeta.
    destruct (b2n (hd b p) <? 128).
    - destruct ((i =? 9) && (1 <? b2n (hd b p))); apply post_ret; [exact Hx|]. cbn [fst]. now apply lor_small.
    - apply IH. now apply lor_small. }
  now apply H.
Qed.
Lemma read_ref_post : forall keys, post (given wf_ref) (read_ref R keys).
Proof.
  intro keys. assert (Hs : post (fun _ => True) (read_string R)) by exact (safe_post _ _ (fun N => read_string_safe R V HR N)).
  unfold read_ref. eapply post_bind; [exact Hs|]. intros [[name ?] ?] _. cbn beta iota.
  eapply post_bind; [exact Hs|]. intros [[uri ?] ?] _. cbn beta iota.
  eapply post_bind; [exact read_uvarint_post|]. intros [[size ?] ?] Hz. cbn beta iota.
  eapply post_bind; [apply read_md_post|]. intros r Hr. apply post_ret. eexists. split; [reflexivity|]. split; [exact Hr|exact Hz].
Qed.
Lemma read_bin_post : forall keys, post (given wf_bin) (read_bin R keys).
Proof.
  intro keys. assert (Hs : post (fun _ => True) (read_string R)) by exact (safe_post _ _ (fun N => read_string_safe R V HR N)).
  unfold read_bin. eapply post_bind; [exact Hs|]. intros [[name ?] ?] _. cbn beta iota.
  eapply post_bind; [exact read_uvarint_post|]. intros [[size ?] ?] Hz. cbn beta iota.
  eapply post_bind; [apply read_md_post|]. intros r Hr. cbv zeta. apply post_make.
  eapply post_bind; [exact (safe_post _ _ (fun N => full_safe R V HR size N))|]. intros pe _. apply post_ret.
  eexists. split; [reflexivity|]. split; [exact Hr|reflexivity].
Qed.
(** an encoder that decodes to well-formed collections *)
Definition decodes_wf (e : encoder) : Prop :=
  forall name h b ts, match e_decode e name h b ts with
    | Ok (o, _) => o = None \/ given (fun c => wf_coll c /\ e_accepts e c = true) o | _ => True end.
Lemma read_stream_post : forall encs hs, Forall decodes_wf encs ->
  post (fun o => o = None \/ given (fun c => wf_coll c /\ taken encs c) o) (read_stream R encs hs).
Proof.
  intros encs hs He. unfold read_stream.
  eapply post_bind; [exact (safe_post _ _ (fun N => read_uvarint_safe R V HR N))|]. intros [[ix ?] ?] _. cbn beta iota.
  eapply post_bind; [exact (safe_post _ _ (fun N => read_string_safe R V HR N))|]. intros [[name ?] ?] _. cbn beta iota.
  eapply post_bind; [exact (safe_post _ _ (fun N => decode_time_safe R V HR N))|]. intros [ts ?] _. cbn beta iota.
  eapply post_bind; [exact (safe_post _ _ (fun N => read_bytes_array_safe R V HR N))|]. intros [[d ?] ?] _. cbn beta iota.
  destruct (nthN encs ix) as [e|] eqn:Ee; [|apply post_panic]. destruct (nthN hs ix) as [h|]; [|apply post_panic].
  apply nthN_In in Ee. rewrite Forall_forall in He. specialize (He e Ee name h d ts).
  destruct (e_decode e name h d ts) as [[x ?]| |]; cbn [bind fst]; [apply post_ret|apply post_panic|intros s k _; exact I].
  destruct He as [He|(c & -> & Hw & Ha)]; [now left|right]. exists c. split; [reflexivity|]. split; [exact Hw|]. exists e. auto.
Qed.
End Post.

Definition read_rec (encs : list encoder) (r : recording) : Prop := wf_but_colls r /\ kinds (taken encs) r.
Lemma read_rec_intro : forall encs id name colls recs md bins refs,
  Forall (fun o => o = None \/ given (fun c => wf_coll c /\ taken encs c) o) colls -> Forall (given (read_rec encs)) recs ->
  SpecMeta.built_block md -> Forall (given wf_bin) bins -> Forall (given wf_ref) refs ->
  read_rec encs (mkRec id name colls recs md bins refs).
Proof.
  intros encs id name colls recs md bins refs Hc Hr Hm Hb Hf. split.
  - constructor; auto.
    + eapply Forall_impl; [|exact Hc]. intros o [->|(c & -> & H & _)]; [now left|right; exists c; auto].
    + eapply Forall_impl; [|exact Hr]. intros o (c & -> & H & _). exists c. auto.
  - intros c x Hi Hx. inversion Hi as [|? ? d Hd Hcd]; subst.
    + cbn [rec_colls] in Hx. rewrite Forall_forall in Hc. destruct (Hc _ Hx) as [E|(y & E & _ & Ht)]; [discriminate|].
      injection E as ->. exact Ht.
    + cbn [rec_recs] in Hd. rewrite Forall_forall in Hr. destruct (Hr _ Hd) as (y & E & _ & Hk). injection E as ->.
      eapply Hk; eauto.
Qed.
Lemma build_post : forall keys encs hs, Forall decodes_wf encs -> forall f S (R : Reader S) V, finite R V ->
  post V (fun v : option recording * N * option err => snd v = None -> given (read_rec encs) (fst (fst v))) (build f keys encs hs R).
Proof.
  intros keys encs hs He. induction f as [|f IH]; intros S R V HR s k HV; [exact I|].
  rewrite build_eq. pose proof (er_finite _ _ _ HR) as HE.
  set (W := fun (e : er S) k => V (er_in e) k) in *.
  assert (Hb : post W (fine (given (read_rec encs))) (body f keys encs hs R)).
  { pose proof (read_stream_post _ W HE encs hs He) as HS. pose proof (read_ref_post _ W HE keys) as HF.
    pose proof (read_bin_post _ W HE keys) as HB. pose proof (read_md_post _ W HE keys) as HM.
    pose proof (safe_post W _ _ (fun N => read_uvarint_safe _ W HE N)) as HU.
    pose proof (safe_post W _ _ (fun N => read_string_safe _ W HE N)) as Hs.
    pose proof (IH _ _ _ HE) as HN. fold W in HN.
    unfold body.
    eapply post_bind; [exact Hs|]. intros [[id ?] ?] _. cbn beta iota.
    eapply post_bind; [exact Hs|]. intros [[name ?] ?] _. cbn beta iota.
    eapply post_bind; [exact HM|]. intros [md [e|]] Hmd; cbn beta iota; [apply post_ret; intro E; discriminate|].
    eapply post_bind; [exact HU|]. intros [[ns ?] ?] _. cbn beta iota. apply post_make.
    eapply post_bind; [apply post_loop, HS|]. intros colls Hc.
    eapply post_bind; [exact HU|]. intros [[nr ?] ?] _. cbn beta iota. apply post_make.
    eapply post_bind; [apply post_loop, HF|]. intros refs Hr.
    eapply post_bind; [exact HU|]. intros [[nb ?] ?] _. cbn beta iota. apply post_make.
    eapply post_bind; [apply post_loop, HB|]. intros bins Hbi.
    eapply post_bind; [exact HU|]. intros [[nn ?] ?] _. cbn beta iota. apply post_make.
    eapply post_bind.
    { apply (post_loop_err W _ (given (read_rec encs))). eapply post_bind; [exact HN|].
      intros [[c ?] [e|]] Hx; cbn beta iota; apply post_ret; [exact I|]. exact (Hx eq_refl). }
    intros [recs|e] Hrl; apply post_ret; intro E; [|discriminate E].
    eexists. split; [reflexivity|]. now apply read_rec_intro. }
  specialize (Hb (new_er s) k HV).
  destruct (body f keys encs hs R (new_er s)) as [[[rec e] s1]| |]; cbn [bind]; try exact I.
  destruct Hb as ((k' & HV') & Hq). split; [exists k'; exact HV'|]. cbn [fst snd]. intro E. apply Hq. cbn [snd].
  destruct e; [discriminate|reflexivity].
Qed.

(** ** The library's decoders *)
Definition ok_coll (sig : str) (m : res (option coll * option err)) : Prop :=
  match m with Ok (o, _) => o = None \/ given (fun c => wf_coll c /\ str_eqb (c_sig c) sig = true) o | _ => True end.
Lemma ok_none : forall g e, ok_coll g (Ok (None, e)).
Proof. intros g e. now left. Qed.
Lemma ok_some : forall g c e, wf_coll c -> c_sig c = g -> ok_coll g (Ok (Some c, e)).
Proof. intros g c e H <-. right. exists c. auto using str_eqb_refl. Qed.
Lemma ok_bind : forall g A (m : res A) k, (forall a, ok_coll g (k a)) -> ok_coll g (bind m k).
Proof. intros g A m k H. destruct m; cbn [bind]; try exact I. apply H. Qed.
Lemma pos_wf : forall t, decodes_wf (position_encoder t).
Proof.
  intros t name h b ts. change (ok_coll sig_position (pos_decode name h b ts)). unfold pos_decode. destruct b as [|tb d]; [apply ok_none|].
  destruct (b2n tb) as [|[[p|p|]|[p|p|]|]]; try apply ok_none.
  - destruct (decode_raw64 ts (zeros 8) d); [now apply ok_some|apply ok_none].
  - apply ok_bind. intros [l [e|]]; [apply ok_none|now apply ok_some].
  - apply ok_bind. intros [l [e|]]; [apply ok_none|now apply ok_some].
  - apply ok_bind. intro l. now apply ok_some.
Qed.
Lemma euler_wf : forall t, decodes_wf (euler_encoder t).
Proof.
  intros t name h b ts. change (ok_coll sig_euler (euler_decode name h b ts)). unfold euler_decode. destruct b as [|tb d]; [apply ok_none|].
  destruct (b2n tb) as [|[[p|p|]|[p|p|]|]]; try apply ok_none.
  - destruct (euler_decode64 ts (zeros 10) d); [now apply ok_some|apply ok_none].
  - apply ok_bind. intros [l [e|]]; [apply ok_none|now apply ok_some].
  - apply ok_bind. intro l. now apply ok_some.
Qed.
Lemma float_wf : forall t, decodes_wf (float_encoder t).
Proof.
  intros t name h b ts. change (ok_coll sig_float (float_decode name h b ts)). unfold float_decode. destruct b as [|tb d]; [apply ok_none|].
  cbv zeta. apply ok_bind. intros [l s]. now apply ok_some.
Qed.
Lemma enum_wf : decodes_wf enum_encoder.
Proof.
  intros name h b ts. change (ok_coll sig_enum (enum_decode name h b ts)). unfold enum_decode.
  apply ok_bind. intros [[[all n] [e|]] ?]; [apply ok_none|].
  assert (H : forall ts, post (fun (e : er bytes) k => all_flat (er_in e) k)
    (Forall (fun x : f64 * Z => (- 2 ^ 63 <= snd x < 2 ^ 63)%Z)) (dec_enums ts)).
  { induction ts0 as [|t ts0 IH]; cbn [dec_enums]; [apply post_ret; constructor|].
    eapply post_bind; [exact (read_uvarint_post _ _ er_flat)|]. intros [[v ?] ?] Hv. cbn beta iota. cbn [fst] in Hv.
    eapply post_bind; [exact IH|]. intros l Hl. apply post_ret. constructor; [|exact Hl]. cbn [snd]. unfold int_of_u64.
    apply (signed_range 64); [reflexivity|]. change (2 ^ 64)%Z with (Z.of_N (2 ^ 64)). lia. }
  pose proof (safe_post _ _ _ (fun N => eats_safe _ _ _ N _ (read_uvarint_array_eats _ _ er_flat)) (new_er b) _ eq_refl) as H1.
  destruct (read_uvarint_array (err_reader flat) (new_er b)) as [[[[is ?] ?] s1]| |]; cbn [bind]; try exact I.
  destruct H1 as ((k & HV) & _). apply ok_bind. intro ms. specialize (H ts s1 k HV).
  destruct (dec_enums ts s1) as [[l s2]| |]; cbn [bind]; try exact I. destruct H as [_ H]. now apply ok_some.
Qed.
Lemma event_wf_dec : decodes_wf event_encoder.
Proof.
  intros name h b ts. change (ok_coll sig_event (event_decode name h b ts)). unfold event_decode.
  apply ok_bind. intros [[names keys] [e|]]; [apply ok_none|].
  assert (B0 : built_block []) by (apply built_block_iff; split; constructor).
  assert (Hb : forall is acc, built_block acc -> post all_bufio (fun v => built_block (fst v)) (dec_block keys is acc)).
  { induction is as [|i is IH]; intros acc Ha; cbn [dec_block]; [now apply post_ret|].
    eapply post_bind; [exact (read_property_post _ _ bufio_finite)|]. intros [o [e|]] Ho; cbn beta iota; [destruct o; now apply post_ret|].
    apply fine_ok in Ho as (p & -> & Hp). destruct (nthN keys i); [|apply post_panic]. apply IH. now apply map_set_built. }
  assert (Hd : forall ts s, match dec_events names keys ts s with
    | Ok (l, _) => Forall (fun x : f64 * (str * block) => built_block (snd (snd x))) l | _ => True end).
  { induction ts0 as [|t ts0 IH]; intro s; cbn [dec_events]; [constructor|].
    pose proof (safe_post _ _ _ (fun N => read_uvarint_safe _ _ bufio_finite N) s _ eq_refl) as H1.
    destruct (read_uvarint bufio s) as [[[[ni ?] [?|]] s1]| |]; cbn [bind]; try exact I; [constructor|].
    destruct H1 as ((k1 & HV1) & _).
    pose proof (safe_post _ _ _ (fun N => eats_safe _ _ _ N _ (read_uvarint_array_eats _ _ bufio_finite)) s1 _ HV1) as H2.
    destruct (read_uvarint_array bufio s1) as [[[[is ?] [?|]] s2]| |]; cbn [bind]; try exact I; [constructor|].
    destruct H2 as ((k2 & HV2) & _). specialize (Hb is [] B0 s2 k2 HV2).
    destruct (dec_block keys is [] s2) as [[[m [?|]] s3]| |]; cbn [bind]; try exact I; [constructor|].
    destruct Hb as [_ Hm]. destruct (nthN names ni) as [nm|]; [|exact I].
    specialize (IH s3). destruct (dec_events names keys ts0 s3) as [[l [?|]]| |]; cbn [bind]; try exact I; [constructor|].
    constructor; auto. }
  specialize (Hd ts (new_bufio b)). destruct (dec_events names keys ts (new_bufio b)) as [[l [e|]]| |]; cbn [bind]; try exact I; [apply ok_none|].
  now apply ok_some.
Qed.
Lemma library_wf : forall e, library e -> decodes_wf e.
Proof.
  intros e (tp & te & tf & H). destruct H as [-> | [-> | [-> | [-> | ->]]]];
    [apply event_wf_dec|apply enum_wf|apply pos_wf|apply euler_wf|apply float_wf].
Qed.

(** ** Read *)
Lemma read_post : forall reg (v1 : v1_reader) IZ S (R : Reader S) eager (I : S -> bytes -> Prop) s d r n s',
  Forall library reg -> inflation_ends IZ -> delivers R eager I -> I s d ->
  read reg v1 IZ R s = Ok (Some r, n, None, s') ->
  (wf_but_colls r /\ kinds (taken reg) r) \/ exists s d m s', I s d /\ v1 S R s = Ok (Some r, m, None, s').
Proof.
  intros reg v1 IZ S R eager I s d r n s' Hreg HIZ HR HI.
  pose proof (delivers_finite _ _ _ _ HR) as HF. set (V := fun s k => exists d, I s d /\ k = length d) in *.
  assert (HV : V s (length d)) by (exists d; auto).
  assert (P : forall encs S (R : Reader S) V m s k r n s', Forall decodes_wf encs -> finite R V -> V s k ->
    read_payload R encs m s = Ok (Some r, n, None, s') -> read_rec encs r).
  { clear. intros encs S R V m s k r n s' He HF HV. unfold read_payload.
    pose proof (safe_post V _ _ (fun N => read_headers_safe R V HF N (length encs) m) s k HV) as H1.
    destruct (read_headers R (length encs) m s) as [[[[hs ?] [?|]] s1]| |]; cbn [bind]; try discriminate.
    destruct H1 as ((k1 & HV1) & _).
    pose proof (safe_post V _ _ (fun N => read_string_array_safe R V HF N) s1 k1 HV1) as H2.
    destruct (read_string_array R s1) as [[[[keys ?] [?|]] s2]| |]; cbn [bind]; try discriminate.
    destruct H2 as ((k2 & HV2) & _).
    pose proof (build_post keys encs hs He (build_fuel R s2) S R V HF s2 k2 HV2) as H3.
    destruct (build (build_fuel R s2) keys encs hs R s2) as [[[[rec ?] [?|]] s3]| |]; cbn [bind]; try discriminate.
    destruct H3 as [_ H3]. intro E. apply ok_inj in E. injection E as -> _ _. destruct (H3 eq_refl) as (x & Ex & Hx).
    cbn [fst] in Ex. injection Ex as <-. exact Hx. }
  unfold read, get_version.
  pose proof (read_one_safe R V HF _ s _ HV (le_n _)) as H1.
  destruct (rread R 1 s) as [[[p e] s1]| |]; cbn [bind]; try discriminate.
  destruct H1 as (k1 & HV1 & _). destruct e as [e|]; cbn [bind]; [discriminate|].
  destruct (b2n (hd x00 p) =? 1).
  { destruct HV1 as (d1 & HI1 & _). destruct (v1 S R s1) as [[[[rec ?] e] ?]| |] eqn:E1; cbn [bind]; try discriminate.
    intro E. apply ok_inj in E. injection E as -> _ -> _. right. eauto 8. }
  destruct (negb (b2n (hd x00 p) =? 2)); [discriminate|].
  pose proof (read_encoders_safe R V HF _ reg s1 _ HV1 (le_n _)) as H2.
  destruct (read_encoders R reg s1) as [[[[es m] e] s2]| |] eqn:Ee; cbn [bind]; try discriminate.
  destruct H2 as (k2 & HV2 & _). destruct e as [e|]; cbn [bind]; [discriminate|].
  assert (Hes : Forall decodes_wf es).
  { rewrite Forall_forall in *. intros e He. apply library_wf, Hreg. eapply read_encoders_in; eauto. }
  assert (K : forall r, read_rec es r -> wf_but_colls r /\ kinds (taken reg) r).
  { intros x [Hx Hk]. split; [exact Hx|]. intros c y Hc Hy. destruct (Hk c y Hc Hy) as (e & He & Ha). exists e. split; [|exact Ha].
    eapply read_encoders_in; eauto. }
  pose proof (read_one_safe R V HF _ s2 _ HV2 (le_n _)) as H3.
  destruct (rread R 1 s2) as [[[q e] s3]| |]; cbn [bind]; try discriminate.
  destruct H3 as (k3 & HV3 & _). destruct e as [e|]; cbn [bind]; [discriminate|].
  destruct (b2n (hd x00 q) =? 1).
  - destruct (HIZ S R eager I HR) as (W & HW & Hnew). destruct HV3 as (d3 & HI3 & _). destruct (Hnew s3 d3 HI3) as (k & Hk).
    destruct (read_payload (iz_read IZ S R) es (lenN p + m + lenN q) (iz_new IZ S s3)) as [[[[rec x] e] s4]| |] eqn:Ep; cbn [bind]; try discriminate.
    intro E. apply ok_inj in E. injection E as -> _ -> _. left. apply K. exact (P _ _ _ _ _ _ _ _ _ _ Hes HW Hk Ep).
  - destruct (read_payload R es (lenN p + m + lenN q) s3) as [[[[rec x] e] s4]| |] eqn:Ep; cbn [bind]; try discriminate.
    intro E. apply ok_inj in E. injection E as -> _ -> _. left. apply K. exact (P _ _ _ _ _ _ _ _ _ _ Hes HF HV3 Ep).
Qed.
Lemma wf_wf_but : forall r, wf_rec r -> wf_but_colls r.
Proof.
  induction r as [id name colls recs md bins refs IH] using recording_ind'. intro H. inversion H as [? ? ? ? ? ? ? Hc Hr Hm Hb Hf]; subst. constructor; auto.
  - eapply Forall_impl; [|eassumption]. auto.
  - rewrite Forall_forall in *. intros o Ho. destruct (Hr o Ho) as (x & -> & Hx). exists x. split; [reflexivity|].
    exact (IH _ Ho Hx).
Qed.
Lemma wf_but_wf : forall r, wf_but_colls r -> ~ coll_missing r -> wf_rec r.
Proof.
  induction r as [id name colls recs md bins refs IH] using recording_ind'. intros H Hm. inversion H as [? ? ? ? ? ? ? Hc Hr ? Hb Hf]; subst. constructor; auto.
  - rewrite Forall_forall in *. intros o Ho. destruct (Hc o Ho) as [-> |Hg]; [|exact Hg].
    elim Hm. exists (mkRec id name colls recs md bins refs). split; [constructor|exact Ho].
  - rewrite Forall_forall in *. intros o Ho. destruct (Hr o Ho) as (x & -> & Hx). exists x. split; [reflexivity|].
    apply (IH _ Ho Hx). intros (c & Hin & Hn). elim Hm. exists c. split; [|exact Hn]. econstructor; [exact Ho|exact Hin].
Qed.
Lemma wf_but_nil : forall r, wf_but_colls r -> (has_nil r <-> coll_missing r).
Proof.
  intros r H. split.
  - intros (c & Hc & Hn). assert (Hw : wf_but_colls c).
    { clear Hn. induction Hc as [|r c d Hd Hc IH]; [exact H|]. apply IH. inversion H as [? ? ? ? ? ? ? _ Hr _ _ _]; subst. cbn in Hd.
      rewrite Forall_forall in *. destruct (Hr _ Hd) as (x & E & Hx). injection E as ->. exact Hx. }
    exists c. split; [exact Hc|]. inversion Hw as [? ? ? ? ? ? ? _ Hr _ Hb Hf]; subst. cbn [rec_recs rec_bins rec_refs rec_colls] in *.
    rewrite Forall_forall in *. destruct Hn as [Hn|[Hn|[Hn|Hn]]]; [| | |exact Hn]; exfalso.
    + destruct (Hr _ Hn) as (? & ? & _). discriminate.
    + destruct (Hb _ Hn) as (? & ? & _). discriminate.
    + destruct (Hf _ Hn) as (? & ? & _). discriminate.
  - intros (c & Hc & Hn). exists c. auto.
Qed.

(** ** Saving what was read *)
From Verif Require Import RecordingFacts SpecEnc EncLawful TimeFacts PlanFacts FileFacts BuiltinFacts ResaveFacts RapV1 SpecV1 V1Facts.
Lemma Forall2_flip : forall A (P Q : A -> A -> Prop) l l', Forall2 P l l' -> (forall a b, In a l -> P a b -> Q b a) -> Forall2 Q l' l.
Proof.
  intros A P Q l l' H HQ. induction H as [|x y l l' Hxy H IH]; constructor.
  - apply HQ; [now left|exact Hxy].
  - apply IH. intros a b Ha. apply HQ. now right.
Qed.
Lemma rec_rel_sym : forall (EB : block -> block -> Prop) (RC : coll -> coll -> Prop),
  (forall a b, EB a b -> EB b a) -> (forall a b, RC a b -> RC b a) -> forall r r', rec_rel EB RC r r' -> rec_rel EB RC r' r.
Proof.
  intros EB RC HB HC. induction r as [id name colls recs md bins refs IH] using recording_ind'.
  intros r' H. inversion H as [? ? ? ? ? ? ? ? ? ? ? ? C1 R1 M1 B1 F1]; subst. constructor; auto.
  - eapply Forall2_flip; [exact C1|]. intros x y _ (a & b & -> & -> & Hab). exists b, a. auto.
  - eapply Forall2_flip; [exact R1|]. intros x y Hx (a & b & -> & -> & Hab). exists b, a. auto.
  - eapply Forall2_flip; [exact B1|]. intros x y _ (a & b & -> & -> & P1 & P2 & P3 & P4). exists b, a. repeat split; auto.
  - eapply Forall2_flip; [exact F1|]. intros x y _ (a & b & -> & -> & P1 & P2 & P3 & P4). exists b, a. repeat split; auto.
Qed.
Lemma Forall2_given : forall A (P Q : A -> A -> Prop) l l', Forall2 (nil_or P) l l' -> ~ In None l ->
  (forall a b, In (Some a) l -> P a b -> Q a b) -> Forall2 (both Q) l l'.
Proof.
  intros A P Q l l' H Hn HQ. induction H as [|x y l l' Hxy H IH]; constructor.
  - destruct Hxy as [[-> _]|(a & b & -> & -> & Hab)]; [elim Hn; now left|]. exists a, b. repeat split; auto. apply HQ; [now left|exact Hab].
  - apply IH; [intro Hx; apply Hn; now right|]. intros a b Ha. apply HQ. now right.
Qed.
Lemma view_equiv : forall r r', ~ has_nil r -> rec_view r r' -> rec_equiv r r'.
Proof.
  induction r as [id name colls recs md bins refs IH] using recording_ind'. intros r' Hn H.
  inversion H as [? ? ? ? ? ? ? ? ? ? ? ? C1 R1 M1 B1 F1]; subst.
  assert (Hs : forall P : Prop, (P -> In None recs \/ In None bins \/ In None refs \/ In None colls) -> ~ P).
  { intros P HP p. apply Hn. exists (mkRec id name colls recs md bins refs). split; [constructor|exact (HP p)]. }
  constructor; auto.
  - eapply Forall2_given; [exact C1|apply Hs; auto|auto].
  - eapply Forall2_given; [exact R1|apply Hs; auto|]. intros a b Ha Hab. apply IH; auto.
    intros (c & Hc & Hx). apply Hn. exists c. split; [econstructor; [exact Ha|exact Hc]|exact Hx].
  - eapply Forall2_given; [exact B1|apply Hs; auto|auto].
  - eapply Forall2_given; [exact F1|apply Hs; auto|auto].
Qed.
Lemma equiv_sig : forall c d, coll_equiv c d -> c_sig c = c_sig d.
Proof.
  intros c d H. unfold coll_equiv in H. unfold c_sig. destruct (c_body c) eqn:Ec; try (subst d; rewrite Ec; reflexivity).
  destruct (c_body d) eqn:Ed; try reflexivity; subst d; rewrite Ec in Ed; discriminate Ed.
Qed.
Lemma unaccepted_equiv : forall tp te tf es r r', Forall (builtin tp te tf) es -> rec_equiv r r' -> unaccepted es r -> unaccepted es r'.
Proof.
  intros tp te tf es r r' Hes H Hu.
  apply (unaccepted_sig tp te tf es (fun c d => c_sig c = c_sig d) (fun _ _ => True) r' r); auto.
  apply rec_rel_sym; auto. eapply rec_rel_mono; [| |exact H]; [auto|]. intros c d _ Hcd. now apply equiv_sig.
Qed.
Lemma read_v1_wf : forall parse_f32 inflate unmarshal, (forall d m, unmarshal d = Some m -> v1_wf m) ->
  forall S (R : Reader S) s rec n s', read_v1 parse_f32 inflate unmarshal S R s = Ok (Some rec, n, None, s') -> wf_rec rec.
Proof.
  intros pf inf um Hm S R s rec n s'. unfold read_v1, go_make.
  destruct (rread R 4 s) as [[[p [e|]] s1]| |]; cbn [bind]; try discriminate.
  destruct (negb (lenN p =? 4)); [discriminate|]. cbv zeta. destruct (negb (Z.to_N (le_val p) =? 1)); [discriminate|].
  destruct (rread R 8 s1) as [[[q [e|]] s2]| |]; cbn [bind]; try discriminate.
  destruct (negb (lenN q =? 8)); [discriminate|]. destruct (signed 64 (le_val q) <? 0)%Z; [discriminate|].
  destruct (make_ok 1 (Z.to_N (signed 64 (le_val q)))); [|discriminate].
  destruct (rread R (Z.to_N (signed 64 (le_val q))) s2) as [[[c [e|]] s3]| |]; cbn [bind]; try discriminate.
  destruct (negb (lenN c =? _)); [discriminate|]. destruct (inf c) as [d|]; [|discriminate].
  destruct (um d) as [m|] eqn:Em; [|discriminate]. intro E. apply ok_inj in E. injection E as <- _ _.
  apply v1_to_std_wf. eauto.
Qed.
(** The collections of version 1. *)
Lemma v1_kinds : forall parse_f32 m, kinds old_kind (v1_to_std parse_f32 m).
Proof.
  intros pf m c x Hi Hx. unfold old_kind. inversion Hi as [|? ? d Hd Hcd]; subst.
  - cbn [v1_to_std rec_colls] in Hx. destruct Hx as [E|[]]. injection E as <-. right. right. now left.
  - cbn [v1_to_std rec_recs] in Hd. apply in_map_iff in Hd as (s & E & _). injection E as <-.
    inversion Hcd as [|? ? d' Hd' ?]; subst; [|destruct Hd'].
    cbn [old_subject rec_colls] in Hx. destruct Hx as [E|[E|[E|[E|[]]]]]; injection E as <-.
    + now left.
    + right. now left.
    + right. right. now left.
    + right. right. right. now left.
Qed.
Lemma read_v1_kinds : forall parse_f32 inflate unmarshal S (R : Reader S) s rec n s',
  read_v1 parse_f32 inflate unmarshal S R s = Ok (Some rec, n, None, s') -> kinds old_kind rec.
Proof.
  intros pf inf um S R s rec n s' H. apply read_v1_iff in H as (c & s1 & s2 & d & m & _ & _ & _ & _ & _ & _ & -> & _). apply v1_kinds.
Qed.
