(** The order in which the members of a JSON object are visited does not change
    what the import builds. *)
From Coq Require Import Strings.String Permutation Lia.
From Verif Require Import Base BaseFacts Floats Metadata SpecMeta MetadataFacts Recording SpecRec SpecFile RecordingFacts StreamFacts.
From Verif Require Import Json SpecJson JsonFacts SpecToJson SpecJsonText JsonTextFacts.
Local Open Scope N_scope.

Definition same_member (a b : str * json) : Prop := fst a = fst b /\ same_json (snd a) (snd b).

Lemma Forall2_perm : forall {A B} (R : A -> B -> Prop) l l' r, Permutation l l' -> Forall2 R l r ->
  exists r', Permutation r r' /\ Forall2 R l' r'.
Proof.
  intros A B R l l' r H. revert r. induction H as [|x l l' H IH|x y l|l1 l2 l3 H1 IH1 H2 IH2]; intros r F.
  - inversion F; subst. exists []. auto.
  - inversion F as [|? b ? r0 Hx F']; subst. destruct (IH _ F') as (r' & Hp & Hr). exists (b :: r'). auto.
  - inversion F as [|? b ? r0 Hy F']; subst. inversion F' as [|? c ? r1 Hx F'']; subst.
    exists (c :: b :: r1). split; [constructor|auto].
  - destruct (IH1 _ F) as (r1 & P1 & F1). destruct (IH2 _ F1) as (r2 & P2 & F2). exists r2. split; [|exact F2]. now transitivity r1.
Qed.
Lemma Forall2_flip : forall {A B} (R : A -> B -> Prop) l r, Forall2 R l r -> Forall2 (fun b a => R a b) r l.
Proof. intros A B R l r H. induction H; constructor; auto. Qed.
Lemma Forall2_perm_r : forall {A B} (R : A -> B -> Prop) l r r', Permutation r r' -> Forall2 R l r ->
  exists l', Permutation l l' /\ Forall2 R l' r'.
Proof.
  intros A B R l r r' H F. destruct (Forall2_perm (fun b a => R a b) r r' l H) as (l' & Hp & HF); [now apply Forall2_flip|].
  exists l'. split; [exact Hp|]. now apply Forall2_flip in HF.
Qed.

(** ** Looking up *)
Lemma jlookup_perm : forall m m' k, NoDup (map fst m) -> Permutation m m' -> jlookup k m = jlookup k m'.
Proof.
  intros m m' k Hn H. assert (Hn' : NoDup (map fst m')) by (eapply Permutation_NoDup; [apply Permutation_map, H|exact Hn]).
  assert (L : forall m v, NoDup (map fst m) -> In (k, v) m -> jlookup k m = Some v).
  { clear. intros m v. induction m as [|[a w] m IH]; intros Hn Hin; [destruct Hin|]. cbn [jlookup]. inversion Hn as [|? ? Ha Hm]; subst.
    destruct Hin as [E|Hin].
    - injection E as -> ->. now rewrite (proj2 (str_eqb_eq k k) eq_refl).
    - destruct (str_eqb k a) eqn:E; [|auto]. apply str_eqb_eq in E. subst a. elim Ha. cbn [fst]. now apply in_map with (f := fst) in Hin. }
  destruct (jlookup k m) as [v|] eqn:E.
  - symmetry. apply L; [exact Hn'|]. apply jlookup_In in E. eapply Permutation_in; eauto.
  - destruct (jlookup k m') as [v|] eqn:E'; [|reflexivity]. apply jlookup_In in E'. apply Permutation_sym in H.
    rewrite (L m v Hn) in E; [discriminate|]. eapply Permutation_in; eauto.
Qed.
Definition both_json (a b : option json) : Prop :=
  match a, b with Some x, Some y => same_json x y | None, None => True | _, _ => False end.
Lemma members_lookup : forall m m' k, Forall2 same_member m m' -> both_json (jlookup k m) (jlookup k m').
Proof.
  intros m m' k H. induction H as [|[a x] [b y] m m' [E Hs] _ IH]; [exact I|]. cbn [fst snd] in *. subst b. cbn [jlookup].
  destruct (str_eqb k a); [exact Hs|exact IH].
Qed.
Lemma same_lookup : forall m m' k, NoDup (map fst m) -> same_json (JObj m) (JObj m') -> both_json (jlookup k m) (jlookup k m').
Proof.
  intros m m' k Hn H. inversion H as [| | | | |? m1 ? Hp HF]; subst. rewrite (jlookup_perm m m1 k Hn Hp). now apply members_lookup.
Qed.
Lemma same_keys : forall m m', same_json (JObj m) (JObj m') -> Permutation (map fst m) (map fst m').
Proof.
  intros m m' H. inversion H as [| | | | |? m1 ? Hp HF]; subst. transitivity (map fst m1); [now apply Permutation_map|].
  replace (map fst m') with (map fst m1); [reflexivity|]. clear -HF. induction HF as [|? ? ? ? [E _] _ IH]; cbn [map]; congruence.
Qed.

Lemma same_refl : forall j, same_json j j.
Proof.
  induction j as [|b|x|s|l IH|m IH] using json_ind'; try constructor.
  - induction IH; constructor; auto.
  - apply J_obj with m; [reflexivity|]. induction IH as [|x l Hx _ IHl]; constructor; auto.
Qed.
Lemma same_sym : forall j j', same_json j j' -> same_json j' j.
Proof.
  induction j as [|b|x|s|l IH|m IH] using json_ind'; intros j' H; inversion H as [| | | |? l' HF|? m1 m' Hp HF]; subst; try constructor.
  - clear H. revert IH. induction HF as [|x y l l' Hx _ IHF]; intro IH; constructor; inversion IH; subst; auto.
  - apply Permutation_sym in Hp.
    assert (IH1 : Forall (fun kv => forall j', same_json (snd kv) j' -> same_json j' (snd kv)) m1).
    { rewrite Forall_forall in *. intros kv Hin. apply IH. eapply Permutation_in; eauto. }
    assert (HF' : Forall2 same_member m' m1).
    { clear -HF IH1. induction HF as [|x y l l' [E Hx] _ IHF]; constructor; inversion IH1; subst; auto. split; auto. }
    destruct (Forall2_perm_r _ _ _ _ Hp HF') as (m2 & Hp2 & HF2). now apply J_obj with m2.
Qed.
Lemma same_wf : forall j j', same_json j j' -> jwf j -> jwf j'.
Proof.
  induction j as [|b|x|s|l IH|m IH] using json_ind'; intros j' H W; inversion H as [| | | |? l' HF|? m1 m' Hp HF]; subst; try constructor.
  - inversion W as [| | | |? Wl|]; subst. clear H W. revert IH Wl. induction HF as [|x y l l' Hx _ IHF]; intros IH Wl; constructor; inversion IH; inversion Wl; subst; auto.
  - inversion W as [| | | | |? Hn Wm]; subst. eapply Permutation_NoDup; [apply same_keys, H|exact Hn].
  - inversion W as [| | | | |? Hn Wm]; subst. clear H W.
    assert (HA : Forall (fun kv => (forall j', same_json (snd kv) j' -> jwf (snd kv) -> jwf j') /\ jwf (snd kv)) m1).
    { rewrite Forall_forall in *. intros kv Hin. apply Permutation_sym in Hp. pose proof (Permutation_in _ Hp Hin) as Hm. split; [now apply (IH kv)|now apply (Wm kv)]. }
    clear -HF HA. induction HF as [|x y l l' [E Hx] _ IHF]; constructor; inversion HA as [|? ? [Hf Hw] HA']; subst; auto.
Qed.

(** ** All values of a text are equal *)
Section Values.
Context (parse64 : str -> option f64).
Notation means := (means parse64).
Lemma assoc_same : forall o' o, NoDup (map fst o) -> NoDup (map fst o') ->
  (forall k, both_json (jlookup k o) (jlookup k o')) -> same_json (JObj o) (JObj o').
Proof.
  intros o' o Hn Hn' HL.
  assert (exists m1, Permutation o m1 /\ Forall2 same_member m1 o') as (m1 & Hp & HF); [|now apply J_obj with m1].
  revert o Hn HL. induction o' as [|[k v] o' IH]; intros o Hn HL.
  - destruct o as [|[k v] o]; [exists []; auto|]. specialize (HL k). cbn [jlookup] in HL.
    rewrite (proj2 (str_eqb_eq k k) eq_refl) in HL. destruct HL.
  - inversion Hn' as [|? ? Hk Hn2]; subst. cbn [fst] in Hk.
    pose proof (HL k) as Hk0. cbn [jlookup] in Hk0. rewrite (proj2 (str_eqb_eq k k) eq_refl) in Hk0.
    destruct (jlookup k o) as [w|] eqn:E; [|destruct Hk0]. apply jlookup_In in E. apply in_split in E as (a & b & ->).
    pose proof (Permutation_middle a b (k, w)) as Hm.
    assert (Hn3 : NoDup (map fst ((k, w) :: a ++ b))).
    { eapply Permutation_NoDup; [apply Permutation_map, Permutation_sym, Hm|exact Hn]. }
    inversion Hn3 as [|? ? Hk' Hn4]; subst. cbn [fst] in Hk'.
    destruct (IH Hn2 (a ++ b) Hn4) as (m1 & Hp & HF).
    { intro q. specialize (HL q). rewrite <- (jlookup_perm _ _ q Hn3 Hm) in HL. cbn [jlookup] in HL.
      destruct (str_eqb q k) eqn:E; [|exact HL]. apply str_eqb_eq in E. subst q.
      destruct (jlookup k (a ++ b)) eqn:E1; [elim Hk'; apply jlookup_key; congruence|].
      destruct (jlookup k o') eqn:E2; [elim Hk; apply jlookup_key; congruence|]. exact I. }
    exists ((k, w) :: m1). split; [transitivity ((k, w) :: a ++ b); [now apply Permutation_sym|now constructor]|].
    constructor; [now split|exact HF].
Qed.
Theorem means_same : forall t j j', means t j -> means t j' -> same_json j j'.
Proof.
  intro t. induction t as [t H1 H2|l IH|m IH] using tree_ind'; intros j j' Hj Hj'.
  - inversion Hj; subst; inversion Hj'; subst; try constructor; try congruence; try (now elim (H1 l)); try (now elim (H2 m)).
    match goal with A : parse64 ?t = Some ?x, B : parse64 ?t = Some ?y |- _ => rewrite A in B; injection B as <- end. constructor.
  - inversion Hj as [| | | |? r HF|]; subst. inversion Hj' as [| | | |? r' HF'|]; subst. constructor.
    clear Hj Hj'. revert r r' HF HF'. induction IH as [|t l Ht _ IHl]; intros r r' HF HF'; inversion HF; subst; inversion HF'; subst; constructor; auto.
  - inversion Hj as [| | | | |? r o HF Hn HL]; subst. inversion Hj' as [| | | | |? r' o' HF' Hn' HL']; subst.
    apply assoc_same; auto. intro k. rewrite HL, HL'. apply members_lookup.
    assert (Hr : Forall2 same_member r r').
    { clear -IH HF HF'. revert r r' HF HF'. induction IH as [|t l Ht _ IHl]; intros r r' HF HF'; inversion HF as [|? ? ? ? [E1 M1] F1]; subst;
        inversion HF' as [|? ? ? ? [E2 M2] F2]; subst; constructor; auto. split; [congruence|eauto]. }
    clear -Hr. induction Hr; cbn [rev]; [constructor|]. apply Forall2_app; auto.
Qed.
End Values.

(** ** Metadata *)
Section Import.
Context (parse_time : str -> option Z) (reparse32 : f64 -> option f32) (big_atoi : f64 -> option Z).
Notation says := (says parse_time reparse32).
Lemma equiv_code : forall p p', prop_equiv p p' -> prop_code p = prop_code p'.
Proof. intros p p' H. destruct H; reflexivity. Qed.
Lemma has_keys_same : forall m m' ks, same_json (JObj m) (JObj m') -> has_keys m ks -> has_keys m' ks.
Proof.
  intros m m' ks H [Hl Hk]. apply same_keys in H. split.
  - rewrite <- Hl. symmetry. rewrite <- (map_length fst m), <- (map_length fst m'). now apply Permutation_length.
  - intros k Hin. eapply Permutation_in; [exact H|auto].
Qed.
Lemma vector_same : forall m m', same_json (JObj m) (JObj m') -> is_vector m -> is_vector m'.
Proof. intros m m' H [Hv|Hv]; [left|right]; eapply has_keys_same; eauto. Qed.
Lemma number_same : forall m m' k x, NoDup (map fst m) -> same_json (JObj m) (JObj m') ->
  jlookup k m = Some (JNum x) -> jlookup k m' = Some (JNum x).
Proof.
  intros m m' k x Hn H E. pose proof (same_lookup m m' k Hn H) as HL. rewrite E in HL.
  destruct (jlookup k m') as [j|]; [|destruct HL]. cbn in HL. now inversion HL.
Qed.
Theorem says_same : forall j j' p, jwf j -> same_json j j' -> says j p -> exists p', says j' p' /\ prop_equiv p p'.
Proof.
  induction j as [|b|x|s|l IH|m IH] using json_ind'; intros j' p W H Hs.
  - inversion H; subst. exists p. split; [exact Hs|constructor].
  - inversion H; subst. exists p. split; [exact Hs|constructor].
  - inversion H; subst. exists p. split; [exact Hs|constructor].
  - inversion H; subst. exists p. split; [exact Hs|constructor].
  - inversion H as [| | | |? l' HF|]; subst. inversion W as [| | | |? Wl|]; subst.
    inversion Hs as [| | | | | | | | | | |b r E|j r q ps c Hj Hq Hl Hc]; subst.
    + inversion HF as [|? y ? r' Hb HF']; subst. inversion Hb; subst.
      exists (new_bool_array (b :: map as_bool r)). split; [|constructor].
      replace (map as_bool r) with (map as_bool r'); [constructor|].
      clear -HF'. induction HF' as [|x y r r' Hx _ IHr]; [reflexivity|]. cbn [map]. f_equal; [now inversion Hx|exact IHr].
    + inversion HF as [|? y ? r' Hb HF']; subst. inversion IH as [|? ? IHj IHl]; subst. inversion Wl as [|? ? Wj Wr]; subst.
      destruct (IHj y q Wj Hb Hq) as (q' & Hq' & Eq).
      assert (exists ps', Forall2 says r' ps' /\ props_equiv ps ps') as (ps' & Hps & Eps).
      { clear -IHl Wr HF' Hl. revert ps Hl IHl Wr. induction HF' as [|x y r r' Hx _ IHr]; intros ps Hl IHl Wr.
        - inversion Hl; subst. exists []. split; constructor.
        - inversion Hl; subst. inversion IHl; subst. inversion Wr; subst.
          match goal with A : says x ?p0, B : forall j' p, _ |- _ => destruct (B y p0) as (p1 & Hp1 & Ep1); auto end.
          destruct (IHr l') as (ps' & Hps & Eps); auto. exists (p1 :: ps'). split; constructor; auto. }
      exists (PArray c (q' :: ps')). split; [|apply PE_array; now constructor].
      constructor; auto.
      * intros b E. subst y. inversion Hb; subst. now elim (Hj b).
      * now rewrite <- (equiv_code _ _ Eq).
  - inversion H as [| | | | |? m1 m' Hp HF]; subst. inversion W as [| | | | |? Hn Wm]; subst.
    inversion Hs as [| | | | | | | |? x y Hk Hx Hy|? x y z Hk Hx Hy Hz|? b Hv Hb| |]; subst.
    + exists (PVec2 x y). split; [|constructor]. constructor; [eapply has_keys_same; eauto| |]; eapply number_same; eauto.
    + exists (PVec3 x y z). split; [|constructor]. constructor; [eapply has_keys_same; eauto| | |]; eapply number_same; eauto.
    + destruct (Forall2_perm _ _ _ _ Hp Hb) as (b1 & Hpb & Hb1).
      assert (HA : Forall (fun kv => (forall j' p, jwf (snd kv) -> same_json (snd kv) j' -> says (snd kv) p ->
                                        exists p', says j' p' /\ prop_equiv p p') /\ jwf (snd kv)) m1).
      { rewrite Forall_forall in *. intros kv Hin. apply Permutation_sym in Hp. pose proof (Permutation_in _ Hp Hin) as Hm. split; [now apply (IH kv)|now apply (Wm kv)]. }
      assert (exists b', Forall2 (fun kj kp => fst kj = fst kp /\ says (snd kj) (snd kp)) m' b' /\ entries_equiv b1 b') as (b' & Hb' & Eb).
      { clear -HF Hb1 HA. revert b1 Hb1 HA. induction HF as [|x y m1 m' [Ek Hx] _ IHm]; intros b1 Hb1 HA.
        - inversion Hb1; subst. exists []. split; constructor.
        - inversion Hb1 as [|? [k v] ? b2 [E1 S1] Hb2]; subst. inversion HA as [|? ? [Hf Hw] HA']; subst.
          destruct (IHm b2 Hb2 HA') as (b' & Hb' & Eb). cbn [fst snd] in *.
          destruct (Hf (snd y) v) as (p1 & Hp1 & Ep1); auto.
          exists ((k, p1) :: b'). split; constructor; auto. cbn [fst snd]. split; [congruence|exact Hp1]. }
      exists (PBlock b'). split.
      * constructor; [|exact Hb']. intro V. apply Hv. eapply vector_same; [apply same_sym, H|exact V].
      * apply PE_block. now apply BE with b1.
Qed.
Lemma metadata_same : forall m m' b, jwf (JObj m) -> same_json (JObj m) (JObj m') ->
  metadata_of parse_time reparse32 m b -> exists b', metadata_of parse_time reparse32 m' b' /\ block_equiv b b'.
Proof.
  intros m m' b W H Hb. inversion W as [| | | | |? Hn Wm]; subst. pose proof (same_lookup m m' (lit "metadata") Hn H) as HL.
  unfold metadata_of, field, no_field in *. destruct Hb as [(E & ->)|(o & E & Ho)]; rewrite E in HL.
  - exists []. split; [|apply block_equiv_refl]. left. split; [|reflexivity]. now destruct (jlookup (lit "metadata") m').
  - destruct (jlookup (lit "metadata") m') as [j'|] eqn:E'; [|destruct HL]. cbn in HL.
    assert (Wo : jwf (JObj o)). { apply jlookup_In in E. rewrite Forall_forall in Wm. apply (Wm _ E). }
    inversion HL as [| | | | |? o1 o' Hp HF]; subst. destruct Ho as [Ho|[-> Ho]].
    + destruct (says_same _ _ _ Wo HL Ho) as (p' & Hp' & Ep).
      assert (exists b', p' = PBlock b' /\ block_equiv b b') as (b' & -> & Eb).
      { inversion Ep; subst; eauto. exists b. split; [reflexivity|apply block_equiv_refl]. }
      exists b'. split; [|exact Eb]. right. exists o'. auto.
    + exists []. split; [|apply block_equiv_refl]. right. exists o'. split; [reflexivity|]. right. split; [reflexivity|].
      intros b' Hb'. apply same_sym in HL. destruct (says_same _ _ _ (same_wf _ _ (same_sym _ _ HL) Wo) HL Hb') as (p & Hs & Ep).
      inversion Ep; subst; eapply Ho; exact Hs.
Qed.

(** ** Recordings *)
Notation describes := (describes parse_time reparse32 big_atoi).
Lemma field_same : forall m m' k v, jwf (JObj m) -> same_json (JObj m) (JObj m') -> field m k v ->
  exists v', field m' k v' /\ same_json v v' /\ jwf v.
Proof.
  intros m m' k v W H E. inversion W as [| | | | |? Hn Wm]; subst. unfold field in *.
  pose proof (same_lookup m m' (lit k) Hn H) as HL. rewrite E in HL. destruct (jlookup (lit k) m') as [v'|]; [|destruct HL].
  exists v'. split; [reflexivity|]. split; [exact HL|]. apply jlookup_In in E. rewrite Forall_forall in Wm. apply (Wm _ E).
Qed.
Lemma field_str : forall m m' k s, jwf (JObj m) -> same_json (JObj m) (JObj m') -> field m k (JStr s) -> field m' k (JStr s).
Proof. intros m m' k s W H E. destruct (field_same _ _ _ _ W H E) as (v & Hv & Hs & _). now inversion Hs; subst. Qed.
Lemma field_num : forall m m' k s, jwf (JObj m) -> same_json (JObj m) (JObj m') -> field m k (JNum s) -> field m' k (JNum s).
Proof. intros m m' k s W H E. destruct (field_same _ _ _ _ W H E) as (v & Hv & Hs & _). now inversion Hs; subst. Qed.
Lemma field_obj : forall m m' k o, jwf (JObj m) -> same_json (JObj m) (JObj m') -> field m k (JObj o) ->
  exists o', field m' k (JObj o') /\ same_json (JObj o) (JObj o') /\ jwf (JObj o).
Proof. intros m m' k s W H E. destruct (field_same _ _ _ _ W H E) as (v & Hv & Hs & Wv). inversion Hs; subst. eauto. Qed.
Lemma field_arr : forall m m' k l, jwf (JObj m) -> same_json (JObj m) (JObj m') -> field m k (JArr l) ->
  exists l', field m' k (JArr l') /\ Forall2 same_json l l' /\ Forall jwf l.
Proof.
  intros m m' k s W H E. destruct (field_same _ _ _ _ W H E) as (v & Hv & Hs & Wv). inversion Hs; subst. inversion Wv; subst. eauto.
Qed.
Lemma array_same : forall m m' k l, jwf (JObj m) -> same_json (JObj m) (JObj m') -> array_field m k l ->
  exists l', array_field m' k l' /\ Forall2 same_json l l' /\ Forall jwf l.
Proof.
  intros m m' k l W H [E|[E ->]].
  - destruct (field_arr _ _ _ _ W H E) as (l' & E' & HF & Wl). exists l'. split; [now left|auto].
  - exists []. repeat split; auto. right. split; [|reflexivity]. inversion W as [| | | | |? Hn Wm]; subst.
    pose proof (same_lookup m m' (lit k) Hn H) as HL. unfold no_field in *. rewrite E in HL. now destruct (jlookup (lit k) m').
Qed.
Lemma list_same : forall {A} (D : json -> A -> Prop) (R : A -> A -> Prop) l l' c,
  (forall j j' a, In j l -> jwf j -> same_json j j' -> D j a -> exists a', D j' a' /\ R a a') ->
  Forall2 same_json l l' -> Forall jwf l -> Forall2 D l c -> exists c', Forall2 D l' c' /\ Forall2 R c c'.
Proof.
  intros A D R l l' c Hd HF. revert c Hd. induction HF as [|x y l l' Hx _ IH]; intros c Hd W HD.
  - inversion HD; subst. exists []. auto.
  - inversion HD as [|? a ? c0 Ha HD']; subst. inversion W as [|? ? Wx Wl]; subst.
    destruct (Hd x y a (or_introl eq_refl) Wx Hx Ha) as (a' & Ha' & Ra).
    destruct (IH c0) as (c' & Hc' & Rc); auto. { intros j j' b Hin. apply Hd. now right. }
    exists (a' :: c'). auto.
Qed.
Lemma Forall2_eq : forall {A} (c c' : list A), Forall2 eq c c' -> c = c'.
Proof. intros A c c' H. induction H; congruence. Qed.
Lemma list_exact : forall {A} (D : json -> A -> Prop) l l' c,
  (forall j j' a, jwf j -> same_json j j' -> D j a -> D j' a) ->
  Forall2 same_json l l' -> Forall jwf l -> Forall2 D l c -> Forall2 D l' c.
Proof.
  intros A D l l' c Hd HF W HD. destruct (list_same D eq l l' c) as (c' & Hc & E); auto.
  - intros j j' a _ Wj Hj Ha. exists a. split; [eapply Hd; eauto|reflexivity].
  - apply Forall2_eq in E. now subst c'.
Qed.
Lemma vec_same : forall j j' c, jwf j -> same_json j j' -> vec_capture_of j c -> vec_capture_of j' c.
Proof.
  intros j j' c W H Hc. destruct Hc as [m d t v Ht Hd (Hx & Hy & Hz)]. inversion H as [| | | | |? m1 m' Hp HF]; subst.
  destruct (field_obj _ _ _ _ W H Hd) as (d' & Hd' & Sd & Wd). apply V_cap with d'.
  - exact (field_num _ _ _ _ W H Ht).
  - exact Hd'.
  - split; [exact (field_num _ _ _ _ Wd Sd Hx)|]. split; [exact (field_num _ _ _ _ Wd Sd Hy)|exact (field_num _ _ _ _ Wd Sd Hz)].
Qed.
Lemma enum_same : forall j j' c, jwf j -> same_json j j' -> enum_capture_of j c -> enum_capture_of j' c.
Proof.
  intros j j' c W H Hc. destruct Hc as [m t s Ht Hd]. inversion H as [| | | | |? m1 m' Hp HF]; subst.
  apply N_cap; [eapply field_num; eauto|eapply field_str; eauto].
Qed.
Definition event_eq (x y : f64 * (str * block)) : Prop :=
  fst x = fst y /\ fst (snd x) = fst (snd y) /\ block_equiv (snd (snd x)) (snd (snd y)).
Lemma event_same : forall j j' c, jwf j -> same_json j j' -> event_capture_of parse_time reparse32 j c ->
  exists c', event_capture_of parse_time reparse32 j' c' /\ event_eq c c'.
Proof.
  intros j j' c W H Hc. destruct Hc as [m d t name md Ht Hd Hn Hm]. inversion H as [| | | | |? m1 m' Hp HF]; subst.
  destruct (field_obj _ _ _ _ W H Hd) as (d' & Hd' & Sd & Wd). destruct (metadata_same _ _ _ Wd Sd Hm) as (md' & Hm' & Em).
  exists (t, (name, md')). split; [|now split]. apply E_cap with d'; auto.
  - exact (field_num _ _ _ _ W H Ht).
  - exact (field_str _ _ _ _ Wd Sd Hn).
Qed.
Lemma collection_same : forall j j' c, jwf j -> same_json j j' -> collection_of parse_time reparse32 j c ->
  exists c', collection_of parse_time reparse32 j' c' /\ both coll_equiv c c'.
Proof.
  intros j j' c W H Hc. destruct Hc as [m name ty l b Hn Ht Hl Hb]. inversion H as [| | | | |? m1 m' Hp HF]; subst.
  destruct (field_arr _ _ _ _ W H Hl) as (l' & Hl' & Sl & Wl).
  assert (exists b', body_of parse_time reparse32 ty l' b' /\ coll_equiv (mkColl name b) (mkColl name b')) as (b' & Hb' & Eb).
  { destruct Hb as [l c H'|l c H'|l c H'|l c H'].
    - exists (BPos c). split; [|apply coll_equiv_refl]. constructor. eapply list_exact; eauto using vec_same.
    - exists (BEuler c). split; [|apply coll_equiv_refl]. constructor. eapply list_exact; eauto using vec_same.
    - destruct (list_same _ event_eq l l' c (fun j j' a _ => event_same j j' a) Sl Wl H') as (c' & Hc' & Ec).
      exists (BEvent c'). split; [now constructor|]. cbn. split; [reflexivity|exact Ec].
    - exists (BEnum (map snd c) (map (fun x => (fst x, 0%Z)) c)). split; [|apply coll_equiv_refl]. constructor.
      eapply list_exact; eauto using enum_same. }
  exists (Some (mkColl name b')). split; [|do 2 eexists; repeat split; exact Eb]. apply C_coll with ty l'; auto; eapply field_str; eauto.
Qed.
Lemma reference_same : forall j j' c, jwf j -> same_json j j' -> reference_of parse_time reparse32 big_atoi j c ->
  exists c', reference_of parse_time reparse32 big_atoi j' c' /\ both (ref_rel block_equiv) c c'.
Proof.
  intros j j' c W H Hc. destruct Hc as [m name uri x n md Hn Hu Hx Hs Hm]. inversion H as [| | | | |? m1 m' Hp HF]; subst.
  destruct (metadata_same _ _ _ W H Hm) as (md' & Hm' & Em).
  exists (Some (mkRef name uri n md')). split; [|do 2 eexists; repeat split; auto].
  apply R_ref with x; auto; try (eapply field_str; eauto); try (eapply field_num; eauto).
Qed.
Definition order_free (j : json) : Prop :=
  forall j' r, jwf j -> same_json j j' -> describes j r -> exists r', describes j' r' /\ rec_equiv r r'.
Lemma describes_both : forall j, order_free j /\ (forall l x, j = JArr l -> In x l -> order_free x).
Proof.
  induction j as [|b|x|s|l IH|m IH] using json_ind'; (split; [|intros l' x' E Hin; try discriminate E]); try (intros j' r W H D; inversion D; fail).
  { injection E as <-. rewrite Forall_forall in IH. now apply IH. }
  intros j' r W H D. inversion D as
    [? id name cs colls rs subs fs refs md Hid Hn Hcs Hcolls Hrs Hsubs Hfs Hrefs Hmd]; subst.
  inversion H as [| | | | |? m1 m' Hp HF]; subst.
  destruct (array_same _ _ _ _ W H Hcs) as (cs' & Hcs' & Scs & Wcs).
  destruct (array_same _ _ _ _ W H Hrs) as (rs' & Hrs' & Srs & Wrs).
  destruct (array_same _ _ _ _ W H Hfs) as (fs' & Hfs' & Sfs & Wfs).
  destruct (metadata_same _ _ _ W H Hmd) as (md' & Hmd' & Emd).
  destruct (list_same _ (both coll_equiv) cs cs' colls (fun j j' a _ => collection_same j j' a) Scs Wcs Hcolls) as (colls' & Hcolls' & Ecolls).
  destruct (list_same _ (both (ref_rel block_equiv)) fs fs' refs (fun j j' a _ => reference_same j j' a) Sfs Wfs Hrefs) as (refs' & Hrefs' & Erefs).
  destruct (list_same (fun j o => exists r, o = Some r /\ describes j r) (both rec_equiv) rs rs' subs) as (subs' & Hsubs' & Esubs); auto.
  { intros j j' a Hin Wj Sj (r & -> & Dr). destruct Hrs as [Hrs|[_ ->]]; [|destruct Hin]. apply jlookup_In in Hrs.
    rewrite Forall_forall in IH. destruct (IH _ Hrs) as [_ Harr]. cbn [snd] in Harr.
    destruct (Harr _ _ eq_refl Hin j' r Wj Sj Dr) as (r' & Dr' & Er). exists (Some r'). split; [eauto|do 2 eexists; repeat split; exact Er]. }
  exists (mkRec id name colls' subs' md' [] refs'). split.
  - apply D_rec with cs' rs' fs'; auto; eapply field_str; eauto.
  - constructor; auto.
Qed.
Theorem describes_same : forall j j' r, jwf j -> same_json j j' -> describes j r -> exists r', describes j' r' /\ rec_equiv r r'.
Proof. intro j. apply describes_both. Qed.

(** ** A document describes one recording *)
Lemma list_inj : forall {A} (D : json -> A -> Prop) l c c',
  (forall j a a', In j l -> D j a -> D j a' -> a = a') -> Forall2 D l c -> Forall2 D l c' -> c = c'.
Proof.
  intros A D l. induction l as [|j l IH]; intros c c' Hd H H'; inversion H; subst; inversion H'; subst; [reflexivity|]. f_equal.
  - apply (Hd j); auto. now left.
  - apply IH; auto. intros j0 a a' Hin. apply Hd. now right.
Qed.
Ltac same_fields := unfold field, no_field in *; repeat match goal with
  | A : jlookup ?k ?m = Some _, B : jlookup ?k ?m = Some _ |- _ => rewrite A in B; injection B; clear B; intros; subst
  | A : jlookup ?k ?m = Some _, B : jlookup ?k ?m = None |- _ => rewrite A in B; discriminate B
  end.
Lemma metadata_inj : forall m b b', metadata_of parse_time reparse32 m b -> metadata_of parse_time reparse32 m b' -> b = b'.
Proof.
  intros m b b' [(E & ->)|(o & E & H)] [(E' & ->)|(o' & E' & H')]; same_fields; try reflexivity.
  destruct H as [H|[-> H]], H' as [H'|[-> H']]; try reflexivity.
  - pose proof (says_inj _ _ _ _ _ H H') as Eb. now injection Eb.
  - now elim (H' b).
  - now elim (H b').
Qed.
Lemma vec_inj : forall j c c', vec_capture_of j c -> vec_capture_of j c' -> c = c'.
Proof.
  intros j c c' H H'. destruct H as [m d t v Ht Hd (Hx & Hy & Hz)]. inversion H' as [m' d' t' v' Ht' Hd' (Hx' & Hy' & Hz')]; subst.
  destruct v as [x y z], v' as [x' y' z']; cbn [vx vy vz] in *; same_fields; congruence.
Qed.
Lemma enum_inj : forall j c c', enum_capture_of j c -> enum_capture_of j c' -> c = c'.
Proof.
  intros j c c' H H'. destruct H as [m t s Ht Hs]. inversion H' as [m' t' s' Ht' Hs']; subst. same_fields. congruence.
Qed.
Lemma event_inj : forall j c c', event_capture_of parse_time reparse32 j c -> event_capture_of parse_time reparse32 j c' -> c = c'.
Proof.
  intros j c c' H H'. destruct H as [m d t n md Ht Hd Hn Hm]. inversion H' as [m' d' t' n' md' Ht' Hd' Hn' Hm']; subst. same_fields.
  now rewrite (metadata_inj _ _ _ Hm Hm').
Qed.
Lemma collection_inj : forall j c c', collection_of parse_time reparse32 j c -> collection_of parse_time reparse32 j c' -> c = c'.
Proof.
  intros j c c' H H'. destruct H as [m name ty l b Hn Ht Hl Hb]. inversion H' as [m' name' ty' l' b' Hn' Ht' Hl' Hb']; subst.
  unfold field in *. rewrite Hn in Hn'. injection Hn' as <-. rewrite Hl in Hl'. injection Hl' as <-. rewrite Ht in Ht'. injection Ht' as Ety.
  destruct Hb as [l c F|l c F|l c F|l c F]; destruct Hb' as [l c' F'|l c' F'|l c' F'|l c' F']; try discriminate Ety.
  - now rewrite (list_inj _ l c c' (fun j a a' _ => vec_inj j a a') F F').
  - now rewrite (list_inj _ l c c' (fun j a a' _ => vec_inj j a a') F F').
  - now rewrite (list_inj _ l c c' (fun j a a' _ => event_inj j a a') F F').
  - now rewrite (list_inj _ l c c' (fun j a a' _ => enum_inj j a a') F F').
Qed.
Lemma reference_inj : forall j c c', reference_of parse_time reparse32 big_atoi j c -> reference_of parse_time reparse32 big_atoi j c' -> c = c'.
Proof.
  intros j c c' H H'. destruct H as [m name uri x n md Hn Hu Hx Hs Hm]. inversion H' as [m' name' uri' x' n' md' Hn' Hu' Hx' Hs' Hm']; subst.
  same_fields. rewrite (metadata_inj _ _ _ Hm Hm').
  assert (n = n') as <-; [|reflexivity].
  destruct Hs as [[Hi Hr]|(z & Hi & Hr & Ha)], Hs' as [[Hi' Hr']|(z' & Hi' & Hr' & Ha')].
  - pose proof (integral_inj _ _ _ Hi Hi'). lia.
  - pose proof (integral_inj _ _ _ Hi Hi') as <-. exfalso. apply N2Z.inj_le in Hr. change (Z.of_N (2 ^ 53)) with (2 ^ 53)%Z in Hr. lia.
  - pose proof (integral_inj _ _ _ Hi Hi') as ->. exfalso. apply N2Z.inj_le in Hr'. change (Z.of_N (2 ^ 53)) with (2 ^ 53)%Z in Hr'. lia.
  - rewrite Ha in Ha'. injection Ha'. lia.
Qed.
Lemma array_inj : forall m k l l', array_field m k l -> array_field m k l' -> l = l'.
Proof. intros m k l l' [H|[H ->]] [H'|[H' ->]]; same_fields; reflexivity. Qed.
Lemma describes_inj_both : forall j, (forall r r', describes j r -> describes j r' -> r = r') /\
  (forall l x, j = JArr l -> In x l -> forall r r', describes x r -> describes x r' -> r = r').
Proof.
  induction j as [|b|x|s|l IH|m IH] using json_ind'; (split; [|intros l' x' E Hin; try discriminate E]); try (intros r r' D; inversion D; fail).
  { injection E as <-. rewrite Forall_forall in IH. now apply IH. }
  intros r r' D D'. inversion D as [? id name cs colls rs subs fs refs md Hid Hn Hcs Hcolls Hrs Hsubs Hfs Hrefs Hmd]; subst.
  inversion D' as [? id' name' cs' colls' rs' subs' fs' refs' md' Hid' Hn' Hcs' Hcolls' Hrs' Hsubs' Hfs' Hrefs' Hmd']; subst.
  rewrite (metadata_inj _ _ _ Hmd Hmd').
  pose proof (array_inj _ _ _ _ Hcs Hcs') as <-. pose proof (array_inj _ _ _ _ Hrs Hrs') as <-. pose proof (array_inj _ _ _ _ Hfs Hfs') as <-.
  rewrite (list_inj _ cs colls colls' (fun j a a' _ => collection_inj j a a') Hcolls Hcolls').
  rewrite (list_inj _ fs refs refs' (fun j a a' _ => reference_inj j a a') Hrefs Hrefs').
  assert (subs = subs') as <-.
  { apply (list_inj _ rs subs subs') in Hsubs'; auto. intros j a a' Hin (r & -> & Dr) (r' & -> & Dr'). f_equal.
    destruct Hrs as [Hrs|[_ ->]]; [|destruct Hin]. apply jlookup_In in Hrs. rewrite Forall_forall in IH.
    destruct (IH _ Hrs) as [_ Harr]. apply (Harr rs j); auto. }
  unfold field in *. congruence.
Qed.
Theorem describes_inj : forall j r r', describes j r -> describes j r' -> r = r'.
Proof. intro j. apply describes_inj_both. Qed.
End Import.

(** ** Values that make the import panic *)
Lemma within_same : forall j j' t', same_json j j' -> within t' j' -> exists t, within t j /\ same_json t t'.
Proof.
  intros j j' t' H Hw. revert j H. induction Hw as [j'|t' x l Hin _ IH|t' k x m Hin _ IH]; intros j H.
  - exists j. split; [constructor|exact H].
  - inversion H as [| | | |l0 ? HF|]; subst.
    assert (exists y, In y l0 /\ same_json y x) as (y & Hy & Hs).
    { clear -HF Hin. induction HF as [|a b l l' Hab _ IHF]; [destruct Hin|]. destruct Hin as [->|Hin]; [exists a; split; [now left|exact Hab]|].
      destruct (IHF Hin) as (y & Hy & Hs). exists y. split; [now right|exact Hs]. }
    destruct (IH y Hs) as (t & Ht & St). exists t. split; [now apply I_arr with y|exact St].
  - inversion H as [| | | | |m0 m1 ? Hp HF]; subst.
    assert (exists y, In y m1 /\ same_json (snd y) x) as (y & Hy & Hs).
    { clear -HF Hin. induction HF as [|a b l l' [_ Hab] _ IHF]; [destruct Hin|]. destruct Hin as [->|Hin]; [exists a; split; [now left|exact Hab]|].
      destruct (IHF Hin) as (y & Hy & Hs). exists y. split; [now right|exact Hs]. }
    destruct (IH (snd y) Hs) as (t & Ht & St). exists t. split; [|exact St]. destruct y as [k0 y]. apply I_obj with k0 y; [|exact Ht].
    eapply Permutation_in; [apply Permutation_sym, Hp|exact Hy].
Qed.
Lemma trap_same : forall j j', same_json j j' -> trap j' -> trap j.
Proof.
  intros j j' H Ht. destruct Ht as [|l|m k v Hv Hin Hn].
  - inversion H as [| | | |l0 ? HF|]; subst. inversion HF; subst. constructor.
  - inversion H as [| | | |l0 ? HF|]; subst. inversion HF as [|x ? l1 ? Hx HF']; subst. inversion Hx; subst. constructor.
  - pose proof H as H0. inversion H as [| | | | |m0 m1 ? Hp HF]; subst.
    assert (exists y, In y m1 /\ same_json (snd y) v) as ([k0 y] & Hy & Hs).
    { clear -HF Hin. induction HF as [|a b l l' [_ Hab] _ IHF]; [destruct Hin|]. destruct Hin as [->|Hin]; [exists a; split; [now left|exact Hab]|].
      destruct (IHF Hin) as (y & Hy & Hs). exists y. split; [now right|exact Hs]. }
    apply T_vector with k0 y.
    + eapply vector_same; [apply same_sym, H0|exact Hv].
    + eapply Permutation_in; [apply Permutation_sym, Hp|exact Hy].
    + intros x ->. cbn [snd] in Hs. inversion Hs; subst. now elim (Hn x).
Qed.
Lemma member_same : forall m m' k v', same_json (JObj m) (JObj m') -> In (k, v') m' -> exists v, In (k, v) m /\ same_json v v'.
Proof.
  intros m m' k v' H Hin. inversion H as [| | | | |m0 m1 ? Hp HF]; subst.
  assert (exists v, In (k, v) m1 /\ same_json v v') as (v & Hv & Hs).
  { clear -HF Hin. induction HF as [|[a x] [b y] l l' [Hk Hab] _ IHF]; [destruct Hin|]. destruct Hin as [E|Hin].
    - injection E as -> ->. cbn [fst snd] in *. subst a. exists x. split; [now left|exact Hab].
    - destruct (IHF Hin) as (v & Hv & Hs). exists v. split; [now right|exact Hs]. }
  exists v. split; [eapply Permutation_in; [apply Permutation_sym, Hp|exact Hv]|exact Hs].
Qed.
Lemma risk_same : forall j j', same_json j j' -> (forall t, ~ risk t j) -> forall t, ~ risk t j'.
Proof.
  intros j j' H Hn t' (m' & o' & Hw & Hin & Hw' & Ht). destruct (within_same _ _ _ H Hw) as (x & Hx & Sx).
  assert (exists m, x = JObj m) as (m & ->) by (inversion Sx; eauto).
  destruct (member_same _ _ _ _ Sx Hin) as (v & Hv & Sv). assert (exists o, v = JObj o) as (o & ->) by (inversion Sv; eauto).
  destruct (within_same _ _ _ Sv Hw') as (t & Ht1 & St). apply (Hn t). exists m, o. split; [exact Hx|]. split; [exact Hv|].
  split; [exact Ht1|]. eapply trap_same; eauto.
Qed.
