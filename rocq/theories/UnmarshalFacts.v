(** Reading a JSON text as a property of a given type. *)
From Coq Require Import Strings.String Permutation Lia.
From Flocq Require Import IEEE754.Binary.
From Verif Require Import Base BaseFacts Floats Metadata SpecMeta MetadataFacts Recording SpecRec.
From Verif Require Import Text SpecText TextFacts Json SpecJson JsonFacts SpecToJson Quote JsonText SpecJsonText QuoteFacts JsonTextFacts JsonOrderFacts.
From Verif Require Import ToJson ToJsonFacts MarshalFacts Unmarshal SpecUnmarshal.
Local Open Scope N_scope.

(** ** Integers *)
Lemma text_val_ge : forall t a, a <= text_val a t.
Proof. induction t as [|c t IH]; intro a; cbn [text_val]; [lia|]. etransitivity; [|apply IH]. lia. Qed.
Lemma text_val_pos : forall c t, digit c -> c <> "0"%byte -> text_val 0 (c :: t) <> 0.
Proof.
  intros c t [H1 H2] Hc. cbn [text_val]. pose proof (text_val_ge t (10 * 0 + digit_val c)) as H. unfold digit_val in H at 1.
  assert (b2n c <> 48) by (intro E; apply Hc; apply b2n_inj; rewrite E; reflexivity). lia.
Qed.
Lemma digits_number : forall t, number t -> Forall digit t -> hd x00 t = "0"%byte -> t = lit "0".
Proof.
  intros t H HF Hh. destruct H as [sign int frac exp Hs [Hne Hi] H0 Hf He].
  assert (sign = []) as ->.
  { destruct Hs as [->| ->]; [reflexivity|]. inversion HF as [|? ? [E _] _]; subst. now elim E. }
  cbn [app] in *. apply Forall_app in HF as [_ HF]. apply Forall_app in HF as [HF1 HF2].
  assert (frac = []) as ->.
  { destruct Hf as [->|(d & -> & _)]; [reflexivity|]. inversion HF1 as [|? ? [E _] _]; subst. now elim E. }
  assert (exp = []) as ->.
  { destruct He as [->|(e & s & d & -> & He & _)]; [reflexivity|]. destruct He as [->| ->]; inversion HF2 as [|? ? [_ E] _]; subst; now elim E. }
  rewrite !app_nil_r in *. apply H0. destruct int; [congruence|exact Hh].
Qed.
Lemma minus_number : forall d, number ("-"%byte :: d) -> Forall digit d -> hd x00 d = "0"%byte -> d = lit "0".
Proof.
  intros d H HF Hh. remember ("-"%byte :: d) as t eqn:Et. destruct H as [sign int frac exp Hs [Hne Hi] H0 Hf He].
  assert (sign = lit "-") as ->.
  { destruct Hs as [->|E]; [|exact E]. destruct int as [|c int]; [congruence|]. cbn [app] in Et. injection Et as -> _.
    inversion Hi as [|? ? [E _] _]; subst. now elim E. }
  change (lit "-" ++ int ++ frac ++ exp) with ("-"%byte :: int ++ frac ++ exp) in Et. injection Et as Et. rewrite <- Et in *.
  apply Forall_app in HF as [_ HF]. apply Forall_app in HF as [HF1 HF2].
  assert (frac = []) as ->.
  { destruct Hf as [->|(u & -> & _)]; [reflexivity|]. inversion HF1 as [|? ? [E _] _]; subst. now elim E. }
  assert (exp = []) as ->.
  { destruct He as [->|(e & s & u & -> & He & _)]; [reflexivity|]. destruct He as [->| ->]; inversion HF2 as [|? ? [_ E] _]; subst; now elim E. }
  rewrite !app_nil_r in *. apply H0. destruct int; [congruence|exact Hh].
Qed.
Lemma digits_test : forall d, negb (lenN d =? 0) && forallb is_digit d = true <-> d <> [] /\ Forall digit d.
Proof.
  intro d. rewrite andb_true_iff, negb_true_iff, N.eqb_neq. rewrite <- digits_forall, forallb_forall, Forall_forall.
  split; intros [H1 H2]; (split; [|exact H2]).
  - intros ->. now elim H1.
  - destruct d; [congruence|]. unfold lenN. cbn [length]. lia.
Qed.
Lemma parse_int_sound : forall t z, number t -> parse_int t = Some z -> tells t z \/ (t = lit "-0" /\ z = 0%Z).
Proof.
  intros t z Hn H. unfold parse_int in H. destruct t as [|c u]; [discriminate H|]. destruct (beqb c "-") eqn:E.
  - apply beqb_eq in E. subst c. destruct (negb (lenN u =? 0) && forallb is_digit u) eqn:Ed; [|discriminate H]. injection H as <-.
    apply digits_test in Ed as [Hu Hd]. destruct u as [|c u]; [congruence|]. destruct (Byte.byte_eq_dec c "0"%byte) as [->|Hc].
    + right. apply minus_number in Hn; [|exact Hd|reflexivity]. rewrite Hn. split; reflexivity.
    + left. right. exists (text_val 0 (c :: u)), (c :: u). split; [reflexivity|]. split; [apply text_val_pos; [now inversion Hd|exact Hc]|].
      split; [reflexivity|]. repeat split; auto. cbn [hd]. congruence.
  - destruct (negb (lenN (c :: u) =? 0) && forallb is_digit (c :: u)) eqn:Ed; [|discriminate H]. injection H as <-.
    apply digits_test in Ed as [Hu Hd]. left. left. exists (text_val 0 (c :: u)). split; [reflexivity|]. repeat split; auto.
    intro Hh. now apply digits_number.
Qed.
Lemma parse_int_complete : forall t z, tells t z -> parse_int t = Some z.
Proof.
  intros t z [(n & -> & (Hne & Hd & Hv & _))|(n & d & -> & _ & -> & (Hne & Hd & Hv & _))]; unfold parse_int.
  - destruct t as [|c u]; [congruence|]. destruct (beqb c "-") eqn:E.
    + apply beqb_eq in E. subst c. inversion Hd as [|? ? [E _] _]; subst. now elim E.
    + rewrite (proj2 (digits_test (c :: u)) (conj Hne Hd)). now rewrite Hv.
  - change (lit "-" ++ d) with ("-"%byte :: d). cbn [beqb]. replace (beqb "-" "-") with true by reflexivity.
    rewrite (proj2 (digits_test d) (conj Hne Hd)). now rewrite Hv.
Qed.

(** ** Fields *)
Lemma is_field_iff : forall c k, is_field c k = true <-> named c k.
Proof.
  intros c k. unfold is_field, named. split.
  - destruct k as [|d [|e k]]; try discriminate. intro H. apply orb_true_iff in H as [H|H].
    + apply beqb_eq in H as ->. now left.
    + apply N.eqb_eq in H. right. eauto.
  - intros [->|(d & -> & H)].
    + apply orb_true_iff. left. now apply beqb_eq.
    + apply orb_true_iff. right. now apply N.eqb_eq.
Qed.

Section Unmarshal.
Context (parse64 : str -> option f64) (parse32 : str -> option f32) (parse_time : str -> option Z)
  (reparse32 : f64 -> option f32).
Notation field := (field parse64).
Notation coordinate := (coordinate parse64).
Notation unmarshal_tree := (unmarshal_tree parse64 parse32 parse_time reparse32).
Notation unmarshal_as := (unmarshal_as parse64 parse32 parse_time reparse32).
Notation reads_as := (reads_as parse64 parse32 parse_time reparse32).
Notation pitfall := (pitfall parse64).
Notation get := (get_properties parse_time reparse32).
Definition from (x : f64) (c : byte) (m : list (str * tree)) (v : f64) : Prop :=
  (forall k t, In (k, t) m -> named c k -> t = TNull \/ exists tx x, t = TNum tx /\ parse64 tx = Some x) /\
  ((v = x /\ forall k t, In (k, t) m -> named c k -> t = TNull) \/
   exists m1 k tx m2, m = m1 ++ (k, TNum tx) :: m2 /\ named c k /\ parse64 tx = Some v /\
     forall k' t, In (k', t) m2 -> named c k' -> t = TNull).
Lemma field_iff : forall c m x v, field c m x = Some v <-> from x c m v.
Proof.
  intros c m. induction m as [|[k t] m IH]; intros x v; cbn [Unmarshal.field].
  - split.
    + intro H. injection H as ->. split; [intros ? ? []|]. left. split; [reflexivity|intros ? ? []].
    + intros [_ [[-> _]|(m1 & ? & ? & ? & E & _)]]; [reflexivity|]. destruct m1; discriminate E.
  - destruct (is_field c k) eqn:Ek.
    + apply is_field_iff in Ek. split.
      * intro H. destruct t; try discriminate H.
        -- apply IH in H as [H1 H2]. split.
           ++ intros k' t' [E|Hin]; [injection E as <- <-; now left|now apply H1].
           ++ destruct H2 as [[-> H2]|(m1 & k1 & tx & m2 & -> & H3)].
              ** left. split; [reflexivity|]. intros k' t' [E|Hin]; [injection E as <- <-; reflexivity|now apply (H2 k')].
              ** right. exists ((k, TNull) :: m1), k1, tx, m2. split; [reflexivity|exact H3].
        -- destruct (parse64 t) as [w|] eqn:Et; [|discriminate H]. apply IH in H as [H1 H2]. split.
           ++ intros k' t' [E|Hin]; [injection E as <- <-; right; eauto|now apply (H1 k')].
           ++ destruct H2 as [[-> H2]|(m1 & k1 & tx & m2 & -> & H3)].
              ** right. exists [], k, t, m. repeat split; auto.
              ** right. exists ((k, TNum t) :: m1), k1, tx, m2. split; [reflexivity|exact H3].
      * intros [H1 H2]. assert (Ht : t = TNull \/ exists tx x, t = TNum tx /\ parse64 tx = Some x) by (apply (H1 k); [now left|exact Ek]).
        assert (H1' : forall k t, In (k, t) m -> named c k -> t = TNull \/ exists tx x, t = TNum tx /\ parse64 tx = Some x)
          by (intros k' t' Hin; apply H1; now right).
        destruct Ht as [->|(tx & w & -> & Ew)].
        -- apply IH. split; [exact H1'|]. destruct H2 as [[-> H2]|(m1 & k1 & tx & m2 & E & H3)].
           ++ left. split; [reflexivity|]. intros k' t' Hin. apply (H2 k'). now right.
           ++ right. destruct m1 as [|e m1]; [discriminate E|]. injection E as _ ->. exists m1, k1, tx, m2. auto.
        -- rewrite Ew. apply IH. split; [exact H1'|]. destruct H2 as [[-> H2]|(m1 & k1 & tx1 & m2 & E & Hk & Hv & H3)].
           ++ exfalso. specialize (H2 k (TNum tx) (or_introl eq_refl) Ek). discriminate H2.
           ++ destruct m1 as [|e m1].
              ** injection E as <- <- ->. left. rewrite Ew in Hv. injection Hv as ->. split; [reflexivity|exact H3].
              ** injection E as _ ->. right. exists m1, k1, tx1, m2. auto.
    + assert (Hn : ~ named c k) by (rewrite <- is_field_iff; congruence). rewrite IH. unfold from. split; intros [H1 H2]; split.
      * intros k' t' [E|Hin]; [injection E as <- <-; contradiction|now apply H1].
      * destruct H2 as [[-> H2]|(m1 & k1 & tx & m2 & -> & H3)].
        -- left. split; [reflexivity|]. intros k' t' [E|Hin]; [injection E as <- <-; contradiction|now apply (H2 k')].
        -- right. exists ((k, t) :: m1), k1, tx, m2. split; [reflexivity|exact H3].
      * intros k' t' Hin. apply H1. now right.
      * destruct H2 as [[-> H2]|(m1 & k1 & tx & m2 & E & Hk & H3)].
        -- left. split; [reflexivity|]. intros k' t' Hin. apply (H2 k'). now right.
        -- right. destruct m1 as [|e m1]; [injection E as -> _ _; contradiction|]. injection E as _ ->. exists m1, k1, tx, m2. auto.
Qed.
Lemma coordinate_iff : forall c m v, field c m f0 = Some v <-> coordinate c m v.
Proof. intros c m v. apply field_iff. Qed.

(** ** Contents *)
Lemma content_parse : forall s t, content s t <-> parse_text (clean s) = Some t.
Proof.
  intros s t. rewrite parse_text_iff. split.
  - intros (u & Hu & Hd & Hn). now rewrite <- (repaired_inj _ _ _ Hu (clean_repaired s)).
  - intros [Hd Hn]. exists (clean s). auto using clean_repaired.
Qed.
Lemma content_num : forall s t, content s (TNum t) -> number t.
Proof. intros s t (u & _ & (a & v & b & _ & _ & Hr & _) & _). now inversion Hr. Qed.
Lemma hex_trim : forall s d, hex_decode match strip (lit "0x") s with Some r => r | None => s end = Some d <->
  (exists h, s = lit "0x" ++ h /\ hex_text h d) \/ (~ starts_0x s /\ hex_text s d).
Proof.
  intros s d. destruct (strip (lit "0x") s) as [r|] eqn:E; rewrite hex_decode_iff.
  - apply strip_iff in E. split.
    + intro H. left. eauto.
    + intros [(h & Es & H)|[H _]]; [|elim H; eexists; exact E]. rewrite E in Es. apply app_inv_head in Es as ->. exact H.
  - split.
    + intro H. right. split; [|exact H]. intros (r & Er). apply strip_iff in Er. congruence.
    + intros [(h & Es & _)|[_ H]]; [|exact H]. apply strip_iff in Es. congruence.
Qed.
Theorem tree_sound : forall k s t p, content s t -> unmarshal_tree k t = Ok (Some p) -> reads_as k t p.
Proof.
  intros k s t p Hc H. unfold Unmarshal.unmarshal_tree in H. destruct k.
  - destruct t; try discriminate H; injection H as <-; constructor.
  - destruct t; try discriminate H; cbn [as_int32] in H.
    + injection H as <-. constructor.
    + destruct (parse_int t) as [z|] eqn:E; [|discriminate H]. apply parse_int_sound in E; [|now apply content_num with s].
      destruct ((- 2 ^ 31 <=? z) && (z <? 2 ^ 31))%Z%bool eqn:Er; [|discriminate H]. injection H as <-.
      apply andb_true_iff in Er as [E1 E2]. apply Z.leb_le in E1. apply Z.ltb_lt in E2.
      destruct E as [E|[-> ->]]; [now constructor|apply D_int_minus0].
  - destruct t; try discriminate H; cbn [as_float32] in H.
    + injection H as <-. constructor.
    + destruct (parse32 t) eqn:E; [|discriminate H]. injection H as <-. now constructor.
  - destruct t; try discriminate H; injection H as <-; constructor.
  - destruct (as_string t) as [u|] eqn:Es; [|discriminate H].
    destruct (hex_decode _) as [[|b d]|] eqn:E; try discriminate H. injection H as <-.
    destruct t; try discriminate Es; injection Es as <-.
    + discriminate E.
    + apply hex_trim in E as [(h & -> & Hh)|[H0 Hh]]; [now apply D_byte with d|now apply D_byte_plain with d].
  - destruct t; try discriminate H; cbn [as_field] in H.
    + injection H as <-. constructor.
    + destruct (field "x" m f0) as [vx|] eqn:Ex; [|discriminate H]. destruct (field "y" m f0) as [vy|] eqn:Ey; [|discriminate H]. injection H as <-.
      apply coordinate_iff in Ex, Ey. now constructor.
  - destruct t; try discriminate H; cbn [as_field] in H.
    + injection H as <-. constructor.
    + destruct (field "x" m f0) as [vx|] eqn:Ex; [|discriminate H]. destruct (field "y" m f0) as [vy|] eqn:Ey; [|discriminate H].
      destruct (field "z" m f0) as [vz|] eqn:Ez; [|discriminate H]. injection H as <-. apply coordinate_iff in Ex, Ey, Ez. now constructor.
  - destruct (value_of parse64 t) as [j|] eqn:E; [|discriminate H]. apply value_of_means in E. destruct j; try discriminate H.
    + injection H as <-. inversion E; subst. constructor.
    + cbn [block_of_json] in H. destruct (get (JObj m)) as [[q|]| |] eqn:Eg; try discriminate H.
      destruct q; try discriminate H. injection H as <-. apply get_sound in Eg. now apply D_block with (JObj m).
  - destruct (as_string t) as [u|] eqn:Es; [|discriminate H]. destruct (parse_time u) eqn:E; [|discriminate H]. injection H as <-.
    destruct t; try discriminate Es; injection Es as <-; now constructor.
  - destruct (value_of parse64 t) as [j|] eqn:E; [|discriminate H]. apply value_of_means in E. destruct j; try discriminate H.
    destruct (get (JArr l)) as [[q|]| |] eqn:Eg; try discriminate H. destruct q; try discriminate H. injection H as <-.
    apply get_sound in Eg. now apply D_array with (JArr l).
  - destruct (value_of parse64 t) as [j|] eqn:E; [|discriminate H]. apply value_of_means in E.
    destruct (get j) as [[q|]| |] eqn:Eg; try discriminate H. destruct q; try discriminate H. injection H as <-.
    apply get_sound in Eg. now apply D_raw with j.
Qed.
Lemma value_says : forall t j p, means parse64 t j -> says parse_time reparse32 j p ->
  exists j' p', value_of parse64 t = Some j' /\ get j' = Ok (Some p') /\ prop_equiv p p' /\ means parse64 t j'.
Proof.
  intros t j p Hm Hs. destruct (means_value_of _ _ _ Hm) as (j' & Ej). pose proof (value_of_means _ _ _ Ej) as Hm'.
  destruct (says_same _ _ _ j' _ (means_wf _ _ _ Hm) (means_same _ _ _ _ Hm Hm') Hs) as (p' & Hp & He).
  exists j', p'. auto using get_complete.
Qed.
Theorem tree_complete : forall k t p, reads_as k t p -> exists p', unmarshal_tree k t = Ok (Some p') /\ prop_equiv p p'.
Proof.
  intros k t p H. unfold Unmarshal.unmarshal_tree. destruct H; try (eexists; split; [reflexivity|constructor]; fail); cbn [as_string as_int32 as_float32 as_field as_boolean].
  - rewrite (parse_int_complete _ _ H). replace ((- 2 ^ 31 <=? z) && (z <? 2 ^ 31))%Z%bool with true.
    + eexists. split; [reflexivity|constructor].
    + symmetry. apply andb_true_iff. split; [now apply Z.leb_le|now apply Z.ltb_lt].
  - rewrite H. eexists. split; [reflexivity|constructor].
  - rewrite (proj2 (hex_trim (lit "0x" ++ h) (b :: d))); [|left; eauto]. eexists. split; [reflexivity|constructor].
  - rewrite (proj2 (hex_trim h (b :: d))); [|right; auto]. eexists. split; [reflexivity|constructor].
  - apply coordinate_iff in H, H0. rewrite H, H0. eexists. split; [reflexivity|constructor].
  - apply coordinate_iff in H, H0, H1. rewrite H, H0, H1. eexists. split; [reflexivity|constructor].
  - rewrite H. eexists. split; [reflexivity|constructor].
  - rewrite H. eexists. split; [reflexivity|constructor].
  - destruct (value_says _ _ _ H H0) as (j' & p' & -> & E & He & _).
    assert (Hj : exists m, j' = JObj m).
    { destruct (value_says _ _ _ H H0) as (j2 & p2 & E1 & _). inversion He; subst; apply get_sound in E; inversion E; eauto. }
    destruct Hj as [m ->]. cbn [block_of_json]. rewrite E. inversion He; subst; (eexists; split; [reflexivity|now constructor]).
  - destruct (value_says _ _ _ H H0) as (j' & p' & -> & E & He & _).
    assert (Hj : exists l, j' = JArr l) by (inversion He; subst; apply get_sound in E; inversion E; eauto).
    destruct Hj as [l ->]. rewrite E. inversion He; subst; (eexists; split; [reflexivity|now constructor]).
  - destruct (value_says _ _ _ H H0) as (j' & p' & -> & E & He & _). rewrite E. inversion He; subst. eexists; split; [reflexivity|constructor].
Qed.
Theorem tree_panic : forall k t, unmarshal_tree k t = Panic -> pitfall k t.
Proof.
  intros k t H. unfold Unmarshal.unmarshal_tree in H. destruct k.
  - destruct (as_string t); discriminate H.
  - destruct (as_int32 t); discriminate H.
  - destruct (as_float32 parse32 t); discriminate H.
  - destruct (as_boolean t); discriminate H.
  - destruct (as_string t) as [u|] eqn:Es; [|discriminate H].
    destruct (hex_decode _) as [[|b d]|] eqn:E; try discriminate H.
    destruct t; try discriminate Es; injection Es as <-; [constructor|].
    apply hex_trim in E as [(h & -> & Hh)|[H0 Hh]]; inversion Hh; subst; [apply F_byte_0x|apply F_byte_empty].
  - destruct (as_field parse64 "x" t), (as_field parse64 "y" t); discriminate H.
  - destruct (as_field parse64 "x" t), (as_field parse64 "y" t), (as_field parse64 "z" t); discriminate H.
  - destruct (value_of parse64 t) as [j|] eqn:E; [|discriminate H]. apply value_of_means in E. destruct j; try discriminate H.
    cbn [block_of_json] in H. destruct (get (JObj m)) as [[q|]| |] eqn:Eg; try discriminate H.
    + destruct q; discriminate H.
    + apply get_panic in Eg as (u & Hw & Ht). inversion E; subst. now apply F_block with (JObj m) u.
  - destruct (as_string t) as [u|]; [|discriminate H]. destruct (parse_time u); discriminate H.
  - destruct (value_of parse64 t) as [j|] eqn:E; [|discriminate H]. apply value_of_means in E. destruct j; try discriminate H.
    + inversion E; subst. constructor.
    + destruct (get (JArr l)) as [[q|]| |] eqn:Eg; try discriminate H.
      * destruct q; discriminate H.
      * apply get_panic in Eg as (u & Hw & Ht). inversion E; subst. now apply F_array with (JArr l) u.
  - destruct (value_of parse64 t) as [j|] eqn:E; [|discriminate H]. apply value_of_means in E.
    destruct (get j) as [[q|]| |] eqn:Eg; try discriminate H.
    + destruct q; discriminate H.
    + apply get_panic in Eg as (u & Hw & Ht). now apply F_raw with j u.
Qed.
Theorem tree_not_stuck : forall k t, unmarshal_tree k t <> Stuck.
Proof.
  intros k t H. unfold Unmarshal.unmarshal_tree in H.
  destruct k; repeat match goal with
  | H : context [match ?o with Some _ => _ | None => _ end] |- _ => destruct o eqn:?; try discriminate H
  | H : context [match ?o with [] => _ | _ :: _ => _ end] |- _ => destruct o; try discriminate H
  end.
  - destruct j; try discriminate H. cbn [block_of_json] in H. destruct (get (JObj m)) as [[q|]| |] eqn:Eg; try discriminate H.
    + destruct q; discriminate H.
    + now apply get_not_stuck in Eg.
  - destruct j; try discriminate H. destruct (get (JArr l)) as [[q|]| |] eqn:Eg; try discriminate H.
    + destruct q; discriminate H.
    + now apply get_not_stuck in Eg.
  - destruct (get j) as [[q|]| |] eqn:Eg; try discriminate H.
    + destruct q; discriminate H.
    + now apply get_not_stuck in Eg.
Qed.
End Unmarshal.
