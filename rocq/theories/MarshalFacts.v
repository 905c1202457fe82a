(** Metadata written as JSON and read again. *)
From Coq Require Import Strings.String Permutation Reals Lia.
From Flocq Require Import IEEE754.Binary.
From Verif Require Import Base BaseFacts IO Spec IOFacts Floats BinaryIO BinaryIOFacts Metadata SpecMeta MetadataFacts Recording SpecRec.
From Verif Require Import Text SpecText ToJson Quote Json SpecJson JsonFacts SpecToJson JsonText SpecJsonText QuoteFacts JsonTextFacts JsonOrderFacts.
From Verif Require Import VarintFacts ToJsonFacts.
Local Open Scope N_scope.

(** ** Equality of properties is transitive *)
Lemma entries_forall2 : forall m n, entries_equiv m n <-> Forall2 (fun a b : str * prop => fst a = fst b /\ prop_equiv (snd a) (snd b)) m n.
Proof.
  intros m n. split; intro H.
  - induction H; constructor; auto.
  - induction H as [|[k v] [k' w] m n [E Hv] _ IH]; [constructor|]. cbn [fst snd] in *. subst k'. now constructor.
Qed.
Lemma props_forall2 : forall m n, props_equiv m n <-> Forall2 prop_equiv m n.
Proof. intros m n. split; intro H; induction H; constructor; auto. Qed.
Lemma prop_equiv_trans : forall p q r, prop_equiv p q -> prop_equiv q r -> prop_equiv p r.
Proof.
  intro p. induction p as [p Hl|m IH|c ps IH] using prop_ind'; intros q r H1 H2.
  - inversion H1; subst; try (destruct Hl; fail). exact H2.
  - inversion H1 as [|? b B1|]; subst; [exact H2|]. inversion H2 as [|? b' B2|]; subst; [exact H1|].
    destruct B1 as [m m1 b P1 E1], B2 as [b b1 b' P2 E2]. apply entries_forall2 in E1, E2.
    destruct (Forall2_perm_r _ _ _ _ P2 E1) as (m2 & P3 & E3). apply PE_block. apply BE with m2; [now transitivity m1|].
    apply entries_forall2. assert (HI : Forall (fun kv => forall q r, prop_equiv (snd kv) q -> prop_equiv q r -> prop_equiv (snd kv) r) m2).
    { eapply Permutation_Forall; [|exact IH]. now transitivity m1. }
    clear -HI E2 E3. revert b' E2. induction E3 as [|x y m2 b1 [Ek Hx] _ IH']; intros b' E2; inversion E2 as [|? z ? ? [Ez Hz] E]; subst; [constructor|].
    inversion HI as [|? ? Hi HI']; subst. constructor; [|now apply IH']. split; [congruence|now apply (Hi (snd y))].
  - inversion H1 as [| |? ? qs Q1]; subst; [exact H2|]. inversion H2 as [| |? ? rs Q2]; subst; [exact H1|].
    apply PE_array. apply props_forall2 in Q1, Q2. apply props_forall2. clear -IH Q1 Q2. revert rs Q2.
    induction Q1 as [|x y ps qs Hx _ IH']; intros rs Q2; inversion Q2 as [|? z ? ? Hz Q]; subst; [constructor|].
    inversion IH as [|? ? Hi HI']; subst. constructor; [now apply (Hi y)|now apply IH'].
Qed.

(** ** The text is UTF-8 *)
Lemma valid_app : forall s t, valid_utf8 s -> valid_utf8 t -> valid_utf8 (s ++ t).
Proof. intros s t Hs Ht. induction Hs as [|r s Hr _ IH]; [exact Ht|]. rewrite <- app_assoc. now constructor. Qed.
Lemma escape_ascii_ok : forall a, Forall (fun c => b2n c < 128) (escape_ascii a) \/ 128 <= b2n a.
Proof.
  intro a. destruct a; try (right; apply N.leb_le; reflexivity); left;
  vm_compute; repeat (apply Forall_cons; [reflexivity|]); apply Forall_nil.
Qed.
Lemma escape_valid : forall s, valid_utf8 (escape_from true 0 s).
Proof.
  intro s. remember (length s) as n eqn:En. revert s En.
  induction n as [n IH] using lt_wf_ind. intros s ->. destruct s as [|a s]; [constructor|].
  cbn [escape_from]. destruct (rune_size (a :: s)) as [|[|m]] eqn:Er.
  - apply valid_app; [apply ascii_valid; repeat (apply Forall_cons; [reflexivity|]); apply Forall_nil|].
    apply (IH (length s)); [cbn [length]; lia|reflexivity].
  - apply valid_app; [|apply (IH (length s)); [cbn [length]; lia|reflexivity]]. apply ascii_valid.
    apply rune_one in Er. destruct (escape_ascii_ok a) as [H|H]; [exact H|lia].
  - destruct (rune_scalar _ _ Er) as (r & t & Hr & E & EL). destruct (utf8_cons r) as (b & p & Ep). rewrite Ep in E, EL.
    injection E as -> ->. injection EL as EL.
    assert (Ht : valid_utf8 (escape_from true 0 t)).
    { apply (IH (length t)); [cbn [length]; rewrite app_length; lia|reflexivity]. }
    destruct (separator (b :: p ++ t)) as [e|] eqn:Es.
    + apply valid_app.
      * unfold separator in Es. destruct (strip _ _); [|destruct (strip _ _); [|discriminate Es]]; injection Es as <-;
          apply ascii_valid; repeat (apply Forall_cons; [reflexivity|]); apply Forall_nil.
      * rewrite <- EL, escape_drop. exact Ht.
    + rewrite <- EL, escape_copy. change ([b] ++ p ++ escape_from true 0 t) with ((b :: p) ++ escape_from true 0 t).
      rewrite <- Ep. constructor; [exact Hr|exact Ht].
Qed.
Lemma lit_valid : forall s, forallb (fun c => b2n c <? 128) (lit s) = true -> valid_utf8 (lit s).
Proof. intros s H. apply ascii_valid, Forall_forall. intros c Hc. apply forallb_forall with (x := c) in H; [now apply N.ltb_lt|exact Hc]. Qed.
Lemma quote_valid : forall s, valid_utf8 (json_quote s).
Proof. intro s. unfold json_quote, quoted. apply valid_app; [now apply lit_valid|]. apply valid_app; [apply escape_valid|now apply lit_valid]. Qed.
Lemma digits_valid : forall t, digits t -> valid_utf8 t.
Proof. intros t [_ H]. apply ascii_valid. apply Forall_impl with (2 := H). intros c [_ Hc]. lia. Qed.
Lemma number_valid : forall t, number t -> valid_utf8 t.
Proof.
  intros t H. destruct H as [sign int frac exp Hs Hi _ Hf He].
  assert (K : forall c, b2n c < 128 -> valid_utf8 [c]) by (intros c Hc; apply ascii_valid; now constructor).
  apply valid_app; [destruct Hs as [-> | ->]; [constructor|now apply lit_valid]|]. apply valid_app; [now apply digits_valid|]. apply valid_app.
  - destruct Hf as [->|(d & -> & Hd)]; [constructor|]. apply valid_app; [now apply lit_valid|now apply digits_valid].
  - destruct He as [->|(e & s & d & -> & He & Hsg & Hd)]; [constructor|].
    apply valid_app; [destruct He as [-> | ->]; now apply lit_valid|].
    apply valid_app; [destruct Hsg as [-> |[-> | ->]]; [constructor| |]; now apply lit_valid|now apply digits_valid].
Qed.
Lemma commas_valid : forall l, Forall valid_utf8 l -> valid_utf8 (commas l).
Proof.
  intros l H. induction H as [|t l Ht Hl IH]; [constructor|]. destruct l as [|u l]; [exact Ht|].
  change (commas (t :: u :: l)) with (t ++ lit "," ++ commas (u :: l)). apply valid_app; [exact Ht|].
  apply valid_app; [now apply lit_valid|exact IH].
Qed.
Lemma brackets_valid : forall l, Forall valid_utf8 l -> valid_utf8 (brackets l).
Proof.
  intros l H. unfold brackets. apply valid_app; [now apply lit_valid|]. apply valid_app; [now apply commas_valid|now apply lit_valid].
Qed.
Lemma braces_valid : forall l, Forall (fun kt => valid_utf8 (snd kt)) l -> valid_utf8 (braces json_quote l).
Proof.
  intros l H. unfold braces. apply valid_app; [now apply lit_valid|]. apply valid_app; [|now apply lit_valid]. apply commas_valid.
  induction H as [|[k t] l Ht _ IH]; [constructor|]. cbn [map]. constructor; [|exact IH]. unfold member. cbn [fst snd] in *.
  apply valid_app; [apply quote_valid|]. apply valid_app; [now apply lit_valid|exact Ht].
Qed.
Lemma all_some_in : forall {A B} (f : A -> option B) l r y, all_some f l = Some r -> In y r -> exists x, In x l /\ f x = Some y.
Proof.
  intros A B f. induction l as [|x l IH]; intros r y E Hin; cbn [all_some] in E.
  - injection E as <-. destruct Hin.
  - destruct (f x) as [z|] eqn:Ez; [|discriminate E]. destruct (all_some f l) as [r0|] eqn:Er; [|discriminate E]. injection E as <-.
    destruct Hin as [->|Hin]; [exists x; split; [now left|exact Ez]|]. destruct (IH r0 y eq_refl Hin) as (x' & Hx & Ex).
    exists x'. split; [now right|exact Ex].
Qed.

Lemma go_writer : forall num64 num32,
  (forall x, is_finite 53 1024 x = true -> number (num64 x)) ->
  (forall f, is_finite 24 128 f = true -> number (num32 f)) -> json_writer json_quote clean num64 num32.
Proof.
  intros num64 num32 H64 H32. split; auto using json_quote_text.
  intros s Hs. apply clean_valid_id, ascii_valid. apply Forall_impl with (2 := Hs). intros c Hc. lia.
Qed.

Lemma raw_inj : forall d d', lenN d < 2 ^ 48 -> bytes_array_to_bytes d = bytes_array_to_bytes d' -> d = d'.
Proof.
  intros d d' Hd E. unfold bytes_array_to_bytes in E.
  pose proof (put_uvarint_size_le (lenN d)) as S1. pose proof (put_uvarint_size_le (lenN d')) as S2.
  assert (Hd' : lenN d' < 2 ^ 64).
  { pose proof (f_equal lenN E) as L. rewrite !lenN_app in L. change (2 ^ 48) with 281474976710656 in Hd.
    change (2 ^ 64) with 18446744073709551616. lia. }
  assert (Hd0 : lenN d < 2 ^ 64) by (eapply N.lt_trans; [exact Hd|reflexivity]).
  pose proof (delivers_serves _ _ _ (flat_delivers false)) as HF.
  destruct (read_uvarint_ok HF (lenN d) Hd0 (put_uvarint (lenN d) ++ d) d) as (s & E1 & I1); [reflexivity|now left|].
  destruct (read_uvarint_ok HF (lenN d') Hd' (put_uvarint (lenN d') ++ d') d') as (s' & E2 & I2); [reflexivity|now left|].
  rewrite E in E1. rewrite E1 in E2. injection E2 as En _ <-. rewrite En in E. now apply app_inv_head in E.
Qed.
Lemma bools_inj : forall l l' : list bool,
  map (fun b : bool => if b then x01 else x00) l = map (fun b : bool => if b then x01 else x00) l' -> l = l'.
Proof.
  induction l as [|b l IH]; intros [|b' l'] E; try discriminate E; [reflexivity|]. injection E as Eb El.
  rewrite (IH _ El). destruct b, b'; try discriminate Eb; reflexivity.
Qed.
Lemma levels_block : forall m n, (levels (PBlock m) <= S n)%nat <-> Forall (fun kv => (levels (snd kv) <= n)%nat) m.
Proof.
  intros m n. cbn [levels]. induction m as [|kv m IH].
  - split; [constructor|lia].
  - split; intro H.
    + constructor; [lia|]. apply IH. lia.
    + inversion H as [|? ? H1 H2]; subst. apply IH in H2. lia.
Qed.
Lemma levels_array : forall c ps n, (levels (PArray c ps) <= S n)%nat <-> Forall (fun v => (levels v <= n)%nat) ps.
Proof.
  intros c ps n. cbn [levels]. induction ps as [|v ps IH].
  - split; [constructor|lia].
  - split; intro H.
    + constructor; [lia|]. apply IH. lia.
    + inversion H as [|? ? H1 H2]; subst. apply IH in H2. lia.
Qed.
Lemma max_le : forall {A} (f : A -> nat) l n, (fold_right (fun x n => Nat.max (f x) n) O l <= n)%nat <-> Forall (fun x => (f x <= n)%nat) l.
Proof.
  intros A f l n. induction l as [|x l IH]; cbn [fold_right]; split; intro H; try constructor; try lia.
  - apply IH. lia.
  - inversion H as [|? ? H1 H2]; subst. apply IH in H2. lia.
Qed.
Lemma is_vector_keys : forall {A B} (m : list (str * A)) (m' : list (str * B)),
  Permutation (map fst m) (map fst m') -> is_vector m -> is_vector m'.
Proof.
  intros A B m m' Hp. assert (K : forall ks, has_keys m ks -> has_keys m' ks).
  { intros ks [HL Hk]. split.
    - apply Permutation_length in Hp. rewrite !map_length in Hp. congruence.
    - intros k Hin. apply (Permutation_in _ Hp), Hk, Hin. }
  intros [H|H]; [left|right]; auto.
Qed.
Lemma hex_length : forall s d, hex_text s d -> length s = (2 * length d)%nat.
Proof. intros s d H. induction H; cbn [length]; lia. Qed.

Section Numbers.
Context (parse64 : str -> option f64) (reparse32 : f64 -> option f32) (num64 : f64 -> str) (num32 : f32 -> str)
  (time_text : Z -> str) (parse_time : str -> option Z) (HN : number_text parse64 reparse32 num64 num32).
Notation marshal := (marshal json_quote num64 num32 time_text).
Lemma num64_valid : forall x t, num64_of num64 x = Some t -> valid_utf8 t.
Proof.
  intros x t H. unfold num64_of in H. destruct (is_finite 53 1024 x) eqn:E; [|discriminate H]. injection H as <-.
  apply number_valid, (written64 _ _ _ _ HN), E.
Qed.
Theorem marshal_valid : forall p text, marshal p = Some text -> valid_utf8 text.
Proof.
  intro p. induction p as [p Hl|m IH|c ps IH] using prop_ind'; intros text H.
  - destruct p; try (destruct Hl; fail); cbn [ToJson.marshal] in H.
    + injection H as <-. apply quote_valid.
    + injection H as <-. eapply number_valid, tells_number, show_Z_tells.
    + unfold num32_of in H. destruct (is_finite 24 128 f) eqn:E; [|discriminate H]. injection H as <-.
      apply number_valid, (written32 _ _ _ _ HN), E.
    + injection H as <-. destruct b; now apply lit_valid.
    + injection H as <-. apply quote_valid.
    + destruct (num64_of num64 x) eqn:E1; [|discriminate H]. destruct (num64_of num64 y) eqn:E2; [|discriminate H]. injection H as <-.
      apply braces_valid. repeat constructor; cbn [snd]; eapply num64_valid; eauto.
    + destruct (num64_of num64 x) eqn:E1; [|discriminate H]. destruct (num64_of num64 y) eqn:E2; [|discriminate H].
      destruct (num64_of num64 z) eqn:E3; [|discriminate H]. injection H as <-.
      apply braces_valid. repeat constructor; cbn [snd]; eapply num64_valid; eauto.
    + injection H as <-. apply quote_valid.
    + destruct (read_bytes_array flat data) as [[[[br n] [e|]] s]| |]; try discriminate H.
      destruct (base =? 5); [injection H as <-; apply quote_valid|]. destruct (base =? 3); [|discriminate H]. injection H as <-.
      apply brackets_valid, Forall_forall. intros t Ht. apply in_map_iff in Ht as (b & <- & _). destruct (_ =? 1); now apply lit_valid.
    + injection H as <-. now apply lit_valid.
  - rewrite marshal_block in H. destruct (all_some _ _) as [ts|] eqn:E; [|discriminate H]. injection H as <-.
    apply braces_valid, Forall_forall. intros [k t] Hin. cbn [snd].
    destruct (all_some_in _ _ _ _ E Hin) as ([k' o] & Hx & Ex). cbn [fst snd] in Ex. destruct o as [t'|]; [|discriminate Ex]. injection Ex as -> ->.
    apply (Permutation_in _ (sort_perm _ _)) in Hx. apply in_map_iff in Hx as ([k0 v] & Ev & Hv). unfold entry_text in Ev. cbn [fst snd] in Ev.
    injection Ev as -> Ev. rewrite Forall_forall in IH. now apply (IH (k, v) Hv).
  - rewrite marshal_array in H. destruct (all_some _ _) as [ts|] eqn:E; [|discriminate H]. injection H as <-.
    apply brackets_valid, Forall_forall. intros t Hin. destruct (all_some_in _ _ _ _ E Hin) as (o & Hx & Ex). subst o.
    apply in_map_iff in Hx as (v & Ev & Hv). rewrite Forall_forall in IH. now apply (IH v Hv).
Qed.

(** ** The content reads back *)
Notation faithful := (faithful time_text parse_time).
Notation shown := (shown clean num64 num32 time_text).
Notation means := (means parse64).
Notation says := (says parse_time reparse32).
Lemma faithful_printable : forall p, faithful p -> printable p.
Proof.
  intro p. induction p as [p Hl|m IH|c ps IH] using prop_ind'; intro H.
  - destruct H; try (destruct Hl; fail); constructor; auto.
  - inversion H as [| | | | | | |? _ _ HF| | | | |]; subst. constructor. rewrite Forall_forall in *. intros kv Hin.
    apply (IH kv Hin), HF, Hin.
  - inversion H as [| | | | | | | | |? ? ? _ _ Hp HF| | |]; subst. constructor. inversion IH as [|? ? I1 I2]; subst. constructor; [now apply I1|].
    rewrite Forall_forall in *. auto.
Qed.
Lemma shown_nesting : forall p t n, shown p t -> (levels p <= n)%nat -> (nesting t <= n)%nat.
Proof.
  intro p. induction p as [p Hl|m IH|c ps IH] using prop_ind'; intros t n H Hn.
  - destruct H; try (destruct Hl; fail); cbn [nesting levels new_binary_array new_bool_array fold_right snd] in *; try lia.
    destruct n; [lia|]. apply le_n_S, max_le, Forall_forall. intros x Hx. apply in_map_iff in Hx as (b & <- & _). cbn. lia.
  - inversion H as [| | | | | | |? m' l Hp HF| | | | |]; subst. destruct n; [cbn [levels] in Hn; lia|]. rewrite levels_block in Hn.
    cbn [nesting]. apply le_n_S, (max_le (fun kx : str * tree => nesting (snd kx))).
    assert (HF2 : Forall (fun kv => forall t n, shown (snd kv) t -> (levels (snd kv) <= n)%nat -> (nesting t <= n)%nat) m')
      by (eapply Permutation_Forall; [exact Hp|exact IH]).
    assert (HF3 : Forall (fun kv => (levels (snd kv) <= n)%nat) m') by (eapply Permutation_Forall; [exact Hp|exact Hn]).
    clear -HF HF2 HF3. induction HF as [|kv kt m' l [_ Hs] _ IH]; constructor; inversion HF2; inversion HF3; subst; auto.
  - inversion H as [| | | | | | | | |? ? l HF| | |]; subst. destruct n; [cbn [levels] in Hn; lia|]. rewrite levels_array in Hn.
    cbn [nesting]. apply le_n_S, (max_le nesting). clear -HF IH Hn.
    induction HF as [|v t ps l Hs _ IH']; constructor; inversion IH; inversion Hn; subst; auto.
Qed.
Definition back (p : prop) (t : tree) : Prop := exists j p', means t j /\ says j p' /\ prop_equiv p p'.
Lemma text_back : forall s, text_ok s -> parse_time s = None -> back (PString s) (TStr (clean s)).
Proof.
  intros s (Hu & Hp & H0) Ht. rewrite clean_valid_id by exact Hu. exists (JStr s), (PString s).
  split; [constructor|]. split; [|constructor]. constructor; auto using plain_unquote.
Qed.
Lemma entries_back : forall m l, Forall2 (fun kp kt => fst kt = clean (fst kp) /\ shown (snd kp) (snd kt)) m l ->
  Forall (fun kv => valid_utf8 (fst kv) /\ faithful (snd kv)) m ->
  Forall (fun kv => forall t, faithful (snd kv) -> shown (snd kv) t -> back (snd kv) t) m ->
  exists (js : list (str * json)) (b : block),
    Forall2 (fun kt kj => fst kt = fst kj /\ means (snd kt) (snd kj)) l js /\
    Forall2 (fun kj kp => fst kj = fst kp /\ says (snd kj) (snd kp)) js b /\
    map fst m = map fst js /\ entries_equiv m b.
Proof.
  intros m l H. induction H as [|[k v] [k' t] m l [Ek Hs] _ IH]; intros HF HI.
  - exists [], []. repeat split; constructor.
  - cbn [fst snd] in *. inversion HF as [|? ? [Hk Hv] HF']; inversion HI as [|? ? Hi HI']; subst.
    destruct (IH HF' HI') as (js & b & H1 & H2 & H3 & H4). cbn [fst snd] in *. destruct (Hi t Hv Hs) as (j & p & Hm & Hp & He).
    exists ((k, j) :: js), ((k, p) :: b). rewrite clean_valid_id by exact Hk. repeat split; try constructor; auto. cbn [map fst]. now rewrite H3.
Qed.
Theorem shown_back : forall p t, faithful p -> shown p t -> back p t.
Proof.
  intro p. induction p as [p Hl|m IH|c ps IH] using prop_ind'; intros t Hf H.
  - destruct Hf; try (destruct Hl; fail).
    + inversion H; subst. now apply text_back.
    + inversion H as [|? tx Ht| | | | | | | | | | |]; subst. destruct (reads_int _ _ _ _ HN tx z Ht) as (x & Ex & Hx).
      { change (10 ^ 6)%Z with 1000000%Z in *. change (2 ^ 31)%Z with 2147483648%Z. lia. }
      exists (JNum x), (PInt z). split; [now constructor|]. split; [now constructor|constructor].
    + inversion H; subst. destruct (reads32 _ _ _ _ HN f) as (x & Ex & Er & _ & Hi & _); [assumption|].
      exists (JNum x), (PFloat f). split; [now constructor|]. split; [|constructor]. constructor; [|exact Er].
      intros z (_ & Hz & _). destruct Hi as [z' Hz']; [now exists z|]. match goal with X : forall z, B2R 24 128 f <> IZR z |- _ => exact (X z' Hz') end.
    + inversion H; subst. exists (JBool b), (PBool b). repeat split; constructor.
    + inversion H as [| | | |? s [Hh _]| | | | | | | |]; subst. exists (JStr (lit "0x" ++ s)), (PByte b). split; [constructor|]. split; [|constructor].
      inversion Hh as [|a c x y s' d Ha Hc Hn]; subst. inversion Hn; subst. now constructor.
    + inversion H; subst. exists (JObj [(lit "x", JNum x); (lit "y", JNum y)]), (PVec2 x y). split; [|split; [|constructor]].
      * apply N_obj with [(lit "x", JNum x); (lit "y", JNum y)]; [repeat constructor; cbn [fst snd]; now apply (reads64 _ _ _ _ HN)| |].
        -- repeat constructor; cbn; intuition discriminate.
        -- intro k. apply jlookup_perm; [repeat constructor; cbn; intuition discriminate|]. apply Permutation_rev.
      * constructor; try reflexivity. split; [reflexivity|]. intros k [<-|[<-|[]]]; cbn; auto.
    + inversion H; subst. exists (JObj [(lit "x", JNum x); (lit "y", JNum y); (lit "z", JNum z)]), (PVec3 x y z). split; [|split; [|constructor]].
      * apply N_obj with [(lit "x", JNum x); (lit "y", JNum y); (lit "z", JNum z)]; [repeat constructor; cbn [fst snd]; now apply (reads64 _ _ _ _ HN)| |].
        -- repeat constructor; cbn; intuition discriminate.
        -- intro k. apply jlookup_perm; [repeat constructor; cbn; intuition discriminate|]. apply Permutation_rev.
      * constructor; try reflexivity. split; [reflexivity|]. intros k [<-|[<-|[<-|[]]]]; cbn; auto.
    + destruct H0 as (Hu & Hp & H0x). inversion H; subst. rewrite clean_valid_id by exact Hu.
      exists (JStr (time_text us)), (PTime us). split; [constructor|]. split; [|constructor].
      eapply S_time; eauto using plain_unquote. congruence.
    + inversion H as [| | | | | | | | | |d' s [Hh _] Ed| |]; subst. symmetry in Ed. apply raw_inj in Ed as <-; [|assumption].
      exists (JStr (lit "0x" ++ s)), (new_binary_array d). split; [constructor|]. split; [|constructor]. constructor; [|exact Hh].
      apply hex_length in Hh. lia.
    + inversion H as [| | | | | | | | | | |l' El|]; subst. symmetry in El. apply raw_inj in El; [|unfold lenN in *; now rewrite map_length]. apply bools_inj in El as <-.
      exists (JArr (map JBool l)), (new_bool_array l). split; [|split; [|constructor]].
      * constructor. clear. induction l; constructor; auto. constructor.
      * destruct l as [|b l]; [congruence|]. cbn [map]. assert (E : map as_bool (map JBool l) = l) by (rewrite map_map; apply map_id).
        pose proof (S_bools parse_time reparse32 b (map JBool l)) as X. rewrite E in X. exact X.
    + inversion H; subst. exists JNull, PNil. repeat split; constructor.
  - inversion Hf as [| | | | | | |? Hn Hv HF| | | | |]; subst. inversion H as [| | | | | | |? m' l Hp HS| | | | |]; subst.
    destruct (entries_back m' l HS) as (js & b & H1 & H2 & H3 & H4).
    { eapply Permutation_Forall; [exact Hp|exact HF]. }
    { eapply Permutation_Forall; [exact Hp|]. eapply Forall_impl; [|exact IH]. intros kv HI t Ht. now apply HI. }
    exists (JObj js), (PBlock b). assert (Hnj : NoDup (map fst js)).
    { rewrite <- H3. eapply Permutation_NoDup; [|exact Hn]. now apply Permutation_map. }
    split; [|split].
    + eapply N_obj; [exact H1|exact Hnj|]. intro k. apply jlookup_perm; [exact Hnj|apply Permutation_rev].
    + constructor; [|exact H2]. intro Hx. apply Hv. revert Hx. apply is_vector_keys. rewrite <- H3. apply Permutation_map. now symmetry.
    + apply PE_block. econstructor; eauto.
  - inversion Hf as [| | | | | | | | |? p ps' Hb Hc Hp HF| | |]; subst. inversion H as [| | | | | | | | |? ? l HS| | |]; subst.
    inversion IH as [|? ? I1 I2]; subst. inversion HS as [|? t0 ? l0 Ht Hl]; subst.
    destruct (I1 t0 Hp Ht) as (j & p' & Hm & Hs & He).
    assert (exists js qs, Forall2 means l0 js /\ Forall2 says js qs /\ props_equiv ps' qs) as (js & qs & F1 & F2 & F3).
    { clear -Hl I2 HF. induction Hl as [|v t ps' l Hv _ IH']; [exists [], []; repeat split; constructor|].
      inversion I2; inversion HF; subst. destruct IH' as (js & qs & F1 & F2 & F3); auto.
      match goal with X : forall t, faithful v -> _ |- _ => destruct (X t) as (j & q & Hm & Hs & He); auto end.
      exists (j :: js), (q :: qs). repeat split; constructor; auto. }
    exists (JArr (j :: js)), (PArray c (p' :: qs)). split; [|split].
    + constructor. now constructor.
    + constructor; auto; [|now rewrite <- (equiv_code _ _ He)]. intros b ->. inversion Hs; subst. inversion He; subst. now elim (Hb b).
    + apply PE_array. now constructor.
Qed.
End Numbers.
