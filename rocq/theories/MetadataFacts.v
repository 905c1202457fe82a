(** Metadata properties round trip. *)
From Coq Require Import ZArith Lia Permutation.
Ltac Zify.zify_post_hook ::= Z.div_mod_to_equations.
From Verif Require Import Base BaseFacts IO Spec IOFacts Floats ByteFacts BinaryIO BinaryIOFacts.
From Verif Require Import VarintFacts Metadata SpecMeta.
Local Open Scope N_scope.

(** Induction over property trees. *)
Section PropInd.
  Variable P : prop -> Prop.
  Hypothesis Hleaf : forall p,
    match p with PBlock _ | PArray _ _ => False | _ => True end -> P p.
  Hypothesis Hblock : forall m, Forall (fun kv => P (snd kv)) m -> P (PBlock m).
  Hypothesis Harray : forall b ps, Forall P ps -> P (PArray b ps).
  Fixpoint prop_ind' (p : prop) : P p :=
    match p with
    | PBlock m =>
        Hblock m ((fix go (l : block) : Forall (fun kv => P (snd kv)) l :=
                     match l with
                     | [] => Forall_nil _
                     | kv :: l' => Forall_cons kv (prop_ind' (snd kv)) (go l')
                     end) m)
    | PArray b ps =>
        Harray b ps ((fix go (l : list prop) : Forall P l :=
                        match l with
                        | [] => Forall_nil _
                        | v :: l' => Forall_cons v (prop_ind' v) (go l')
                        end) ps)
    | p => Hleaf p I
    end.
End PropInd.

(** The nested fixpoints as ordinary functions. *)
Lemma built_block_iff : forall m,
  built (PBlock m) <-> NoDup (map fst m) /\ Forall (fun kv => built (snd kv)) m.
Proof.
  intro m. cbn [built]. apply and_iff_compat_l.
  induction m as [|kv m IH]; [split; constructor|].
  split; intro H.
  - constructor; [apply H | apply IH, H].
  - inversion H; subst. split; [assumption | now apply IH].
Qed.
Lemma built_array_iff : forall b ps,
  built (PArray b ps) <-> In b [0; 1; 2; 6; 7; 11; 12] /\
                          Forall (fun v => prop_code v = Ok b /\ built v) ps.
Proof.
  intros b ps. cbn [built]. apply and_iff_compat_l.
  induction ps as [|v ps IH]; [split; constructor|].
  split; intro H.
  - constructor; [apply H | apply IH, H].
  - inversion H; subst. split; [assumption | now apply IH].
Qed.

Fixpoint entries_data (l : block) : res bytes :=
  match l with
  | [] => Ok []
  | (_, v) :: l' =>
      do c <- prop_code v;
      do d <- prop_data v;
      do t <- entries_data l';
      Ok (n2b c :: d ++ t)
  end.
Fixpoint elems_data (l : list prop) : res bytes :=
  match l with
  | [] => Ok []
  | v :: l' => do d <- prop_data v; do t <- elems_data l'; Ok (d ++ t)
  end.
Lemma prop_data_block : forall m,
  prop_data (PBlock m) =
  (do vals <- entries_data m; Ok (string_array_to_bytes (map fst m) ++ vals)).
Proof.
  intro m. cbn [prop_data]. f_equal.
Qed.
Lemma prop_data_array : forall b ps,
  prop_data (PArray b ps) = (do vals <- elems_data ps; Ok (put_uvarint (lenN ps) ++ vals)).
Proof.
  intros b ps. cbn [prop_data]. f_equal.
Qed.

Lemma prop_code_lt : forall p c, prop_code p = Ok c -> c < 256.
Proof.
  intros p c H. destruct p; cbn in H; try discriminate;
    try (injection H as <-; reflexivity).
  - injection H as <-. now destruct b.
  - injection H as <-. apply N.mod_lt. discriminate.
  - injection H as <-. apply N.mod_lt. discriminate.
Qed.

(** two's complement *)
Lemma signed_mod : forall bits z, (0 < bits)%Z ->
  (- 2 ^ (bits - 1) <= z < 2 ^ (bits - 1))%Z -> signed bits (z mod 2 ^ bits) = z.
Proof.
  intros bits z Hb Hz. unfold signed.
  assert (Hp : (2 ^ bits = 2 * 2 ^ (bits - 1))%Z).
  { rewrite <- Z.pow_succ_r by lia. f_equal. lia. }
  destruct (Z_lt_le_dec z 0).
  - replace (z mod 2 ^ bits)%Z with (z + 2 ^ bits)%Z.
    2:{ symmetry. rewrite <- (Z.mod_add z 1 (2 ^ bits)) by lia.
        rewrite Z.mul_1_l. apply Z.mod_small. lia. }
    destruct (Z.ltb_spec (z + 2 ^ bits) (2 ^ (bits - 1))); lia.
  - rewrite Z.mod_small by lia. destruct (Z.ltb_spec z (2 ^ (bits - 1))); lia.
Qed.

(** map_set with fresh keys appends *)
Lemma map_set_fresh : forall k v m, ~ In k (map fst m) -> map_set k v m = m ++ [(k, v)].
Proof.
  induction m as [|[k' v'] m IH]; intro H; [reflexivity|].
  cbn [map_set]. destruct (str_eqb k k') eqn:E.
  - apply str_eqb_eq in E. subst. destruct H. now left.
  - cbn [app]. f_equal. apply IH. intro. apply H. now right.
Qed.

Lemma byte_read_ok : forall {S} {R : Reader S} {eager I}, serves R eager I ->
  forall b, parses I eager (fun s => rread R 1 s) [b] ([b], None).
Proof.
  intros S R eager I HR b s rest HI Hm. cbn [app] in HI.
  destruct (read_byte_ok R eager I HR _ _ _ HI Hm) as (s' & E & HI'). eauto.
Qed.

(** sizes of encodings bound sizes of contents *)
Lemma string_to_bytes_len : forall x, lenN x <= lenN (string_to_bytes x).
Proof. intro x. unfold string_to_bytes. rewrite lenN_app. lia. Qed.
Lemma flat_strings_len : forall l,
  lenN l <= lenN (flat_map string_to_bytes l) /\
  Forall (fun x => lenN x <= lenN (flat_map string_to_bytes l)) l.
Proof.
  induction l as [|x l [IH1 IH2]]; cbn [flat_map].
  - split; [reflexivity | constructor].
  - rewrite lenN_cons, lenN_app. pose proof (string_to_bytes_len x).
    assert (1 <= lenN (string_to_bytes x)).
    { unfold string_to_bytes. rewrite lenN_app. pose proof (put_uvarint_size_le (lenN x)). lia. }
    split; [lia|]. constructor; [lia|]. eapply Forall_impl; [|exact IH2].
    cbn. intros. lia.
Qed.
Lemma string_array_len : forall l,
  lenN l < lenN (string_array_to_bytes l) /\
  Forall (fun x => lenN x < lenN (string_array_to_bytes l)) l.
Proof.
  intro l. unfold string_array_to_bytes. rewrite lenN_app.
  pose proof (put_uvarint_size_le (lenN l)). destruct (flat_strings_len l) as [H1 H2].
  split; [lia|]. eapply Forall_impl; [|exact H2]. cbv beta. intros. lia.
Qed.

(** Every element of an array of a constructible kind takes at least a byte. *)
Lemma elem_nonempty : forall v b d, In b [0; 1; 2; 6; 7; 11; 12] -> built v ->
  prop_code v = Ok b -> prop_data v = Ok d -> 1 <= lenN d.
Proof.
  intros v b d Hb Hw Hc Hd. destruct v; cbn [prop_code] in Hc.
  - cbn [prop_data] in Hd. apply ok_inj in Hd. subst d. unfold string_to_bytes. rewrite lenN_app.
    pose proof (put_uvarint_size_le (lenN s)). lia.
  - cbn [prop_data] in Hd. apply ok_inj in Hd. subst d. rewrite le_bytes_lenN. lia.
  - cbn [prop_data] in Hd. apply ok_inj in Hd. subst d. rewrite f32_bytes_len. lia.
  - injection Hc as <-. destruct b0; cbn in Hb; intuition lia.
  - cbn [prop_data] in Hd. apply ok_inj in Hd. subst d. rewrite lenN_cons. lia.
  - cbn [prop_data] in Hd. apply ok_inj in Hd. subst d. rewrite lenN_app, f64_bytes_len. lia.
  - cbn [prop_data] in Hd. apply ok_inj in Hd. subst d. rewrite lenN_app, f64_bytes_len. lia.
  - rewrite prop_data_block in Hd. apply bind_ok in Hd as (t & _ & Hd). injection Hd as <-.
    rewrite lenN_app. destruct (string_array_len (map fst m)). lia.
  - cbn [prop_data] in Hd. apply ok_inj in Hd. subst d. rewrite le_bytes_lenN. lia.
  - rewrite prop_data_array in Hd. apply bind_ok in Hd as (t & _ & Hd). injection Hd as <-.
    rewrite lenN_app. pose proof (put_uvarint_size_le (lenN ps)). lia.
  - injection Hc as Hc. destruct Hw as [[x Hx]|[l Hx]]; injection Hx as -> ->;
      vm_compute in Hc; subst b; cbn in Hb; intuition discriminate.
  - discriminate.
Qed.

Lemma elems_data_len : forall b ps d, In b [0; 1; 2; 6; 7; 11; 12] ->
  Forall (fun v => prop_code v = Ok b /\ built v) ps -> elems_data ps = Ok d ->
  lenN ps <= lenN d.
Proof.
  intros b ps d Hb. revert d. induction ps as [|v ps IH]; intros d Hw Hd; cbn [elems_data] in Hd.
  - injection Hd as <-. reflexivity.
  - apply bind_ok in Hd as (x & Hx & Hd). apply bind_ok in Hd as (y & Hy & Hd).
    injection Hd as <-. inversion Hw as [|? ? [Hc Hv] Hw']; subst.
    pose proof (elem_nonempty v b x Hb Hv Hc Hx). specialize (IH y Hw' Hy).
    rewrite lenN_cons, lenN_app. lia.
Qed.

Section Reading.
Context {S : Type} {R : Reader S} {eager : bool} {I : S -> bytes -> Prop}.
Context (HR : serves R eager I).
Notation parses := (parses I eager).

Lemma read_float64s_ok : forall l,
  parses (read_float64s R (length l)) (flat_map f64_bytes l) (l, None).
Proof.
  induction l as [|x l IH]; intros s rest HI Hm; cbn [length read_float64s flat_map] in *.
  - eauto.
  - rewrite <- app_assoc in HI.
    destruct (binary_read_ok HR (f64_bytes x) 8 (f64_bytes_len x) s _ HI) as (s1 & -> & HI1);
      [auto with more|]. cbn [bind].
    destruct (IH s1 rest HI1 Hm) as (s2 & -> & HI2). cbn [bind].
    exists s2. now rewrite f64_bytes_roundtrip.
Qed.

Lemma le32_roundtrip : forall z, (- 2 ^ 31 <= z < 2 ^ 31)%Z ->
  new_int (signed 32 (le_val (le_bytes 4 z))) = PInt z.
Proof.
  intros z Hz. rewrite le_val_bytes. change (256 ^ Z.of_nat 4)%Z with (2 ^ 32)%Z.
  rewrite (signed_mod 32 z) by lia. unfold new_int. now rewrite (signed_mod 32 z) by lia.
Qed.

Lemma read_entries_ok : forall (f : S -> res (option prop * option err * S)) m acc d,
  entries_data m = Ok d -> NoDup (map fst acc ++ map fst m) ->
  (forall k v c x, In (k, v) m -> prop_code v = Ok c -> prop_data v = Ok x ->
     lenN x <= lenN d -> (length x < length d)%nat -> parses f (n2b c :: x) (Some v, None)) ->
  parses (read_entries f (map fst m) acc) d (acc ++ m, None).
Proof.
  intros f m. induction m as [|[k v] m IH]; intros acc d Hd Hn Hf s rest HI Hm;
    cbn [entries_data map fst read_entries] in *.
  - injection Hd as <-. cbn [app] in HI. rewrite app_nil_r. eauto.
  - apply bind_ok in Hd as (c & Hc & Hd). apply bind_ok in Hd as (x & Hx & Hd).
    apply bind_ok in Hd as (t & Ht & Hd). injection Hd as <-.
    change ((n2b c :: x ++ t) ++ rest) with ((n2b c :: x) ++ t ++ rest) in HI || idtac.
    assert (HI0 : I s ((n2b c :: x) ++ (t ++ rest))).
    { cbn [app] in *. now rewrite <- app_assoc in HI. }
    destruct (Hf k v c x) with (s := s) (rest := t ++ rest) as (s1 & -> & HI1); auto with more.
    { now left. } { rewrite lenN_cons, lenN_app. lia. }
    { cbn. rewrite app_length. lia. }
    cbn [bind]. rewrite map_set_fresh.
    2:{ apply NoDup_remove_2 in Hn. intro H. apply Hn, in_or_app. now left. }
    replace (acc ++ (k, v) :: m) with ((acc ++ [(k, v)]) ++ m) by (now rewrite <- app_assoc).
    eapply IH; eauto.
    + rewrite map_app. cbn [map fst]. now rewrite <- app_assoc.
    + intros k' v' c' x' Hin Hc' Hx' Hl Hl'. apply Hf with k'; auto.
      * now right.
      * rewrite lenN_cons, lenN_app. lia.
      * cbn. rewrite app_length. lia.
Qed.

Lemma read_props_ok : forall (f : S -> res (option prop * option err * S)) ps d,
  elems_data ps = Ok d ->
  (forall v x, In v ps -> prop_data v = Ok x -> lenN x <= lenN d ->
     (length x <= length d)%nat -> parses f x (Some v, None)) ->
  parses (read_props f (length ps)) d (ps, None).
Proof.
  intros f ps. induction ps as [|v ps IH]; intros d Hd Hf s rest HI Hm;
    cbn [elems_data length read_props] in *.
  - injection Hd as <-. eauto.
  - apply bind_ok in Hd as (x & Hx & Hd). apply bind_ok in Hd as (t & Ht & Hd). injection Hd as <-.
    rewrite <- app_assoc in HI.
    destruct (Hf v x) with (s := s) (rest := t ++ rest) as (s1 & -> & HI1); auto with more.
    { now left. } { rewrite lenN_app. lia. } { rewrite app_length. lia. }
    cbn [bind].
    destruct (IH t Ht) with (s := s1) (rest := rest) as (s2 & -> & HI2); auto.
    { intros v' x' Hin Hx' Hl Hl'. apply Hf; auto; [now right| |].
      - rewrite lenN_app. lia.
      - rewrite app_length. lia. }
    cbn [bind]. eauto.
Qed.

Theorem read_prop_data_ok : forall p, built p ->
  forall c d fuel, prop_code p = Ok c -> prop_data p = Ok d ->
    lenN d <= 2 ^ 44 -> (length d < fuel)%nat ->
    parses (read_prop_data R fuel c) d (Some p, None).
Proof.
  induction p as [p Hleaf | m IH | b ps IH] using prop_ind'; intros Hw c d fuel Hc Hd Hs Hf.
  - destruct fuel as [|fuel]; [lia|].
    destruct p; try contradiction; cbn [prop_code] in Hc; cbn [prop_data] in Hd;
      try discriminate; apply ok_inj in Hc; apply ok_inj in Hd; subst c d; intros s' rest HI Hm;
      cbn [read_prop_data].
    + destruct (read_string_ok HR s) with (s := s') (rest := rest) as (s1 & -> & HI1); auto.
      { eapply N.le_lt_trans; [apply string_to_bytes_len|].
        eapply N.le_lt_trans; [exact Hs|reflexivity]. }
      cbn [bind]. eauto.
    + destruct (binary_read_ok HR (le_bytes 4 z) 4 (le_bytes_lenN 4 z) s' rest HI Hm)
        as (s1 & -> & HI1). cbn [bind]. rewrite le32_roundtrip by exact Hw. eauto.
    + destruct (binary_read_ok HR (f32_bytes f) 4 (f32_bytes_len f) s' rest HI Hm)
        as (s1 & -> & HI1). cbn [bind]. rewrite f32_bytes_roundtrip. eauto.
    + destruct b; cbn [read_prop_data]; eauto.
    + destruct (read_byte_ok R eager I HR s' b rest HI Hm) as (s1 & -> & HI1). cbn [bind hd]. eauto.
    + destruct (read_float64s_ok [x; y] s' rest) as (s1 & E & HI1);
        [cbn [flat_map]; rewrite <- ?app_assoc in *; exact HI | exact Hm |].
      cbn [length] in E. rewrite E. cbn [bind]. eauto.
    + destruct (read_float64s_ok [x; y; z] s' rest) as (s1 & E & HI1);
        [cbn [flat_map]; rewrite <- ?app_assoc in *; exact HI | exact Hm |].
      cbn [length] in E. rewrite E. cbn [bind]. eauto.
    + destruct (binary_read_ok HR (le_bytes 8 us) 8 (le_bytes_lenN 8 us) s' rest HI Hm)
        as (s1 & -> & HI1). cbn [bind]. rewrite le_val_bytes.
      change (256 ^ Z.of_nat 8)%Z with (2 ^ 64)%Z. rewrite signed_mod by (cbn in Hw; lia). eauto.
    + destruct Hw as [[x Hx]|[x Hx]]; injection Hx as -> ->.
      * change ((13 + 5) mod 256) with 18. cbn iota beta.
        destruct (read_bytes_array_ok HR x) with (s := s') (rest := rest) as (s1 & -> & HI1); auto.
        { eapply N.le_lt_trans with (lenN (bytes_array_to_bytes x)).
          - unfold bytes_array_to_bytes. rewrite lenN_app. lia.
          - eapply N.le_lt_trans; [exact Hs|reflexivity]. }
        cbn [bind]. eauto.
      * change ((13 + 3) mod 256) with 16. cbn iota beta.
        destruct (read_bytes_array_ok HR x) with (s := s') (rest := rest) as (s1 & -> & HI1); auto.
        { eapply N.le_lt_trans with (lenN (bytes_array_to_bytes x)).
          - unfold bytes_array_to_bytes. rewrite lenN_app. lia.
          - eapply N.le_lt_trans; [exact Hs|reflexivity]. }
        cbn [bind]. eauto.
  - destruct fuel as [|fuel]; [lia|].
    injection Hc as <-. rewrite prop_data_block in Hd. apply bind_ok in Hd as (t & Ht & Hd).
    injection Hd as <-. apply built_block_iff in Hw as [Hn Hw].
    intros s rest HI Hm. cbn [read_prop_data]. unfold read_nested_with.
    rewrite lenN_app in Hs. rewrite app_length in Hf. rewrite <- app_assoc in HI.
    destruct (string_array_len (map fst m)) as [Hk1 Hk2].
    destruct (read_string_array_ok HR (map fst m)) with (s := s) (rest := t ++ rest)
      as (s1 & -> & HI1); auto with more.
    { apply N.lt_le_incl. eapply N.lt_le_trans; [exact Hk1|].
      eapply N.le_trans; [apply N.le_add_r | exact Hs]. }
    { eapply Forall_impl; [|exact Hk2]. cbv beta. intros a Ha.
      eapply N.lt_le_trans; [exact Ha|]. eapply N.le_trans; [apply N.le_add_r|].
      eapply N.le_trans; [exact Hs | discriminate]. }
    cbn [bind].
    destruct (read_entries_ok (read_property_with R (read_prop_data R fuel)) m [] t Ht)
      with (s := s1) (rest := rest) as (s2 & -> & HI2); auto.
    { intros k v c x Hin Hc Hx Hl Hl' s2 rest2 HI2 Hm2.
      rewrite Forall_forall in IH, Hw.
      unfold read_property_with. cbn [app] in HI2.
      destruct (read_byte_ok R eager I HR s2 _ _ HI2) as (s3 & -> & HI3).
      { auto with more. }
      cbn [bind hd]. rewrite b2n_n2b_small by (eapply prop_code_lt; eauto).
      apply (IH (k, v) Hin (Hw _ Hin) c x fuel Hc Hx); auto; lia. }
    cbn [bind]. eauto.
  - destruct fuel as [|fuel]; [lia|].
    rewrite prop_data_array in Hd. apply bind_ok in Hd as (t & Ht & Hd).
    injection Hd as <-. apply built_array_iff in Hw as [Hb Hw].
    intros s rest HI Hm.
    rewrite lenN_app in Hs. rewrite app_length in Hf. rewrite <- app_assoc in HI.
    pose proof (elems_data_len b ps t Hb Hw Ht) as Hlen.
    destruct (read_uvarint_ok HR (lenN ps)) with (s := s) (rest := t ++ rest)
      as (s1 & E1 & HI1); auto with more.
    { eapply N.le_lt_trans with (2 ^ 44); [lia | reflexivity]. }
    destruct (read_props_ok (read_prop_data R fuel b) ps t Ht)
      with (s := s1) (rest := rest) as (s2 & E2 & HI2); auto.
    { rewrite Forall_forall in IH, Hw. intros v x Hin Hx Hl Hl'.
      destruct (Hw v Hin) as [Hcv Hv]. apply (IH v Hin Hv b x fuel Hcv Hx); [lia|].
      pose proof (put_uvarint_nonempty (lenN ps)) as Hne.
      destruct (put_uvarint (lenN ps)); [congruence|]. cbn in Hf. lia. }
    exists s2. split; [|assumption].
    apply ok_inj in Hc. subst c. clear IH.
    assert (Hmk : forall k : res (option prop * option err * S), go_make 16 (lenN ps) k = k).
    { intro k. apply go_make_ok. change (2 ^ 48) with (16 * 2 ^ 44). apply N.mul_le_mono_l. lia. }
    assert (Hn : N.to_nat (lenN ps) = length ps) by (unfold lenN; apply Nat2N.id).
    cbn in Hb.
    repeat (destruct Hb as [<-|Hb]); try contradiction;
      match goal with |- read_prop_data R _ ?c s = _ =>
        let v := eval vm_compute in c in change c with v end;
      cbn [read_prop_data]; rewrite E1; cbn [bind]; rewrite Hmk, Hn;
      match goal with |- context [?a - 13] =>
        let v := eval vm_compute in (a - 13) in change (a - 13) with v end;
      rewrite E2; reflexivity.
Qed.

Theorem read_property_ok : forall p enc, built p -> write_property p = Ok enc ->
  lenN enc <= 2 ^ 44 -> parses (read_property R) enc (Some p, None).
Proof.
  intros p enc Hw He Hs s rest HI Hm.
  unfold write_property in He. apply bind_ok in He as (c & Hc & He).
  apply bind_ok in He as (d & Hd & He). injection He as <-.
  unfold read_property, read_property_with.
  pose proof (s_left _ _ _ HR _ _ HI) as Hleft.
  cbn [app] in HI.
  destruct (read_byte_ok R eager I HR s _ _ HI) as (s1 & -> & HI1); [auto with more|].
  cbn [bind hd]. rewrite b2n_n2b_small by (eapply prop_code_lt; eauto).
  rewrite lenN_cons in Hs. cbn [app length] in Hleft. rewrite app_length in Hleft.
  eapply read_prop_data_ok; eauto; [lia|]. unfold prop_fuel. lia.
Qed.
End Reading.

(** A constructible property can always be written. *)
Lemma built_code : forall p, built p -> exists c, prop_code p = Ok c.
Proof. intros []; cbn; eauto; contradiction. Qed.
Lemma built_data : forall p, built p -> exists d, prop_data p = Ok d.
Proof.
  induction p as [p Hleaf | m IH | b ps IH] using prop_ind'; intro Hw.
  - destruct p; cbn; eauto; contradiction.
  - rewrite prop_data_block. apply built_block_iff in Hw as [_ Hw].
    assert (exists t, entries_data m = Ok t) as [t ->]; [|cbn; eauto].
    induction m as [|[k v] m IHm]; [cbn; eauto|].
    inversion IH; inversion Hw; subst. cbn [entries_data snd] in *.
    destruct (built_code v) as [c ->]; auto. destruct (H1 H5) as [d ->].
    destruct IHm as [t ->]; auto. cbn. eauto.
  - rewrite prop_data_array. apply built_array_iff in Hw as [_ Hw].
    assert (exists t, elems_data ps = Ok t) as [t ->]; [|cbn; eauto].
    induction ps as [|v ps IHm]; [cbn; eauto|].
    inversion IH; inversion Hw; subst. cbn [elems_data] in *.
    destruct H1 as [d ->]; [tauto|].
    destruct IHm as [t ->]; auto. cbn. eauto.
Qed.
Lemma built_writes : forall p, built p -> exists enc, write_property p = Ok enc.
Proof.
  intros p Hw. unfold write_property. destruct (built_code p Hw) as [c ->].
  destruct (built_data p Hw) as [d ->]. cbn. eauto.
Qed.

(** ** Iteration orders *)
Scheme prop_equiv_mind := Induction for prop_equiv Sort Prop
  with block_equiv_mind := Induction for block_equiv Sort Prop
  with entries_equiv_mind := Induction for entries_equiv Sort Prop
  with props_equiv_mind := Induction for props_equiv Sort Prop.
Combined Scheme equiv_mutind from
  prop_equiv_mind, block_equiv_mind, entries_equiv_mind, props_equiv_mind.

Lemma prop_equiv_code : forall p q, prop_equiv p q -> prop_code p = prop_code q.
Proof. now intros p q [| |]. Qed.
Lemma entries_equiv_keys : forall m n, entries_equiv m n -> map fst m = map fst n.
Proof. induction 1; cbn; congruence. Qed.
Lemma entries_equiv_refl : forall m, entries_equiv m m.
Proof. induction m as [|[k v] m IH]; constructor; auto. constructor. Qed.
Lemma block_equiv_refl : forall m, block_equiv m m.
Proof. intro m. econstructor; [reflexivity | apply entries_equiv_refl]. Qed.
Lemma perm_block_equiv : forall m n, Permutation m n -> block_equiv m n.
Proof. intros. econstructor; [eassumption | apply entries_equiv_refl]. Qed.

Lemma equiv_built_all :
  (forall p q, prop_equiv p q -> built p -> built q) /\
  (forall m n, block_equiv m n -> NoDup (map fst m) /\ Forall (fun kv => built (snd kv)) m ->
                                  NoDup (map fst n) /\ Forall (fun kv => built (snd kv)) n) /\
  (forall m n, entries_equiv m n -> Forall (fun kv => built (snd kv)) m ->
                                    Forall (fun kv => built (snd kv)) n) /\
  (forall ps qs, props_equiv ps qs -> forall b,
      Forall (fun v => prop_code v = Ok b /\ built v) ps ->
      Forall (fun v => prop_code v = Ok b /\ built v) qs).
Proof.
  apply equiv_mutind; auto.
  - intros m1 m2 _ IH H. apply built_block_iff in H. now apply built_block_iff, IH.
  - intros b ps qs _ IH H. apply built_array_iff in H as [H1 H2].
    apply built_array_iff. auto.
  - intros m1 m m2 Hp He IH [Hn Hw]. split.
    + rewrite <- (entries_equiv_keys _ _ He). eapply Permutation_NoDup; [|exact Hn].
      now apply Permutation_map.
    + apply IH. eapply Permutation_Forall; eauto.
  - intros k v w m n _ IHv _ IHm H. inversion H; subst. constructor; cbn in *; auto.
  - intros v w ps qs Hvw IHv _ IHp b H. inversion H as [|? ? [Hc Hv] H']; subst.
    constructor; auto. split; auto. now rewrite <- (prop_equiv_code _ _ Hvw).
Qed.
Lemma equiv_built : forall p q, prop_equiv p q -> built p -> built q.
Proof. apply equiv_built_all. Qed.

Lemma lookup_In : forall k v m, NoDup (map fst m) -> In (k, v) m -> lookup k m = Some v.
Proof.
  induction m as [|[k' v'] m IH]; intros Hn Hin; [destruct Hin|].
  cbn [map fst] in Hn. inversion Hn; subst. cbn [lookup].
  destruct Hin as [Hin|Hin].
  - injection Hin as -> ->. now rewrite str_eqb_refl.
  - destruct (str_eqb k k') eqn:E; [|auto]. apply str_eqb_eq in E. subst.
    destruct H1. apply in_map_iff. now exists (k', v).
Qed.
Lemma lookup_None : forall k m, ~ In k (map fst m) -> lookup k m = None.
Proof.
  induction m as [|[k' v'] m IH]; intro H; [reflexivity|]. cbn [lookup map fst] in *.
  destruct (str_eqb k k') eqn:E.
  - apply str_eqb_eq in E. subst. destruct H. now left.
  - apply IH. intro. apply H. now right.
Qed.
Lemma lookup_perm : forall k m n, NoDup (map fst m) -> Permutation m n -> lookup k m = lookup k n.
Proof.
  intros k m n Hn Hp.
  assert (Hn' : NoDup (map fst n)) by (eapply Permutation_NoDup; [|exact Hn]; now apply Permutation_map).
  destruct (in_dec str_dec k (map fst m)) as [Hin|Hin].
  - apply in_map_iff in Hin as ([k' v] & E & Hin). cbn in E. subst k'.
    rewrite (lookup_In k v m), (lookup_In k v n); auto. eapply Permutation_in; eauto.
  - rewrite !lookup_None; auto. intro H. apply Hin.
    eapply Permutation_in; [|exact H]. apply Permutation_map. now apply Permutation_sym.
Qed.
Lemma block_equiv_lookup : forall m n, NoDup (map fst m) -> block_equiv m n ->
  forall k, opt_equiv (lookup k m) (lookup k n).
Proof.
  intros m n Hn H k. destruct H as [m1 m m2 Hp He].
  rewrite (lookup_perm k m1 m Hn Hp). clear -He.
  induction He as [|k' v w m n Hvw He IH]; cbn [lookup]; [exact I|].
  now destruct (str_eqb k k').
Qed.

Lemma write_any_order : forall p q, built p -> prop_equiv p q ->
  exists enc, write_property q = Ok enc.
Proof. intros p q Hp Hq. apply built_writes. eapply equiv_built; eauto. Qed.
