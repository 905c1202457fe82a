(** Facts about the String methods. *)
From Coq Require Import Strings.String Permutation Sorting.Sorted Reals Lia Lra.
From Flocq Require Import Core IEEE754.Binary.
From Verif Require Import Base BaseFacts Floats SpecFloat FloatFacts Near32Facts NumFacts BinaryIO BinaryIOFacts Metadata SpecMeta MetadataFacts Recording.
From Verif Require Import Text SpecText TextFacts ToJson SpecToJson ToJsonFacts Summarize Strings SpecStrings.
Local Open Scope N_scope.

(** ** Decimal places *)
Lemma places_len : forall p k, length (places p k) = p.
Proof. induction p as [|p IH]; intro k; [reflexivity|]. cbn [places]. rewrite app_length, IH. cbn [length]. lia. Qed.
Lemma places_ok : forall p k, Forall digit (places p k).
Proof.
  induction p as [|p IH]; intro k; [constructor|]. cbn [places]. apply Forall_app. split; [apply IH|].
  constructor; [|constructor]. apply digit_byte. apply N.mod_lt. discriminate.
Qed.
Lemma pow_S : forall p, 10 ^ N.of_nat (S p) = 10 * 10 ^ N.of_nat p.
Proof. intro p. rewrite Nat2N.inj_succ, N.pow_succ_r'. reflexivity. Qed.
Lemma pow_nz : forall p, 10 ^ N.of_nat p <> 0.
Proof. intro p. apply N.pow_nonzero. discriminate. Qed.
Lemma places_val : forall p k a, text_val a (places p k) = a * 10 ^ N.of_nat p + k mod 10 ^ N.of_nat p.
Proof.
  induction p as [|p IH]; intros k a.
  - cbn [places text_val]. change (10 ^ N.of_nat 0) with 1. rewrite N.mod_1_r. lia.
  - cbn [places]. rewrite text_val_app, IH. cbn [text_val].
    destruct (digit_byte (k mod 10)) as [_ ->]; [apply N.mod_lt; discriminate|].
    rewrite pow_S. rewrite N.mod_mul_r by (try discriminate; apply pow_nz). lia.
Qed.
Lemma pow_IZR : forall p, IZR (Z.of_N (10 ^ N.of_nat p)) = (10 ^ p)%R.
Proof.
  induction p as [|p IH]; [reflexivity|]. rewrite pow_S, N2Z.inj_mul, mult_IZR, IH. reflexivity.
Qed.
Lemma scaled_near : forall p m e,
  (Rabs (IZR (Z.of_N (scaled p m e)) / 10 ^ p - F2R (Float radix2 (Zpos m) e)) <= / 2 / 10 ^ p)%R.
Proof.
  intros p m e. unfold scaled, F2R. cbn [Fnum Fexp]. pose proof (pow_IZR p) as EP.
  assert (HP : (0 < 10 ^ p)%R) by (apply pow_lt; lra). set (P := (10 ^ p)%R) in *.
  destruct (Z.leb_spec 0 e) as [He|He].
  - rewrite !N2Z.inj_mul, (N2Z.inj_pow 2), Z2N.id by exact He. change (Z.of_N 2) with (radix_val radix2).
    change (Z.of_N (N.pos m)) with (Zpos m). rewrite !mult_IZR, EP.
    rewrite (IZR_Zpower radix2 e He). replace (_ - _)%R with 0%R by (field; lra).
    rewrite Rabs_R0. apply Rmult_le_pos; [lra|]. left. now apply Rinv_0_lt_compat.
  - pose proof (div_even_near (N.pos m * 10 ^ N.of_nat p) (2 ^ Z.to_N (- e))) as H.
    assert (Hd : 2 ^ Z.to_N (- e) <> 0) by (apply N.pow_nonzero; discriminate). specialize (H Hd).
    rewrite N2Z.inj_mul, mult_IZR, EP in H.
    rewrite N2Z.inj_pow, Z2N.id in H by lia. change (Z.of_N 2) with (radix_val radix2) in H. change (Z.of_N (N.pos m)) with (Zpos m) in H.
    rewrite (IZR_Zpower radix2 (- e)) in H by lia.
    assert (Eb : (bpow radix2 e = / bpow radix2 (- e))%R) by (rewrite <- bpow_opp; f_equal; lia). rewrite Eb.
    set (q := IZR (Z.of_N (div_even _ _))) in *. set (b := bpow radix2 (- e)) in *.
    assert (Hb : (0 < b)%R) by apply bpow_gt_0.
    replace (q / P - IZR (Z.pos m) * / b)%R with ((q - IZR (Z.pos m) * P / b) / P)%R by (field; lra).
    assert (HI : (0 < / P)%R) by now apply Rinv_0_lt_compat.
    unfold Rdiv at 1. rewrite Rabs_mult, (Rabs_pos_eq (/ P)) by lra.
    unfold Rdiv at 2. apply Rmult_le_compat_r; [lra|exact H].
Qed.
Lemma fixed_decimal : forall p x, is_finite 53 1024 x = true -> decimal p (fixed p x) x.
Proof.
  intros p x Hx.
  assert (Q : forall (s : bool) n, Bsign 53 1024 x = s ->
    (Rabs ((if s then -1 else 1) * (IZR (Z.of_N n) / 10 ^ p) - B2R 53 1024 x) <= / 2 / 10 ^ p)%R ->
    decimal p ((if s then lit "-" else []) ++ show_N (n / 10 ^ N.of_nat p) ++ lit "." ++ places p n) x).
  { intros s n Es H. split; [exact Hx|]. exists (show_N (n / 10 ^ N.of_nat p)), (places p n), (n / 10 ^ N.of_nat p).
    rewrite Es. split; [reflexivity|]. pose proof (show_N_spells (n / 10 ^ N.of_nat p)) as Hs.
    split; [exact Hs|]. split; [apply places_len|]. split; [apply places_ok|].
    rewrite text_val_app. destruct Hs as (_ & _ & -> & _). rewrite places_val.
    rewrite (N.mul_comm (_ / _)), <- N.div_mod by apply pow_nz.
    replace ((if s then -1 else 1) * IZR (Z.of_N n) / 10 ^ p)%R with ((if s then -1 else 1) * (IZR (Z.of_N n) / 10 ^ p))%R by (unfold Rdiv; ring).
    exact H. }
  assert (HP : (0 < / 10 ^ p)%R) by (apply Rinv_0_lt_compat, pow_lt; lra).
  destruct x as [s|s|s pl Hpl|s m e He]; try discriminate Hx; unfold fixed; cbv zeta; apply Q; auto.
  - cbn [B2R]. replace (Z.of_N 0) with 0%Z by reflexivity. unfold Rdiv. rewrite Rmult_0_l, Rmult_0_r, Rminus_0_r, Rabs_R0. lra.
  - pose proof (scaled_near p m e) as H. unfold B2R. destruct s; cbn [cond_Zopp].
    + change (Float radix2 _ e) with (Float radix2 (- Z.pos m) e). rewrite F2R_Zopp.
      set (u := (IZR (Z.of_N (scaled p m e)) / 10 ^ p)%R) in *. set (v := F2R _) in *.
      replace (-1 * u - - v)%R with (- (u - v))%R by ring.
      rewrite Rabs_Ropp. exact H.
    + rewrite Rmult_1_l. exact H.
Qed.
Lemma fixed_decimals : forall p x, decimals p (fixed p x) x.
Proof.
  intros p x. destruct (is_finite 53 1024 x) eqn:F; [left; now apply fixed_decimal|].
  destruct x as [s|s|s pl Hpl|s m e He]; try discriminate F.
  - right. left. exists s. auto.
  - right. right. auto.
Qed.
(** The six places of the JSON export are the same. *)
Lemma fixed_six : forall x, fixed 6 x = fixed6 x.
Proof.
  assert (E : forall k, places 6 k = six_digits (k mod 10 ^ 6)).
  { intro k. unfold six_digits, bs. cbn [places map app]. change (10 ^ 6) with 1000000.
    assert (H : forall a, a <> 0 -> forall b, a * b = 1000000 -> b mod 10 = 0 -> (k mod 1000000) / a mod 10 = k / a mod 10).
    { intros a Ha b Eb Hb. assert (Hb0 : b <> 0) by (intro; subst; lia).
      rewrite <- Eb. rewrite N.mod_mul_r by assumption. rewrite N.mul_comm, N.div_add by assumption.
      rewrite (N.div_small (k mod a)) by now apply N.mod_lt.
      rewrite N.add_0_l. assert (Eb' : b = 10 * (b / 10)) by (pose proof (N.div_mod b 10); lia).
      rewrite Eb'. rewrite N.mod_mul_r by lia. rewrite (N.mul_comm 10 (_ mod _)), N.mod_add by discriminate.
      now rewrite N.mod_mod. }
    pose proof (H 1 ltac:(discriminate) 1000000 eq_refl eq_refl) as H0. rewrite !N.div_1_r in H0.
    pose proof (H 100000 ltac:(discriminate) 10 eq_refl eq_refl) as H5. pose proof (H 10000 ltac:(discriminate) 100 eq_refl eq_refl) as H4.
    pose proof (H 1000 ltac:(discriminate) 1000 eq_refl eq_refl) as H3. pose proof (H 100 ltac:(discriminate) 10000 eq_refl eq_refl) as H2.
    pose proof (H 10 ltac:(discriminate) 100000 eq_refl eq_refl) as H1. clear H.
    set (r := k mod 1000000) in *. clearbody r.
    rewrite H5, H4, H3, H2, H1, H0. clear. rewrite !N.div_div by discriminate. reflexivity. }
  intros [s|s|s pl Hpl|s m e He]; unfold fixed, fixed6; cbv zeta; rewrite ?E; reflexivity.
Qed.

(** ** The order of keys *)
Lemma leb_refl : forall a, str_leb a a = true.
Proof. induction a as [|x a IH]; [reflexivity|]. cbn [str_leb]. rewrite N.ltb_irrefl. exact IH. Qed.
Lemma leb_before : forall a b, str_leb a b = true <-> a = b \/ before a b.
Proof.
  induction a as [|x a IH]; intros [|y b]; cbn [str_leb].
  - split; auto.
  - split; [|reflexivity]. intros _. right. exists [], b. left. split; [reflexivity|]. now exists y.
  - split; [discriminate|]. intros [H|(p & r & [(<- & c & H)|(u & v & s & _ & H & _)])]; [discriminate H| |].
    + discriminate H.
    + destruct p; discriminate H.
  - destruct (N.ltb_spec (b2n x) (b2n y)) as [L|L].
    { split; [|reflexivity]. intros _. right. exists [], a. right. exists x, y, b. auto. }
    destruct (N.ltb_spec (b2n y) (b2n x)) as [G|G].
    { split; [discriminate|]. intros [H|(p & r & [(E & c & H)|(u & v & s & E & H & Huv)])].
      - injection H as -> ->. lia.
      - subst p. injection H as -> _. lia.
      - destruct p as [|h p]; injection E as -> ->; injection H as -> ->; lia. }
    assert (x = y) as -> by (apply b2n_inj; lia).
    rewrite IH. split; (intros [H|(p & r & [(E & c & H)|(u & v & s & E & H & Huv)])]; [left|right|right]).
    + now subst.
    + exists (y :: p), r. left. subst a. split; [reflexivity|]. exists c. now subst.
    + exists (y :: p), r. right. exists u, v, s. now subst.
    + now injection H.
    + subst p. injection H as H. exists a, r. left. split; [reflexivity|]. now exists c.
    + destruct p as [|h p].
      * injection E as -> ->. injection H as -> ->. lia.
      * injection E as -> ->. injection H as ->. exists p, r. right. exists u, v, s. auto.
Qed.
Lemma leb_total : forall a b, str_leb a b = false -> str_leb b a = true.
Proof.
  induction a as [|x a IH]; intros [|y b]; cbn [str_leb]; try discriminate; [reflexivity|].
  destruct (N.ltb_spec (b2n x) (b2n y)); [discriminate|]. destruct (N.ltb_spec (b2n y) (b2n x)); [reflexivity|]. apply IH.
Qed.
Lemma leb_trans : forall a b c, str_leb a b = true -> str_leb b c = true -> str_leb a c = true.
Proof.
  induction a as [|x a IH]; intros [|y b] [|z c]; cbn [str_leb]; try discriminate; try reflexivity.
  destruct (N.ltb_spec (b2n x) (b2n y)); destruct (N.ltb_spec (b2n y) (b2n z)); destruct (N.ltb_spec (b2n x) (b2n z));
    destruct (N.ltb_spec (b2n z) (b2n x)); destruct (N.ltb_spec (b2n y) (b2n x)); destruct (N.ltb_spec (b2n z) (b2n y));
    try discriminate; try reflexivity; try lia.
  apply IH.
Qed.
Lemma leb_antisym : forall a b, str_leb a b = true -> str_leb b a = true -> a = b.
Proof.
  induction a as [|x a IH]; intros [|y b]; cbn [str_leb]; try discriminate; [reflexivity|].
  destruct (N.ltb_spec (b2n x) (b2n y)) as [L|L]; destruct (N.ltb_spec (b2n y) (b2n x)) as [G|G]; try discriminate; try lia.
  assert (x = y) as -> by (apply b2n_inj; lia). intros. f_equal. now apply IH.
Qed.

Section Sorting.
Context {A : Type}.
Notation le := (fun a b : str * A => str_leb (fst a) (fst b) = true).
Lemma insert_sorted : forall (kv : str * A) l, StronglySorted le l -> StronglySorted le (insert_key kv l).
Proof.
  intros kv l H. induction H as [|h l Hl IH Hh]; cbn [insert_key]; [repeat constructor|].
  destruct (str_leb (fst kv) (fst h)) eqn:E.
  - constructor; [now constructor|]. constructor; [exact E|].
    eapply Forall_impl; [|exact Hh]. intros a Ha. exact (leb_trans _ _ _ E Ha).
  - constructor; [exact IH|]. rewrite Forall_forall in *. intros x Hx.
    apply (Permutation_in x (insert_perm A kv l)) in Hx. destruct Hx as [<-|Hx]; [now apply leb_total|now apply Hh].
Qed.
Lemma sort_sorted : forall l : list (str * A), StronglySorted le (sort_keys l).
Proof. induction l as [|kv l IH]; [constructor|]. cbn [sort_keys]. now apply insert_sorted. Qed.
Lemma sorted_unique : forall l1 l2 : list (str * A), NoDup (map fst l1) ->
  StronglySorted le l1 -> StronglySorted le l2 -> Permutation l1 l2 -> l1 = l2.
Proof.
  induction l1 as [|a l1 IH]; intros l2 Hn H1 H2 HP.
  - apply Permutation_nil in HP. now subst.
  - destruct l2 as [|b l2]; [apply Permutation_sym, Permutation_nil in HP; discriminate|].
    inversion H1 as [|? ? S1 F1]; subst. inversion H2 as [|? ? S2 F2]; subst.
    assert (Eab : a = b).
    { assert (Ia : In a (b :: l2)) by (apply (Permutation_in a HP); now left).
      assert (Ib : In b (a :: l1)) by (apply (Permutation_in b (Permutation_sym HP)); now left).
      destruct Ia as [->|Ia]; [reflexivity|]. destruct Ib as [->|Ib]; [reflexivity|].
      rewrite Forall_forall in F1, F2. pose proof (F1 _ Ib) as L1. pose proof (F2 _ Ia) as L2.
      pose proof (leb_antisym _ _ L1 L2) as Ek. cbn [map] in Hn. inversion Hn as [|? ? Hk _]; subst.
      exfalso. apply Hk. rewrite Ek. now apply in_map. }
    subst b. f_equal. apply IH; auto; [now inversion Hn|]. now apply Permutation_cons_inv in HP.
Qed.
Lemma sort_unique : forall l1 l2 : list (str * A), NoDup (map fst l1) -> Permutation l1 l2 -> sort_keys l1 = sort_keys l2.
Proof.
  intros l1 l2 Hn HP. apply sorted_unique; try apply sort_sorted.
  - eapply Permutation_NoDup; [|exact Hn]. apply Permutation_map, Permutation_sym, sort_perm.
  - rewrite sort_perm, HP. apply Permutation_sym, sort_perm.
Qed.
Lemma sorted_before : forall l : list (str * A), NoDup (map fst l) -> StronglySorted le l ->
  StronglySorted (fun a b => before (fst a) (fst b)) l.
Proof.
  induction l as [|a l IH]; intros Hn H; [constructor|]. inversion H as [|? ? S1 F1]; subst.
  cbn [map] in Hn. inversion Hn as [|? ? Hk Hn']; subst. constructor; [now apply IH|].
  rewrite Forall_forall in *. intros b Hb. pose proof (F1 b Hb) as L. apply leb_before in L as [L|L]; [|exact L].
  exfalso. apply Hk. rewrite L. now apply in_map.
Qed.
End Sorting.
Definition with_values {A B} (f : A -> B) (l : list (str * A)) : list (str * B) := map (fun kv => (fst kv, f (snd kv))) l.
Lemma sort_values : forall A B (f : A -> B) l, sort_keys (with_values f l) = with_values f (sort_keys l).
Proof.
  intros A B f. induction l as [|kv l IH]; [reflexivity|]. cbn [with_values map sort_keys].
  fold (with_values f l). rewrite IH. generalize (sort_keys l). clear.
  induction l as [|h l IH]; [reflexivity|]. cbn [with_values map insert_key fst]. destruct (str_leb (fst kv) (fst h)); [reflexivity|].
  cbn [map]. f_equal. exact IH.
Qed.

(** ** Blocks *)
Definition block_lines (l : list (str * res str)) : res str :=
  fold_right (fun (kt : str * res str) acc =>
    do t <- snd kt; do rest <- acc;
    Ok (bs [9] ++ lit """" ++ fst kt ++ lit """: " ++ t ++ lit ";" ++ nl ++ rest)) (Ok []) l.
Lemma string_block : forall m, prop_string (PBlock m) =
  do body <- block_lines (with_values prop_string (sort_keys m)); Ok (lit "{" ++ nl ++ body ++ lit "}").
Proof.
  intro m. rewrite <- sort_values. cbn [prop_string]. unfold block_lines. do 3 f_equal.
  induction m as [|[k v] m IH]; [reflexivity|]. cbn [with_values map fst snd]. f_equal. exact IH.
Qed.

Lemma string_same : forall p q, prop_equiv p q -> proper p -> prop_string p = prop_string q.
Proof.
  induction p as [p Hp | m IH | b ps IH] using prop_ind'; intros q H HN.
  - inversion H; subst; try reflexivity; contradiction.
  - inversion H as [|? m2 HB|]; subst; [reflexivity|]. inversion HB as [? m' ? HP HE]; subst.
    inversion HN as [p Hp|? Hn Hv]; subst; [contradiction|].
    rewrite !string_block, <- !sort_values. do 2 f_equal.
    assert (E : with_values prop_string m' = with_values prop_string m2).
    { assert (HF : forall k v, In (k, v) m' -> forall w, prop_equiv v w -> prop_string v = prop_string w).
      { intros k v Hkv w Hvw. apply (Permutation_in _ (Permutation_sym HP)) in Hkv. rewrite Forall_forall in IH.
        apply (IH _ Hkv w Hvw). exact (Hv k v Hkv). }
      clear - HE HF. induction HE as [|k v w m n Hvw HE' IHE]; [reflexivity|].
      cbn [with_values map fst snd]. f_equal; [f_equal; apply (HF k v); [now left|exact Hvw]|].
      apply IHE. intros k' v' H'. apply (HF k' v'). now right. }
    rewrite <- E. apply sort_unique.
    + unfold with_values. rewrite map_map. exact Hn.
    + now apply Permutation_map.
  - inversion H as [| |? ? qs HQ]; subst; [reflexivity|]. cbn [prop_string]. do 4 f_equal.
    unfold show_nat. do 3 f_equal. clear - HQ. induction HQ as [|v w ps qs _ _ IHQ]; [reflexivity|]. cbn [length]. now f_equal.
Qed.

Lemma lines_panic : forall l : list (str * res str), (forall k t, In (k, t) l -> t <> Stuck) ->
  (block_lines l = Panic <-> exists k, In (k, Panic) l) /\ block_lines l <> Stuck.
Proof.
  induction l as [|[k t] l IH]; intro H; cbn [block_lines fold_right fst snd].
  - split; [|discriminate]. split; [discriminate|]. intros (k & []).
  - fold (block_lines l). destruct IH as [IH1 IH2]; [intros k' t' H'; apply (H k' t'); now right|].
    destruct t as [t| |]; cbn [bind].
    + destruct (block_lines l) as [r| |] eqn:E; cbn [bind]; (split; [|congruence]).
      * split; [discriminate|]. intros (k' & [H'|H']); [discriminate H'|]. destruct IH1 as [_ IH1]. discriminate (IH1 (ex_intro _ k' H')).
      * split; [|reflexivity]. intros _. destruct IH1 as [IH1 _]. destruct (IH1 eq_refl) as (k' & Hk). exists k'. now right.
      * congruence.
    + split; [|discriminate]. split; [|reflexivity]. intros _. exists k. now left.
    + exfalso. apply (H k Stuck); [now left|reflexivity].
Qed.
Lemma string_panic : forall p, (prop_string p = Panic <-> shows_nil p) /\ prop_string p <> Stuck.
Proof.
  induction p as [p Hp | m IH | b ps IH] using prop_ind'.
  - destruct p; try contradiction; cbn [prop_string]; (split; [|discriminate]); (split; [discriminate||constructor|]);
      intro H; inversion H; reflexivity.
  - rewrite string_block. destruct (lines_panic (with_values prop_string (sort_keys m))) as [L1 L2].
    { intros k t H. apply in_map_iff in H as ([k' v] & E & H). injection E as <- <-.
      apply (Permutation_in _ (sort_perm _ m)) in H. rewrite Forall_forall in IH. apply (IH _ H). }
    assert (E : (exists k, In (k, Panic) (with_values prop_string (sort_keys m))) <-> shows_nil (PBlock m)).
    { split.
      - intros (k & H). apply in_map_iff in H as ([k' v] & E & H). injection E as _ E. cbn [snd] in E.
        apply (Permutation_in _ (sort_perm _ m)) in H. rewrite Forall_forall in IH. apply N_in with k' v; [exact H|].
        now apply (IH _ H).
      - intro H. inversion H as [|? k v Hv HS]; subst. exists k. apply in_map_iff. exists (k, v).
        split; [cbn [fst snd]; f_equal; rewrite Forall_forall in IH; now apply (IH _ Hv)|].
        exact (Permutation_in _ (Permutation_sym (sort_perm _ m)) Hv). }
    rewrite <- E, <- L1. clear - L2. destruct (block_lines _) as [r| |]; cbn [bind].
    + split; [|discriminate]. split; discriminate.
    + split; [|discriminate]. split; reflexivity.
    + now elim L2.
  - cbn [prop_string]. split; [|discriminate]. split; [discriminate|]. intro H. inversion H.
Qed.
Lemma string_displays : forall p, proper p -> ~ shows_nil p -> ~ shows_raw p -> exists t, prop_string p = Ok t /\ displays p t.
Proof.
  induction p as [p Hp | m IH | b ps IH] using prop_ind'; intros HP HN HR.
  - destruct p; try contradiction; try (exfalso; apply HR; constructor); try (exfalso; apply HN; constructor);
      cbn [prop_string]; eexists; (split; [reflexivity|]); constructor;
      try apply fixed_decimals; try apply show_N_spells; try apply show_Z_tells.
  - rewrite string_block. inversion HP as [p Hp|? Hn Hv]; subst; [contradiction|].
    assert (E : exists body, block_lines (with_values prop_string (sort_keys m)) = Ok body /\ lines (sort_keys m) body).
    { assert (HF : forall k v, In (k, v) (sort_keys m) -> exists t, prop_string v = Ok t /\ displays v t).
      { intros k v H. apply (Permutation_in _ (sort_perm _ m)) in H. rewrite Forall_forall in IH.
        apply (IH _ H); [exact (Hv k v H)| |]; intro HX.
        - apply HN. now apply N_in with k v.
        - apply HR. now apply W_in with k v. }
      revert HF. generalize (sort_keys m) as l. clear. induction l as [|[k v] l IH]; intro HF.
      - exists []. split; [reflexivity|constructor].
      - destruct IH as (body & E & HL); [intros k' v' H'; apply (HF k' v'); now right|].
        destruct (HF k v) as (t & Et & Ht); [now left|].
        cbn [with_values map block_lines fold_right fst snd]. fold (with_values prop_string l). fold (block_lines (with_values prop_string l)).
        rewrite Et, E. cbn [bind]. eexists. split; [reflexivity|]. now constructor. }
    destruct E as (body & -> & HL). cbn [bind]. eexists. split; [reflexivity|].
    change (lit "{" ++ nl ++ body ++ lit "}") with (bs [123; 10] ++ body ++ lit "}").
    apply D_block with (sort_keys m); [apply Permutation_sym, sort_perm| |exact HL].
    apply sorted_before; [|apply sort_sorted]. eapply Permutation_NoDup; [|exact Hn].
    apply Permutation_map, Permutation_sym, sort_perm.
  - cbn [prop_string]. eexists. split; [reflexivity|]. constructor; apply show_N_spells.
Qed.

(** ** Arrays of bytes *)
Lemma digits_split : forall (a b r s : str) c, Forall digit a -> Forall digit b -> ~ digit c ->
  a ++ c :: r = b ++ c :: s -> a = b /\ r = s.
Proof.
  induction a as [|x a IH]; intros [|y b] r s c Ha Hb Hc H; cbn [app] in H.
  - injection H as ->. auto.
  - injection H as -> _. inversion Hb; subst. contradiction.
  - injection H as -> _. inversion Ha; subst. contradiction.
  - injection H as -> H. inversion Ha; inversion Hb; subst. destruct (IH b r s c) as [-> ->]; auto.
Qed.
Lemma raw_miscounts : forall base d k b n, (k < length d)%nat -> spells n (N.of_nat k) -> spells b base ->
  prop_string (PRaw base d) <> Ok (lit "Type " ++ b ++ lit " Array of " ++ n ++ lit " elements").
Proof.
  intros base d k b n Hl Hn Hb H. cbn [prop_string] in H. apply ok_inj, app_inv_head in H.
  assert (Hsp : ~ digit " "%byte) by (unfold digit; cbn; lia).
  pose proof (show_N_spells base) as Hs. change (show_nat (length d)) with (show_N (N.of_nat (length d))) in H.
  pose proof (show_N_spells (N.of_nat (length d))) as Hm.
  apply digits_split in H as [_ H]; [|apply Hs|apply Hb|exact Hsp].
  apply (app_inv_head (lit "Array of ")) in H. apply digits_split in H as [H _]; [|apply Hm|apply Hn|exact Hsp].
  rewrite H in Hm. pose proof (spells_inj _ _ _ Hm Hn). lia.
Qed.
Lemma raw_longer : forall d, (length d < length (bytes_array_to_bytes d))%nat.
Proof.
  intro d. unfold bytes_array_to_bytes. rewrite app_length. pose proof (put_uvarint_nonempty (lenN d)) as H.
  destruct (put_uvarint (lenN d)); [now elim H|]. cbn [length]. lia.
Qed.

(** ** Sizes *)
Lemma div1024 : forall x z k, fin64 x = true -> (0 <= z <= 2 ^ 53)%Z -> (0 <= k <= 20)%Z -> val64 x = (IZR z * bpow radix2 (- k))%R ->
  fin64 (fdiv x (f64_of_Z 1024)) = true /\ val64 (fdiv x (f64_of_Z 1024)) = (IZR z * bpow radix2 (- (k + 10)))%R.
Proof.
  intros x z k Fx Hz Hk Ex. destruct (val_f64_of_Z 1024) as [F V]; [lia|].
  assert (Eq : (val64 x / val64 (f64_of_Z 1024) = IZR z * bpow radix2 (- (k + 10)))%R).
  { rewrite Ex, V. replace (- (k + 10))%Z with (- k + -10)%Z by lia. rewrite bpow_plus.
    change (bpow radix2 (-10)) with (/ 1024)%R. unfold Rdiv. ring. }
  assert (Hf : generic_format radix2 (FLT_exp (-1074) 53) (val64 x / val64 (f64_of_Z 1024))).
  { rewrite Eq. apply multiple_format with (g := (- (k + 10))%Z); [lia|now exists z|].
    rewrite Rabs_mult, (Rabs_pos_eq (bpow _ _)) by apply bpow_ge_0. rewrite <- abs_IZR, (Z.add_comm (- (k + 10)) 53), (bpow_plus radix2 53).
    apply Rmult_le_compat_r; [apply bpow_ge_0|]. change (bpow radix2 53) with (IZR (2 ^ 53)). apply IZR_le. lia. }
  assert (Hr : rnd64 (val64 x / val64 (f64_of_Z 1024)) = (val64 x / val64 (f64_of_Z 1024))%R) by (apply round_generic; [typeclasses eauto|exact Hf]).
  rewrite <- Eq. rewrite <- Hr. apply fdiv_correct; [exact Fx|rewrite V; lra|].
  rewrite Hr, Eq. rewrite Rabs_mult, (Rabs_pos_eq (bpow _ _)), <- abs_IZR by apply bpow_ge_0.
  apply Rle_lt_trans with (bpow radix2 53 * bpow radix2 0)%R; [|rewrite <- bpow_plus; apply bpow_lt; lia].
  apply Rmult_le_compat; [apply IZR_le; lia|apply bpow_ge_0| |apply bpow_le; lia].
  change (bpow radix2 53) with (IZR (2 ^ 53)). apply IZR_le. lia.
Qed.
Lemma size_shown : forall size, (0 <= size <= 2 ^ 53)%Z ->
  let k := fdiv (f64_of_Z size) (f64_of_Z 1024) in
  let m := fdiv k (f64_of_Z 1024) in
  print_size (fixed 2) size =
    (if (size <? 1024)%Z then show_Z size ++ lit "b"
     else if (size <? 1024 * 1024)%Z then fixed 2 k ++ lit "kb" else fixed 2 m ++ lit "mb") /\
  (fin64 k = true /\ val64 k = IZR size / 1024)%R /\ (fin64 m = true /\ val64 m = IZR size / (1024 * 1024))%R.
Proof.
  intros size Hs k m. destruct (val_f64_of_Z size) as [F V]; [lia|].
  destruct (div1024 (f64_of_Z size) size 0) as [Fk Vk]; [exact F|lia|lia|rewrite V; change (bpow radix2 (- 0)) with 1%R; ring|].
  destruct (div1024 k size 10) as [Fm Vm]; [exact Fk|lia|lia|exact Vk|].
  fold k in Fk, Vk. fold m in Fm, Vm.
  assert (Vk' : (val64 k = IZR size / 1024)%R) by (rewrite Vk; change (bpow radix2 (- (0 + 10))) with (/ 1024)%R; reflexivity).
  split.
  2:{ split; (split; [assumption|]); [exact Vk'|]. rewrite Vm. change (bpow radix2 (- (10 + 10))) with (/ 1048576)%R. field. }
  unfold print_size. cbv zeta. fold k. fold m. destruct (size <? 1024)%Z; [reflexivity|].
  destruct (val_f64_of_Z 1024) as [F1 V1]; [lia|].
  replace (flt k (f64_of_Z 1024)) with (size <? 1024 * 1024)%Z; [reflexivity|].
  apply eq_true_iff_eq. rewrite flt_iff, Z.ltb_lt. rewrite (xval_finite _ Fk), (xval_finite _ F1).
  change (B2R 53 1024 k) with (val64 k). change (B2R 53 1024 (f64_of_Z 1024)) with (val64 (f64_of_Z 1024)). rewrite Vk', V1. split.
  - intro H. eexists _, _. split; [reflexivity|]. split; [reflexivity|]. apply IZR_lt in H. rewrite mult_IZR in H. lra.
  - intros (a & b & Ea & Eb & H). injection Ea as <-. injection Eb as <-. apply lt_IZR. rewrite mult_IZR. lra.
Qed.
