(** Facts about the BSON export. *)
From Coq Require Import ZArith Lia Permutation Strings.String.
From Flocq Require Import Core.Zaux IEEE754.Binary.
From Verif Require Import Base BaseFacts IO Spec IOFacts Floats ByteFacts BinaryIO BinaryIOFacts.
From Verif Require Import Metadata SpecMeta MetadataFacts Recording RecordingFacts Text SpecText TextFacts ToJsonFacts Near32Facts ResaveFacts.
From Verif Require Import Bson SpecBson.
Local Open Scope N_scope.

Scheme value_m := Minimality for value Sort Prop
  with document_m := Minimality for document Sort Prop
  with elements_m := Minimality for elements Sort Prop.
Combined Scheme bson_mutind from value_m, document_m, elements_m.

(** ** Bytes can be read in one way only *)
Lemma app_same : forall (a b r s : bytes), length a = length b -> a ++ r = b ++ s -> a = b /\ r = s.
Proof.
  induction a as [|x a IH]; intros [|y b] r s L H; try discriminate; [now split|].
  injection L as L. cbn [app] in H. injection H as -> H. destruct (IH _ _ _ L H) as [-> ->]. now split.
Qed.
Lemma key_same : forall (a b r s : bytes), ~ In x00 a -> ~ In x00 b -> a ++ [x00] ++ r = b ++ [x00] ++ s -> a = b /\ r = s.
Proof.
  induction a as [|x a IH]; intros [|y b] r s Ha Hb H; cbn [app] in H.
  - injection H as ->. now split.
  - injection H as <- _. destruct Hb. now left.
  - injection H as -> _. destruct Ha. now left.
  - injection H as -> H. destruct (IH b r s) as [-> ->]; auto; [intro C; apply Ha; now right|intro C; apply Hb; now right].
Qed.
Lemma int32_len : forall n b, int32 n b -> length b = 4%nat.
Proof. intros n b [_ ->]. apply le_bytes_length. Qed.
Lemma le_inj : forall k a b, (0 <= a < 256 ^ Z.of_nat k)%Z -> (0 <= b < 256 ^ Z.of_nat k)%Z ->
  le_bytes k a = le_bytes k b -> a = b.
Proof.
  intros k a b Ha Hb H. apply (f_equal le_val) in H. rewrite !le_val_bytes in H. rewrite !Z.mod_small in H; auto.
Qed.
Lemma le_inj_signed : forall k bits a b, (0 < bits)%Z -> (256 ^ Z.of_nat k = 2 ^ bits)%Z ->
  (- 2 ^ (bits - 1) <= a < 2 ^ (bits - 1))%Z -> (- 2 ^ (bits - 1) <= b < 2 ^ (bits - 1))%Z ->
  le_bytes k a = le_bytes k b -> a = b.
Proof.
  intros k bits a b Hb E Ha Hb' H. apply (f_equal le_val) in H. rewrite !le_val_bytes, E in H.
  apply (f_equal (signed bits)) in H. rewrite !signed_mod in H; auto.
Qed.
Lemma int32_inj : forall n m b, int32 n b -> int32 m b -> n = m.
Proof.
  intros n m b [Hn ->] [Hm H]. apply le_inj in H; [lia| |]; change (256 ^ Z.of_nat 4)%Z with 4294967296%Z; lia.
Qed.
Lemma value_type : forall t v b, value t v b -> 0 < t < 256.
Proof. destruct 1; lia. Qed.
Lemma numbered_inj : forall l l' i, numbered i l = numbered i l' -> l = l'.
Proof.
  induction l as [|v l IH]; intros [|v' l'] i H; try discriminate; [reflexivity|].
  cbn [numbered] in H. pose proof (f_equal (fun x => snd (hd (show_nat i, v) x)) H) as E. cbn [hd snd] in E. subst v'.
  f_equal. apply (IH l' (S i)). exact (f_equal (@tl _) H).
Qed.
Lemma n2b_inj : forall a b, a < 256 -> b < 256 -> n2b a = n2b b -> a = b.
Proof. intros a b Ha Hb H. apply (f_equal b2n) in H. now rewrite !b2n_n2b_small in H. Qed.

Lemma unique :
  (forall t v b, value t v b -> forall v' b' r r', value t v' b' -> b ++ r = b' ++ r' -> v = v' /\ b = b') /\
  (forall l b, document l b -> forall l' b' r r', document l' b' -> b ++ r = b' ++ r' -> l = l' /\ b = b') /\
  (forall l e, elements l e -> forall l' e' r r', elements l' e' -> e ++ [x00] ++ r = e' ++ [x00] ++ r' -> l = l' /\ e = e').
Proof.
  apply bson_mutind.
  - intros x v' b' r r' H E. inversion H; subst. apply app_same in E as [E _]; [|unfold f64_bytes; now rewrite !le_bytes_length].
    split; [|exact E]. f_equal. apply (f_equal f64_of_bytes) in E. now rewrite !f64_bytes_roundtrip in E.
  - intros s n Hn v' b' r r' H E. inversion H as [|s' n' Hn'| | | | | | |]; subst. rewrite <- !app_assoc in E.
    apply app_same in E as [-> E]; [|now rewrite (int32_len _ _ Hn), (int32_len _ _ Hn')].
    pose proof (int32_inj _ _ _ Hn Hn') as L. apply app_same in E as [-> _]; [now split|]. unfold lenN in L. lia.
  - intros l b _ IH v' b' r r' H E. inversion H as [| |l' ? Hd| | | | | |]; subst. destruct (IH _ _ _ _ Hd E) as [-> ->]. now split.
  - intros l b _ IH v' b' r r' H E. inversion H as [| | |l' ? Hd| | | | |]; subst. destruct (IH _ _ _ _ Hd E) as [L ->].
    apply numbered_inj in L. subst. now split.
  - intros d n Hn v' b' r r' H E. inversion H as [| | | |d' n' Hn'| | | |]; subst. rewrite <- !app_assoc in E.
    apply app_same in E as [-> E]; [|now rewrite (int32_len _ _ Hn), (int32_len _ _ Hn')].
    pose proof (int32_inj _ _ _ Hn Hn') as L. cbn [app] in E. injection E as E.
    apply app_same in E as [-> _]; [now split|]. unfold lenN in L. lia.
  - intros b v' b' r r' H E. inversion H; subst. cbn [app] in E. injection E as E _.
    destruct b, b0; try discriminate E; now split.
  - intros ms Hms v' b' r r' H E. inversion H; subst. apply app_same in E as [E _]; [|now rewrite !le_bytes_length].
    split; [|exact E]. f_equal. apply (le_inj_signed 8 64) in E; auto; lia.
  - intros v' b' r r' H E. inversion H; subst. now split.
  - intros z Hz v' b' r r' H E. inversion H; subst. apply app_same in E as [E _]; [|now rewrite !le_bytes_length].
    split; [|exact E]. f_equal. apply (le_inj_signed 4 32) in E; auto; lia.
  - intros l e n _ IH Hn l' b' r r' H E. inversion H as [? e' n' He' Hn']; subst. rewrite <- !app_assoc in E.
    apply app_same in E as [-> E]; [|now rewrite (int32_len _ _ Hn), (int32_len _ _ Hn')].
    destruct (IH _ _ _ _ He' E) as [-> ->]. now split.
  - intros l' e' r r' H E. inversion H as [|t k v b l e Hk Hv He]; subst; [now split|].
    cbn [app] in E. injection E as E _. apply value_type in Hv. exfalso.
    assert (n2b t = n2b 0) as E2 by (rewrite <- E; reflexivity). apply n2b_inj in E2; lia.
  - intros t k v b l e Hk Hv IHv He IHe l' e' r r' H E. inversion H as [|t' k' v' b' l2 e2 Hk' Hv' He']; subst.
    + cbn [app] in E. injection E as E _. apply value_type in Hv. exfalso.
      assert (n2b t = n2b 0) as E2 by (rewrite E; reflexivity). apply n2b_inj in E2; lia.
    + rewrite <- !app_assoc in E. cbn [app] in E. injection E as E1 E.
      apply n2b_inj in E1; [|apply value_type in Hv; lia|apply value_type in Hv'; lia]. subst t'.
      apply key_same in E as [-> E]; auto. destruct (IHv _ _ _ _ Hv' E) as [-> ->].
      apply app_inv_head in E. destruct (IHe _ _ _ _ He' E) as [-> ->]. now split.
Qed.
Lemma document_unique : forall l l' b, document l b -> document l' b -> l = l'.
Proof. intros l l' b H H'. destruct (proj1 (proj2 unique) l b H l' b [] [] H' eq_refl) as [E _]. exact E. Qed.

(** ** Sizes *)
Fixpoint esize (l : list (str * bval)) : N :=
  match l with [] => 0 | kv :: l' => 1 + lenN (fst kv) + 1 + size (snd kv) + esize l' end.
Lemma size_doc : forall l, size (VDoc l) = 4 + esize l + 1.
Proof. intro l. cbn [size]. f_equal. Qed.
Lemma size_array : forall l, size (VArray l) = size (VDoc (numbered 0 l)).
Proof.
  intro l. rewrite size_doc. cbn [size]. f_equal. f_equal. generalize 0%nat.
  induction l as [|v l IH]; intro i; [reflexivity|]. cbn [numbered esize fst snd]. now rewrite <- IH.
Qed.

(** ** Keys *)
Lemma has_zero_iff : forall k, has_zero k = true <-> In x00 k.
Proof.
  intro k. unfold has_zero. rewrite existsb_exists. split.
  - intros (b & Hin & E). apply N.eqb_eq in E. replace x00 with b; [exact Hin|].
    rewrite <- (n2b_b2n b), E. reflexivity.
  - intro H. exists x00. split; [exact H|reflexivity].
Qed.
Lemma show_nat_nonzero : forall i, has_zero (show_nat i) = false.
Proof.
  intro i. destruct (has_zero (show_nat i)) eqn:E; [|reflexivity]. apply has_zero_iff in E.
  destruct (show_N_spells (N.of_nat i)) as (_ & H & _). rewrite Forall_forall in H. specialize (H _ E).
  unfold digit in H. cbn in H. lia.
Qed.

(** ** What the model writes *)
Definition fine (tv : N * bytes) (v : bval) : Prop :=
  lenN (snd tv) = size v /\ (size v < 2 ^ 31 -> value (fst tv) v (snd tv)).

Lemma element_fine : forall k tv v b, fine tv v -> element k tv = inl b ->
  lenN b = 1 + lenN k + 1 + size v /\ ~ In x00 k /\
  (forall l e, size v < 2 ^ 31 -> elements l e -> elements ((k, v) :: l) (b ++ e)).
Proof.
  intros k [t b0] v b [HL HV] H. unfold element in H. cbn [fst snd] in *.
  destruct (has_zero k) eqn:E; [discriminate H|].
  assert (Hk : ~ In x00 k) by (intro C; apply has_zero_iff in C; congruence).
  apply (f_equal (fun x : bson bytes => match x with inl y => y | inr _ => [] end)) in H. subst b.
  split; [|split; [exact Hk|]].
  - cbn [app]. rewrite lenN_cons, !lenN_app, lenN_cons. lia.
  - intros l e Hs He.
    replace ((n2b t :: k ++ [x00] ++ b0) ++ e) with ([n2b t] ++ k ++ [x00] ++ b0 ++ e)
      by (cbn [app]; now rewrite <- !app_assoc).
    apply G_element; auto.
Qed.
Lemma finish_cases : forall x body l, lenN body = esize l -> (esize l < 2 ^ 31 -> elements l body) ->
  match finish x body with
  | inl d => lenN d = size (VDoc l) /\ document l d
  | inr e => e = TooLarge /\ 2 ^ 31 <= x + size (VDoc l)
  end.
Proof.
  intros x body l HL HE. unfold finish. rewrite size_doc. destruct (N.leb_spec (x + (4 + lenN body + 1)) 2147483647).
  - split; [rewrite !lenN_app, le_bytes_lenN, lenN_cons; cbn [lenN]; change (lenN (@nil byte)) with 0; lia|].
    constructor; [apply HE; change (2 ^ 31) with 2147483648; lia|]. split; [change (2 ^ 31) with 2147483648; lia|reflexivity].
  - split; [reflexivity|]. change (2 ^ 31) with 2147483648. lia.
Qed.
Lemma array_body_fine : forall tvs vs i, Forall2 fine tvs vs ->
  exists b, array_body i tvs = inl b /\ lenN b = esize (numbered i vs) /\
            (esize (numbered i vs) < 2 ^ 31 -> elements (numbered i vs) b).
Proof.
  intros tvs vs i H. revert i. induction H as [|tv v tvs vs Hf H IH]; intro i.
  - exists []. split; [reflexivity|]. split; [reflexivity|]. intros _. constructor.
  - cbn [array_body numbered esize fst snd]. destruct (IH (S i)) as (b & -> & HL & HE).
    destruct (element (show_nat i) tv) as [b1|] eqn:E.
    2: { unfold element in E. rewrite show_nat_nonzero in E. discriminate E. }
    destruct (element_fine _ _ _ _ Hf E) as (L1 & _ & E1).
    exists (b1 ++ b). split; [reflexivity|]. split; [rewrite lenN_app; lia|].
    intro Hs. apply E1; [lia|]. apply HE. lia.
Qed.
Lemma array_value_fine : forall tvs vs, Forall2 fine tvs vs ->
  match array_value tvs with
  | inl tv => fine tv (VArray vs)
  | inr e => e = TooLarge /\ 2 ^ 31 - 2 <= size (VArray vs)
  end.
Proof.
  intros tvs vs H. unfold array_value. destruct (array_body_fine tvs vs 0 H) as (b & -> & HL & HE).
  pose proof (finish_cases 2 b _ HL HE) as F. rewrite size_array. destruct (finish 2 b) as [d|e].
  - destruct F as [F1 F2]. unfold fine. cbn [fst snd]. rewrite size_array. split; [exact F1|]. intros _. now apply G_array.
  - destruct F as [-> F]. split; [reflexivity|]. change (2 ^ 31) with 2147483648 in *. lia.
Qed.
Lemma doubles_ok : forall l, Forall (fun kx => ~ In x00 (fst kx)) l -> lenN (concat (map fst l)) < 100 -> (length l <= 3)%nat ->
  exists d, doubles l = inl (3, d) /\ fine (3, d) (VDoc (map (fun kx => (fst kx, VDouble (snd kx))) l)).
Proof.
  intros l Hk Hs Hn. unfold doubles.
  set (b := concat _). set (v := map (fun kx => (fst kx, VDouble (snd kx))) l).
  assert (HL : lenN b = esize v).
  { subst b v. clear. induction l as [|[k x] l IH]; [reflexivity|]. cbn [map concat esize fst snd size]. rewrite lenN_app, IH.
    cbn [app]. rewrite lenN_cons, lenN_app, lenN_cons, f64_bytes_len. lia. }
  assert (HE : elements v b).
  { subst b v. clear Hs Hn HL. induction Hk as [|[k x] l Hk H IH]; [constructor|]. cbn [map concat fst snd] in *.
    replace ((n2b 1 :: k ++ [x00] ++ f64_bytes x) ++ concat (map (fun kx => n2b 1 :: fst kx ++ [x00] ++ f64_bytes (snd kx)) l))
      with ([n2b 1] ++ k ++ [x00] ++ f64_bytes x ++ concat (map (fun kx => n2b 1 :: fst kx ++ [x00] ++ f64_bytes (snd kx)) l))
      by (cbn [app]; now rewrite <- !app_assoc).
    apply G_element; auto. constructor. }
  assert (HB : esize v < 200).
  { subst v. clear HE HL b Hk. assert (H : esize (map (fun kx => (fst kx, VDouble (snd kx))) l) = lenN (concat (map fst l)) + 10 * N.of_nat (length l)).
    { clear. induction l as [|[k x] l IH]; [reflexivity|]. cbn [map concat esize fst snd size length]. rewrite lenN_app, IH. lia. }
    lia. }
  pose proof (finish_cases 0 b v HL (fun _ => HE)) as F. destruct (finish 0 b) as [d|e].
  - destruct F as [F1 F2]. exists d. split; [reflexivity|]. split; [exact F1|]. intros _. now apply G_doc.
  - destruct F as [_ F]. rewrite size_doc in F. change (2 ^ 31) with 2147483648 in F. lia.
Qed.

(** ** The nested loops as ordinary functions *)
Fixpoint block_body (l : block) : bson bytes :=
  match l with
  | [] => inl []
  | kv :: l' =>
      match bson_value (snd kv) with
      | inr e => inr e
      | inl tv =>
          match element (fst kv) tv with
          | inr e => inr e
          | inl b => match block_body l' with inl t => inl (b ++ t) | inr e => inr e end
          end
      end
  end.
Fixpoint values (l : list prop) : bson (list (N * bytes)) :=
  match l with
  | [] => inl []
  | v :: l' =>
      match bson_value v with
      | inr e => inr e
      | inl tv => match values l' with inl t => inl (tv :: t) | inr e => inr e end
      end
  end.
Lemma value_block : forall m, bson_value (PBlock m) =
  match block_body m with
  | inr e => inr e
  | inl b => match finish 0 b with inl d => inl (3, d) | inr e => inr e end
  end.
Proof. reflexivity. Qed.
Lemma value_array : forall base ps, bson_value (PArray base ps) =
  match values ps with inr e => inr e | inl l => array_value l end.
Proof. reflexivity. Qed.

Lemma same_number_ok : forall f, same_number f (f64_of_f32 f).
Proof.
  intro f. destruct (is_finite 24 128 f) eqn:E.
  - left. destruct (f64_of_f32_correct f E) as (F & V & S). auto.
  - destruct f as [s|s|s pl H|s m e H]; try discriminate E.
    + right. left. exists s. split; reflexivity.
    + right. right. split; [reflexivity|]. destruct (f64_of_nan s pl H) as (q & _ & _ & Q).
      apply f64_nan_inv in Q as (Hq & ->). reflexivity.
Qed.
Lemma date_ok : forall us, (- 2 ^ 63 <= us * 1000 < 2 ^ 63)%Z ->
  ((bson_date us) * 1000 <= us < (bson_date us + 1) * 1000 /\ - 2 ^ 63 <= bson_date us < 2 ^ 63)%Z.
Proof.
  intros us H. unfold bson_date. rewrite (signed_mod 64) by (change (64 - 1)%Z with 63%Z; lia).
  pose proof (Z.div_mod (us * 1000) 1000000 ltac:(lia)) as E. pose proof (Z.mod_pos_bound (us * 1000) 1000000 ltac:(lia)) as B.
  change (2 ^ 63)%Z with 9223372036854775808%Z in *. lia.
Qed.
Lemma raw_reads : forall d, lenN d < 2 ^ 48 -> exists n s, read_bytes_array flat (bytes_array_to_bytes d) = Ok (d, n, None, s).
Proof.
  intros d H.
  destruct (read_bytes_array_ok (delivers_serves _ _ _ (flat_delivers false)) d H (bytes_array_to_bytes d) []) as (s & E & _);
    [now rewrite app_nil_r|now left|]. eauto.
Qed.
Lemma zero_key_cons : forall kv m, zero_key (PBlock m) -> zero_key (PBlock (kv :: m)).
Proof. intros kv m H. inversion H; subst; [eapply Z_here|eapply Z_block]; eauto; right; eassumption. Qed.
Lemma zero_key_inv : forall kv m, zero_key (PBlock (kv :: m)) -> In x00 (fst kv) \/ zero_key (snd kv) \/ zero_key (PBlock m).
Proof.
  intros kv m H. inversion H as [? k v Hin Hk|? k v Hin Hk|]; subst.
  - destruct Hin as [->|Hin]; [now left|]. right. right. eapply Z_here; eauto.
  - destruct Hin as [->|Hin]; [right; now left|]. right. right. eapply Z_block; eauto.
Qed.
Lemma zero_arr_inv : forall b v l, zero_key (PArray b (v :: l)) -> zero_key v \/ zero_key (PArray b l).
Proof. intros b v l H. inversion H as [| |? ? w Hin Hk]; subst. destruct Hin as [->|Hin]; [now left|]. right. eapply Z_array; eauto. Qed.
Lemma zero_arr_cons : forall b v l, zero_key (PArray b l) -> zero_key (PArray b (v :: l)).
Proof. intros b v l H. inversion H; subst. eapply Z_array; [right|]; eauto. Qed.
Lemma zero_leaf : forall p, match p with PBlock _ | PArray _ _ => False | _ => True end -> ~ zero_key p.
Proof. intros p Hp H. inversion H; subst; exact Hp. Qed.

(** ** The main statement *)
Definition told (p : prop) (v : bval) : Prop :=
  match bson_value p with
  | inl tv => ~ zero_key p /\ fine tv v
  | inr BadKey => zero_key p
  | inr _ => 2 ^ 31 - 2 <= size v
  end.
Lemma simple : forall t b v, value t v b -> lenN b = size v -> fine (t, b) v.
Proof. intros t b v H L. split; auto. Qed.
Lemma value_told : forall p, built p -> ordinary p -> exists v, shown p v /\ told p v.
Proof.
  induction p as [p Hleaf | m IH | b ps IH] using prop_ind'; intros Hb Ho.
  - unfold told. destruct p; try contradiction; cbn [bson_value].
    + exists (VString s). split; [constructor|]. split; [now apply zero_leaf|]. split; cbn [fst snd size].
      * rewrite !lenN_app, le_bytes_lenN, lenN_cons. change (lenN (@nil byte)) with 0. lia.
      * intro Hs. apply (G_string s (le_bytes 4 (Z.of_N (lenN s + 1)))). split; [lia|reflexivity].
    + exists (VInt32 z). split; [constructor|]. split; [now apply zero_leaf|]. apply simple; [now constructor|].
      now rewrite le_bytes_lenN.
    + exists (VDouble (f64_of_f32 f)). split; [constructor; apply same_number_ok|]. split; [now apply zero_leaf|].
      apply simple; [constructor|apply f64_bytes_len].
    + exists (VBool b). split; [constructor|]. split; [now apply zero_leaf|]. apply simple; [constructor|reflexivity].
    + exists (VInt32 (Z.of_N (b2n b))). split; [constructor|]. split; [now apply zero_leaf|]. apply simple.
      * constructor. pose proof (b2n_lt b). lia.
      * now rewrite le_bytes_lenN.
    + destruct (doubles_ok [(lit "x", x); (lit "y", y)]) as (d & -> & F).
      { repeat constructor; cbn; intros [C|[]]; discriminate C. } { reflexivity. } { cbn; lia. }
      eexists. split; [apply S_vec2|]. split; [now apply zero_leaf|]. exact F.
    + destruct (doubles_ok [(lit "x", x); (lit "y", y); (lit "z", z)]) as (d & -> & F).
      { repeat constructor; cbn; intros [C|[]]; discriminate C. } { reflexivity. } { cbn; lia. }
      eexists. split; [apply S_vec3|]. split; [now apply zero_leaf|]. exact F.
    + inversion Ho as [? C|? Ht| | | |]; subst; [contradiction|]. destruct (date_ok us Ht) as [H1 H2].
      exists (VDate (bson_date us)). split; [now constructor|]. split; [now apply zero_leaf|].
      apply simple; [now constructor|now rewrite le_bytes_lenN].
    + inversion Ho as [? C| | | |d Hd E|l Hd E]; subst; [contradiction| |].
      * exists (VBinary d). split; [constructor|]. destruct (raw_reads d Hd) as (n & s & ->).
        change (5 =? 5) with true. cbn iota. split; [now apply zero_leaf|]. split; cbn [fst snd size].
        -- rewrite lenN_app, le_bytes_lenN, lenN_cons. lia.
        -- intro Hs. apply (G_binary d (le_bytes 4 (Z.of_N (lenN d)))). split; [lia|reflexivity].
      * exists (VArray (map VBool l)). split; [constructor|].
        destruct (raw_reads (map (fun b : bool => if b then x01 else x00) l)) as (n & s & ->).
        { unfold lenN in *. now rewrite map_length. }
        change (3 =? 5) with false. change (3 =? 3) with true. cbn iota. rewrite map_map.
        pose proof (array_value_fine (map (fun x : bool => bool_value (b2n (if x then x01 else x00) mod 2 =? 1)) l) (map VBool l)) as A.
        destruct (array_value _) as [tv|e].
        -- split; [now apply zero_leaf|]. apply A. clear. induction l as [|b l IH]; constructor; [|exact IH].
           destruct b; apply simple; (apply (G_bool true) || apply (G_bool false) || reflexivity).
        -- destruct A as [-> A]; [|exact A]. clear. induction l as [|b l IH]; constructor; [|exact IH].
           destruct b; apply simple; (apply (G_bool true) || apply (G_bool false) || reflexivity).
  - apply built_block_iff in Hb as [_ Hb]. inversion Ho as [? C| |? Ho'| | |]; subst; [contradiction|].
    assert (H : exists l, shown_entries m l /\
              match block_body m with
              | inl b => ~ zero_key (PBlock m) /\ lenN b = esize l /\ (esize l < 2 ^ 31 -> elements l b)
              | inr BadKey => zero_key (PBlock m)
              | inr _ => 2 ^ 31 - 2 <= esize l
              end).
    { clear Ho. induction m as [|[k p] m IHm].
      - exists []. split; [constructor|]. cbn [block_body]. split; [|split; [reflexivity|intros _; constructor]].
        intro C. inversion C; subst; contradiction.
      - inversion IH as [|? ? IHp IH']; subst. inversion Hb as [|? ? Hp Hb']; subst. cbn [fst snd] in *.
        destruct IHm as (l & Hl & Hm); auto. { intros k' v' Hin. apply (Ho' k'). now right. }
        destruct (IHp Hp (Ho' k p (or_introl eq_refl))) as (v & Hv & Ht). unfold told in Ht.
        exists ((k, v) :: l). split; [now constructor|]. cbn [block_body esize fst snd].
        destruct (bson_value p) as [tv|e].
        + destruct Ht as [Hz Hf]. destruct (element k tv) as [b1|e1] eqn:E.
          * destruct (element_fine _ _ _ _ Hf E) as (L1 & K1 & E1). destruct (block_body m) as [b2|[]].
            -- destruct Hm as (Hz2 & L2 & E2). split; [|split].
               ++ intro C. apply zero_key_inv in C as [C|[C|C]]; cbn [fst snd] in C; auto.
               ++ rewrite lenN_app. lia.
               ++ intro Hs. apply E1; [lia|]. apply E2. lia.
            -- now apply zero_key_cons.
            -- lia.
            -- lia.
          * unfold element in E. destruct (has_zero k) eqn:EZ; [|discriminate E]. injection E as <-.
            apply has_zero_iff in EZ. eapply Z_here; [now left|exact EZ].
        + destruct e; [eapply Z_block; [now left|exact Ht]|lia|lia]. }
    destruct H as (l & Hl & Hm). exists (VDoc l). split; [now apply S_block with m|].
    unfold told. rewrite value_block, size_doc. destruct (block_body m) as [b|e].
    + destruct Hm as (Hz & HL & HE). pose proof (finish_cases 0 b l HL HE) as F. destruct (finish 0 b) as [d|e].
      * destruct F as [F1 F2]. split; [exact Hz|]. split; [exact F1|]. intros _. now apply G_doc.
      * destruct F as [-> F]. rewrite size_doc in F. lia.
    + destruct e; [exact Hm|lia|lia].
  - apply built_array_iff in Hb as [_ Hb]. inversion Ho as [? C| | |? ? Ho'| |]; subst; [contradiction|].
    assert (H : exists l, shown_list ps l /\
              match values ps with
              | inl tvs => ~ zero_key (PArray b ps) /\ Forall2 fine tvs l
              | inr BadKey => zero_key (PArray b ps)
              | inr _ => forall i, 2 ^ 31 - 2 <= esize (numbered i l)
              end).
    { clear Ho. induction ps as [|p ps IHm].
      - exists []. split; [constructor|]. cbn [values]. split; [|constructor]. intro C. inversion C; subst; contradiction.
      - inversion IH as [|? ? IHp IH']; subst. inversion Hb as [|? ? [_ Hp] Hb']; subst.
        destruct IHm as (l & Hl & Hm); auto. { intros v' Hin. apply Ho'. now right. }
        destruct (IHp Hp (Ho' p (or_introl eq_refl))) as (v & Hv & Ht). unfold told in Ht.
        exists (v :: l). split; [now constructor|]. cbn [values].
        destruct (bson_value p) as [tv|e].
        + destruct Ht as [Hz Hf]. destruct (values ps) as [tvs|[]].
          * destruct Hm as [Hz2 Hm]. split; [|now constructor]. intro C. apply zero_arr_inv in C as [C|C]; auto.
          * now apply zero_arr_cons.
          * intro i. cbn [numbered esize fst snd]. specialize (Hm (S i)). lia.
          * intro i. cbn [numbered esize fst snd]. specialize (Hm (S i)). lia.
        + destruct e; [eapply Z_array; [now left|exact Ht]| |]; intro i; cbn [numbered esize fst snd]; lia. }
    destruct H as (l & Hl & Hm). exists (VArray l). split; [now constructor|].
    unfold told. rewrite value_array. destruct (values ps) as [tvs|e].
    + destruct Hm as [Hz Hm]. pose proof (array_value_fine tvs l Hm) as A. destruct (array_value tvs) as [tv|e]; [now split|].
      destruct A as [-> A]. exact A.
    + destruct e; [exact Hm| |]; rewrite size_array, size_doc; specialize (Hm 0%nat); lia.
Qed.
Lemma shown_entries_iff : forall m l, shown_entries m l <->
  Forall2 (fun (a : str * prop) (b : str * bval) => fst a = fst b /\ shown (snd a) (snd b)) m l.
Proof.
  split.
  - induction 1; constructor; auto.
  - induction 1 as [|[k p] [k' v] m l [E H] _ IH]; [constructor|]. cbn [fst snd] in *. subst k'. now constructor.
Qed.
Lemma shown_list_iff : forall m l, shown_list m l <-> Forall2 shown m l.
Proof. split; induction 1; constructor; auto. Qed.
Lemma Forall2_left : forall A B C (R : A -> B -> Prop) (Q : B -> C -> Prop) (T : A -> C -> Prop) l m n,
  (forall x, In x l -> forall y z, R x y -> Q y z -> T x z) -> Forall2 R l m -> Forall2 Q m n -> Forall2 T l n.
Proof.
  intros A B C R Q T l m n HT H. revert n HT. induction H as [|x y l m Hxy H IH]; intros n HT Hn; inversion Hn; subst; constructor.
  - eapply HT; [now left|eassumption|assumption].
  - apply IH; auto. intros z Hz. apply HT. now right.
Qed.
(** The order in which maps are visited does not matter. *)
Lemma shown_equiv : forall p q v, prop_equiv p q -> shown q v -> shown p v.
Proof.
  induction p as [p Hp | m IH | b ps IH] using prop_ind'; intros q v He Hs.
  - inversion He; subst; try contradiction. exact Hs.
  - inversion He as [|? m2 B1|]; subst; [exact Hs|]. inversion B1 as [? n1 ? P1 E1]; subst.
    inversion Hs as [| | | | | | |? m3 l P2 E2| | | |]; subst. apply entries_iff in E1. apply shown_entries_iff in E2.
    destruct (Forall2_perm _ _ _ _ _ _ E1 P2) as (j & Pj & Ej).
    apply S_block with j; [now transitivity n1|]. apply shown_entries_iff. rewrite Forall_forall in IH.
    eapply Forall2_left; [|exact Ej|exact E2]. intros [k w] Hw [k2 w2] [k3 w3] [Ea Ha] [Eb Hb]. cbn [fst snd] in *.
    split; [congruence|]. apply (IH (k, w)) with w2; auto.
    eapply Permutation_in; [|exact Hw]. apply Permutation_sym. now transitivity n1.
  - inversion He as [| |? ? qs B1]; subst; [exact Hs|]. inversion Hs as [| | | | | | | | |? ? l E2| |]; subst.
    constructor. apply props_iff in B1. apply shown_list_iff in E2. apply shown_list_iff. rewrite Forall_forall in IH.
    eapply Forall2_left; [|exact B1|exact E2]. intros x Hx y z. now apply IH.
Qed.
Lemma ordinary_equiv : forall p q, prop_equiv p q -> ordinary p -> ordinary q.
Proof.
  induction p as [p Hp | m IH | b ps IH] using prop_ind'; intros q He Ho.
  - inversion He; subst; try contradiction. exact Ho.
  - inversion He as [|? m2 B1|]; subst; [exact Ho|]. inversion B1 as [? n1 ? P1 E1]; subst.
    inversion Ho as [? C| |? Ho'| | |]; subst; [contradiction|]. apply O_block. intros k w Hin.
    apply entries_iff in E1. destruct (Forall2_in_r _ _ _ _ _ E1 _ Hin) as ([k0 w0] & Hin0 & [Ea Ha]). cbn [fst snd] in *.
    rewrite Forall_forall in IH. apply Permutation_sym in P1. pose proof (Permutation_in _ P1 Hin0) as Hin1.
    apply (IH (k0, w0)); auto. eapply Ho'; exact Hin1.
  - inversion He as [| |? ? qs B1]; subst; [exact Ho|]. inversion Ho as [? C| | |? ? Ho'| |]; subst; [contradiction|].
    apply O_array. intros w Hin. apply props_iff in B1. destruct (Forall2_in_r _ _ _ _ _ B1 _ Hin) as (w0 & Hin0 & Ha).
    rewrite Forall_forall in IH. apply (IH w0); auto.
Qed.
