(** Facts about writing recordings as JSON. *)
From Coq Require Import Strings.String Permutation Reals Lia Lra.
From Flocq Require Import Core IEEE754.Binary.
From Verif Require Import Base BaseFacts IO Spec IOFacts Floats BinaryIO BinaryIOFacts Metadata MetadataFacts Recording RecordingFacts.
From Verif Require Import Text SpecText TextFacts Json SpecJson JsonFacts ToJson SpecToJson.
Local Open Scope N_scope.

(** ** Numbers *)
Lemma spells_digits : forall t n, spells t n -> digits t /\ (hd x00 t = "0"%byte -> t = lit "0").
Proof. intros t n (H1 & H2 & _ & H3). split; [split; auto|exact H3]. Qed.
Lemma spells_number : forall t n, spells t n -> number t.
Proof.
  intros t n H. apply spells_digits in H as [H1 H2].
  rewrite <- (app_nil_r t). rewrite <- (app_nil_r []). change ([] ++ []) with (@nil byte) at 1.
  apply (Number [] t [] []); auto.
Qed.
Lemma show_Z_tells : forall z, tells (show_Z z) z.
Proof.
  intros [|p|p]; unfold show_Z, tells.
  - left. exists 0. split; [reflexivity|apply show_N_spells].
  - left. exists (Npos p). split; [reflexivity|apply show_N_spells].
  - right. exists (Npos p), (show_N (Npos p)). split; [reflexivity|]. split; [discriminate|]. split; [reflexivity|]. apply show_N_spells.
Qed.
Lemma tells_number : forall t z, tells t z -> number t.
Proof.
  intros t z [(n & _ & H)|(n & d & _ & _ & -> & H)]; [now apply spells_number with n|].
  apply spells_digits in H as [H1 H2]. replace (lit "-" ++ d) with (lit "-" ++ d ++ [] ++ []) by now rewrite !app_nil_r.
  apply Number; auto.
Qed.

Lemma digit_byte : forall n, n < 10 -> digit (n2b (48 + n)) /\ digit_val (n2b (48 + n)) = n.
Proof. intros n H. unfold digit, digit_val. rewrite b2n_n2b_small by lia. lia. Qed.
Lemma six_digits_ok : forall k, Forall digit (six_digits k).
Proof.
  intro k. unfold six_digits, bs. cbn [map].
  repeat (apply Forall_cons; [apply digit_byte; apply N.mod_lt; discriminate|]). apply Forall_nil.
Qed.
Lemma six_digits_val : forall a k, k < 1000000 -> text_val a (six_digits k) = 1000000 * a + k.
Proof.
  intros a k H. unfold six_digits, bs. cbn [map text_val].
  assert (D : forall n, digit_val (n2b (48 + n mod 10)) = n mod 10) by (intro n; apply digit_byte; apply N.mod_lt; discriminate).
  rewrite !D. clear D.
  pose proof (N.div_mod k 10). pose proof (N.div_mod (k / 10) 10). pose proof (N.div_mod (k / 100) 10).
  pose proof (N.div_mod (k / 1000) 10). pose proof (N.div_mod (k / 10000) 10). pose proof (N.div_mod (k / 100000) 10).
  assert (E2 : k / 10 / 10 = k / 100) by (rewrite N.div_div; [reflexivity|discriminate|discriminate]).
  assert (E3 : k / 100 / 10 = k / 1000) by (rewrite N.div_div; [reflexivity|discriminate|discriminate]).
  assert (E4 : k / 1000 / 10 = k / 10000) by (rewrite N.div_div; [reflexivity|discriminate|discriminate]).
  assert (E5 : k / 10000 / 10 = k / 100000) by (rewrite N.div_div; [reflexivity|discriminate|discriminate]).
  assert (E6 : k / 100000 / 10 = 0) by (rewrite N.div_div; [apply N.div_small; exact H|discriminate|discriminate]).
  rewrite E2 in *. rewrite E3 in *. rewrite E4 in *. rewrite E5 in *. rewrite E6 in *. lia.
Qed.
Lemma text_val_app : forall t u a, text_val a (t ++ u) = text_val (text_val a t) u.
Proof. induction t as [|b t IH]; intros u a; [reflexivity|]. cbn [app text_val]. apply IH. Qed.

Lemma div_even_near : forall n d, d <> 0 ->
  (Rabs (IZR (Z.of_N (div_even n d)) - IZR (Z.of_N n) / IZR (Z.of_N d)) <= / 2)%R.
Proof.
  intros n d Hd. unfold div_even. pose proof (N.div_mod n d Hd) as E. pose proof (N.mod_lt n d Hd) as Hr.
  set (q := n / d) in *. set (r := n mod d) in *.
  assert (HD : (0 < IZR (Z.of_N d))%R) by (apply IZR_lt; lia).
  assert (EN : (IZR (Z.of_N n) = IZR (Z.of_N d) * IZR (Z.of_N q) + IZR (Z.of_N r))%R).
  { rewrite <- mult_IZR, <- plus_IZR. f_equal. lia. }
  assert (Eq : (IZR (Z.of_N n) / IZR (Z.of_N d) = IZR (Z.of_N q) + IZR (Z.of_N r) / IZR (Z.of_N d))%R) by (rewrite EN; field; lra).
  rewrite Eq. assert (Hr0 : (0 <= IZR (Z.of_N r) / IZR (Z.of_N d))%R).
  { apply Rmult_le_pos; [apply IZR_le; lia|]. left. now apply Rinv_0_lt_compat. }
  assert (Hlo : 2 * r <= d -> (IZR (Z.of_N r) / IZR (Z.of_N d) <= / 2)%R).
  { intro H. apply Rmult_le_reg_r with (IZR (Z.of_N d)); [exact HD|]. unfold Rdiv. rewrite Rmult_assoc, Rinv_l, Rmult_1_r by lra.
    assert (2 * IZR (Z.of_N r) <= IZR (Z.of_N d))%R by (rewrite <- mult_IZR; apply IZR_le; lia). lra. }
  assert (Hhi : d <= 2 * r -> (/ 2 <= IZR (Z.of_N r) / IZR (Z.of_N d))%R).
  { intro H. apply Rmult_le_reg_r with (IZR (Z.of_N d)); [exact HD|]. unfold Rdiv. rewrite Rmult_assoc, Rinv_l, Rmult_1_r by lra.
    assert (IZR (Z.of_N d) <= 2 * IZR (Z.of_N r))%R by (rewrite <- mult_IZR; apply IZR_le; lia). lra. }
  assert (Hr1 : (IZR (Z.of_N r) / IZR (Z.of_N d) <= 1)%R).
  { apply Rmult_le_reg_r with (IZR (Z.of_N d)); [exact HD|]. unfold Rdiv. rewrite Rmult_assoc, Rinv_l, Rmult_1_r by lra.
    rewrite Rmult_1_l. apply IZR_le. lia. }
  assert (Eq1 : (IZR (Z.of_N (q + 1)) = IZR (Z.of_N q) + 1)%R) by (rewrite N2Z.inj_add, plus_IZR; reflexivity).
  set (x := (IZR (Z.of_N r) / IZR (Z.of_N d))%R) in *.
  destruct (N.ltb_spec (2 * r) d).
  { specialize (Hlo ltac:(lia)). apply Rabs_le. lra. }
  destruct (N.ltb_spec d (2 * r)).
  { specialize (Hhi ltac:(lia)). rewrite Eq1. apply Rabs_le. lra. }
  specialize (Hlo ltac:(lia)). specialize (Hhi ltac:(lia)). destruct (N.even q); [|rewrite Eq1]; apply Rabs_le; lra.
Qed.
Lemma millionths_near : forall m e,
  (Rabs (IZR (Z.of_N (millionths m e)) / 1000000 - F2R (Float radix2 (Zpos m) e)) <= / 2000000)%R.
Proof.
  intros m e. unfold millionths, F2R. cbn [Fnum Fexp]. destruct (Z.leb_spec 0 e) as [He|He].
  - rewrite !N2Z.inj_mul, N2Z.inj_pow, Z2N.id by exact He. change (Z.of_N 2) with (radix_val radix2).
    change (Z.of_N (10 ^ 6)) with 1000000%Z. change (Z.of_N (N.pos m)) with (Zpos m). rewrite !mult_IZR.
    rewrite (IZR_Zpower radix2 e He). replace (IZR (Z.pos m) * bpow radix2 e * 1000000 / 1000000 - IZR (Z.pos m) * bpow radix2 e)%R with 0%R by field.
    rewrite Rabs_R0. lra.
  - pose proof (div_even_near (N.pos m * 10 ^ 6) (2 ^ Z.to_N (- e))) as H.
    assert (Hd : 2 ^ Z.to_N (- e) <> 0) by (apply N.pow_nonzero; discriminate). specialize (H Hd).
    rewrite N2Z.inj_mul in H. change (Z.of_N (10 ^ 6)) with 1000000%Z in H.
    rewrite N2Z.inj_pow, Z2N.id in H by lia. change (Z.of_N 2) with (radix_val radix2) in H. change (Z.of_N (N.pos m)) with (Zpos m) in H. rewrite mult_IZR in H.
    rewrite (IZR_Zpower radix2 (- e)) in H by lia.
    assert (Eb : (bpow radix2 e = / bpow radix2 (- e))%R) by (rewrite <- bpow_opp; f_equal; lia). rewrite Eb.
    set (q := IZR (Z.of_N (div_even _ _))) in *. set (b := bpow radix2 (- e)) in *.
    assert (Hb : (0 < b)%R) by apply bpow_gt_0.
    replace (q / 1000000 - IZR (Z.pos m) * / b)%R with ((q - IZR (Z.pos m) * 1000000 / b) / 1000000)%R by (field; lra).
    unfold Rdiv at 1. rewrite Rabs_mult, (Rabs_pos_eq (/ 1000000)) by lra.
    apply Rle_trans with (/ 2 * / 1000000)%R; [|lra]. apply Rmult_le_compat_r; [lra|exact H].
Qed.
Lemma fixed6_decimal : forall x, is_finite 53 1024 x = true -> decimal6 (fixed6 x) x.
Proof.
  assert (P : forall (s : bool) n x, (Rabs ((if s then -1 else 1) * (IZR (Z.of_N n) / 1000000) - B2R 53 1024 x) <= / 2000000)%R ->
    is_finite 53 1024 x = true ->
    decimal6 ((if s then lit "-" else []) ++ show_N (n / 10 ^ 6) ++ lit "." ++ six_digits (n mod 10 ^ 6)) x).
  { intros s n x H Hx. split; [exact Hx|]. exists s, (show_N (n / 10 ^ 6)), (six_digits (n mod 10 ^ 6)), (n / 10 ^ 6).
    split; [reflexivity|]. pose proof (show_N_spells (n / 10 ^ 6)) as Hs. split; [exact Hs|]. split; [reflexivity|].
    split; [apply six_digits_ok|]. rewrite text_val_app. destruct Hs as (_ & _ & -> & _).
    change (10 ^ 6) with 1000000. rewrite six_digits_val by (apply N.mod_lt; discriminate).
    rewrite <- N.div_mod by discriminate.
    replace ((if s then -1 else 1) * IZR (Z.of_N n) / 1000000)%R with ((if s then -1 else 1) * (IZR (Z.of_N n) / 1000000))%R by (unfold Rdiv; ring).
    exact H. }
  intros [s|s|s pl Hpl|s m e He] Hx; try discriminate Hx; unfold fixed6; cbv zeta; apply P; auto.
  - cbn [B2R]. replace (Z.of_N 0) with 0%Z by reflexivity. replace (_ - 0)%R with 0%R by (destruct s; field). rewrite Rabs_R0. lra.
  - pose proof (millionths_near m e) as H. unfold B2R. destruct s; cbn [cond_Zopp].
    + change (Float radix2 _ e) with (Float radix2 (- Z.pos m) e). rewrite F2R_Zopp.
      set (u := (IZR (Z.of_N (millionths m e)) / 1000000)%R) in *. set (v := F2R _) in *.
      replace (-1 * u - - v)%R with (- (u - v))%R by ring.
      rewrite Rabs_Ropp. exact H.
    + rewrite Rmult_1_l. exact H.
Qed.
Lemma decimal6_number : forall t x, decimal6 t x -> number t.
Proof.
  intros t x (_ & s & i & f & n & -> & Hi & Hl & Hf & _). apply spells_digits in Hi as [H1 H2].
  replace ((if s then lit "-" else []) ++ i ++ lit "." ++ f) with ((if s then lit "-" else []) ++ i ++ (lit "." ++ f) ++ []) by now rewrite app_nil_r.
  apply Number; auto.
  - destruct s; auto.
  - right. exists f. split; [reflexivity|]. split; [|exact Hf]. intros ->. discriminate Hl.
Qed.

(** ** Texts in quotes *)
Lemma quoted_text : forall s, plain_text s -> string_text (quoted s) s.
Proof. intros s H. exists s. split; [reflexivity|now apply plain_unquote]. Qed.
Lemma hex_char_ok : forall n, n < 16 -> hex_value (hex_char n) n /\ ~ (65 <= b2n (hex_char n) <= 70).
Proof.
  intros n H. unfold hex_char, hex_value. destruct (N.ltb_spec n 10); rewrite b2n_n2b_small by lia; lia.
Qed.
Lemma hex_encode_ok : forall d, hex_of d (hex_encode d).
Proof.
  assert (E : forall b, n2b (16 * (b2n b / 16) + b2n b mod 16) = b).
  { intro b. rewrite <- N.div_mod by discriminate. apply n2b_b2n. }
  induction d as [|b d [IH1 IH2]]; [split; constructor|]. cbn [hex_encode].
  assert (H1 : b2n b / 16 < 16) by (apply N.div_lt_upper_bound; [discriminate|]; pose proof (b2n_lt b); lia).
  assert (H2 : b2n b mod 16 < 16) by (apply N.mod_lt; discriminate).
  apply hex_char_ok in H1 as [A1 B1], H2 as [A2 B2]. split.
  - rewrite <- (E b) at 3. now constructor.
  - repeat constructor; auto.
Qed.
Lemma hex_ascii : forall s d, hex_of d s -> Forall (fun c => 32 <= b2n c < 127) (lit "0x" ++ s).
Proof.
  intros s d [H _]. apply Forall_app. split; [repeat constructor; cbn; lia|].
  induction H as [|a b x y s d Ha Hb _ IH]; [constructor|]. unfold hex_value in *. repeat constructor; auto; lia.
Qed.

(** ** Arrays and objects without blanks *)
Lemma ws_nil : ws [].
Proof. constructor. Qed.
Lemma commas_elements : forall ts l, ts <> [] -> Forall2 reads ts l -> elements (commas ts) l.
Proof.
  intros ts l Hn H. revert Hn. induction H as [|v t ts l Hv Hl IH]; [congruence|]. intros _.
  destruct ts as [|v' ts].
  - inversion Hl; subst. cbn [commas]. pose proof (E_one [] v t [] ws_nil Hv ws_nil) as H. rewrite app_nil_r in H. exact H.
  - change (commas (v :: v' :: ts)) with (v ++ lit "," ++ commas (v' :: ts)).
    apply (E_more [] v t [] (commas (v' :: ts)) l ws_nil Hv ws_nil). apply IH. discriminate.
Qed.
Lemma brackets_reads : forall ts l, Forall2 reads ts l -> reads (brackets ts) (TArr l).
Proof.
  intros ts l H. unfold brackets. destruct ts as [|v ts].
  - inversion H; subst. apply R_arr0. constructor.
  - apply R_arr. apply commas_elements; [discriminate|exact H].
Qed.

Section Marshal.
Context (quote clean : str -> str) (num64 : f64 -> str) (num32 : f32 -> str) (time_text : Z -> str).
Context (HW : json_writer quote clean num64 num32).
Notation marshal := (marshal quote num64 num32 time_text).
Notation shown := (shown clean num64 num32 time_text).

Lemma commas_members : forall ms l, ms <> [] ->
  Forall2 (fun kt st => fst st = clean (fst kt) /\ reads (snd kt) (snd st)) ms l ->
  members (commas (map (member quote) ms)) l.
Proof.
  intros ms l Hn H. revert Hn. induction H as [|[k v] [s t] ms l [Hk Hv] Hl IH]; [congruence|]. intros _.
  cbn [fst snd] in *. subst s. destruct ms as [|m ms].
  - inversion Hl; subst. cbn [map commas]. unfold member. cbn [fst snd].
    pose proof (M_one [] (quote k) (clean k) [] [] v t [] ws_nil (quote_ok _ _ _ _ HW k) ws_nil ws_nil Hv ws_nil) as H.
    rewrite app_nil_r in H. exact H.
  - change (commas (map (member quote) ((k, v) :: m :: ms)))
      with ((quote k ++ lit ":" ++ v) ++ lit "," ++ commas (map (member quote) (m :: ms))).
    pose proof (M_more [] (quote k) (clean k) [] [] v t [] (commas (map (member quote) (m :: ms))) l ws_nil (quote_ok _ _ _ _ HW k) ws_nil ws_nil Hv ws_nil) as H.
    rewrite <- !app_assoc. apply H. apply IH. discriminate.
Qed.
Lemma braces_reads : forall ms l, Forall2 (fun kt st => fst st = clean (fst kt) /\ reads (snd kt) (snd st)) ms l ->
  reads (braces quote ms) (TObj l).
Proof.
  intros ms l H. unfold braces. destruct ms as [|v ms].
  - inversion H; subst. apply R_obj0. constructor.
  - apply R_obj. apply commas_members; [discriminate|exact H].
Qed.
Lemma insert_perm : forall A (kv : str * A) l, Permutation (insert_key kv l) (kv :: l).
Proof.
  intros A kv. induction l as [|h l IH]; [apply Permutation_refl|]. cbn [insert_key].
  destruct (str_leb (fst kv) (fst h)); [apply Permutation_refl|]. rewrite IH. apply perm_swap.
Qed.
Lemma sort_perm : forall A (l : list (str * A)), Permutation (sort_keys l) l.
Proof. intros A. induction l as [|kv l IH]; [constructor|]. cbn [sort_keys]. rewrite insert_perm. now constructor. Qed.
Lemma all_some_ok : forall A B (f : A -> option B) l r, Forall2 (fun x y => f x = Some y) l r -> all_some f l = Some r.
Proof. intros A B f l r H. induction H as [|x y l r Hx _ IH]; [reflexivity|]. cbn [all_some]. now rewrite Hx, IH. Qed.
Lemma all_some_none : forall A B (f : A -> option B) l, (exists x, In x l /\ f x = None) -> all_some f l = None.
Proof.
  intros A B f. induction l as [|x l IH]; intros (y & Hin & Hy); [destruct Hin|]. cbn [all_some].
  destruct Hin as [->|Hin]; [now rewrite Hy|]. rewrite IH by eauto. now destruct (f x).
Qed.

Definition entry_text (kv : str * prop) : str * option str := (fst kv, marshal (snd kv)).
Lemma marshal_block : forall m, marshal (PBlock m) =
  match all_some (fun kt => match snd kt with Some t => Some (fst kt, t) | None => None end)
          (sort_keys (map entry_text m)) with
  | Some ts => Some (braces quote ts) | None => None end.
Proof.
  intro m. cbn [ToJson.marshal].
  assert (E : (fix go (l : list (str * prop)) : list (str * option str) :=
                 match l with [] => [] | kv :: l' => (fst kv, marshal (snd kv)) :: go l' end) m = map entry_text m).
  { induction m as [|kv m IH]; [reflexivity|]. cbn [map]. now rewrite IH. }
  now rewrite E.
Qed.
Lemma marshal_array : forall c ps, marshal (PArray c ps) =
  match all_some (fun o => o) (map marshal ps) with Some ts => Some (brackets ts) | None => None end.
Proof.
  intros c ps. cbn [ToJson.marshal].
  assert (E : (fix go (l : list prop) : list (option str) :=
                 match l with [] => [] | v :: l' => marshal v :: go l' end) ps = map marshal ps).
  { induction ps as [|kv m IH]; [reflexivity|]. cbn [map]. now rewrite IH. }
  now rewrite E.
Qed.
Lemma raw_read : forall d, lenN d < 2 ^ 48 -> exists n s, read_bytes_array flat (bytes_array_to_bytes d) = Ok (d, n, None, s).
Proof.
  intros d H.
  destruct (read_bytes_array_ok (delivers_serves _ _ _ (flat_delivers false)) d H (bytes_array_to_bytes d) []) as (s & E & _);
    [now rewrite app_nil_r|now left|]. eauto.
Qed.
Lemma clean_key : forall k, Forall (fun c => 32 <= b2n c < 127) k -> k = clean k.
Proof. intros k H. symmetry. now apply (clean_ok _ _ _ _ HW). Qed.

Lemma lit_keys : lit "x" = clean (lit "x") /\ lit "y" = clean (lit "y") /\ lit "z" = clean (lit "z").
Proof. repeat split; apply clean_key; repeat constructor; cbv; intuition discriminate. Qed.
Lemma num64_reads : forall x, is_finite 53 1024 x = true -> num64_of num64 x = Some (num64 x) /\ reads (num64 x) (TNum (num64 x)).
Proof. intros x H. unfold num64_of. rewrite H. split; [reflexivity|]. apply R_num, (num64_ok _ _ _ _ HW), H. Qed.
Lemma hex_reads : forall d, exists s, hex_of d s /\ reads (quote (lit "0x" ++ hex_encode d)) (TStr (lit "0x" ++ s)).
Proof.
  intro d. exists (hex_encode d). split; [apply hex_encode_ok|].
  apply R_str. rewrite (clean_key (lit "0x" ++ hex_encode d)) at 2; [apply (quote_ok _ _ _ _ HW)|].
  apply hex_ascii with (d := d), hex_encode_ok.
Qed.

Theorem marshal_reads : forall p, printable p -> exists text t, marshal p = Some text /\ reads text t /\ shown p t.
Proof.
  intro p. induction p as [p Hl|m IH|c ps IH] using prop_ind'; intro H.
  - destruct H; try (destruct Hl; fail).
    + eexists _, _. split; [reflexivity|]. split; [apply R_str, (quote_ok _ _ _ _ HW)|constructor].
    + eexists _, _. split; [reflexivity|]. split; [apply R_num, tells_number with (z := z), show_Z_tells|].
      constructor. apply show_Z_tells.
    + exists (num32 f), (TNum (num32 f)). cbn [ToJson.marshal]. unfold num32_of. rewrite H. split; [reflexivity|].
      split; [apply R_num, (num32_ok _ _ _ _ HW), H|now constructor].
    + eexists _, (TBool b). split; [reflexivity|]. split; [destruct b; constructor|constructor].
    + destruct (hex_reads [b]) as (s & Hs & Hr). eexists _, _. split; [reflexivity|]. split; [exact Hr|now constructor].
    + destruct (num64_reads _ H) as [E1 R1], (num64_reads _ H0) as [E2 R2], lit_keys as (Kx & Ky & _).
      eexists _, _. split; [cbn [ToJson.marshal]; rewrite E1, E2; reflexivity|].
      split; [apply braces_reads|now constructor]. repeat (constructor; [split; assumption|]). constructor.
    + destruct (num64_reads _ H) as [E1 R1], (num64_reads _ H0) as [E2 R2], (num64_reads _ H1) as [E3 R3], lit_keys as (Kx & Ky & Kz).
      eexists _, _. split; [cbn [ToJson.marshal]; rewrite E1, E2, E3; reflexivity|].
      split; [apply braces_reads|now constructor]. repeat (constructor; [split; assumption|]). constructor.
    + eexists _, _. split; [reflexivity|]. split; [apply R_str, (quote_ok _ _ _ _ HW)|constructor].
    + destruct (hex_reads d) as (s & Hs & Hr). destruct (raw_read d H) as (n & s' & E).
      eexists _, _. split; [unfold new_binary_array; cbn [ToJson.marshal]; rewrite E; reflexivity|].
      split; [exact Hr|now constructor].
    + destruct (raw_read (map (fun b : bool => if b then x01 else x00) l)) as (n & s' & E).
      { unfold lenN in *. now rewrite map_length. }
      exists (brackets (map bool_text l)), (TArr (map TBool l)).
      split; [|split; [|constructor]].
      * unfold new_bool_array. cbn [ToJson.marshal]. rewrite E.
        change (3 =? 5) with false. change (3 =? 3) with true. cbv iota. f_equal. f_equal. rewrite map_map.
        apply map_ext. now intros [|].
      * apply brackets_reads. clear. induction l as [|b l IHl]; [constructor|]. cbn [map]. constructor; [destruct b; constructor|exact IHl].
    + eexists _, _. split; [reflexivity|]. split; constructor.
  - inversion H as [| | | | | | |m0 Hm| | | | |]; subst m0.
    pose proof (Permutation_map_inv _ _ (sort_perm _ (map entry_text m))) as (m' & E & Hp).
    assert (HF : Forall (fun kv => exists text t, marshal (snd kv) = Some text /\ reads text t /\ shown (snd kv) t) m').
    { apply (Permutation_Forall Hp). rewrite Forall_forall in *. intros kv Hin. apply IH; [exact Hin|]. now apply Hm. }
    assert (HX : exists ts l, Forall2 (fun x y => match snd x with Some t => Some (fst x, t) | None => None end = Some y) (map entry_text m') ts /\
        Forall2 (fun kt st => fst st = clean (fst kt) /\ reads (snd kt) (snd st)) ts l /\
        Forall2 (fun kp kt => fst kt = clean (fst kp) /\ shown (snd kp) (snd kt)) m' l).
    { clear - HF. induction HF as [|kv m' (text & t & E & Hr & Hs) _ (ts & l & H1 & H2 & H3)].
      - exists [], []. repeat constructor.
      - exists ((fst kv, text) :: ts), ((clean (fst kv), t) :: l). cbn [map].
        repeat split; constructor; auto. unfold entry_text. cbn [fst snd]. now rewrite E. }
    destruct HX as (ts & l & H1 & H2 & H3).
    exists (braces quote ts), (TObj l). rewrite marshal_block, E, (all_some_ok _ _ _ _ _ H1).
    split; [reflexivity|]. split; [now apply braces_reads|]. now apply H_block with (m' := m').
  - inversion H as [| | | | | | | | |c0 ps0 Hps| | |]; subst c0 ps0.
    assert (HX : exists ts l, Forall2 (fun x y => x = Some y) (map marshal ps) ts /\ Forall2 reads ts l /\ Forall2 shown ps l).
    { clear - IH Hps. induction ps as [|q ps IHp]; [exists [], []; repeat constructor|].
      inversion IH as [|? ? Hq IH']; inversion Hps as [|? ? Hq' Hps']; subst.
      destruct (Hq Hq') as (text & t & E & Hr & Hs). destruct (IHp IH' Hps') as (ts & l & H1 & H2 & H3).
      exists (text :: ts), (t :: l). cbn [map]. repeat split; constructor; auto. }
    destruct HX as (ts & l & H1 & H2 & H3).
    exists (brackets ts), (TArr l). rewrite marshal_array, (all_some_ok _ _ (fun o => o) _ _ H1).
    split; [reflexivity|]. split; [now apply brackets_reads|]. now constructor.
Qed.

(** ** The document *)
Lemma ws_app : forall a b, ws a -> ws b -> ws (a ++ b).
Proof. intros a b Ha Hb. apply Forall_app. auto. Qed.
Lemma ws_nl : ws nl.
Proof. repeat (apply Forall_cons; [cbv; tauto|]). apply Forall_nil. Qed.
Lemma ws_tab : ws tab.
Proof. repeat (apply Forall_cons; [cbv; tauto|]). apply Forall_nil. Qed.
Lemma ws_space : ws (lit " ").
Proof. repeat (apply Forall_cons; [cbv; tauto|]). apply Forall_nil. Qed.
Lemma ws_tabs : forall n, ws (tabs n).
Proof. induction n as [|n IH]; [constructor|]. cbn [tabs]. apply ws_app; [apply ws_tab|exact IH]. Qed.
Hint Resolve ws_nil ws_app ws_nl ws_tab ws_space ws_tabs : ws.
Lemma key_text : forall k, plain_text (lit k) -> string_text (quoted (lit k)) (lit k).
Proof. intros k H. now apply quoted_text. Qed.
Lemma plain_id : plain_text (lit "id") /\ plain_text (lit "name") /\ plain_text (lit "metadata") /\
  plain_text (lit "collections") /\ plain_text (lit "recordings") /\ plain_text (lit "signature") /\
  plain_text (lit "count") /\ plain_text (lit "captures") /\ plain_text (lit "time") /\ plain_text (lit "data").
Proof.
  repeat split; repeat (apply Forall_cons; [split; [intro; discriminate|split; discriminate]|]); apply Forall_nil.
Qed.
(** One key of an object that is not the last one. *)
Lemma member_then : forall a k c v t e l, ws a -> plain_text (lit k) -> ws c -> reads v t -> members e l ->
  members (a ++ quoted (lit k) ++ lit ":" ++ c ++ v ++ lit "," ++ e) (key k t :: l).
Proof.
  intros a k c v t e l Ha Hk Hc Hv He.
  apply (M_more a (quoted (lit k)) (lit k) [] c v t [] e l Ha (key_text k Hk) ws_nil Hc Hv ws_nil He).
Qed.
Lemma member_then' : forall a k b c v t e l, ws a -> plain_text (lit k) -> ws b -> ws c -> reads v t -> members e l ->
  members (a ++ quoted (lit k) ++ b ++ lit ":" ++ c ++ v ++ lit "," ++ e) (key k t :: l).
Proof.
  intros a k b c v t e l Ha Hk Hb Hc Hv He.
  apply (M_more a (quoted (lit k)) (lit k) b c v t [] e l Ha (key_text k Hk) Hb Hc Hv ws_nil He).
Qed.
Lemma member_end : forall a k b c v t d, ws a -> plain_text (lit k) -> ws b -> ws c -> reads v t -> ws d ->
  members (a ++ quoted (lit k) ++ b ++ lit ":" ++ c ++ v ++ d) [key k t].
Proof.
  intros a k b c v t d Ha Hk Hb Hc Hv Hd.
  apply (M_one a (quoted (lit k)) (lit k) b c v t d Ha (key_text k Hk) Hb Hc Hv Hd).
Qed.
Lemma plain_reads : forall s, plain_text s -> reads (quoted s) (TStr s).
Proof. intros s H. now apply R_str, quoted_text. Qed.
Lemma count_reads : forall n, exists t, show_nat n = t /\ spells t (N.of_nat n) /\ reads t (TNum t).
Proof.
  intro n. exists (show_nat n). split; [reflexivity|]. assert (H : spells (show_nat n) (N.of_nat n)) by apply show_N_spells.
  split; [exact H|]. apply R_num. now apply spells_number with (n := N.of_nat n).
Qed.

Lemma event_text : forall ind t name d mt tt, ws ind -> plain_text name -> reads d mt -> decimal6 tt t ->
  reads (lit "{" ++ nl ++
         ind ++ tab ++ tab ++ tab ++ lit """time"": " ++ tt ++ lit "," ++ nl ++
         ind ++ tab ++ tab ++ tab ++ lit """name"": " ++ quoted name ++ lit "," ++ nl ++
         ind ++ tab ++ tab ++ tab ++ lit """data"": " ++ d ++ nl ++
         ind ++ tab ++ tab ++ lit "}")
    (TObj [key "time" (TNum tt); key "name" (TStr name); key "data" mt]).
Proof.
  intros ind t name d mt tt Hi Hn Hd Ht.
  pose proof plain_id as (_ & Kn & _ & _ & _ & _ & _ & _ & Kt & Kd).
  pose proof (member_then (nl ++ ind ++ tab ++ tab ++ tab) "time" (lit " ") tt (TNum tt)
    ((nl ++ ind ++ tab ++ tab ++ tab) ++ quoted (lit "name") ++ lit ":" ++ lit " " ++ quoted name ++ lit "," ++
     (nl ++ ind ++ tab ++ tab ++ tab) ++ quoted (lit "data") ++ [] ++ lit ":" ++ lit " " ++ d ++ (nl ++ ind ++ tab ++ tab))
    [key "name" (TStr name); key "data" mt]) as H.
  rewrite <- !app_assoc in H.
  refine (eq_ind _ (fun x => reads x _) (R_obj _ _ (H _ Kt ws_space _ _)) _ _).
  - auto 8 with ws.
  - apply R_num, decimal6_number with (x := t), Ht.
  - pose proof (member_then (nl ++ ind ++ tab ++ tab ++ tab) "name" (lit " ") (quoted name) (TStr name)
      ((nl ++ ind ++ tab ++ tab ++ tab) ++ quoted (lit "data") ++ [] ++ lit ":" ++ lit " " ++ d ++ (nl ++ ind ++ tab ++ tab))
      [key "data" mt]) as H2. rewrite <- !app_assoc in H2. apply H2; auto 8 with ws; [now apply plain_reads|].
    pose proof (member_end (nl ++ ind ++ tab ++ tab ++ tab) "data" [] (lit " ") d mt (nl ++ ind ++ tab ++ tab)) as H3.
    rewrite <- !app_assoc in H3. apply H3; auto 8 with ws.
  - rewrite <- !app_assoc. reflexivity.
Qed.

Notation events_text := (events_text quote num64 num32 time_text).
Notation coll_text := (coll_text quote num64 num32 time_text).
Notation colls_text := (colls_text quote num64 num32 time_text).
Notation to_json := (to_json quote num64 num32 time_text).
Notation event_shown := (event_shown clean num64 num32 time_text).
Notation coll_shown := (coll_shown clean num64 num32 time_text).
Notation exported := (exported clean num64 num32 time_text).

Lemma events_elements : forall ind l, ws ind -> Forall plain_event l ->
  exists text lt, events_text ind l = (text, false) /\ Forall2 event_shown l lt /\
    (l = [] -> text = []) /\
    (l <> [] -> forall a w, ws a -> ws w -> elements (a ++ text ++ w) lt).
Proof.
  intros ind l Hi H. induction H as [|[t [name md]] l (Ht & Hn & Hp) Hl IH].
  { exists [], []. repeat split; [constructor|]. congruence. }
  cbn [fst snd] in *. destruct IH as (text & lt & E & Hs & H0 & H1).
  destruct (marshal_reads (PBlock md) Hp) as (d & mt & Em & Hr & Hm).
  pose proof (fixed6_decimal t Ht) as Hd.
  pose proof (event_text ind t name d mt (fixed6 t) Hi Hn Hr Hd) as HE.
  eexists _, (TObj [key "time" (TNum (fixed6 t)); key "name" (TStr name); key "data" mt] :: lt).
  cbn [ToJson.events_text]. rewrite Em, E. split; [reflexivity|]. split; [constructor; [now constructor|exact Hs]|].
  split; [discriminate|]. intros _ a w Ha Hw.
  destruct l as [|x l].
  - rewrite (H0 eq_refl) in *. inversion Hs; subst. rewrite !app_nil_l.
    pose proof (E_one (a ++ ind ++ tab ++ tab) _ _ (nl ++ w) ltac:(auto with ws) HE ltac:(auto with ws)) as HX.
    rewrite <- !app_assoc in *. rewrite ?app_nil_l in *. exact HX.
  - pose proof (E_more (a ++ ind ++ tab ++ tab) _ _ [] (nl ++ text ++ w) lt ltac:(auto with ws) HE ws_nil
      (H1 ltac:(discriminate) nl w ws_nl Hw)) as HX.
    rewrite <- !app_assoc in *. rewrite ?app_nil_l in *. exact HX.
Qed.
Lemma array_reads : forall (A : Type) (l : list A) text lt a w, ws a -> ws w ->
  (l = [] -> text = [] /\ lt = []) -> (l <> [] -> forall a w, ws a -> ws w -> elements (a ++ text ++ w) lt) ->
  reads (lit "[" ++ a ++ text ++ w ++ lit "]") (TArr lt).
Proof.
  intros A l text lt a w Ha Hw H0 H1. destruct l as [|x l].
  - destruct (H0 eq_refl) as [-> ->]. rewrite app_nil_l, app_assoc with (l := a). apply R_arr0. auto with ws.
  - pose proof (R_arr _ _ (H1 ltac:(discriminate) a w Ha Hw)) as H. rewrite <- !app_assoc in H. exact H.
Qed.

Lemma coll_elements : forall ind c, ws ind -> plain_coll c ->
  exists text t, coll_text ind c = (ind ++ text, false) /\ reads text t /\ coll_shown (Some c) t.
Proof.
  intros ind c Hi (Hn & Hs & Hb).
  pose proof plain_id as (_ & Kn & _ & _ & _ & Ks & Kc & Kp & _ & _).
  destruct (count_reads (length (c_times c))) as (n & En & Hsp & Hrn).
  unfold ToJson.coll_text. rewrite En.
  assert (HH : forall e l,
     members ((nl ++ ind ++ tab) ++ quoted (lit "count") ++ lit " " ++ lit ":" ++ lit " " ++ n ++ e) l ->
     reads (lit "{" ++ nl ++
              ind ++ tab ++ lit """name"": " ++ quoted (c_name c) ++ lit "," ++ nl ++
              ind ++ tab ++ lit """signature"" : " ++ quoted (c_sig c) ++ lit "," ++ nl ++
              ind ++ tab ++ lit """count"" : " ++ n ++ e ++ lit "}")
       (TObj (key "name" (TStr (c_name c)) :: key "signature" (TStr (c_sig c)) :: l))).
  { intros e l He.
    pose proof (member_then' (nl ++ ind ++ tab) "signature" (lit " ") (lit " ") (quoted (c_sig c)) (TStr (c_sig c)) _ l
      ltac:(auto with ws) Ks ws_space ws_space (plain_reads _ Hs) He) as H2.
    pose proof (member_then (nl ++ ind ++ tab) "name" (lit " ") (quoted (c_name c)) (TStr (c_name c)) _ _
      ltac:(auto with ws) Kn ws_space (plain_reads _ Hn) H2) as H1.
    apply R_obj in H1. rewrite <- !app_assoc in *. exact H1. }
  destruct (str_eqb (c_sig c) sig_event) eqn:Eq.
  - apply str_eqb_eq in Eq. destruct c as [name [l|l|l|l|m l|s l]]; cbn [c_sig c_body c_name] in *; try discriminate Eq.
    2:{ rewrite Eq in *. eexists _, _. split; [|split; [apply (HH (lit "," ++ (nl ++ ind ++ tab) ++ quoted (lit "captures") ++ [] ++ lit ":" ++ lit " " ++
         (lit "[" ++ nl ++ [] ++ (ind ++ tab) ++ lit "]") ++ (nl ++ ind)))|]].
      - f_equal. rewrite <- !app_assoc. reflexivity.
      - pose proof (member_then' (nl ++ ind ++ tab) "count" (lit " ") (lit " ") n (TNum n)) as HM.
        apply HM; auto with ws. apply member_end; auto with ws.
        apply array_reads with (l := @nil nat) (lt := []); auto with ws. congruence.
      - constructor. cbn [c_times c_body] in Hsp. exact Hsp. }
    destruct (events_elements ind l Hi Hb) as (text & lt & E & Hsh & H0 & H1). rewrite E.
    eexists _, _. split; [|split; [apply (HH (lit "," ++ (nl ++ ind ++ tab) ++ quoted (lit "captures") ++ [] ++ lit ":" ++ lit " " ++
         (lit "[" ++ nl ++ text ++ (ind ++ tab) ++ lit "]") ++ (nl ++ ind)))|]].
    + f_equal. rewrite <- !app_assoc. reflexivity.
    + pose proof (member_then' (nl ++ ind ++ tab) "count" (lit " ") (lit " ") n (TNum n)) as HM.
      apply HM; auto with ws. apply member_end; auto with ws.
      apply array_reads with (l := l) (lt := lt); auto with ws. intro El. split; [now apply H0|rewrite El in Hsh; now inversion Hsh].
    + constructor; [|exact Hsh]. cbn [c_times c_body] in Hsp. now rewrite map_length in Hsp.
  - eexists _, _. split; [|split; [apply (HH (nl ++ ind))|]].
    + f_equal. rewrite <- !app_assoc. reflexivity.
    + pose proof (member_end (nl ++ ind ++ tab) "count" (lit " ") (lit " ") n (TNum n) (nl ++ ind)) as HM. apply HM; auto with ws.
    + constructor; [|exact Hsp]. intro E. rewrite E in Eq. assert (str_eqb sig_event sig_event = true) by now apply str_eqb_eq. congruence.
Qed.

Lemma colls_elements : forall ind l, ws ind -> (forall o, In o l -> exists c, o = Some c /\ plain_coll c) ->
  exists text lt, colls_text ind l = Ok (text, false) /\ Forall2 coll_shown l lt /\
    (l = [] -> text = []) /\
    (l <> [] -> forall a w, ws a -> ws w -> elements (a ++ text ++ w) lt).
Proof.
  intros ind l Hi. induction l as [|o l IH]; intro H.
  { exists [], []. repeat split; [constructor|]. congruence. }
  destruct (H o (or_introl eq_refl)) as (c & -> & Hc).
  destruct IH as (text & lt & E & Hs & H0 & H1); [intros o Ho; apply H; now right|].
  destruct (coll_elements ind c Hi Hc) as (ct & t & Ec & Hr & Hsh).
  cbn [ToJson.colls_text]. rewrite Ec, E. cbn [bind].
  eexists _, (t :: lt). split; [reflexivity|]. split; [now constructor|]. split; [discriminate|].
  intros _ a w Ha Hw. destruct l as [|x l].
  - rewrite (H0 eq_refl) in *. inversion Hs; subst.
    pose proof (E_one (a ++ ind) _ _ w ltac:(auto with ws) Hr Hw) as HX.
    rewrite <- !app_assoc in *. exact HX.
  - pose proof (E_more (a ++ ind) _ _ [] (nl ++ text ++ w) lt ltac:(auto with ws) Hr ws_nil
      (H1 ltac:(discriminate) nl w ws_nl Hw)) as HX.
    rewrite <- !app_assoc in *. exact HX.
Qed.

Definition head_text (ind id name : str) : str :=
  ind ++ lit "{" ++ nl ++
  (ind ++ tab) ++ lit """id"": " ++ quoted id ++ lit "," ++ nl ++
  (ind ++ tab) ++ lit """name"": " ++ quoted name ++ lit "," ++ nl.
Definition recs_text (depth : nat) : list (option recording) -> res str :=
  fix go (l : list (option recording)) : res str :=
  match l with
  | [] => Ok []
  | o :: l' =>
      do t <- match o with
              | None => Ok (lit "null")
              | Some r' => do (t, _) <- to_json (depth + 2) r'; Ok t
              end;
      do u <- go l';
      Ok (t ++ (match l' with [] => [] | _ => lit "," ++ nl end) ++ u)
  end.
Lemma to_json_eq : forall depth id name colls recs md bins refs,
  to_json depth (mkRec id name colls recs md bins refs) =
  let ind := tabs depth in
  let sub := ind ++ tab in
  let head := head_text ind id name in
  match marshal (PBlock md) with
  | None => Ok (head, true)
  | Some d =>
      let front := head ++ sub ++ lit """metadata"": " ++ d ++ lit "," ++ nl ++
                   sub ++ lit """collections"": [" ++ (match colls with [] => [] | _ => nl end) in
      do (ct, e) <- colls_text (sub ++ tab) colls;
      if e then Ok (front ++ ct, true)
      else
        do rt <- recs_text depth recs;
        Ok (front ++ ct ++ (match colls with [] => [] | _ => nl ++ sub end) ++ lit "]," ++ nl ++
            sub ++ lit """recordings"": [" ++ (match recs with [] => [] | _ => nl end) ++ rt ++
            (match recs with [] => [] | _ => nl ++ sub end) ++ lit "]" ++ nl ++
            ind ++ lit "}", false)
  end.
Proof. reflexivity. Qed.

Lemma recs_elements : forall depth l,
  (forall r, In (Some r) l -> exists text t, to_json (depth + 2) r = Ok (tabs (depth + 2) ++ text, false) /\ reads text t /\ exported r t) ->
  exists text lt, recs_text depth l = Ok text /\
    Forall2 (fun o t => (o = None /\ t = TNull) \/ (exists r, o = Some r /\ exported r t)) l lt /\
    (l = [] -> text = []) /\
    (l <> [] -> forall a w, ws a -> ws w -> elements (a ++ text ++ w) lt).
Proof.
  intros depth l. induction l as [|o l IH]; intro H.
  { exists [], []. repeat split; [constructor|]. congruence. }
  destruct IH as (text & lt & E & Hs & H0 & H1); [intros r Hr; apply H; now right|].
  assert (HO : exists ind v t, match o with
              | None => Ok (lit "null")
              | Some r' => do (t, _) <- to_json (depth + 2) r'; Ok t
              end = Ok (ind ++ v) /\ ws ind /\ reads v t /\ ((o = None /\ t = TNull) \/ (exists r, o = Some r /\ exported r t))).
  { destruct o as [r|].
    - destruct (H r (or_introl eq_refl)) as (v & t & Er & Hr & Hx). exists (tabs (depth + 2)), v, t.
      rewrite Er. cbn [bind]. split; [reflexivity|]. split; [auto with ws|]. split; [exact Hr|]. right. eauto.
    - exists [], (lit "null"), TNull. split; [reflexivity|]. split; [auto with ws|]. split; [constructor|]. now left. }
  destruct HO as (ind & v & t & Eo & Hi & Hr & Hx).
  assert (E2 : recs_text depth (o :: l) = do t <- match o with None => Ok (lit "null") | Some r' => do (t, _) <- to_json (depth + 2) r'; Ok t end;
    do u <- recs_text depth l; Ok (t ++ (match l with [] => [] | _ => lit "," ++ nl end) ++ u)) by reflexivity.
  rewrite E2, Eo, E. cbn [bind].
  eexists _, (t :: lt). split; [reflexivity|]. split; [now constructor|]. split; [discriminate|].
  intros _ a w Ha Hw. destruct l as [|x l].
  - rewrite (H0 eq_refl) in *. inversion Hs; subst.
    pose proof (E_one (a ++ ind) _ _ w ltac:(auto with ws) Hr Hw) as HX.
    rewrite <- !app_assoc in *. exact HX.
  - pose proof (E_more (a ++ ind) _ _ [] (nl ++ text ++ w) lt ltac:(auto with ws) Hr ws_nil
      (H1 ltac:(discriminate) nl w ws_nl Hw)) as HX.
    rewrite <- !app_assoc in *. exact HX.
Qed.

Theorem export_reads : forall r depth, exportable r ->
  exists text t, to_json depth r = Ok (tabs depth ++ text, false) /\ reads text t /\ exported r t.
Proof.
  intro r. induction r as [id name colls recs md bins refs IH] using recording_ind'. intros depth H.
  inversion H as [? ? ? ? ? ? ? Hid Hn Hm Hc Hr]; subst.
  pose proof plain_id as (Ki & Kn & Km & Kc & Kr & _).
  destruct (marshal_reads (PBlock md) Hm) as (d & mt & Em & Hrd & Hmt).
  assert (Wi : ws (tabs depth)) by auto with ws.
  destruct (colls_elements ((tabs depth ++ tab) ++ tab) colls ltac:(auto with ws) Hc) as (ct & cts & Ec & Hcs & C0 & C1).
  destruct (recs_elements depth recs) as (rt & rts & Er & Hrs & R0 & R1).
  { intros r Hin. apply IH; [exact Hin|]. now apply Hr. }
  rewrite to_json_eq. cbv zeta. rewrite Em, Ec. cbn [bind]. rewrite Er. cbn [bind].
  set (ind := tabs depth) in *.
  pose proof (array_reads _ colls ct cts (match colls with [] => [] | _ => nl end) (match colls with [] => [] | _ => nl ++ ind ++ tab end)
     ltac:(destruct colls; auto with ws) ltac:(destruct colls; auto with ws)
     ltac:(intro El; split; [now apply C0|rewrite El in Hcs; now inversion Hcs]) C1) as RC.
  pose proof (array_reads _ recs rt rts (match recs with [] => [] | _ => nl end) (match recs with [] => [] | _ => nl ++ ind ++ tab end)
     ltac:(destruct recs; auto with ws) ltac:(destruct recs; auto with ws)
     ltac:(intro El; split; [now apply R0|rewrite El in Hrs; now inversion Hrs]) R1) as RR.
  assert (Wa : ws (nl ++ ind ++ tab)) by auto with ws.
  pose proof (member_end _ "recordings" [] (lit " ") _ _ (nl ++ ind) Wa Kr ws_nil ws_space RR ltac:(auto with ws)) as M1.
  pose proof (member_then _ "collections" (lit " ") _ _ _ _ Wa Kc ws_space RC M1) as M2.
  pose proof (member_then _ "metadata" (lit " ") _ _ _ _ Wa Km ws_space Hrd M2) as M3.
  pose proof (member_then _ "name" (lit " ") _ _ _ _ Wa Kn ws_space (plain_reads _ Hn) M3) as M4.
  pose proof (member_then _ "id" (lit " ") _ _ _ _ Wa Ki ws_space (plain_reads _ Hid) M4) as M5.
  apply R_obj in M5.
  eexists _, _. split; [|split; [exact M5|]].
  - f_equal. f_equal. unfold head_text. rewrite <- !app_assoc.
    replace ((match colls with [] => [] | _ => nl ++ ind ++ tab end) : str) with (match colls with [] => [] | _ => nl ++ (ind ++ tab) end : str) by reflexivity.
    reflexivity.
  - now constructor.
Qed.
End Marshal.

(** ** A scanner that no valid text upsets *)
Inductive scan_state : Type := Out (d : nat) | Within (d : nat) | Esc (d : nat) | Dead.
(** What may stand outside of strings. *)
Definition outside (c : byte) : bool :=
  existsb (beqb c) (lit "nulltruefalse0123456789+-.eE,:" ++ bs [32; 9; 10; 13]).
Definition step (s : scan_state) (c : byte) : scan_state :=
  match s with
  | Out d =>
      if beqb c """" then Within d
      else if beqb c "{" || beqb c "[" then Out (S d)
      else if beqb c "}" || beqb c "]" then match d with S d' => Out d' | O => Dead end
      else if outside c then Out d else Dead
  | Within d =>
      if beqb c """" then Out d
      else if b2n c <? 32 then Dead
      else if beqb c "\" then Esc d else Within d
  | Esc d => if b2n c <? 32 then Dead else Within d
  | Dead => Dead
  end.
Fixpoint scan (s : scan_state) (t : str) : scan_state :=
  match t with [] => s | c :: t' => scan (step s c) t' end.
Lemma scan_app : forall a b s, scan s (a ++ b) = scan (scan s a) b.
Proof. induction a as [|c a IH]; intros b s; [reflexivity|]. cbn [app scan]. apply IH. Qed.
Lemma scan_dead : forall t, scan Dead t = Dead.
Proof. induction t as [|c t IH]; [reflexivity|exact IH]. Qed.
Definition still (t : str) : Prop := forall d, scan (Out d) t = Out d.
Lemma still_nil : still [].
Proof. now intro. Qed.
Lemma still_app : forall a b, still a -> still b -> still (a ++ b).
Proof. intros a b Ha Hb d. now rewrite scan_app, Ha, Hb. Qed.
Lemma still_outside : forall t, forallb outside t = true -> still t.
Proof.
  induction t as [|c t IH]; intros H d; [reflexivity|]. cbn [forallb] in H. apply andb_prop in H. destruct H as [Hc Ht].
  cbn [scan]. enough (E : step (Out d) c = Out d) by (rewrite E; now apply IH).
  clear - Hc. destruct c; try discriminate Hc; reflexivity.
Qed.
Lemma ws_still : forall w, ws w -> still w.
Proof.
  intros w H. apply still_outside, forallb_forall. intros c Hc. unfold ws in H. rewrite Forall_forall in H.
  specialize (H c Hc). clear - H. destruct c; try reflexivity; cbv in H; intuition discriminate.
Qed.
Lemma digit_outside : forall c, digit c -> outside c = true.
Proof. intros c H. destruct c; try reflexivity; cbv in H; destruct H as [H1 H2]; exfalso; first [now apply H1|now apply H2]. Qed.
Lemma digits_still : forall t, Forall digit t -> still t.
Proof.
  intros t H. apply still_outside, forallb_forall. rewrite Forall_forall in H. intros c Hc. now apply digit_outside, H.
Qed.
Lemma number_still : forall t, number t -> still t.
Proof.
  intros t H. destruct H as [sign int frac exp Hs [_ Hi] _ Hf He].
  apply still_app; [destruct Hs as [-> | ->]; now apply still_outside|].
  apply still_app; [now apply digits_still|].
  apply still_app.
  - destruct Hf as [-> |(d & -> & _ & Hd)]; [apply still_nil|]. apply still_app; [now apply still_outside|now apply digits_still].
  - destruct He as [-> |(e & s & d & -> & He & Hsg & _ & Hd)]; [apply still_nil|].
    apply still_app; [destruct He as [-> | ->]; now apply still_outside|].
    apply still_app; [|now apply digits_still]. destruct Hsg as [-> |[-> | ->]]; now apply still_outside.
Qed.
Lemma hex_within : forall c n d, hex_digit c = Some n -> step (Within d) c = Within d.
Proof. intros c n d H. destruct c; try discriminate H; reflexivity. Qed.
Lemma unquote_scan : forall n u hi s d, (length u <= n)%nat -> unquote_from hi u = Some s -> scan (Within d) u = Within d.
Proof.
  induction n as [|n IH]; intros u hi s d Hl H; destruct u as [|c u]; try reflexivity; [cbn in Hl; lia|].
  cbn [length] in Hl. cbn [unquote_from] in H. cbn [scan step].
  destruct (beqb c """"); [discriminate|]. destruct (b2n c <? 32); [discriminate|].
  destruct (beqb c "\"); cbn [negb] in H.
  2:{ destruct (unquote_from None u) eqn:E; [|discriminate]. apply IH with (d := d) in E; [exact E|lia]. }
  destruct u as [|e u]; [discriminate|]. cbn [length] in Hl.
  assert (G : forall p, (match unquote_from None u with Some t => Some (match hi with Some _ => utf8 65533 ++ p ++ t | None => p ++ t end) | None => None end) = Some s ->
     scan (Within d) u = Within d).
  { intros p Hp. destruct (unquote_from None u) eqn:E; [|discriminate]. apply IH with (d := d) in E; [exact E|lia]. }
  cbn [scan step].
  destruct (beqb e """" || beqb e "\" || beqb e "/")%bool eqn:E1.
  { apply G in H. replace (b2n e <? 32) with false; [exact H|]. destruct e; try discriminate E1; reflexivity. }
  destruct (beqb e "b") eqn:E2. { apply G in H. replace (b2n e <? 32) with false; [exact H|]. destruct e; try discriminate E2; reflexivity. }
  destruct (beqb e "f") eqn:E3. { apply G in H. replace (b2n e <? 32) with false; [exact H|]. destruct e; try discriminate E3; reflexivity. }
  destruct (beqb e "n") eqn:E4. { apply G in H. replace (b2n e <? 32) with false; [exact H|]. destruct e; try discriminate E4; reflexivity. }
  destruct (beqb e "r") eqn:E5. { apply G in H. replace (b2n e <? 32) with false; [exact H|]. destruct e; try discriminate E5; reflexivity. }
  destruct (beqb e "t") eqn:E6. { apply G in H. replace (b2n e <? 32) with false; [exact H|]. destruct e; try discriminate E6; reflexivity. }
  destruct (beqb e "u") eqn:E7; cbn [negb] in H; [|discriminate].
  replace (b2n e <? 32) with false by (destruct e; try discriminate E7; reflexivity).
  destruct u as [|w [|x [|y [|z u]]]]; try discriminate. cbn [length] in Hl.
  destruct (hex4 w x y z) as [r|] eqn:E8; [|discriminate].
  cbn [scan]. unfold hex4 in E8.
  destruct (hex_digit w) eqn:Ew; [|discriminate]. destruct (hex_digit x) eqn:Ex; [|discriminate].
  destruct (hex_digit y) eqn:Ey; [|discriminate]. destruct (hex_digit z) eqn:Ez; [|discriminate].
  rewrite (hex_within _ _ _ Ew), (hex_within _ _ _ Ex), (hex_within _ _ _ Ey), (hex_within _ _ _ Ez).
  destruct ((55296 <=? r) && (r <? 56320))%bool.
  { destruct (unquote_from (Some r) u) eqn:E; [|discriminate]. apply IH with (d := d) in E; [exact E|lia]. }
  destruct ((56320 <=? r) && (r <? 57344))%bool.
  { destruct hi as [h|]; destruct (unquote_from None u) eqn:E; try discriminate; (apply IH with (d := d) in E; [exact E|lia]). }
  destruct (unquote_from None u) eqn:E; [|discriminate]. apply IH with (d := d) in E; [exact E|lia].
Qed.
Lemma string_still : forall t s, string_text t s -> still t.
Proof.
  intros t s (u & -> & H) d. rewrite !scan_app. change (scan (Out d) (lit """")) with (Within d).
  rewrite (unquote_scan (length u) u None s d (le_n _) H). reflexivity.
Qed.
Lemma bracketed_still : forall a t b, (a = lit "[" \/ a = lit "{") -> (b = lit "]" \/ b = lit "}") -> still t -> still (a ++ t ++ b).
Proof.
  intros a t b Ha Hb Ht d. rewrite !scan_app. replace (scan (Out d) a) with (Out (S d)) by (now destruct Ha as [-> | ->]).
  rewrite Ht. now destruct Hb as [-> | ->].
Qed.
Scheme reads_mut := Induction for reads Sort Prop
  with elements_mut := Induction for elements Sort Prop
  with members_mut := Induction for members Sort Prop.
Theorem reads_still : forall v t, reads v t -> still v.
Proof.
  assert (C : still (lit ",") /\ still (lit ":")) by (split; now apply still_outside). destruct C as [Cc Cl].
  apply (reads_mut (fun v t _ => still v) (fun e l _ => still e) (fun e l _ => still e));
    intros; try (now apply still_outside); try (apply bracketed_still; auto; now apply ws_still);
    repeat apply still_app; eauto using number_still, string_still, ws_still.
Qed.
Lemma document_still : forall v t, document v t -> still v.
Proof. intros v t (a & x & b & -> & Ha & Hx & Hb). repeat apply still_app; eauto using ws_still, reads_still. Qed.
Lemma not_valid : forall v, scan (Out 0) v <> Out 0 -> ~ valid_json v.
Proof. intros v H (t & Ht). apply H. now apply (document_still v t). Qed.
Lemma plain_within : forall s d, plain_text s -> scan (Within d) s = Within d.
Proof.
  intros s d H. induction H as [|c s (H1 & H2 & H3) _ IH]; [reflexivity|]. cbn [scan step].
  destruct (beqb c """") eqn:E; [apply beqb_eq in E; congruence|].
  destruct (N.ltb_spec (b2n c) 32); [lia|]. destruct (beqb c "\") eqn:E'; [apply beqb_eq in E'; congruence|]. exact IH.
Qed.
Lemma plain_out : forall s d, plain_text s -> (exists d', scan (Out d) s = Out d') \/ scan (Out d) s = Dead.
Proof.
  intros s d H. revert d. induction H as [|c s (H1 & H2 & H3) _ IH]; intro d; [left; now exists d|]. cbn [scan step].
  destruct (beqb c """") eqn:E; [apply beqb_eq in E; congruence|].
  destruct (beqb c "{" || beqb c "[")%bool; [apply IH|].
  destruct (beqb c "}" || beqb c "]")%bool; [destruct d; [right; apply scan_dead|apply IH]|].
  destruct (outside c); [apply IH|right; apply scan_dead].
Qed.

(** ** Texts that are not valid *)
Section Bad.
Context (quote clean : str -> str) (num64 : f64 -> str) (num32 : f32 -> str) (time_text : Z -> str).
Notation marshal := (marshal quote num64 num32 time_text).
Notation events_text := (events_text quote num64 num32 time_text).
Notation coll_text := (coll_text quote num64 num32 time_text).
Notation colls_text := (colls_text quote num64 num32 time_text).
Notation to_json := (to_json quote num64 num32 time_text).

Lemma to_json_head : forall depth r text e, to_json depth r = Ok (text, e) ->
  exists rest, text = head_text (tabs depth) (rec_id r) (rec_name r) ++ rest.
Proof.
  intros depth [id name colls recs md bins refs] text e H. rewrite to_json_eq in H. cbv zeta in H. cbn [rec_id rec_name].
  destruct (marshal (PBlock md)) as [d|].
  - destruct (colls_text ((tabs depth ++ tab) ++ tab) colls) as [[ct e']| |]; cbn [bind] in H; try discriminate H.
    destruct e'; [inversion H; subst; rewrite <- !app_assoc; eexists; reflexivity|].
    destruct (recs_text quote num64 num32 time_text depth recs) as [rt| |]; cbn [bind] in H; try discriminate H.
    inversion H; subst; rewrite <- !app_assoc; eexists; reflexivity.
  - inversion H; subst. exists []. now rewrite app_nil_r.
Qed.
Lemma still_quoted : forall s, plain_text s -> still (quoted s).
Proof. intros s H. now apply string_still with (s := s), quoted_text. Qed.
Lemma scan_key : forall d k, scan (Out d) (lit k) = Out d -> forall t, scan (Out d) (lit k ++ t) = scan (Out d) t.
Proof. intros d k H t. now rewrite scan_app, H. Qed.
Lemma scan_still : forall d a t, still a -> scan (Out d) (a ++ t) = scan (Out d) t.
Proof. intros d a t H. now rewrite scan_app, H. Qed.
Lemma head_scan : forall d ind id name t, ws ind -> plain_text id -> plain_text name ->
  scan (Out d) (head_text ind id name ++ t) = scan (Out (S d)) t.
Proof.
  intros d ind id name t Hi Hid Hn. unfold head_text. rewrite <- !app_assoc.
  assert (Wi := ws_still _ Hi). assert (Wt := ws_still _ ws_tab). assert (Wn := ws_still _ ws_nl).
  rewrite (scan_still _ ind) by exact Wi.
  rewrite (scan_app (lit "{")). change (scan (Out d) (lit "{")) with (Out (S d)).
  repeat first [rewrite (scan_still _ nl) by exact Wn|rewrite (scan_still _ ind) by exact Wi|rewrite (scan_still _ tab) by exact Wt
    |rewrite scan_key by reflexivity|rewrite (scan_still _ (quoted id)) by now apply still_quoted
    |rewrite (scan_still _ (quoted name)) by now apply still_quoted].
  reflexivity.
Qed.
Lemma quote_dead : forall ind id a b t, ws ind -> plain_text id -> plain_text a -> plain_text b ->
  scan (Out 0) (head_text ind id (a ++ lit """" ++ b) ++ t) = Dead.
Proof.
  intros ind id a b t Hi Hid Ha Hb. unfold head_text. rewrite <- !app_assoc.
  assert (Wi := ws_still _ Hi). assert (Wt := ws_still _ ws_tab). assert (Wn := ws_still _ ws_nl).
  rewrite (scan_still _ ind) by exact Wi.
  rewrite (scan_app (lit "{")). change (scan (Out 0) (lit "{")) with (Out 1).
  repeat first [rewrite (scan_still _ nl) by exact Wn|rewrite (scan_still _ ind) by exact Wi|rewrite (scan_still _ tab) by exact Wt
    |rewrite scan_key by reflexivity|rewrite (scan_still _ (quoted id)) by now apply still_quoted].
  unfold quoted. rewrite <- !app_assoc.
  rewrite (scan_app (lit """")). change (scan (Out 1) (lit """")) with (Within 1).
  rewrite (scan_app a), (plain_within _ _ Ha).
  rewrite (scan_app (lit """")). change (scan (Within 1) (lit """")) with (Out 1).
  rewrite (scan_app b). destruct (plain_out b 1 Hb) as [[d' ->] | ->]; [|apply scan_dead].
  rewrite (scan_app (lit """")). change (scan (Out d') (lit """")) with (Within d').
  rewrite (scan_app (lit ",")). change (scan (Within d') (lit ",")) with (Within d').
  rewrite (scan_app nl). change (scan (Within d') nl) with Dead. apply scan_dead.
Qed.
Theorem quote_invalid : forall r a b text e,
  plain_text (rec_id r) -> rec_name r = a ++ lit """" ++ b -> plain_text a -> plain_text b ->
  to_json 0 r = Ok (text, e) -> ~ valid_json text.
Proof.
  intros r a b text e Hid Hn Ha Hb H. destruct (to_json_head _ _ _ _ H) as (rest & ->). apply not_valid.
  rewrite Hn, quote_dead; auto; [discriminate|apply ws_tabs].
Qed.

(** *** A time that is no number *)
Context (HW : json_writer quote clean num64 num32).
Lemma bad_time_dead : forall d t rest, is_finite 53 1024 t = false -> scan (Out d) (fixed6 t ++ rest) = Dead.
Proof.
  intros d t rest H. destruct t as [s|s|s p e|s m e p]; try discriminate H; rewrite scan_app.
  - destruct s; apply scan_dead.
  - apply scan_dead.
Qed.
Lemma bad_event_dead : forall ind l1 t name md l2 d rest, ws ind -> Forall plain_event l1 ->
  is_finite 53 1024 t = false -> printable (PBlock md) ->
  scan (Out d) (fst (events_text ind (l1 ++ (t, (name, md)) :: l2)) ++ rest) = Dead.
Proof.
  intros ind l1 t name md l2 d rest Hi H1 Ht Hp.
  assert (Wi := ws_still _ Hi). assert (Wt := ws_still _ ws_tab). assert (Wn := ws_still _ ws_nl).
  induction H1 as [|[t' [name' md']] l1 (Ht' & Hn' & Hp') Hl IH]; cbn [app ToJson.events_text].
  - destruct (marshal_reads quote clean num64 num32 time_text HW _ Hp) as (dm & mt & -> & _).
    destruct (events_text ind l2) as [r e]. cbn [fst]. rewrite <- !app_assoc.
    repeat first [rewrite (scan_still _ nl) by exact Wn|rewrite (scan_still _ ind) by exact Wi|rewrite (scan_still _ tab) by exact Wt].
    rewrite (scan_app (lit "{")). change (scan (Out d) (lit "{")) with (Out (S d)).
    repeat first [rewrite (scan_still _ nl) by exact Wn|rewrite (scan_still _ ind) by exact Wi|rewrite (scan_still _ tab) by exact Wt
      |rewrite scan_key by reflexivity].
    now apply bad_time_dead.
  - cbn [fst snd] in *. destruct (marshal_reads quote clean num64 num32 time_text HW _ Hp') as (dm & mt & -> & Hr & _).
    destruct (events_text ind (l1 ++ (t, (name, md)) :: l2)) as [r e]. cbn [fst] in *.
    pose proof (event_text ind t' name' dm mt (fixed6 t') Hi Hn' Hr (fixed6_decimal t' Ht')) as HE.
    apply reads_still in HE.
    transitivity (scan (Out d) (ind ++ tab ++ tab ++ (lit "{" ++ nl ++
         ind ++ tab ++ tab ++ tab ++ lit """time"": " ++ fixed6 t' ++ lit "," ++ nl ++
         ind ++ tab ++ tab ++ tab ++ lit """name"": " ++ quoted name' ++ lit "," ++ nl ++
         ind ++ tab ++ tab ++ tab ++ lit """data"": " ++ dm ++ nl ++
         ind ++ tab ++ tab ++ lit "}") ++ lit "," ++ nl ++ r ++ rest)).
    + f_equal. rewrite <- !app_assoc. destruct l1; reflexivity.
    + rewrite (scan_still _ ind) by exact Wi. rewrite !(scan_still _ tab) by exact Wt. rewrite (scan_still _ _ _ HE).
      rewrite scan_key by reflexivity. rewrite (scan_still _ nl) by exact Wn. exact IH.
Qed.
Lemma bad_colls_dead : forall ind pre name l1 t en md l2 post d text e rest, ws ind ->
  (forall o, In o pre -> exists c, o = Some c /\ plain_coll c) -> plain_text name -> Forall plain_event l1 ->
  is_finite 53 1024 t = false -> printable (PBlock md) ->
  colls_text ind (pre ++ Some (mkColl name (BEvent (l1 ++ (t, (en, md)) :: l2))) :: post) = Ok (text, e) ->
  scan (Out d) (text ++ rest) = Dead.
Proof.
  intros ind pre name l1 t en md l2 post d text e rest Hi Hpre Hn H1 Ht Hp.
  assert (Wi := ws_still _ Hi). assert (Wt := ws_still _ ws_tab). assert (Wn := ws_still _ ws_nl).
  assert (Ws : plain_text sig_event).
  { repeat (apply Forall_cons; [split; [intro; discriminate|split; discriminate]|]); apply Forall_nil. }
  revert text e. induction pre as [|o pre IH]; intros text e H; cbn [app ToJson.colls_text] in H.
  - set (c := mkColl name (BEvent (l1 ++ (t, (en, md)) :: l2))) in *.
    assert (HX : exists r, fst (coll_text ind c) = ind ++ lit "{" ++ nl ++
              ind ++ tab ++ lit """name"": " ++ quoted name ++ lit "," ++ nl ++
              ind ++ tab ++ lit """signature"" : " ++ quoted sig_event ++ lit "," ++ nl ++
              ind ++ tab ++ lit """count"" : " ++ show_nat (length (c_times c)) ++ lit "," ++ nl ++
              ind ++ tab ++ lit """captures"": [" ++ nl ++ fst (events_text ind (l1 ++ (t, (en, md)) :: l2)) ++ r).
    { unfold ToJson.coll_text. subst c. cbn [c_sig c_body c_name].
      destruct (events_text ind (l1 ++ (t, (en, md)) :: l2)) as [et [|]]; cbn [fst].
      - exists []. rewrite app_nil_r, <- !app_assoc. reflexivity.
      - eexists. rewrite <- !app_assoc. reflexivity. }
    destruct HX as (r & EX). destruct (coll_text ind c) as [ct e1]. cbn [fst] in EX.
    assert (HT : exists r', text = ct ++ r').
    { destruct e1; [inversion H; exists []; now rewrite app_nil_r|].
      destruct (colls_text ind post) as [[rt e2]| |]; cbn [bind] in H; try discriminate H. inversion H; subst. eauto. }
    destruct HT as (r' & ->). rewrite EX, <- !app_assoc.
    destruct (count_reads (length (c_times c))) as (n & En & _ & Hrn). rewrite En. apply reads_still in Hrn.
    rewrite (scan_still _ ind) by exact Wi.
    rewrite (scan_app (lit "{")). change (scan (Out d) (lit "{")) with (Out (S d)).
    repeat first [rewrite (scan_still _ nl) by exact Wn|rewrite (scan_still _ ind) by exact Wi|rewrite (scan_still _ tab) by exact Wt
      |rewrite scan_key by reflexivity|rewrite (scan_still _ (quoted name)) by now apply still_quoted
      |rewrite (scan_still _ (quoted sig_event)) by now apply still_quoted|rewrite (scan_still _ n) by exact Hrn].
    rewrite (scan_app (lit """captures"": [")). change (scan (Out (S d)) (lit """captures"": [")) with (Out (S (S d))).
    rewrite (scan_still _ nl) by exact Wn. now apply bad_event_dead.
  - destruct (Hpre o (or_introl eq_refl)) as (c & -> & Hc).
    destruct (coll_elements quote clean num64 num32 time_text HW ind c Hi Hc) as (ct & tr & Ec & Hr & _).
    rewrite Ec in H.
    set (L := pre ++ _) in *.
    destruct (colls_text ind L) as [[rt e']| |] eqn:EL; cbn [bind] in H; try discriminate H.
    injection H as <- <-. apply reads_still in Hr. rewrite <- !app_assoc.
    rewrite (scan_still _ ind) by exact Wi. rewrite (scan_still _ _ _ Hr).
    assert (Hsep : forall x, (match L with [] => [] | _ => x end : str) = x) by (subst L; destruct pre; reflexivity).
    rewrite Hsep. change (","%byte :: nl) with (lit "," ++ nl).
    rewrite <- app_assoc, scan_key by reflexivity. rewrite (scan_still _ nl) by exact Wn.
    apply IH with (e := e'); [|reflexivity]. intros o Ho. apply Hpre. now right.
Qed.
Theorem bad_time_invalid : forall r pre name l1 t en md l2 post text e,
  plain_text (rec_id r) -> plain_text (rec_name r) -> printable (PBlock (rec_md r)) ->
  rec_colls r = pre ++ Some (mkColl name (BEvent (l1 ++ (t, (en, md)) :: l2))) :: post ->
  (forall o, In o pre -> exists c, o = Some c /\ plain_coll c) -> plain_text name -> Forall plain_event l1 ->
  is_finite 53 1024 t = false -> printable (PBlock md) ->
  to_json 0 r = Ok (text, e) -> ~ valid_json text.
Proof.
  intros [id nm colls recs rmd bins refs] pre name l1 t en md l2 post text e Hid Hnm Hm Hc Hpre Hn H1 Ht Hp H.
  cbn [rec_id rec_name rec_md rec_colls] in *. apply not_valid.
  rewrite to_json_eq in H. cbv zeta in H.
  destruct (marshal_reads quote clean num64 num32 time_text HW _ Hm) as (dm & mt & Em & Hr & _). rewrite Em in H.
  apply reads_still in Hr.
  destruct (colls_text ((tabs 0 ++ tab) ++ tab) colls) as [[ct e']| |] eqn:Ec; cbn [bind] in H; try discriminate H.
  assert (Hne : exists r, text = head_text (tabs 0) id nm ++ ((tabs 0 ++ tab) ++ lit """metadata"": " ++ dm ++ lit "," ++ nl ++
                   (tabs 0 ++ tab) ++ lit """collections"": [" ++ nl ++ ct ++ r)).
  { destruct colls as [|c0 colls0]; [destruct pre; discriminate Hc|]. destruct e'.
    - apply (f_equal (fun r => match r with Ok (t, _) => t | _ => [] end)) in H; cbv beta iota in H; subst text. exists []. rewrite app_nil_r, <- !app_assoc. reflexivity.
    - destruct (recs_text quote num64 num32 time_text 0 recs) as [rt| |]; cbn [bind] in H; try discriminate H.
      apply (f_equal (fun r => match r with Ok (t, _) => t | _ => [] end)) in H; cbv beta iota in H; subst text. eexists. rewrite <- !app_assoc. reflexivity. }
  destruct Hne as (r & ->).
  assert (Wi := ws_still _ (ws_tabs 0)). assert (Wt := ws_still _ ws_tab). assert (Wn := ws_still _ ws_nl).
  rewrite head_scan by (auto; apply ws_tabs). rewrite <- !app_assoc.
  repeat first [rewrite (scan_still _ nl) by exact Wn|rewrite (scan_still _ (tabs 0)) by exact Wi|rewrite (scan_still _ tab) by exact Wt
      |rewrite scan_key by reflexivity|rewrite (scan_still _ dm) by exact Hr].
  rewrite (scan_app (lit """collections"": [")). change (scan (Out 1) (lit """collections"": [")) with (Out 2).
  rewrite (scan_still _ nl) by exact Wn.
  rewrite Hc in Ec.
  rewrite (bad_colls_dead _ _ _ _ _ _ _ _ _ 2 _ _ r ltac:(apply ws_app; [apply ws_app; [apply ws_tabs|apply ws_tab]|apply ws_tab]) Hpre Hn H1 Ht Hp Ec).
  discriminate.
Qed.

(** *** An error inside a sub-recording *)
Lemma elements_still : forall e l, elements e l -> still e.
Proof.
  intros e l H.
  assert (C : still (lit ",") /\ still (lit ":")) by (split; now apply still_outside). destruct C as [Cc Cl].
  induction H; repeat apply still_app; eauto using ws_still, reads_still.
Qed.
Lemma nan_unmarshalled : forall m k f, In (k, PFloat f) m -> is_finite 24 128 f = false -> marshal (PBlock m) = None.
Proof.
  intros m k f Hin Hf. rewrite marshal_block.
  rewrite all_some_none; [reflexivity|]. exists (k, None). split; [|reflexivity].
  apply (Permutation_in _ (Permutation_sym (sort_perm _ _))). apply in_map_iff. exists (k, PFloat f). split; [|exact Hin].
  unfold entry_text. cbn [fst snd ToJson.marshal]. unfold num32_of. now rewrite Hf.
Qed.
Definition good_rec (o : option recording) : Prop := match o with None => True | Some r => exportable r end.
Lemma recs_good : forall depth l, (forall o, In o l -> good_rec o) ->
  exists text, recs_text quote num64 num32 time_text depth l = Ok text /\ still text.
Proof.
  intros depth l H.
  destruct (recs_elements quote clean num64 num32 time_text depth l) as (text & lt & E & _ & H0 & H1).
  { intros r Hr. apply export_reads; [exact HW|]. exact (H _ Hr). }
  exists text. split; [exact E|]. destruct l as [|o l]; [rewrite (H0 eq_refl); apply still_nil|].
  pose proof (H1 ltac:(discriminate) [] [] ws_nil ws_nil) as HE. rewrite app_nil_l, app_nil_r in HE. now apply elements_still with (l := lt).
Qed.
Lemma recs_bad : forall depth pre r k f post,
  (forall o, In o pre -> good_rec o) -> (forall o, In o post -> good_rec o) ->
  plain_text (rec_id r) -> plain_text (rec_name r) -> In (k, PFloat f) (rec_md r) -> is_finite 24 128 f = false ->
  exists text, recs_text quote num64 num32 time_text depth (pre ++ Some r :: post) = Ok text /\
    forall d, scan (Out d) text = Out (S d).
Proof.
  intros depth pre r k f post Hpre Hpost Hid Hn Hin Hf.
  assert (Wn := ws_still _ ws_nl).
  assert (EQ : forall o l, recs_text quote num64 num32 time_text depth (o :: l) =
    do t <- match o with None => Ok (lit "null") | Some r' => do (t, _) <- to_json (depth + 2) r'; Ok t end;
    do u <- recs_text quote num64 num32 time_text depth l;
    Ok (t ++ (match l with [] => [] | _ => lit "," ++ nl end) ++ u)) by reflexivity.
  induction pre as [|o pre IH]; cbn [app]; rewrite EQ.
  - destruct (recs_good depth post Hpost) as (u & Eu & Hu).
    destruct r as [id name colls recs md bins refs]. cbn [rec_id rec_name rec_md] in *.
    rewrite to_json_eq. cbv zeta. rewrite (nan_unmarshalled md k f Hin Hf). cbn [bind]. rewrite Eu. cbn [bind].
    eexists. split; [reflexivity|]. intro d. rewrite head_scan by (auto; apply ws_tabs).
    rewrite scan_app. destruct post; [cbn [scan]; apply Hu|].
    change (scan (Out (S d)) (lit "," ++ nl)) with (Out (S d)). apply Hu.
  - destruct IH as (u & Eu & Hu); [intros o' Ho'; apply Hpre; now right|].
    assert (HO : exists v, match o with None => Ok (lit "null") | Some r' => do (t, _) <- to_json (depth + 2) r'; Ok t end = Ok v /\ still v).
    { destruct o as [r'|]; [|exists (lit "null"); split; [reflexivity|now apply still_outside]].
      destruct (export_reads quote clean num64 num32 time_text HW r' (depth + 2) (Hpre _ (or_introl eq_refl))) as (v & t & Er & Hr & _).
      rewrite Er. cbn [bind]. eexists. split; [reflexivity|]. apply still_app; [apply ws_still, ws_tabs|now apply reads_still with (t := t)]. }
    destruct HO as (v & Ev & Hv). rewrite Ev, Eu. cbn [bind]. eexists. split; [reflexivity|].
    intro d. rewrite (scan_still _ v) by exact Hv. rewrite scan_app.
    destruct pre; apply Hu.
Qed.
Theorem lost_error_invalid : forall r pre b k f post,
  plain_text (rec_id r) -> plain_text (rec_name r) -> printable (PBlock (rec_md r)) ->
  (forall o, In o (rec_colls r) -> exists c, o = Some c /\ plain_coll c) ->
  rec_recs r = pre ++ Some b :: post ->
  (forall o, In o pre -> good_rec o) -> (forall o, In o post -> good_rec o) ->
  plain_text (rec_id b) -> plain_text (rec_name b) -> In (k, PFloat f) (rec_md b) -> is_finite 24 128 f = false ->
  exists text, to_json 0 r = Ok (text, false) /\ ~ valid_json text.
Proof.
  intros [id nm colls recs rmd bins refs] pre b k f post Hid Hnm Hm Hc Hrecs Hpre Hpost Hbid Hbn Hin Hf.
  cbn [rec_id rec_name rec_md rec_colls rec_recs] in *.
  destruct (recs_bad 0 pre b k f post Hpre Hpost Hbid Hbn Hin Hf) as (rt & Er & Hrt). rewrite <- Hrecs in Er.
  destruct (marshal_reads quote clean num64 num32 time_text HW _ Hm) as (dm & mt & Em & Hr & _). apply reads_still in Hr.
  assert (Wi := ws_still _ (ws_tabs 0)). assert (Wt := ws_still _ ws_tab). assert (Wn := ws_still _ ws_nl).
  destruct (colls_elements quote clean num64 num32 time_text HW ((tabs 0 ++ tab) ++ tab) colls) as (ct & cts & Ec & Hcs & C0 & C1);
    [apply ws_app; [apply ws_app; [apply ws_tabs|apply ws_tab]|apply ws_tab]|exact Hc|].
  assert (Hct : still ct).
  { destruct colls as [|c0 colls0]; [rewrite (C0 eq_refl); apply still_nil|].
    pose proof (C1 ltac:(discriminate) [] [] ws_nil ws_nil) as HE. rewrite app_nil_l, app_nil_r in HE. now apply elements_still with (l := cts). }
  rewrite to_json_eq. cbv zeta. rewrite Em, Ec. cbn [bind]. rewrite Er. cbn [bind].
  eexists. split; [reflexivity|]. apply not_valid.
  assert (Wo : forall A (l : list A) w, still w -> still (match l with [] => [] | _ => w end)).
  { intros A l w Hw. destruct l; [apply still_nil|exact Hw]. }
  rewrite <- !app_assoc. rewrite head_scan by (auto; apply ws_tabs).
  repeat first [rewrite (scan_still _ nl) by exact Wn|rewrite (scan_still _ (tabs 0)) by exact Wi|rewrite (scan_still _ tab) by exact Wt
      |rewrite scan_key by reflexivity|rewrite (scan_still _ dm) by exact Hr].
  rewrite (scan_app (lit """collections"": [")). change (scan (Out 1) (lit """collections"": [")) with (Out 2).
  rewrite (scan_still _ (match colls with [] => [] | _ => nl end)) by (now apply Wo).
  rewrite (scan_still _ ct) by exact Hct.
  rewrite (scan_still _ (match colls with [] => [] | _ => nl ++ tabs 0 ++ tab end)) by (apply Wo; repeat apply still_app; assumption).
  rewrite (scan_app (lit "],")). change (scan (Out 2) (lit "],")) with (Out 1).
  repeat first [rewrite (scan_still _ nl) by exact Wn|rewrite (scan_still _ (tabs 0)) by exact Wi|rewrite (scan_still _ tab) by exact Wt].
  rewrite (scan_app (lit """recordings"": [")). change (scan (Out 1) (lit """recordings"": [")) with (Out 2).
  rewrite (scan_still _ (match recs with [] => [] | _ => nl end)) by (now apply Wo).
  rewrite (scan_app rt), Hrt.
  rewrite (scan_still _ (match recs with [] => [] | _ => nl ++ tabs 0 ++ tab end)) by (apply Wo; repeat apply still_app; assumption).
  rewrite (scan_app (lit "]")). change (scan (Out 3) (lit "]")) with (Out 2).
  rewrite (scan_still _ nl) by exact Wn. rewrite (scan_still _ (tabs 0)) by exact Wi. discriminate.
Qed.
End Bad.
