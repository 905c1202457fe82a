(** Proofs about the CSV import. *)
From Coq Require Import Strings.String Permutation Lia.
From Verif Require Import Base BaseFacts Floats Metadata Recording Text Csv SpecCsv.
Local Open Scope nat_scope.

(** ** White space *)

Lemma strip_app : forall p r, strip p (p ++ r) = Some r.
Proof.
  induction p as [|b p IH]; intro r; [reflexivity|]. cbn [strip app].
  rewrite (proj2 (beqb_eq b b) eq_refl). apply IH.
Qed.
Lemma strip_spec : forall p l r, strip p l = Some r -> l = p ++ r.
Proof.
  induction p as [|b p IH]; intros l r H; cbn in H; [now injection H as ->|].
  destruct l as [|c l]; [discriminate|]. destruct (beqb b c) eqn:E; [|discriminate].
  apply beqb_eq in E. subst c. cbn. f_equal. auto.
Qed.
Lemma strip_any_spec : forall ps l r, strip_any ps l = Some r -> exists p, In p ps /\ l = p ++ r.
Proof.
  induction ps as [|p ps IH]; intros l r H; cbn in H; [discriminate|].
  destruct (strip p l) eqn:E.
  - injection H as <-. exists p. split; [now left|now apply strip_spec].
  - destruct (IH _ _ H) as (q & Hq & ->). exists q. split; [now right|reflexivity].
Qed.
Lemma strip_any_none : forall ps l, strip_any ps l = None -> forall p r, In p ps -> l <> p ++ r.
Proof.
  induction ps as [|p ps IH]; intros l H q r Hq E; [destruct Hq|]. cbn in H.
  destruct (strip p l) eqn:Es; [discriminate|]. destruct Hq as [->|Hq].
  - subst l. rewrite strip_app in Es. discriminate.
  - exact (IH _ H q r Hq E).
Qed.
Lemma trim_front_spec : forall ps, Forall (fun p => p <> []) ps -> forall f l, length l <= f ->
  exists qs, Forall (fun p => In p ps) qs /\ l = concat qs ++ trim_front ps f l /\
    forall p r, In p ps -> trim_front ps f l <> p ++ r.
Proof.
  intros ps Hps. induction f as [|f IH]; intros l Hl.
  - exists []. destruct l; [|cbn in Hl; lia]. cbn. split; [constructor|split; [reflexivity|]].
    intros p r Hp E. rewrite Forall_forall in Hps. symmetry in E. apply app_eq_nil in E as [E _].
    exact (Hps p Hp E).
  - cbn [trim_front]. destruct (strip_any ps l) as [l'|] eqn:E.
    + destruct (strip_any_spec _ _ _ E) as (p & Hp & ->).
      assert (Hpl : p <> []) by (rewrite Forall_forall in Hps; auto).
      destruct (IH l') as (qs & Hq & El & Hn).
      { rewrite app_length in Hl. destruct p; [contradiction|]. cbn in Hl. lia. }
      exists (p :: qs). split; [now constructor|]. split; [|exact Hn].
      cbn [concat]. rewrite <- app_assoc. f_equal. exact El.
    + exists []. split; [constructor|]. split; [reflexivity|]. exact (strip_any_none _ _ E).
Qed.
Lemma concat_rev : forall (qs : list str), rev (concat qs) = concat (map (@rev _) (rev qs)).
Proof.
  induction qs as [|q qs IH]; [reflexivity|]. cbn [concat rev]. rewrite rev_app_distr, IH, map_app, concat_app.
  cbn. now rewrite app_nil_r.
Qed.
Lemma space_iff : forall p, In p spaces <-> space p.
Proof.
  assert (W : forall c, white c -> In c [9; 10; 11; 12; 13; 32; 133; 160; 5760; 8192; 8193; 8194; 8195; 8196; 8197; 8198; 8199; 8200;
    8201; 8202; 8232; 8233; 8239; 8287; 12288]%N).
  { intros c H. unfold white in H. cbn [In] in H |- *. lia. }
  assert (E : spaces = map utf8 [9; 10; 11; 12; 13; 32; 133; 160; 5760; 8192; 8193; 8194; 8195; 8196; 8197; 8198; 8199; 8200;
    8201; 8202; 8232; 8233; 8239; 8287; 12288]%N) by (vm_compute; reflexivity).
  intro p. rewrite E, in_map_iff. split.
  - intros (c & <- & H). exists c. split; [|reflexivity]. unfold white. cbn [In] in H |- *. lia.
  - intros (c & H & ->). exists c. auto.
Qed.
Lemma trim_space_listed : forall s, exists w1 w2,
  s = w1 ++ trim_space s ++ w2 /\ (exists ps, Forall (fun p => In p spaces) ps /\ w1 = concat ps) /\
  (exists ps, Forall (fun p => In p spaces) ps /\ w2 = concat ps) /\
  ~ (exists p r, In p spaces /\ trim_space s = p ++ r) /\ ~ (exists p r, In p spaces /\ trim_space s = r ++ p).
Proof.
  intro s. unfold trim_space. set (l1 := trim_front spaces (length s) s).
  destruct (trim_front_spec spaces) with (f := length s) (l := s) as (qs & Hq & E1 & N1); [|lia|].
  { unfold spaces. cbn [map]. repeat (apply Forall_cons; [discriminate|]). apply Forall_nil. }
  fold l1 in E1, N1. set (sp := map (@rev byte) spaces).
  destruct (trim_front_spec sp) with (f := length l1) (l := rev l1) as (rs & Hr & E2 & N2).
  { unfold sp, spaces. cbn [map]. repeat (apply Forall_cons; [discriminate|]). apply Forall_nil. }
  { rewrite rev_length. lia. }
  set (t := trim_front sp (length l1) (rev l1)) in *.
  assert (E3 : l1 = rev t ++ concat (map (@rev _) (rev rs))).
  { rewrite <- (rev_involutive l1), E2, rev_app_distr, concat_rev. reflexivity. }
  exists (concat qs), (concat (map (@rev _) (rev rs))).
  split; [rewrite <- E3; exact E1|]. split; [exists qs; auto|]. split.
  { exists (map (@rev _) (rev rs)). split; [|reflexivity]. apply Forall_forall. intros p Hp.
    apply in_map_iff in Hp as (q & <- & Hin). apply in_rev in Hin. rewrite Forall_forall in Hr.
    specialize (Hr q Hin). unfold sp in Hr. apply in_map_iff in Hr as (u & <- & Hu). now rewrite rev_involutive. }
  split.
  - intros (p & r & Hp & E). apply (N1 p (r ++ concat (map (@rev _) (rev rs)))); [exact Hp|].
    rewrite E3, E, <- app_assoc. reflexivity.
  - intros (p & r & Hp & E). apply (N2 (rev p) (rev r)).
    + unfold sp. now apply in_map.
    + rewrite <- (rev_involutive t), E, rev_app_distr. reflexivity.
Qed.
Theorem trim_space_spec : forall s, exists w1 w2,
  s = w1 ++ trim_space s ++ w2 /\ blank w1 /\ blank w2 /\
  ~ starts_blank (trim_space s) /\ ~ ends_blank (trim_space s).
Proof.
  intro s. destruct (trim_space_listed s) as (w1 & w2 & E & (a & Ha & Ea) & (b & Hb & Eb) & N1 & N2). exists w1, w2. split; [exact E|].
  assert (F : forall ps, Forall (fun p => In p spaces) ps -> Forall space ps) by (intros ps; apply Forall_impl; intro; apply space_iff).
  split; [exists a; auto|]. split; [exists b; auto|]. split.
  - intros (p & r & Hp & Ep). apply N1. exists p, r. split; [now apply space_iff|exact Ep].
  - intros (p & r & Hp & Ep). apply N2. exists p, r. split; [now apply space_iff|exact Ep].
Qed.

(** ** Columns *)

Fixpoint last_titled (i : nat) (h : list str) (t : str) : option nat :=
  match h with
  | [] => None
  | s :: h' =>
      match last_titled (S i) h' t with
      | Some j => Some j
      | None => if str_eqb (trim_space s) t then Some i else None
      end
  end.
Definition or_else {A} (a b : option A) : option A := match a with Some _ => a | None => b end.

Lemma find_cols_ok : forall h i k,
  k_time (find_cols i h k) = or_else (last_titled i h (lit "time")) (k_time k) /\
  k_id (find_cols i h k) = or_else (last_titled i h (lit "id")) (k_id k) /\
  k_name (find_cols i h k) = or_else (last_titled i h (lit "name")) (k_name k) /\
  k_x (find_cols i h k) = or_else (last_titled i h (lit "x")) (k_x k) /\
  k_y (find_cols i h k) = or_else (last_titled i h (lit "y")) (k_y k) /\
  k_z (find_cols i h k) = or_else (last_titled i h (lit "z")) (k_z k).
Proof.
  induction h as [|s h IH]; intros i k; [cbn; auto 10|].
  cbn [find_cols last_titled]. destruct (IH (S i) (set_col i s k)) as (H1 & H2 & H3 & H4 & H5 & H6).
  rewrite H1, H2, H3, H4, H5, H6. clear. unfold set_col. set (t := trim_space s). clearbody t.
  assert (D : forall a b, str_eqb t (lit a) = true -> str_eqb (lit a) (lit b) = false ->
                          str_eqb t (lit b) = false).
  { intros a b E F. apply str_eqb_eq in E. now rewrite E. }
  destruct (str_eqb t (lit "time")) eqn:Et;
    [|destruct (str_eqb t (lit "id")) eqn:Ei;
      [|destruct (str_eqb t (lit "name")) eqn:En;
        [|destruct (str_eqb t (lit "x")) eqn:Ex;
          [|destruct (str_eqb t (lit "y")) eqn:Ey;
            [|destruct (str_eqb t (lit "z")) eqn:Ez]]]]];
  repeat match goal with
  | H : str_eqb t (lit ?a) = true |- context [str_eqb t (lit ?b)] =>
      rewrite (D a b H ltac:(vm_compute; reflexivity))
  end; cbn [k_time k_id k_name k_x k_y k_z];
  repeat split;
  match goal with |- or_else (last_titled _ _ ?x) _ = _ => destruct (last_titled (S i) h x); reflexivity end.
Qed.

Lemma last_titled_ge : forall h i t j, last_titled i h t = Some j -> i <= j.
Proof.
  induction h as [|s h IH]; intros i t j H; cbn in H; [discriminate|].
  destruct (last_titled (S i) h t) eqn:E.
  - injection H as <-. apply IH in E. lia.
  - destruct (str_eqb (trim_space s) t); [|discriminate]. injection H as <-. lia.
Qed.
Lemma last_titled_none : forall h i t, last_titled i h t = None ->
  forall j s, nth_error h j = Some s -> trim_space s <> t.
Proof.
  induction h as [|s h IH]; intros i t H j u Hj E; [destruct j; discriminate|]. cbn in H.
  destruct (last_titled (S i) h t) eqn:E1; [discriminate|].
  destruct (str_eqb (trim_space s) t) eqn:E2; [discriminate|].
  destruct j as [|j]; cbn in Hj.
  - injection Hj as ->. apply str_eqb_neq in E2. contradiction.
  - exact (IH _ _ E1 j u Hj E).
Qed.
Lemma last_titled_some : forall h i t j, last_titled i h t = Some j ->
  (exists s, nth_error h (j - i) = Some s /\ trim_space s = t) /\
  forall m s, nth_error h m = Some s -> trim_space s = t -> m + i <= j.
Proof.
  induction h as [|s h IH]; intros i t j H; cbn in H; [discriminate|].
  destruct (last_titled (S i) h t) as [j'|] eqn:E.
  - injection H as ->. pose proof (last_titled_ge _ _ _ _ E) as Hge.
    destruct (IH _ _ _ E) as ((u & Hu & Eu) & Hl). split.
    + exists u. split; [|exact Eu]. replace (j - i) with (S (j - S i)) by lia. exact Hu.
    + intros [|m] v Hm Ev; [lia|]. cbn in Hm. specialize (Hl _ _ Hm Ev). lia.
  - destruct (str_eqb (trim_space s) t) eqn:E2; [|discriminate]. injection H as ->.
    apply str_eqb_eq in E2. split.
    + exists s. rewrite Nat.sub_diag. auto.
    + intros [|m] v Hm Ev; [lia|]. cbn in Hm. destruct (last_titled_none _ _ _ E _ _ Hm Ev).
Qed.
Lemma last_titled_iff : forall h t j, last_titled 0 h (lit t) = Some j <-> titled h t j.
Proof.
  intros h t j. split.
  - intro H. destruct (last_titled_some _ _ _ _ H) as ((s & Hs & Es) & Hl).
    rewrite Nat.sub_0_r in Hs. split; [eauto|]. intros m u Hm Eu. specialize (Hl m u Hm Eu). lia.
  - intros ((s & Hs & Es) & Hl). destruct (last_titled 0 h (lit t)) as [i|] eqn:E.
    + destruct (last_titled_some _ _ _ _ E) as ((u & Hu & Eu) & Hm).
      rewrite Nat.sub_0_r in Hu. specialize (Hl _ _ Hu Eu). specialize (Hm _ _ Hs Es). f_equal. lia.
    + destruct (last_titled_none _ _ _ E _ _ Hs Es).
Qed.
Definition no_cols := mkCols None None None None None None.
Definition cols_of (k : columns) : csv_cols :=
  mkCols (Some (in_time k)) (Some (in_id k)) (Some (in_name k)) (Some (in_x k)) (Some (in_y k)) (Some (in_z k)).
Lemma six_columns_found : forall h k, six_columns h k -> find_cols 0 h no_cols = cols_of k.
Proof.
  intros h k (H1 & H2 & H3 & H4 & H5 & H6).
  apply last_titled_iff in H1, H2, H3, H4, H5, H6.
  destruct (find_cols_ok h 0 no_cols) as (E1 & E2 & E3 & E4 & E5 & E6).
  rewrite H1 in E1. rewrite H2 in E2. rewrite H3 in E3. rewrite H4 in E4. rewrite H5 in E5. rewrite H6 in E6.
  destruct (find_cols 0 h no_cols). cbn in *. unfold cols_of. congruence.
Qed.

(** ** Grouping *)

Lemma key_eqb_eq : forall a b, key_eqb a b = true <-> a = b.
Proof.
  intros [a1 a2] [b1 b2]. unfold key_eqb. cbn. rewrite andb_true_iff, !str_eqb_eq. split.
  - intros [-> ->]. reflexivity.
  - intro H. injection H as -> ->. auto.
Qed.

Fixpoint look_name (n : str) (m : csv_names) : list (f64 * vec) :=
  match m with
  | [] => []
  | (n', l) :: m' => if str_eqb n n' then l else look_name n m'
  end.
Fixpoint look (i n : str) (d : csv_data) : list (f64 * vec) :=
  match d with
  | [] => []
  | (i', m) :: d' => if str_eqb i i' then look_name n m else look i n d'
  end.
Lemma look_add_name : forall n c m n', look_name n' (add_name n c m) =
  look_name n' m ++ (if str_eqb n' n then [c] else []).
Proof.
  intros n c. induction m as [|[a l] m IH]; intro n'; cbn [add_name look_name].
  - destruct (str_eqb n' n); reflexivity.
  - destruct (str_eqb n a) eqn:E; cbn [look_name].
    + apply str_eqb_eq in E. subst a. destruct (str_eqb n' n); [reflexivity|now rewrite app_nil_r].
    + destruct (str_eqb n' a) eqn:E2; [|apply IH]. apply str_eqb_eq in E2. subst a.
      destruct (str_eqb n' n) eqn:E3; [|now rewrite app_nil_r].
      apply str_eqb_eq in E3. subst. rewrite str_eqb_refl in E. discriminate.
Qed.
Lemma look_add : forall i n c d i' n', look i' n' (add_row i n c d) =
  look i' n' d ++ (if key_eqb (i', n') (i, n) then [c] else []).
Proof.
  intros i n c. induction d as [|[a m] d IH]; intros i' n'; cbn [add_row look].
  - unfold key_eqb. cbn [fst snd]. destruct (str_eqb i' i); [|reflexivity].
    rewrite look_add_name. reflexivity.
  - unfold key_eqb in *. cbn [fst snd] in *. destruct (str_eqb i a) eqn:E; cbn [look].
    + apply str_eqb_eq in E. subst a. destruct (str_eqb i' i); [apply look_add_name|now rewrite app_nil_r].
    + destruct (str_eqb i' a) eqn:E2; [|apply IH]. apply str_eqb_eq in E2. subst a.
      destruct (str_eqb i' i) eqn:E3; [|now rewrite app_nil_r].
      apply str_eqb_eq in E3. subst. rewrite str_eqb_refl in E. discriminate.
Qed.

(** Keys are distinct, no list is empty. *)
Definition names_ok (m : csv_names) : Prop :=
  NoDup (map fst m) /\ Forall (fun e => snd e <> []) m.
Definition data_ok (d : csv_data) : Prop :=
  NoDup (map fst d) /\ Forall (fun e => names_ok (snd e)) d.
Lemma add_name_keys : forall n c m x, In x (map fst (add_name n c m)) <-> In x (map fst m) \/ x = n.
Proof.
  intros n c. induction m as [|[a l] m IH]; intro x; cbn [add_name map fst In]; [intuition|].
  destruct (str_eqb n a) eqn:E; cbn [map fst In].
  - apply str_eqb_eq in E. subst a. intuition.
  - rewrite IH. intuition.
Qed.
Lemma add_name_ok : forall n c m, names_ok m -> names_ok (add_name n c m).
Proof.
  intros n c. induction m as [|[a l] m IH]; intros [H1 H2]; cbn [add_name].
  - split; [repeat constructor; intros [] | repeat constructor; discriminate].
  - inversion_clear H1 as [|? ? Ha Hm]. inversion_clear H2 as [|? ? Hl Hr].
    destruct (str_eqb n a) eqn:E.
    + split; cbn [map fst]; [now constructor|]. constructor; [|exact Hr]. cbn. destruct l; discriminate.
    + destruct (IH (conj Hm Hr)) as [K1 K2]. split; cbn [map fst]; [|now constructor].
      constructor; [|exact K1]. rewrite add_name_keys. intros [K| ->]; [contradiction|].
      now rewrite str_eqb_refl in E.
Qed.
Lemma add_row_keys : forall i n c d x, In x (map fst (add_row i n c d)) <-> In x (map fst d) \/ x = i.
Proof.
  intros i n c. induction d as [|[a l] d IH]; intro x; cbn [add_row map fst In]; [intuition|].
  destruct (str_eqb i a) eqn:E; cbn [map fst In].
  - apply str_eqb_eq in E. subst a. intuition.
  - rewrite IH. intuition.
Qed.
Lemma add_row_ok : forall i n c d, data_ok d -> data_ok (add_row i n c d).
Proof.
  intros i n c. induction d as [|[a m] d IH]; intros [H1 H2]; cbn [add_row].
  - split; [repeat constructor; intros []|]. constructor; [|constructor]. apply (add_name_ok n c []).
    split; constructor.
  - inversion_clear H1 as [|? ? Ha Hm]. inversion_clear H2 as [|? ? Hl Hr]. cbn in Hl.
    destruct (str_eqb i a) eqn:E.
    + split; cbn [map fst]; [now constructor|]. constructor; [|exact Hr]. now apply add_name_ok.
    + destruct (IH (conj Hm Hr)) as [K1 K2]. split; cbn [map fst]; [|now constructor].
      constructor; [|exact K1]. rewrite add_row_keys. intros [K| ->]; [contradiction|].
      now rewrite str_eqb_refl in E.
Qed.

Lemma look_name_in : forall n m l, NoDup (map fst m) -> In (n, l) m -> look_name n m = l.
Proof.
  intros n. induction m as [|[a b] m IH]; intros l Hd Hin; [destruct Hin|]. cbn [look_name].
  inversion_clear Hd as [|? ? Ha Hm]. destruct Hin as [E|Hin].
  - injection E as -> ->. now rewrite str_eqb_refl.
  - destruct (str_eqb n a) eqn:E; [|auto]. apply str_eqb_eq in E. subst a.
    exfalso. apply Ha. apply in_map_iff. exists (n, l). auto.
Qed.
Lemma look_name_some : forall n m, look_name n m <> [] -> In (n, look_name n m) m.
Proof.
  intros n. induction m as [|[a b] m IH]; intro H; cbn [look_name] in *; [contradiction|].
  destruct (str_eqb n a) eqn:E; [|right; auto]. apply str_eqb_eq in E. subst. now left.
Qed.
Lemma look_in : forall i n d m l, data_ok d -> In (i, m) d -> In (n, l) m -> look i n d = l.
Proof.
  intros i n. induction d as [|[a b] d IH]; intros m l [Hd Ho] Hin Hm; [destruct Hin|]. cbn [look].
  inversion_clear Hd as [|? ? Ha Hr]. inversion_clear Ho as [|? ? Hb Hs]. destruct Hin as [E|Hin].
  - injection E as -> ->. rewrite str_eqb_refl. apply look_name_in; [apply Hb|exact Hm].
  - destruct (str_eqb i a) eqn:E; [|eapply IH; eauto; split; auto]. apply str_eqb_eq in E. subst a.
    exfalso. apply Ha. apply in_map_iff. exists (i, m). auto.
Qed.
Lemma look_some : forall i n d, look i n d <> [] -> exists m, In (i, m) d /\ In (n, look i n d) m.
Proof.
  intros i n. induction d as [|[a b] d IH]; intro H; cbn [look] in *; [contradiction|].
  destruct (str_eqb i a) eqn:E.
  - apply str_eqb_eq in E. subst. exists b. split; [now left|]. now apply look_name_some.
  - destruct (IH H) as (m & H1 & H2). exists m. split; [now right|exact H2].
Qed.

Lemma rows_of_app : forall k a b, rows_of k (a ++ b) = rows_of k a ++ rows_of k b.
Proof. intros. unfold rows_of. now rewrite filter_app, map_app. Qed.
Lemma rows_of_nonempty : forall k l, rows_of k l <> [] <-> In k (map key l).
Proof.
  intros k. induction l as [|e l IH]; cbn [map In].
  - split; [intro H; now destruct H|intros []].
  - unfold rows_of in *. cbn [filter]. destruct (key_eqb k (key e)) eqn:E.
    + apply key_eqb_eq in E. split; [now left|intros _; discriminate].
    + rewrite IH. split; [now right|]. intros [K|K]; [|exact K]. symmetry in K. apply key_eqb_eq in K. congruence.
Qed.

Section Import.
Context (parse_float : str -> option f64).
Context (outer : csv_data -> csv_data) (inner : str -> csv_names -> csv_names).
Hypothesis outer_ok : forall d, Permutation (outer d) d.
Hypothesis inner_ok : forall i m, Permutation (inner i m) m.

Lemma csv_row_says : forall k row e, row_says parse_float k row e ->
  csv_row parse_float (cols_of k) row = Ok (inl e).
Proof.
  intros k row [[id name] [t v]] (Hi & Hn & (st & Et & Pt) & (sx & Ex & Px) & (sy & Ey & Py) & (sz & Ez & Pz)).
  unfold csv_row, cell, cols_of. cbn [k_time k_id k_name k_x k_y k_z].
  rewrite Et. cbn [bind]. rewrite Pt, Hn. cbn [bind]. rewrite Hi. cbn [bind].
  rewrite Ex. cbn [bind]. rewrite Px, Ey. cbn [bind]. rewrite Py, Ez. cbn [bind]. rewrite Pz.
  destruct v. reflexivity.
Qed.

Lemma csv_rows_says : forall k rows l d, Forall2 (row_says parse_float k) rows l -> forall stop,
  csv_rows parse_float (cols_of k) rows stop d =
  match stop with
  | None => Ok (inl (fold_left (fun d e => add_row (fst (fst e)) (snd (fst e)) (snd e) d) l d))
  | Some e => Ok (inr (CsvRead e))
  end.
Proof.
  intros k rows l d H stop. revert d. induction H as [|row e rows l Hr Hl IH]; intro d; cbn [csv_rows fold_left].
  - reflexivity.
  - rewrite (csv_row_says _ _ _ Hr). cbn [bind]. destruct e as [[id name] c]. apply IH.
Qed.

Lemma fold_rows : forall l d l0, data_ok d -> (forall i n, look i n d = rows_of (i, n) l0) ->
  let d' := fold_left (fun d (e : entry) => add_row (fst (fst e)) (snd (fst e)) (snd e) d) l d in
  data_ok d' /\ forall i n, look i n d' = rows_of (i, n) (l0 ++ l).
Proof.
  induction l as [|e l IH]; intros d l0 Hd Hl d'; subst d'; cbn [fold_left].
  - rewrite app_nil_r. auto.
  - replace (l0 ++ e :: l) with ((l0 ++ [e]) ++ l) by now rewrite <- app_assoc.
    apply IH; [now apply add_row_ok|]. intros i n. rewrite look_add, rows_of_app, Hl. f_equal.
    unfold rows_of. cbn [filter]. destruct e as [[a b] c]. unfold key. cbn [fst snd].
    destruct (key_eqb (i, n) (a, b)); reflexivity.
Qed.

Lemma flat_map_perm : forall {A B} (f g : A -> list B) l l', Permutation l l' ->
  (forall x, In x l' -> Permutation (f x) (g x)) -> Permutation (flat_map f l) (flat_map g l').
Proof.
  intros A B f g l l' Hp Hf.
  transitivity (flat_map f l'); [now apply Permutation_flat_map|]. clear Hp.
  induction l' as [|x l' IH]; cbn; [reflexivity|].
  apply Permutation_app; [apply Hf; now left|]. apply IH. intros; apply Hf; now right.
Qed.

Lemma csv_subs_ok : forall d l, data_ok d -> (forall i n, look i n d = rows_of (i, n) l) ->
  NoDup (map (fun r => (rec_id r, rec_name r)) (csv_subs outer inner d)) /\
  (forall r, In r (csv_subs outer inner d) <-> exists k, In k (map key l) /\ r = group k l).
Proof.
  intros d l Hd Hl. split.
  - eapply Permutation_NoDup.
    + apply Permutation_map. symmetry. unfold csv_subs. apply flat_map_perm
        with (g := fun e => map (fun nc => csv_sub (fst e) (fst nc) (snd nc)) (snd e)).
      * apply outer_ok.
      * intros x _. apply Permutation_map. apply inner_ok.
    + destruct Hd as [H1 H2]. clear Hl. induction d as [|[i m] d IH]; [constructor|].
      inversion_clear H1 as [|? ? Ha Hr]. inversion_clear H2 as [|? ? [Hb _] Hs]. cbn [flat_map fst snd].
      rewrite map_app, map_map. cbn [rec_id rec_name csv_sub]. cbn [snd] in Hb. cbn [fst] in Ha.
      assert (Hcat : forall (a b : list (str * str)), NoDup a -> NoDup b -> (forall x, In x a -> ~ In x b) -> NoDup (a ++ b)).
      { clear. induction a as [|x a IH]; intros b Na Nb Hx; [exact Nb|]. inversion_clear Na. cbn. constructor.
        - rewrite in_app_iff. intros [K|K]; [contradiction|]. apply (Hx x); [now left|exact K].
        - apply IH; auto. intros y Hy. apply Hx. now right. }
      apply Hcat.
      * clear -Hb. induction m as [|[n c] m IH]; [constructor|]. inversion_clear Hb as [|? ? Hn Hm]. cbn.
        constructor; [|auto]. intro K. apply in_map_iff in K as ((n' & c') & E & Hin). cbn in E. injection E as ->.
        apply Hn. apply in_map_iff. exists (n, c'). auto.
      * exact (IH Hr Hs).
      * intros [i' n'] Hin Hin'. apply in_map_iff in Hin as (x & E & _). injection E as -> _.
        apply Ha. apply in_map_iff in Hin' as (r & E & Hin'). injection E as E1 _.
        apply in_flat_map in Hin' as ((j & m') & Hj & Hin'). apply in_map_iff in Hin' as (y & <- & _).
        cbn in E1. subst j. apply in_map_iff. exists (i', m'). auto.
  - intro r. unfold csv_subs. rewrite in_flat_map. split.
    + intros ((i & m) & Hin & Hr). cbn [fst snd] in Hr. apply (Permutation_in _ (outer_ok d)) in Hin.
      apply in_map_iff in Hr as ((n & c) & <- & Hn). apply (Permutation_in _ (inner_ok i m)) in Hn.
      pose proof (look_in i n d m c Hd Hin Hn) as E. rewrite Hl in E.
      exists (i, n). split.
      * apply rows_of_nonempty. rewrite E. destruct Hd as [_ Ho]. rewrite Forall_forall in Ho.
        destruct (Ho _ Hin) as [_ Hc]. rewrite Forall_forall in Hc. exact (Hc _ Hn).
      * unfold csv_sub, group. cbn [fst snd]. now rewrite E.
    + intros ((i & n) & Hk & ->). apply rows_of_nonempty in Hk. rewrite <- Hl in Hk.
      destruct (look_some i n d Hk) as (m & H1 & H2). exists (i, m). split.
      * apply (Permutation_in _ (Permutation_sym (outer_ok d))). exact H1.
      * cbn [fst snd]. apply in_map_iff. exists (n, look i n d). split.
        -- unfold csv_sub, group. cbn [fst snd]. now rewrite Hl.
        -- apply (Permutation_in _ (Permutation_sym (inner_ok i m))). exact H2.
Qed.

Theorem csv_import_ok : forall header rows k l,
  six_columns header k -> Forall2 (row_says parse_float k) rows l ->
  exists subs, recording_from_csv parse_float outer inner (header :: rows, None)
    = Ok (inl (mkRec [] [] [] (map Some subs) [] [] [])) /\
    NoDup (map (fun r => (rec_id r, rec_name r)) subs) /\
    (forall r, In r subs <-> exists k, In k (map key l) /\ r = group k l).
Proof.
  intros header rows k l Hk Hl. unfold recording_from_csv. fold no_cols.
  rewrite (six_columns_found _ _ Hk), (csv_rows_says _ _ _ _ Hl). cbn [bind].
  eexists. split; [reflexivity|]. apply csv_subs_ok.
  - apply (fold_rows l [] []); [split; constructor|reflexivity].
  - apply (fold_rows l [] []); [split; constructor|reflexivity].
Qed.

Ltac bad := right; split;
  [solve [left; eauto | right; left; eauto | right; right; left; eauto | right; right; right; eauto]|eauto].
(** A row with all cells either says something or is bad. *)
Lemma row_dec : forall h k row, six_columns h k -> length row = length h ->
  (exists e, row_says parse_float k row e) \/
  (bad_row parse_float k row /\ exists x, csv_row parse_float (cols_of k) row = Ok (inr x)).
Proof.
  intros h k row Hk Hr.
  assert (N : forall t i, titled h t i -> exists s, nth_error row i = Some s).
  { intros t i ((s & Hs & _) & _). assert (K : i < length h) by (apply nth_error_Some; congruence).
    rewrite <- Hr in K. destruct (nth_error row i) eqn:E; [eauto|]. apply nth_error_None in E. lia. }
  destruct Hk as (H1 & H2 & H3 & H4 & H5 & H6).
  apply N in H1 as (st & Et), H2 as (si & Ei), H3 as (sn & En), H4 as (sx & Ex), H5 as (sy & Ey), H6 as (sz & Ez).
  unfold csv_row, cell, cols_of, bad_row, not_number_at. cbn [k_time k_id k_name k_x k_y k_z].
  rewrite Et. cbn [bind]. destruct (parse_float (trim_space st)) as [t|] eqn:Pt; [|bad].
  rewrite En. cbn [bind]. rewrite Ei. cbn [bind]. rewrite Ex. cbn [bind].
  destruct (parse_float (trim_space sx)) as [x|] eqn:Px; [|bad].
  rewrite Ey. cbn [bind]. destruct (parse_float (trim_space sy)) as [y|] eqn:Py; [|bad].
  rewrite Ez. cbn [bind]. destruct (parse_float (trim_space sz)) as [z|] eqn:Pz; [|bad].
  left. exists (si, sn, (t, mkVec x y z)). unfold row_says, number_at. cbn [vx vy vz]. repeat split; eauto.
Qed.
Lemma row_not_both : forall k row e, row_says parse_float k row e -> ~ bad_row parse_float k row.
Proof.
  intros k row [[id name] [t v]] (_ & _ & (st & Et & Pt) & (sx & Ex & Px) & (sy & Ey & Py) & (sz & Ez & Pz)) H.
  unfold bad_row, not_number_at in H.
  destruct H as [(s & E & P)|[(s & E & P)|[(s & E & P)|(s & E & P)]]]; congruence.
Qed.

Theorem csv_import_fails : forall header rows stop k,
  six_columns header k -> Forall (fun row => length row = length header) rows ->
  (exists row, In row rows /\ bad_row parse_float k row) \/ stop <> None ->
  exists e, recording_from_csv parse_float outer inner (header :: rows, stop) = Ok (inr e).
Proof.
  intros header rows stop k Hk Hr Hbad. unfold recording_from_csv. fold no_cols.
  rewrite (six_columns_found _ _ Hk). generalize (@nil (str * csv_names)) as d.
  induction Hr as [|row rows Hrow Hrows IH]; intro d; cbn [csv_rows].
  - destruct Hbad as [(row & [] & _)|Hs]. destruct stop; [|contradiction]. cbn. eauto.
  - destruct (row_dec _ _ _ Hk Hrow) as [(e & He)|(_ & x & Ex)].
    + rewrite (csv_row_says _ _ _ He). cbn [bind]. destruct e as [[id name] c]. apply IH.
      destruct Hbad as [(row' & [<-|Hin] & Hb)|Hs]; [|left; eauto|now right].
      destruct (row_not_both _ _ _ He Hb).
    + rewrite Ex. cbn [bind]. eauto.
Qed.

(** Without one of the columns no row is ever accepted. *)
Theorem csv_missing_column : forall header row rows stop r,
  recording_from_csv parse_float outer inner (header :: row :: rows, stop) = Ok (inl r) ->
  exists k, six_columns header k.
Proof.
  intros header row rows stop r. unfold recording_from_csv. fold no_cols.
  destruct (find_cols_ok header 0 no_cols) as (E1 & E2 & E3 & E4 & E5 & E6).
  cbn [no_cols k_time k_id k_name k_x k_y k_z] in *.
  cbn [csv_rows]. unfold csv_row, cell. rewrite E1, E2, E3, E4, E5, E6.
  destruct (last_titled 0 header (lit "time")) as [a|] eqn:F1; cbn [or_else bind]; [|discriminate].
  destruct (nth_error row a); cbn [bind]; [|discriminate].
  destruct (parse_float _); [|discriminate].
  destruct (last_titled 0 header (lit "name")) as [b|] eqn:F2; cbn [or_else bind]; [|discriminate].
  destruct (nth_error row b); cbn [bind]; [|discriminate].
  destruct (last_titled 0 header (lit "id")) as [c|] eqn:F3; cbn [or_else bind]; [|discriminate].
  destruct (nth_error row c); cbn [bind]; [|discriminate].
  destruct (last_titled 0 header (lit "x")) as [x|] eqn:F4; cbn [or_else bind]; [|discriminate].
  destruct (nth_error row x); cbn [bind]; [|discriminate].
  destruct (parse_float _); [|discriminate].
  destruct (last_titled 0 header (lit "y")) as [y|] eqn:F5; cbn [or_else bind]; [|discriminate].
  destruct (nth_error row y); cbn [bind]; [|discriminate].
  destruct (parse_float _); [|discriminate].
  destruct (last_titled 0 header (lit "z")) as [z|] eqn:F6; cbn [or_else bind]; [|discriminate].
  intros _. apply last_titled_iff in F1, F2, F3, F4, F5, F6.
  exists (mkColumns a c b x y z). repeat (split; [assumption|]). assumption.
Qed.
End Import.
