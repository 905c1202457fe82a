(** Reading back encoded capture times. *)
From Coq Require Import ZArith Lia.
From Verif Require Import Base BaseFacts IO Spec IOFacts Floats ByteFacts BinaryIO BinaryIOFacts VarintFacts.
From Verif Require Import Metadata Recording Encoding SpecEnc EncPosition EncNumFacts TimeIO.
Local Open Scope N_scope.

(** what the decoder computes from the start, the step and the steps' bytes *)
Fixpoint time_codes (l : list f64) (total mx : f64) : list bytes :=
  match l with
  | [] => []
  | t :: l' =>
      let b := bst_enc 2 (fsub t total) f0 mx in
      b :: time_codes l' (fadd total (bst_dec f0 mx b)) mx
  end.
Fixpoint time_path (cs : list bytes) (cur mx : f64) : list f64 :=
  match cs with
  | [] => []
  | b :: cs' => let cur1 := fadd cur (bst_dec f0 mx b) in cur1 :: time_path cs' cur1 mx
  end.
Definition time_values (tech : N) (l : list f64) : list f64 :=
  match tech with
  | 0 => l
  | 1 => map near32 l
  | _ =>
      let (st, mx) := time_range None l fpinf fminf in
      match l with
      | [] => []
      | _ :: rest => near32 st :: time_path (time_codes rest st mx) (near32 st) (near32 mx)
      end
  end.

Lemma time_steps_codes : forall l total mx, time_steps l total mx = concat (time_codes l total mx).
Proof. induction l as [|t l IH]; intros; cbn [time_steps time_codes concat]; [auto|]. now rewrite IH. Qed.
Lemma time_codes_len : forall l total mx, length (time_codes l total mx) = length l.
Proof. induction l as [|t l IH]; intros; cbn [time_codes length]; [auto|]. now rewrite IH. Qed.
Lemma time_codes_2 : forall l total mx, Forall (fun b => lenN b = 2) (time_codes l total mx).
Proof. induction l as [|t l IH]; intros; cbn [time_codes]; constructor; auto. apply bst_enc_len. Qed.
Lemma time_path_len : forall cs cur mx, length (time_path cs cur mx) = length cs.
Proof. induction cs as [|t l IH]; intros; cbn [time_path length]; [auto|]. now rewrite IH. Qed.
Lemma time_values_len : forall tech l, length (time_values tech l) = length l.
Proof.
  intros tech l. unfold time_values. destruct tech as [|[]]; auto using map_length.
  - destruct (time_range None l fpinf fminf) as [st mx]. destruct l; [auto|].
    cbn [length]. now rewrite time_path_len, time_codes_len.
  - destruct (time_range None l fpinf fminf) as [st mx]. destruct l; [auto|].
    cbn [length]. now rewrite time_path_len, time_codes_len.
Qed.

(** A reader whose single Reads are never short (ErrReader). *)
Definition exact {S} (R : Reader S) (I : S -> bytes -> Prop) : Prop :=
  forall s d rest n, I s (d ++ rest) -> lenN d = n ->
    exists s', rread R n s = Ok (d, None, s') /\ I s' rest.
Lemma er_exact : forall {S} (R : Reader S) eager I k, serves R eager I ->
  exact (err_reader R) (er_inv I k).
Proof. intros S R eager I k HR s d rest n HI Hn. eapply er_read_ok; eauto. Qed.

Section Reading.
Context {S : Type} (R : Reader S) (I : S -> bytes -> Prop).
Hypothesis HR : serves R false I.
Hypothesis HX : exact R I.

Lemma decode_time64_ok : forall l, lenN l <= 2 ^ 45 ->
  parses I false (decode_time64 R (lenN l)) (flat_map f64_bytes l) (l, None).
Proof.
  intros l Hl s rest HI Hm. unfold decode_time64. rewrite go_make_ok.
  2:{ change (2 ^ 48) with (8 * 2 ^ 45). now apply N.mul_le_mono_l. }
  unfold lenN. rewrite Nat2N.id.
  assert (E : exists s', loop (length l)
            (fun s => do (r, s1) <- rd64 R f0 s; Ok (fst r, s1)) s = Ok (l, s') /\ I s' rest).
  { clear Hl. revert s HI. induction l as [|x l IH]; intros s HI; cbn [flat_map length loop] in *.
    - exists s. auto.
    - rewrite <- app_assoc in HI.
      destruct (rd64_ok R false I HR f0 x s _ HI) as (s1 & -> & HI1); auto with more.
      cbn [bind fst]. destruct (IH s1 HI1) as (s2 & -> & HI2). exists s2. auto. }
  destruct E as (s' & -> & HI'). exists s'. auto.
Qed.
Lemma decode_time32_ok : forall l, lenN l <= 2 ^ 45 ->
  parses I false (decode_time32 R (lenN l)) (flat_map wr32 l) (map near32 l, None).
Proof.
  intros l Hl s rest HI Hm. unfold decode_time32. rewrite go_make_ok.
  2:{ change (2 ^ 48) with (8 * 2 ^ 45). now apply N.mul_le_mono_l. }
  unfold lenN. rewrite Nat2N.id.
  assert (E : exists s', loop (length l)
            (fun s => do (r, s1) <- rd32 R f32_0 s; Ok (f64_of_f32 (fst r), s1)) s
            = Ok (map near32 l, s') /\ I s' rest).
  { clear Hl. revert s HI. induction l as [|x l IH]; intros s HI; cbn [flat_map length loop map] in *.
    - exists s. auto.
    - rewrite <- app_assoc in HI.
      destruct (rd32_ok R false I HR f32_0 (f32_of_f64 x) s _ HI) as (s1 & -> & HI1); auto with more.
      cbn [bind fst]. destruct (IH s1 HI1) as (s2 & -> & HI2). exists s2. auto. }
  destruct E as (s' & -> & HI'). exists s'. auto.
Qed.

Lemma time_unsteps_ok : forall cs cur mx buf, Forall (fun b => lenN b = 2) cs -> lenN buf = 2 ->
  parses I false (time_unsteps R (length cs) cur mx buf) (concat cs) (time_path cs cur mx).
Proof.
  induction cs as [|b cs IH]; intros cur mx buf Hc Hb s rest HI Hm;
    cbn [concat length time_unsteps time_path] in *.
  - exists s. auto.
  - inversion Hc as [|? ? Hb2 Hc']; subst. rewrite <- app_assoc in HI.
    destruct (HX _ _ _ _ HI Hb2) as (s1 & -> & HI1). cbn [bind fst].
    assert (E : fill buf b = b).
    { unfold fill. rewrite dropN_all by lia. apply app_nil_r. }
    rewrite E. destruct (IH (fadd cur (bst_dec f0 mx b)) mx b Hc' Hb2 s1 rest HI1) as (s2 & -> & HI2);
      auto with more.
    cbn [bind]. exists s2. auto.
Qed.

Lemma decode_time16_ok : forall l, lenN l <= 2 ^ 45 ->
  parses I false (decode_time16 R (lenN l)) (encode_time16 l) (time_values 2 l, None).
Proof.
  intros l Hl s rest HI Hm. unfold decode_time16, encode_time16, time_values in *.
  destruct (time_range None l fpinf fminf) as [st mx].
  destruct l as [|t l]; [exists s; auto|].
  destruct (N.eqb_spec (lenN (t :: l)) 0) as [E|_]; [rewrite lenN_cons in E; lia|].
  destruct l as [|t2 l].
  - destruct (rd32_ok R false I HR f32_0 (f32_of_f64 st) s _ HI) as (s1 & -> & HI1); auto with more.
    cbn [bind]. rewrite (proj2 (N.eqb_eq _ _)) by reflexivity. exists s1. auto.
  - rewrite <- !app_assoc in HI.
    destruct (rd32_ok R false I HR f32_0 (f32_of_f64 st) s _ HI) as (s1 & -> & HI1); auto with more.
    cbn [bind]. destruct (N.eqb_spec (lenN (t :: t2 :: l)) 1) as [E|_]; [rewrite !lenN_cons in E; lia|].
    destruct (rd32_ok R false I HR f32_0 (f32_of_f64 mx) s1 _ HI1) as (s2 & -> & HI2); auto with more.
    cbn [bind]. rewrite go_make_ok.
    2:{ change (2 ^ 48) with (8 * 2 ^ 45). now apply N.mul_le_mono_l. }
    rewrite time_steps_codes in HI2.
    replace (N.to_nat (N.pred (lenN (t :: t2 :: l)))) with (@length (list byte) (time_codes (t2 :: l) st mx)).
    2:{ change (@length (list byte)) with (@length bytes). rewrite time_codes_len. unfold lenN. cbn [length]. lia. }
    destruct (time_unsteps_ok (time_codes (t2 :: l) st mx) (f64_of_f32 (f32_of_f64 st))
                (f64_of_f32 (f32_of_f64 mx)) (zeros 2)) with (s := s2) (rest := rest)
      as (s3 & -> & HI3); auto using time_codes_2 with more.
    cbn [bind]. exists s3. auto.
Qed.

Theorem decode_time_ok : forall tech l, tech < 3 -> lenN l <= 2 ^ 45 ->
  parses I false (decode_time R) (encode_time tech l) (time_values tech l, None).
Proof.
  intros tech l Ht Hl s rest HI Hm. unfold decode_time, encode_time in *.
  change (n2b tech :: ?x) with ([n2b tech] ++ x) in HI. rewrite <- !app_assoc in HI.
  destruct (HX s [n2b tech] _ 1 HI eq_refl) as (s1 & -> & HI1). cbn [bind].
  assert (Hl' : lenN l < 2 ^ 64) by (eapply N.le_lt_trans; [exact Hl | reflexivity]).
  destruct (read_uvarint_ok HR (lenN l) Hl' s1 _ HI1) as (s2 & -> & HI2); auto with more.
  cbn [bind hd]. assert (Hn : b2n (n2b tech) = tech) by (apply b2n_n2b_small; lia). rewrite Hn.
  destruct tech as [|[[]|[]|]]; try lia.
  - apply (decode_time64_ok l Hl s2 rest HI2 Hm).
  - apply (decode_time16_ok l Hl s2 rest HI2 Hm).
  - apply (decode_time32_ok l Hl s2 rest HI2 Hm).
Qed.

End Reading.
