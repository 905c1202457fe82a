(** Reading back what the numeric encoders wrote: structure only (the accuracy
    of the quantisers is elsewhere). *)
From Coq Require Import ZArith Lia.
From Verif Require Import Base BaseFacts IO Spec IOFacts Floats ByteFacts BinaryIO BinaryIOFacts.
From Verif Require Import Metadata Recording SpecRec RecordingFacts Encoding SpecEnc.
From Verif Require Import EncPosition EncEuler EncFloat.
Local Open Scope N_scope.

Lemma wr32_len : forall x, lenN (wr32 x) = 4.
Proof. intro x. apply f32_bytes_len. Qed.
Lemma wr32v_len : forall v, lenN (wr32v v) = 12.
Proof. intro v. unfold wr32v. rewrite !lenN_app, !wr32_len. reflexivity. Qed.
Lemma wr64v_len : forall v, lenN (wr64v v) = 24.
Proof. intro v. unfold wr64v. rewrite !lenN_app, !f64_bytes_len. reflexivity. Qed.

Lemma flat_read_exact : forall buf b d, lenN buf = lenN b -> b <> [] ->
  flat_read buf (b ++ d) = Some (b, d).
Proof.
  intros buf b d H Hb. unfold flat_read, fill.
  destruct (b ++ d) eqn:E; [destruct b; [congruence|discriminate]|]. rewrite <- E.
  rewrite takeN_app by assumption. rewrite dropN_app by assumption.
  rewrite dropN_all by lia. now rewrite app_nil_r.
Qed.
Lemma flat_read_exact_ : forall buf b d, lenN buf = lenN b -> b <> [] ->
  flat_read_ buf (b ++ d) = (b, d).
Proof. intros. unfold flat_read_. now rewrite flat_read_exact. Qed.
Lemma len_nonempty : forall {A} (l : list A) n, lenN l = n -> n <> 0 -> l <> [].
Proof. intros A l n H Hn ->. cbn in H. congruence. Qed.
Lemma f64_bytes_ne : forall x, f64_bytes x <> [].
Proof. intro x. eapply len_nonempty; [apply f64_bytes_len | discriminate]. Qed.

Lemma rd32_ok : forall {S} (R : Reader S) eager I, serves R eager I -> forall old x,
  parses I eager (rd32 R old) (f32_bytes x) (x, None).
Proof.
  intros S R eager I HR old x s rest HI Hm. unfold rd32.
  destruct (binary_read_ok HR (f32_bytes x) 4 (f32_bytes_len x) s rest HI Hm) as (s' & -> & HI').
  cbn [bind]. rewrite f32_bytes_roundtrip. eauto.
Qed.
Lemma rd64_ok : forall {S} (R : Reader S) eager I, serves R eager I -> forall old x,
  parses I eager (rd64 R old) (f64_bytes x) (x, None).
Proof.
  intros S R eager I HR old x s rest HI Hm. unfold rd64.
  destruct (binary_read_ok HR (f64_bytes x) 8 (f64_bytes_len x) s rest HI Hm) as (s' & -> & HI').
  cbn [bind]. rewrite f64_bytes_roundtrip. eauto.
Qed.
Lemma flat_serves : serves flat false (fun s d : bytes => s = d).
Proof. apply delivers_serves, flat_delivers. Qed.
Lemma rd32_flat : forall old x rest, rd32 flat old (f32_bytes x ++ rest) = Ok (x, None, rest).
Proof.
  intros old x rest. destruct (rd32_ok flat false _ flat_serves old x _ rest eq_refl) as (s & E & H);
    auto with more. now subst s.
Qed.
Lemma rd32v_flat : forall ox oy oz v rest, rd32v flat ox oy oz (wr32v v ++ rest)
  = Ok (f32_of_f64 (vx v), f32_of_f64 (vy v), f32_of_f64 (vz v), None, rest).
Proof.
  intros. unfold rd32v, wr32v, wr32. rewrite <- !app_assoc.
  rewrite rd32_flat. cbn [bind]. rewrite rd32_flat. cbn [bind]. rewrite rd32_flat. reflexivity.
Qed.
Lemma vec_of32_near : forall v,
  vec_of32 (f32_of_f64 (vx v)) (f32_of_f64 (vy v)) (f32_of_f64 (vz v)) = vmap near32 v.
Proof. reflexivity. Qed.

(** ** position *)
Lemma decode_raw64_ok : forall l times buf rest, length times = length l -> lenN buf = 8 ->
  decode_raw64 times buf (encode_raw64 l ++ rest) = Some (combine times l).
Proof.
  induction l as [|v l IH]; intros [|t times] buf rest Ht Hb; try discriminate; [reflexivity|].
  cbn [encode_raw64 flat_map decode_raw64]. fold (encode_raw64 l). unfold wr64v.
  rewrite <- !app_assoc.
  rewrite flat_read_exact by (auto using f64_bytes_ne; rewrite f64_bytes_len; assumption).
  rewrite flat_read_exact by (auto using f64_bytes_ne; now rewrite !f64_bytes_len).
  rewrite flat_read_exact by (auto using f64_bytes_ne; now rewrite !f64_bytes_len).
  rewrite IH by (auto; apply f64_bytes_len).
  rewrite !f64_bytes_roundtrip. destruct v. reflexivity.
Qed.
Lemma decode_raw32_ok : forall l times rest, length times = length l ->
  decode_raw32 times (encode_raw32 l ++ rest) = Ok (combine times (map (vmap near32) l)).
Proof.
  induction l as [|v l IH]; intros [|t times] rest Ht; try discriminate; [reflexivity|].
  cbn [encode_raw32 flat_map decode_raw32]. fold (encode_raw32 l).
  rewrite <- !app_assoc. rewrite rd32v_flat. cbn [bind]. rewrite IH by auto. reflexivity.
Qed.

(** ** euler *)
Lemma wr80_len : forall x, lenN (wr80 x) = 10.
Proof. intro x. unfold wr80. rewrite lenN_app, f64_bytes_len. reflexivity. Qed.
Lemma wr80_ne : forall x, wr80 x <> [].
Proof. intro x. eapply len_nonempty; [apply wr80_len | discriminate]. Qed.
Lemma f64_front_wr80 : forall x, f64_front (wr80 x) = x.
Proof.
  intro x. unfold f64_front, wr80. rewrite takeN_app by (now rewrite f64_bytes_len).
  apply f64_bytes_roundtrip.
Qed.
Lemma euler_decode64_ok : forall l times buf rest, length times = length l -> lenN buf = 10 ->
  euler_decode64 times buf (euler_raw64 l ++ rest) = Some (combine times l).
Proof.
  induction l as [|v l IH]; intros [|t times] buf rest Ht Hb; try discriminate; [reflexivity|].
  cbn [euler_raw64 flat_map euler_decode64]. fold (euler_raw64 l).
  rewrite <- !app_assoc.
  rewrite flat_read_exact by (auto using wr80_ne; rewrite wr80_len; assumption).
  rewrite flat_read_exact by (auto using wr80_ne; now rewrite !wr80_len).
  rewrite flat_read_exact by (auto using wr80_ne; now rewrite !wr80_len).
  rewrite IH by (auto; apply wr80_len).
  rewrite !f64_front_wr80. destruct v. reflexivity.
Qed.
Lemma euler_decode32_ok : forall l times x y z rest, length times = length l ->
  euler_decode32 times x y z (encode_raw32 l ++ rest) = Ok (combine times (map (vmap near32) l)).
Proof.
  induction l as [|v l IH]; intros [|t times] x y z rest Ht; try discriminate; [reflexivity|].
  cbn [encode_raw32 flat_map euler_decode32]. fold (encode_raw32 l).
  rewrite <- !app_assoc. rewrite rd32v_flat. cbn [bind]. rewrite IH by auto. reflexivity.
Qed.

Lemma bst_enc_len : forall k v st d, lenN (bst_enc k v st d) = N.of_nat k.
Proof.
  intros k v st d. unfold bst_enc. generalize (fadd st (fdiv d f2)) (fdiv d f4).
  induction k as [|k IH]; intros c i; [reflexivity|]. cbn [bst_enc_bytes].
  destruct (bst_enc_bits 8 0 0 v c i) as [[acc c'] i']. rewrite lenN_cons, IH. lia.
Qed.
Lemma enc16_ne : forall x, enc16 x <> [].
Proof. intro x. eapply len_nonempty; [apply bst_enc_len | discriminate]. Qed.
Definition angle16 (a : f64) : f64 := dec16 (enc16 a).
Lemma euler_decode16_ok : forall l times buf rest, length times = length l -> lenN buf = 2 ->
  euler_decode16 times buf (flat_map enc16v l ++ rest) = combine times (map (vmap angle16) l).
Proof.
  induction l as [|v l IH]; intros [|t times] buf rest Ht Hb; try discriminate; [reflexivity|].
  cbn [flat_map euler_decode16]. unfold enc16v at 1. rewrite <- !app_assoc.
  assert (L : forall a, lenN (enc16 a) = 2) by (intro; apply bst_enc_len).
  rewrite flat_read_exact_ by (auto using enc16_ne; rewrite L; assumption).
  rewrite flat_read_exact_ by (auto using enc16_ne; now rewrite !L).
  rewrite flat_read_exact_ by (auto using enc16_ne; now rewrite !L).
  rewrite IH by auto. reflexivity.
Qed.

(** ** float *)
Definition flatI (k : N) := er_inv (fun s d : bytes => s = d) k.
Lemma flat_er_serves : forall k, serves (err_reader flat) false (flatI k).
Proof. intro k. eapply er_serves, flat_serves. Qed.

Lemma float_decode64_ok : forall k l times v, length times = length l ->
  parses (flatI k) false (float_decode64 times v) (flat_map f64_bytes l) (combine times l).
Proof.
  intros k. induction l as [|x l IH]; intros [|t times] v Ht s rest HI Hm; try discriminate.
  - exists s. auto.
  - injection Ht as Ht. cbn [flat_map float_decode64] in *. rewrite <- app_assoc in HI.
    destruct (rd64_ok _ _ _ (flat_er_serves k) v x s _ HI) as (s1 & -> & HI1); auto with more.
    cbn [bind]. destruct (IH times x Ht s1 rest HI1) as (s2 & -> & HI2); auto with more.
    cbn [bind]. exists s2. auto.
Qed.
Lemma float_decode32_ok : forall k l times v, length times = length l ->
  parses (flatI k) false (float_decode32 times v) (flat_map wr32 l) (combine times (map near32 l)).
Proof.
  intros k. induction l as [|x l IH]; intros [|t times] v Ht s rest HI Hm; try discriminate.
  - exists s. auto.
  - injection Ht as Ht. cbn [flat_map float_decode32] in *. rewrite <- app_assoc in HI.
    destruct (rd32_ok _ _ _ (flat_er_serves k) v (f32_of_f64 x) s _ HI) as (s1 & -> & HI1); auto with more.
    cbn [bind]. destruct (IH times (f32_of_f64 x) Ht s1 rest HI1) as (s2 & -> & HI2); auto with more.
    cbn [bind]. exists s2. auto.
Qed.

(** what a BST16 float stream decodes to *)
Definition float16 (mn mx : f64) (v : f64) : f64 :=
  bst_dec (near32 mn) (f64_of_f32 (fsub32 (f32_of_f64 mx) (f32_of_f64 mn)))
          (bst_enc 2 v mn (fsub mx mn)).
Lemma float_decode16_ok : forall k st d mn dur l times buf, length times = length l -> lenN buf = 2 ->
  parses (flatI k) false (float_decode16 times st d buf)
    (flat_map (fun v => bst_enc 2 v mn dur) l)
    (combine times (map (fun v => bst_dec st d (bst_enc 2 v mn dur)) l)).
Proof.
  intros k st d mn dur.
  induction l as [|x l IH]; intros [|t times] buf Ht Hb s rest HI Hm; try discriminate.
  - exists s. auto.
  - injection Ht as Ht. cbn [flat_map float_decode16] in *. rewrite <- app_assoc in HI.
    destruct (er_read_ok flat false _ k flat_serves s (bst_enc 2 x mn dur) _ 2 HI)
      as (s1 & -> & HI1); [apply bst_enc_len|].
    cbn [bind].
    assert (E : fill buf (bst_enc 2 x mn dur) = bst_enc 2 x mn dur).
    { unfold fill. rewrite dropN_all by (rewrite bst_enc_len; lia). apply app_nil_r. }
    rewrite E.
    destruct (IH times (bst_enc 2 x mn dur) Ht (bst_enc_len _ _ _ _) s1 rest HI1)
      as (s2 & -> & HI2); auto with more.
    cbn [bind]. exists s2. auto.
Qed.
Lemma float_bst_ok : forall k l times, length times = length l ->
  parses (flatI k) false (float_decode_bst times) (encode_bst16 l)
    (combine times (map (float16 (fst (val_range l fpinf fminf)) (snd (val_range l fpinf fminf))) l)).
Proof.
  intros k l times Ht s rest HI Hm. unfold encode_bst16 in HI.
  destruct (val_range l fpinf fminf) as [mn mx]. rewrite <- !app_assoc in HI.
  unfold float_decode_bst.
  destruct (rd32_ok _ _ _ (flat_er_serves k) f32_0 (f32_of_f64 mn) s _ HI) as (s1 & -> & HI1);
    auto with more. cbn [bind].
  destruct (rd32_ok _ _ _ (flat_er_serves k) f32_0 (f32_of_f64 mx) s1 _ HI1) as (s2 & -> & HI2);
    auto with more. cbn [bind fst].
  apply (float_decode16_ok k _ _ _ _ l times (zeros 2) Ht eq_refl s2 rest HI2). auto with more.
Qed.
