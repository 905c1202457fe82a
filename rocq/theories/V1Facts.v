(** Proofs about version 1 files. *)
From Coq Require Import Strings.String Reals Lia Permutation.
From Flocq Require Import IEEE754.Binary IEEE754.Bits.
From Verif Require Import Base BaseFacts IO Spec IOFacts Floats SpecFloat FloatFacts ByteFacts Near32Facts.
From Verif Require Import Metadata SpecMeta MetadataFacts Recording SpecRec.
From Verif Require Import Text SpecText TextFacts Reader SpecFile RapV1 SpecV1.
Local Open Scope N_scope.

(** ** Conversion *)

Lemma widen_ok : forall x, widened x (f64_of_f32 x).
Proof.
  intro x. destruct x as [s|s|s pl H|s m e H]; cbn [widened].
  - repeat split.
  - reflexivity.
  - assert (Hq : exists q, B2FF 53 1024 (f64_of_f32 (B754_nan 24 128 s pl H)) = F754_nan s q).
    { destruct (f64_of_nan s pl H) as (q & _ & _ & E). eauto. }
    destruct Hq as (q & Hq). destruct (f64_of_f32 _); try discriminate Hq. reflexivity.
  - destruct (f64_of_f32_correct (B754_finite 24 128 s m e H) eq_refl) as (F & V & S). auto.
Qed.

Lemma show_Z_ok : forall z, spells_int (show_Z z) z.
Proof.
  intro z. unfold spells_int, show_Z. destruct z as [|p|p]; cbn [Z.ltb Z.compare].
  - apply show_N_spells.
  - apply show_N_spells.
  - exists (show_N (Npos p)). split; [reflexivity|]. apply show_N_spells.
Qed.

Lemma lookup_map_set : forall k k' v m,
  lookup k (map_set k' v m) = if str_eqb k k' then Some v else lookup k m.
Proof.
  intros k k' v. induction m as [|[a w] m IH]; cbn [map_set lookup]; [reflexivity|].
  destruct (str_eqb k' a) eqn:E; cbn [lookup].
  - apply str_eqb_eq in E. subst a. destruct (str_eqb k k'); reflexivity.
  - rewrite IH. destruct (str_eqb k a) eqn:E1; [|reflexivity]. apply str_eqb_eq in E1. subst a.
    destruct (str_eqb k k') eqn:E2; [|reflexivity]. apply str_eqb_eq in E2. subst k'.
    now rewrite str_eqb_refl in E.
Qed.
Lemma map_set_keys : forall k v m x, In x (map fst (map_set k v m)) <-> In x (map fst m) \/ x = k.
Proof.
  intros k v. induction m as [|[a w] m IH]; intro x; cbn [map_set map fst In]; [intuition|].
  destruct (str_eqb k a) eqn:E; cbn [map fst In].
  - apply str_eqb_eq in E. subst a. intuition.
  - rewrite IH. intuition.
Qed.
Lemma map_set_nodup : forall k v m, NoDup (map fst m) -> NoDup (map fst (map_set k v m)).
Proof.
  intros k v. induction m as [|[a w] m IH]; intro H; cbn [map_set].
  - repeat constructor. intros [].
  - inversion_clear H as [|? ? Ha Hm]. destruct (str_eqb k a) eqn:E; cbn [map fst].
    + apply str_eqb_eq in E. subst a. now constructor.
    + constructor; [|auto]. rewrite map_set_keys. intros [K| ->]; [contradiction|]. now rewrite str_eqb_refl in E.
Qed.
Definition scalar (p : prop) : Prop := (exists s, p = PString s) \/ (exists f, p = PFloat f).
Definition flat_block (m : block) : Prop := NoDup (map fst m) /\ Forall (fun kv => scalar (snd kv)) m.
Lemma map_set_flat : forall k v m, scalar v -> flat_block m -> flat_block (map_set k v m).
Proof.
  intros k v m Hv [Hn Hf]. split; [now apply map_set_nodup|]. clear Hn.
  induction Hf as [|[a w] m Hw Hm IH]; cbn [map_set].
  { apply Forall_cons; [exact Hv|apply Forall_nil]. }
  destruct (str_eqb k a); constructor; auto.
Qed.
Lemma flat_block_built : forall m, flat_block m -> built_block m.
Proof.
  intros m [Hn Hf]. split; [exact Hn|]. clear Hn. induction Hf as [|[a w] m Hw Hm IH]; [exact I|]. split; [|exact IH].
  cbn in Hw. destruct Hw as [(s & ->)|(f & ->)]; exact I.
Qed.
Lemma assoc_none : forall k d, ~ In k (map fst d) -> assoc k d = None.
Proof.
  intros k. induction d as [|[a v] d IH]; intro H; [reflexivity|]. cbn [assoc map fst In] in *.
  destruct (str_eqb k a) eqn:E; [|tauto]. apply str_eqb_eq in E. subst. tauto.
Qed.

Section Convert.
Context (parse_f32 : str -> option f32).

Lemma md_value_scalar : forall v, scalar (md_value parse_f32 v).
Proof. intro v. unfold md_value. destruct (parse_f32 v); [right|left]; eauto. Qed.
Lemma convert_md_ok : forall d m, NoDup (map fst d) -> flat_block m ->
  flat_block (convert_md parse_f32 d m) /\
  forall k, lookup k (convert_md parse_f32 d m) =
            match assoc k d with Some v => Some (md_value parse_f32 v) | None => lookup k m end.
Proof.
  induction d as [|[a v] d IH]; intros m Hn Hm; cbn [convert_md assoc]; [auto|].
  inversion_clear Hn as [|? ? Ha Hd]. fold (md_value parse_f32 v).
  destruct (IH (map_set a (md_value parse_f32 v) m)) as [H1 H2]; auto using map_set_flat, md_value_scalar.
  split; [exact H1|]. intro k. rewrite H2, lookup_map_set.
  destruct (str_eqb k a) eqn:E; [|destruct (assoc k d); reflexivity].
  apply str_eqb_eq in E. subst k. now rewrite assoc_none.
Qed.
Lemma event_dict_ok : forall d m, NoDup (map fst d) -> flat_block m ->
  flat_block (event_dict parse_f32 d m) /\
  forall k, lookup k (event_dict parse_f32 d m) =
            match assoc k d with Some v => Some (PString v) | None => lookup k m end.
Proof.
  induction d as [|[a v] d IH]; intros m Hn Hm; cbn [event_dict assoc]; [auto|].
  inversion_clear Hn as [|? ? Ha Hd].
  set (m1 := match parse_f32 v with Some f => map_set a (PFloat f) m | None => map_set a (PString v) m end).
  assert (H0 : flat_block m1 /\ forall k, str_eqb k a = false -> lookup k m1 = lookup k m).
  { unfold m1. destruct (parse_f32 v) as [f|].
    - split; [apply map_set_flat; [right; eauto|exact Hm]|]. intros k Hk. now rewrite lookup_map_set, Hk.
    - split; [apply map_set_flat; [left; eauto|exact Hm]|]. intros k Hk. now rewrite lookup_map_set, Hk. }
  destruct H0 as [Hm1 Hl1]. clearbody m1.
  destruct (IH (map_set a (PString v) m1)) as [H1 H2]; auto.
  { apply map_set_flat; [left; eauto|exact Hm1]. }
  split; [exact H1|]. intro k. rewrite H2, lookup_map_set.
  destruct (str_eqb k a) eqn:E; [|destruct (assoc k d); auto].
  apply str_eqb_eq in E. subst k. now rewrite assoc_none.
Qed.
Lemma flat_nil : flat_block [].
Proof. split; constructor. Qed.

Lemma old_event_ok : forall e, event_wf e ->
  event_kept e (old_event parse_f32 e) /\ flat_block (snd (snd (old_event parse_f32 e))).
Proof.
  intros e He. unfold event_wf in He. unfold old_event, event_kept. cbn [fst snd].
  destruct (ve_data e) as [|kv d] eqn:E.
  - split; [split; [apply widen_ok|]; split; [reflexivity|]|].
    + split; [repeat constructor; intros []|]. intro k. cbn [lookup assoc]. destruct (str_eqb k (lit "value")); reflexivity.
    + split; [repeat constructor; intros []|]. apply Forall_cons; [left; eexists; reflexivity|apply Forall_nil].
  - destruct (event_dict_ok (kv :: d) [] He flat_nil) as [H1 H2]. split; [|exact H1].
    split; [apply widen_ok|]. split; [reflexivity|]. split; [apply H1|]. intro k. rewrite H2. destruct (assoc k (kv :: d)); reflexivity.
Qed.
Lemma forall2_map : forall {A B} (P : A -> B -> Prop) f l, (forall x, In x l -> P x (f x)) -> Forall2 P l (map f l).
Proof. intros A B P f. induction l as [|x l IH]; intro H; cbn; constructor; auto using in_eq, in_cons. Qed.
Lemma old_vec_ok : forall c, vec_kept c (old_vec c).
Proof. intro c. repeat split; apply widen_ok. Qed.
Lemma old_events_ok : forall l, Forall event_wf l -> events_kept l (Some (old_events parse_f32 l)).
Proof.
  intros l Hl. exists (map (old_event parse_f32) l). split; [reflexivity|]. apply forall2_map.
  rewrite Forall_forall in Hl. intros e He. apply old_event_ok. auto.
Qed.

Theorem v1_to_std_ok : forall m, v1_wf m -> recording_kept parse_f32 m (v1_to_std parse_f32 m).
Proof.
  intros m (Hm & He & Hs). do 3 eexists. split; [reflexivity|]. split; [now apply old_events_ok|]. split.
  - apply forall2_map. intros s Hin. rewrite Forall_forall in Hs. destruct (Hs s Hin) as (Hi & Hl & Hd & Hv).
    do 6 eexists. split; [reflexivity|]. split; [apply show_Z_ok|].
    split; [apply forall2_map; intros; apply old_vec_ok|]. split; [apply forall2_map; intros; apply old_vec_ok|].
    split; [now apply old_events_ok|]. split.
    + apply forall2_map. intros l _. split; [apply widen_ok|reflexivity].
    + destruct (convert_md_ok (vs_md s) [] Hd flat_nil) as [H1 H2]. split; [apply H1|].
      intro k. rewrite H2. destruct (assoc k (vs_md s)); reflexivity.
  - destruct (convert_md_ok (vr_md m) [] Hm flat_nil) as [H1 H2]. split; [apply H1|].
    intro k. rewrite H2. destruct (assoc k (vr_md m)); reflexivity.
Qed.

(** The result is something Write can handle. *)
Lemma old_events_wf : forall l, Forall event_wf l -> wf_coll (old_events parse_f32 l).
Proof.
  intros l Hl. unfold wf_coll. cbn [c_body old_events]. apply Forall_forall. intros x Hx.
  apply in_map_iff in Hx as (e & <- & He). rewrite Forall_forall in Hl.
  apply flat_block_built. apply old_event_ok. auto.
Qed.
Lemma v1_to_std_wf : forall m, v1_wf m -> wf_rec (v1_to_std parse_f32 m).
Proof.
  intros m (Hm & He & Hs). unfold v1_to_std. constructor; try constructor; try constructor.
  - eexists. split; [reflexivity|]. now apply old_events_wf.
  - apply Forall_forall. intros o Ho. apply in_map_iff in Ho as (s & <- & Hin). eexists. split; [reflexivity|].
    rewrite Forall_forall in Hs. destruct (Hs s Hin) as (Hi & Hl & Hd & Hv). unfold old_subject.
    constructor; try constructor.
    + eexists. split; [reflexivity|exact I].
    + apply Forall_cons; [eexists; split; [reflexivity|exact I]|].
      apply Forall_cons; [eexists; split; [reflexivity|now apply old_events_wf]|].
      apply Forall_cons; [|constructor]. eexists. split; [reflexivity|]. unfold wf_coll. cbn [c_body].
      apply Forall_forall. intros x Hx. apply in_map_iff in Hx as (l & <- & Hin'). cbn [snd].
      rewrite Forall_forall in Hl. specialize (Hl l Hin'). unfold int32 in Hl. lia.
    + apply flat_block_built. apply (convert_md_ok (vs_md s) [] Hd flat_nil).
    + apply (flat_block_built _ (proj1 (convert_md_ok (vs_md s) [] Hd flat_nil))).
  - apply flat_block_built. apply (convert_md_ok (vr_md m) [] Hm flat_nil).
  - apply (flat_block_built _ (proj1 (convert_md_ok (vr_md m) [] Hm flat_nil))).
Qed.
End Convert.

(** ** Framing *)
Section Framing.
Context (parse_f32 : str -> option f32) (inflate : bytes -> option bytes) (unmarshal : bytes -> option v1_rec).
Notation read_v1 := (read_v1 parse_f32 inflate unmarshal).

Lemma bytes_of_val : forall k p z, lenN p = N.of_nat k -> le_val p = z -> p = le_bytes k z.
Proof.
  intros k p z Hk <-. unfold lenN in Hk. replace k with (length p) by (unfold bytes in *; lia). symmetry. apply le_bytes_val.
Qed.
Lemma signed64_small : forall z, (0 <= z < 2 ^ 63)%Z -> signed 64 z = z.
Proof. intros z Hz. unfold signed. destruct (Z.ltb_spec z (2 ^ (64 - 1)))%Z; lia. Qed.
Lemma one_bytes : le_bytes 4 1 = bs [1; 0; 0; 0].
Proof. vm_compute. reflexivity. Qed.

Lemma read_v1_iff : forall S (R : Reader S) s r n e s',
  read_v1 S R s = Ok (Some r, n, e, s') <->
  exists c s1 s2 d m,
    rread R 4 s = Ok (bs [1; 0; 0; 0], None, s1) /\
    rread R 8 s1 = Ok (le_bytes 8 (Z.of_N (lenN c)), None, s2) /\
    rread R (lenN c) s2 = Ok (c, None, s') /\ lenN c <= 2 ^ 48 /\
    inflate c = Some d /\ unmarshal d = Some m /\ r = v1_to_std parse_f32 m /\
    n = lenN (v1_frame c) /\ e = None.
Proof.
  intros S R s r n e s'. assert (Hlen : forall c, lenN (v1_frame c) = 4 + 8 + lenN c).
  { intro c. unfold v1_frame. rewrite !lenN_app, le_bytes_lenN. unfold lenN at 1. cbn [bs map length]. lia. }
  unfold RapV1.read_v1. split.
  - intro H.
    destruct (rread R 4 s) as [[[p ep] s1]| |] eqn:E4; cbn [bind] in H; try discriminate H.
    destruct ep; [discriminate H|].
    destruct (N.eqb_spec (lenN p) 4) as [Hp|]; cbn [negb] in H; [|discriminate H]. cbv zeta in H.
    destruct (N.eqb_spec (Z.to_N (le_val p)) 1) as [Hc|]; cbn [negb] in H; [|discriminate H].
    assert (Hp1 : p = bs [1; 0; 0; 0]).
    { rewrite <- one_bytes. apply bytes_of_val; [exact Hp|]. pose proof (le_val_range p). lia. }
    destruct (rread R 8 s1) as [[[q eq] s2]| |] eqn:E8; cbn [bind] in H; try discriminate H.
    destruct eq; [discriminate H|].
    destruct (N.eqb_spec (lenN q) 8) as [Hq|]; cbn [negb] in H; [|discriminate H].
    destruct (Z.ltb_spec (signed 64 (le_val q)) 0) as [|Hpos]; [discriminate H|].
    unfold go_make in H. destruct (make_ok 1 _) eqn:Em; [|discriminate H]. unfold make_ok in Em. apply N.leb_le in Em.
    set (size := Z.to_N (signed 64 (le_val q))) in *.
    destruct (rread R size s2) as [[[c ec] s3]| |] eqn:Ec; cbn [bind] in H; try discriminate H.
    destruct ec; [discriminate H|].
    destruct (N.eqb_spec (lenN c) size) as [Hc'|]; cbn [negb] in H; [|discriminate H].
    destruct (inflate c) as [d|] eqn:Ei; [|discriminate H].
    destruct (unmarshal d) as [m|] eqn:Eu; [|discriminate H].
    injection H as <- <- <- <-. exists c, s1, s2, d, m.
    split; [now rewrite Hp1|]. split; [|rewrite Hc', Hlen; repeat split; auto; lia].
    rewrite E8. do 3 f_equal. apply bytes_of_val; [exact Hq|]. rewrite Hc'. unfold size.
    pose proof (le_val_range q) as Hr. unfold signed in Hpos |- *.
    assert (length q = 8%nat) by (unfold lenN in Hq; unfold bytes in *; lia).
    rewrite H in Hr. change (256 ^ Z.of_nat 8)%Z with (2 ^ 64)%Z in Hr.
    destruct (Z.ltb_spec (le_val q) (2 ^ (64 - 1))); lia.
  - intros (c & s1 & s2 & d & m & E4 & E8 & Ec & Hc & Ei & Eu & -> & -> & ->).
    rewrite E4. cbn [bind]. replace (negb (lenN (bs [1; 0; 0; 0]) =? 4)) with false by (vm_compute; reflexivity).
    cbv zeta. replace (negb (Z.to_N (le_val (bs [1; 0; 0; 0])) =? 1)) with false by (vm_compute; reflexivity).
    rewrite E8. cbn [bind]. rewrite le_bytes_lenN. change (negb (N.of_nat 8 =? 8)) with false. cbv iota.
    rewrite le_val_bytes, Z.mod_small by (change (256 ^ Z.of_nat 8)%Z with (2 ^ 64)%Z; lia).
    rewrite signed64_small by lia. destruct (Z.ltb_spec (Z.of_N (lenN c)) 0); [lia|]. rewrite N2Z.id.
    unfold go_make, make_ok. destruct (N.leb_spec (1 * lenN c) (2 ^ 48)); [|lia].
    rewrite Ec. cbn [bind]. rewrite N.eqb_refl. cbn [negb]. rewrite Ei, Eu, Hlen. do 4 f_equal.
Qed.

(** A reader that delivers [d] and whose pieces were accepted delivered a frame. *)
Lemma delivered : forall S (R : Reader S) eager I, delivers R eager I ->
  forall s d n p s', I s d -> n <> 0 -> rread R n s = Ok (p, None, s') -> exists q, d = p ++ q /\ I s' q.
Proof.
  intros S R eager I HR s d n p s' HI Hn E. destruct d as [|b d].
  - destruct (d_eof _ _ _ HR s n HI Hn) as (t & E' & _). rewrite E in E'. discriminate.
  - destruct (d_more _ _ _ HR s (b :: d) n HI) as (p' & q & e & t & E' & Hd & _ & _ & Hq & _); [discriminate|exact Hn|].
    rewrite E in E'. injection E' as <- _ <-. eauto.
Qed.
Lemma read_v1_delivered : forall S (R : Reader S) eager I, delivers R eager I -> inflate [] = None ->
  forall s d r n e s', I s d -> read_v1 S R s = Ok (Some r, n, e, s') ->
  exists c rest z m, d = v1_frame c ++ rest /\ I s' rest /\ n = lenN (v1_frame c) /\ e = None /\
    inflate c = Some z /\ unmarshal z = Some m /\ r = v1_to_std parse_f32 m.
Proof.
  intros S R eager I HR H0 s d r n e s' HI H. apply read_v1_iff in H.
  destruct H as (c & s1 & s2 & z & m & E4 & E8 & Ec & Hc & Ei & Eu & -> & -> & ->).
  destruct (delivered S R eager I HR s d 4 _ _ HI ltac:(discriminate) E4) as (d1 & -> & I1).
  destruct (delivered S R eager I HR s1 d1 8 _ _ I1 ltac:(discriminate) E8) as (d2 & -> & I2).
  assert (Hn : lenN c <> 0).
  { intro Hn. destruct c; [congruence|]. unfold lenN in Hn. cbn [length] in Hn. lia. }
  destruct (delivered S R eager I HR s2 d2 _ _ _ I2 Hn Ec) as (d3 & -> & I3).
  exists c, d3, z, m. split; [|auto 8]. unfold v1_frame. now rewrite <- !app_assoc.
Qed.
Lemma frame_prefix : forall c c' rest rest', v1_frame c ++ rest = v1_frame c' ++ rest' ->
  lenN c <= 2 ^ 48 -> lenN c' <= 2 ^ 48 -> lenN c = lenN c'.
Proof.
  intros c c' rest rest' H Hc Hc'. unfold v1_frame in H. rewrite <- !app_assoc in H.
  apply (f_equal (dropN 4)) in H. rewrite !dropN_app in H by reflexivity.
  apply (f_equal (takeN 8)) in H. rewrite !takeN_app in H by (now rewrite le_bytes_lenN).
  apply (f_equal le_val) in H. rewrite !le_val_bytes in H. change (256 ^ Z.of_nat 8)%Z with (2 ^ 64)%Z in H.
  rewrite !Z.mod_small in H by lia. lia.
Qed.

Lemma flat_read : forall p d, p <> [] \/ d <> [] -> rread flat (lenN p) (p ++ d) = Ok (p, None, d).
Proof.
  intros p d H. cbn [rread flat]. destruct (p ++ d) as [|b l] eqn:E.
  - apply app_eq_nil in E. destruct H as [H|H]; now elim H.
  - rewrite <- E, takeN_app, dropN_app; reflexivity.
Qed.
Lemma read_v1_flat : forall c rest z m, c <> [] -> lenN c <= 2 ^ 48 ->
  inflate c = Some z -> unmarshal z = Some m ->
  read_v1 _ flat (v1_frame c ++ rest) = Ok (Some (v1_to_std parse_f32 m), lenN (v1_frame c), None, rest).
Proof.
  intros c rest z m Hc Hl Ei Eu. apply read_v1_iff.
  exists c, (le_bytes 8 (Z.of_N (lenN c)) ++ c ++ rest), (c ++ rest), z, m.
  unfold v1_frame. rewrite <- !app_assoc.
  split; [apply (flat_read (bs [1; 0; 0; 0])); left; discriminate|].
  split; [|split; [apply flat_read; auto|auto 8]].
  replace 8 with (lenN (le_bytes 8 (Z.of_N (lenN c)))) by (now rewrite le_bytes_lenN).
  apply flat_read. left. intro E. apply (f_equal (@length byte)) in E. now rewrite le_bytes_length in E.
Qed.

Lemma read_v1_not_stuck : forall S (R : Reader S) (I : S -> bytes -> Prop) eager, delivers R eager I ->
  (forall s d, I s d -> rread R 0 s <> Stuck) -> forall s d, I s d -> read_v1 S R s <> Stuck.
Proof.
  intros S R I eager HR H0.
  assert (Hr : forall s d n, I s d -> n <> 0 ->
    exists p e s', rread R n s = Ok (p, e, s') /\ exists q, I s' q).
  { intros s d n HI Hn. destruct d as [|b d].
    - destruct (d_eof _ _ _ HR s n HI Hn) as (t & E' & Ht). eauto 8.
    - destruct (d_more _ _ _ HR s (b :: d) n HI) as (p' & q & e & t & E' & _ & _ & _ & Hq & _); [discriminate|exact Hn|]. eauto 8. }
  intros s d HI. unfold RapV1.read_v1.
  destruct (Hr s d 4 HI) as (p & e & s1 & -> & d1 & I1); [discriminate|]. cbn [bind]. destruct e; [discriminate|].
  destruct (negb (lenN p =? 4)); [discriminate|]. cbv zeta. destruct (negb (Z.to_N (le_val p) =? 1)); [discriminate|].
  destruct (Hr s1 d1 8 I1) as (q & e & s2 & -> & d2 & I2); [discriminate|]. cbn [bind]. destruct e; [discriminate|].
  destruct (negb (lenN q =? 8)); [discriminate|]. destruct (_ <? _)%Z; [discriminate|].
  unfold go_make. destruct (make_ok 1 _); [|discriminate].
  set (size := Z.to_N (signed 64 (le_val q))).
  assert (Hs : rread R size s2 <> Stuck).
  { destruct (N.eq_dec size 0) as [->|Hn]; [now apply (H0 s2 d2)|].
    destruct (Hr s2 d2 size I2 Hn) as (? & ? & ? & -> & _). discriminate. }
  destruct (rread R size s2) as [[[c ec] s3]| |]; cbn [bind]; try congruence.
  destruct ec; [discriminate|]. destruct (negb (lenN c =? size)); [discriminate|].
  destruct (inflate c) as [z|]; [|discriminate]. destruct (unmarshal z); discriminate.
Qed.
End Framing.
