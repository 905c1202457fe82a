(** Properties of version 1 files and of the upgrade command: C34, C38, C43,
    and C27 with the version 1 reader in place. *)
From Coq Require Import Strings.String Lia Permutation.
From Flocq Require Import IEEE754.Binary.
From Verif Require Import Base BaseFacts IO Spec IOFacts Floats SpecFloat FloatFacts ByteFacts.
From Verif Require Import Metadata SpecMeta MetadataFacts Recording SpecRec.
From Verif Require Import Encoding EncEvent EncEnum EncPosition EncEuler EncFloat SpecEnc TimeIO Writer Reader SpecFile FileFacts SafeFacts BuiltinFacts.
From Verif Require Import Text SpecText RapV1 SpecV1 V1Facts Tools Toy Demo PropFile PropRead.
Local Open Scope N_scope.

(** ** C34 *)
Theorem C34_import : forall parse_f32 m, v1_wf m -> recording_kept parse_f32 m (v1_to_std parse_f32 m).
Proof. apply v1_to_std_ok. Qed.
Print Assumptions C34_import.

Definition f32_one : f32 := B754_finite 24 128 false 8388608 (-23) eq_refl.
Definition f64_one : f64 := B754_finite 53 1024 false 4503599627370496 (-52) eq_refl.
Definition toy_f32 (s : str) : option f32 := if str_eqb s (lit "1") then Some f32_one else None.
Definition old_demo : v1_rec :=
  mkV1Rec (lit "old") [(lit "size", lit "1"); (lit "by", lit "me")]
    [mkV1Subject (-7) (lit "s") [(lit "k", lit "v")]
       [mkV1Event f32_one (lit "hit") (lit "hard") []]
       [mkV1Life f32_one 0; mkV1Life f32_one 3]
       [mkV1Vec f32_one f32_one f32_one f32_one] [];
     mkV1Subject 12 (lit "t") [] [] [] [] [mkV1Vec f32_one f32_one f32_one f32_one]]
    [mkV1Event f32_one (lit "boom") (lit "ignored") [(lit "a", lit "1"); (lit "b", lit "c")]].
Lemma old_demo_wf : v1_wf old_demo.
Proof.
  assert (N1 : NoDup [lit "size"; lit "by"]) by (repeat constructor; cbn; intuition discriminate).
  assert (N2 : NoDup [lit "k"]) by (repeat constructor; cbn; intuition discriminate).
  assert (N3 : NoDup [lit "a"; lit "b"]) by (repeat constructor; cbn; intuition discriminate).
  unfold v1_wf, subject_wf, event_wf, int32. cbn [old_demo vr_md vr_events vr_subjects map fst ve_data].
  split; [exact N1|]. split; [apply Forall_cons; [exact N3|constructor]|].
  repeat (apply Forall_cons || apply Forall_nil);
    cbn [vs_id vs_life vs_md vs_events map fst vl_type];
    (split; [lia|]); (split; [repeat (apply Forall_cons || apply Forall_nil); cbn [vl_type]; lia|]);
    (split; [exact N2 || constructor|]); repeat (apply Forall_cons || apply Forall_nil); constructor.
Qed.
(** Numbers in the metadata become floats, but not in the data of an event. *)
Example C34_example : v1_wf old_demo /\
  rec_id (v1_to_std toy_f32 old_demo) = lit "old" /\
  rec_md (v1_to_std toy_f32 old_demo) = [(lit "size", PFloat f32_one); (lit "by", PString (lit "me"))] /\
  map (option_map rec_id) (rec_recs (v1_to_std toy_f32 old_demo)) = [Some (lit "-7"); Some (lit "12")] /\
  match rec_colls (v1_to_std toy_f32 old_demo) with
  | [Some c] => match c_body c with
                | BEvent [(_, (name, d))] => name = lit "boom" /\ d = [(lit "a", PString (lit "1")); (lit "b", PString (lit "c"))]
                | _ => False end
  | _ => False end.
Proof. split; [apply old_demo_wf|]. vm_compute. repeat split. Qed.
(** A life event type outside 0..3 is kept although it names no member. *)
Definition life_indices (r : recording) : list Z :=
  match rec_recs r with
  | Some r :: _ => match rec_colls r with
                   | [_; _; _; Some c] => match c_body c with BEnum _ l => map snd l | _ => [] end
                   | _ => [] end
  | _ => [] end.
Theorem C34_members_refuted : exists m, v1_wf m /\ life_indices (v1_to_std toy_f32 m) = [4%Z].
Proof.
  exists (mkV1Rec [] [] [mkV1Subject 0 [] [] [] [mkV1Life f32_one 4] [] []] []). split; [|reflexivity].
  unfold v1_wf, subject_wf, event_wf, int32. cbn [vr_md vr_events vr_subjects map fst]. split; [constructor|]. split; [constructor|].
  apply Forall_cons; [|constructor]. cbn [vs_id vs_life vs_md vs_events map fst]. split; [lia|].
  split; [apply Forall_cons; [cbn [vl_type]; lia|constructor]|]. split; constructor.
Qed.
Print Assumptions C34_members_refuted.

(** ** C38 *)
(** Whatever the reader does: accepted means that three single reads delivered
    the count 1, the size and the payload, which inflates to a message. *)
Theorem C38_accepts : forall parse_f32 inflate unmarshal reg IZ S (R : Reader S) s s0 r n e t,
  rread R 1 s = Ok ([x01], None, s0) ->
  (read reg (read_v1 parse_f32 inflate unmarshal) IZ R s = Ok (Some r, n, e, t) <->
   exists c s1 s2 s3 d m,
     rread R 4 s0 = Ok (bs [1; 0; 0; 0], None, s1) /\
     rread R 8 s1 = Ok (le_bytes 8 (Z.of_N (lenN c)), None, s2) /\
     rread R (lenN c) s2 = Ok (c, None, s3) /\ lenN c <= 2 ^ 48 /\
     inflate c = Some d /\ unmarshal d = Some m /\ r = v1_to_std parse_f32 m /\
     n = lenN (x01 :: v1_frame c) /\ e = None /\ t = inl s3).
Proof.
  intros parse_f32 inflate unmarshal reg IZ S R s s0 r n e t E. unfold read, get_version. rewrite E. cbn [bind].
  change (b2n (hd x00 [x01]) =? 1) with true. change (lenN [x01]) with 1. cbv iota.
  assert (L : forall c, lenN (x01 :: v1_frame c) = lenN (v1_frame c) + 1) by (intro c; unfold lenN; cbn [length]; lia).
  split.
  - destruct (read_v1 parse_f32 inflate unmarshal S R s0) as [[[[rec k] e'] s3]| |] eqn:Ev; cbn [bind]; intro H; try discriminate H.
    injection H as -> <- <- <-. apply read_v1_iff in Ev.
    destruct Ev as (c & s1 & s2 & d & m & E4 & E8 & Ec & Hl & Ei & Eu & Hr & -> & ->).
    exists c, s1, s2, s3, d, m. rewrite L. auto 12.
  - intros (c & s1 & s2 & s3 & d & m & E4 & E8 & Ec & Hl & Ei & Eu & Hr & -> & -> & ->).
    assert (Ev : read_v1 parse_f32 inflate unmarshal S R s0 = Ok (Some r, lenN (v1_frame c), None, s3)).
    { apply read_v1_iff. exists c, s1, s2, d, m. auto 12. }
    rewrite Ev. cbn [bind]. now rewrite L.
Qed.
Print Assumptions C38_accepts.

Lemma first_byte : forall S (R : Reader S) eager I, delivers R eager I -> forall s b d, I s (b :: d) ->
  (eager = true -> d <> []) ->
  exists s0, rread R 1 s = Ok ([b], None, s0) /\ I s0 d.
Proof.
  intros S R eager I HR s b d HI Hd. destruct (d_more _ _ _ HR s (b :: d) 1 HI) as (p & q & e & t & E & Hpq & Hp & Hl & Hq & He); try discriminate.
  assert (p = [b] /\ q = d) as [-> ->].
  { destruct p as [|b' [|? ?]]; [congruence| |unfold lenN in Hl; cbn [length] in Hl; lia]. cbn in Hpq. injection Hpq as <- <-. auto. }
  exists t. destruct He as [->|(-> & -> & ->)]; [auto|]. now elim Hd.
Qed.
(** Whatever the transport: an accepted file begins with a frame, and the count
    that is returned is the number of bytes taken. *)
Theorem C38_consumed : forall parse_f32 inflate unmarshal reg IZ S (R : Reader S) eager I,
  delivers R eager I -> inflate [] = None ->
  forall s rest r n e t, I s (x01 :: rest) ->
  read reg (read_v1 parse_f32 inflate unmarshal) IZ R s = Ok (Some r, n, e, t) ->
  exists payload after s3 d m, rest = v1_frame payload ++ after /\ t = inl s3 /\ I s3 after /\
    n = lenN (x01 :: v1_frame payload) /\ e = None /\
    inflate payload = Some d /\ unmarshal d = Some m /\ r = v1_to_std parse_f32 m.
Proof.
  intros parse_f32 inflate unmarshal reg IZ S R eager I HR H0 s rest r n e t HI H.
  destruct (d_more _ _ _ HR s (x01 :: rest) 1 HI) as (p & q & e1 & s0 & E & Hpq & Hp & Hl & Hq & He); try discriminate.
  assert (p = [x01] /\ q = rest) as [-> ->].
  { destruct p as [|b' [|? ?]]; [congruence| |unfold lenN in Hl; cbn [length] in Hl; lia]. cbn in Hpq. injection Hpq as <- <-. auto. }
  destruct He as [->|(_ & -> & ->)].
  - apply (C38_accepts _ _ _ _ _ _ _ _ s0) in H; [|exact E].
    destruct H as (c & s1 & s2 & s3 & d & m & E4 & E8 & Ec & Hlen & Ei & Eu & Hr & Hn & He & Ht).
    assert (Ev : read_v1 parse_f32 inflate unmarshal S R s0 = Ok (Some r, lenN (v1_frame c), None, s3)).
    { apply read_v1_iff. exists c, s1, s2, d, m. auto 12. }
    destruct (read_v1_delivered _ _ _ _ _ _ _ HR H0 _ _ _ _ _ _ Hq Ev) as (c' & after & d' & m' & Hd & HI3 & Hn' & _ & Ei' & Eu' & Hr').
    exists c', after, s3, d', m'. repeat split; auto. rewrite Hn. unfold lenN in *. cbn [length]. lia.
  - unfold read, get_version in H. rewrite E in H. discriminate H.
Qed.
Print Assumptions C38_consumed.

Theorem C38_in_memory : forall parse_f32 inflate unmarshal reg IZ payload rest d m,
  payload <> [] -> lenN payload <= 2 ^ 48 -> inflate payload = Some d -> unmarshal d = Some m ->
  read reg (read_v1 parse_f32 inflate unmarshal) IZ flat (x01 :: v1_frame payload ++ rest)
  = Ok (Some (v1_to_std parse_f32 m), 13 + lenN payload, None, inl rest).
Proof.
  intros parse_f32 inflate unmarshal reg IZ payload rest d m Hp Hl Ei Eu.
  unfold read, get_version. cbn [rread flat bind].
  change (takeN 1 (x01 :: v1_frame payload ++ rest)) with [x01].
  replace (dropN 1 (x01 :: v1_frame payload ++ rest)) with (v1_frame payload ++ rest) by (symmetry; apply (dropN_app [x01]); reflexivity).
  change (b2n (hd x00 [x01]) =? 1) with true. cbv iota.
  rewrite (read_v1_flat _ _ _ _ _ d m) by assumption. cbn [bind]. do 4 f_equal.
  unfold v1_frame. rewrite !lenN_app, le_bytes_lenN. change (lenN (bs [1; 0; 0; 0])) with 4. change (lenN [x01]) with 1. lia.
Qed.
Print Assumptions C38_in_memory.

(** Nothing is accepted without an error unless there is a recording. *)
Lemma read_v1_none : forall parse_f32 inflate unmarshal S (R : Reader S) s n t,
  read_v1 parse_f32 inflate unmarshal S R s <> Ok (None, n, None, t).
Proof.
  intros parse_f32 inflate unmarshal S R s n t. unfold read_v1.
  destruct (rread R 4 s) as [[[p ep] s1]| |]; cbn [bind]; try discriminate. destruct ep; [discriminate|].
  destruct (negb _); [discriminate|]. cbv zeta. destruct (negb _); [discriminate|].
  destruct (rread R 8 s1) as [[[q eq] s2]| |]; cbn [bind]; try discriminate. destruct eq; [discriminate|].
  destruct (negb _); [discriminate|]. destruct (_ <? _)%Z; [discriminate|]. unfold go_make. destruct (make_ok _ _); [|discriminate].
  destruct (rread R _ s2) as [[[c ec] s3]| |]; cbn [bind]; try discriminate. destruct ec; [discriminate|].
  destruct (negb _); [discriminate|]. destruct (inflate c) as [d|]; [|discriminate]. destruct (unmarshal d); discriminate.
Qed.
Lemma read_none : forall parse_f32 inflate unmarshal reg IZ S (R : Reader S) eager I, delivers R eager I ->
  forall s rest n t, I s (x01 :: rest) ->
  read reg (read_v1 parse_f32 inflate unmarshal) IZ R s <> Ok (None, n, None, t).
Proof.
  intros parse_f32 inflate unmarshal reg IZ S R eager I HR s rest n t HI H.
  destruct (d_more _ _ _ HR s (x01 :: rest) 1 HI) as (p & q & e1 & s0 & E & Hpq & Hp & Hl & Hq & He); try discriminate.
  destruct p as [|b' p]; [congruence|]. cbn in Hpq. injection Hpq as <- _.
  unfold read, get_version in H. rewrite E in H. cbn [bind] in H. destruct e1; [discriminate H|]. cbn [bind] in H.
  change (b2n (hd x00 (x01 :: p)) =? 1) with true in H. cbv iota in H.
  destruct (read_v1 parse_f32 inflate unmarshal S R s0) as [[[[rec k] e'] s3]| |] eqn:Ev; cbn [bind] in H; try discriminate H.
  injection H as -> _ -> _. now apply read_v1_none in Ev.
Qed.

(** A file cut short is rejected, wherever it is cut and however it arrives. *)
Theorem C38_truncated : forall parse_f32 inflate unmarshal reg IZ S (R : Reader S) eager I,
  delivers R eager I -> inflate [] = None ->
  forall payload k s, lenN payload <= 2 ^ 48 -> (0 < k < length (x01 :: v1_frame payload))%nat ->
  I s (firstn k (x01 :: v1_frame payload)) ->
  forall rec n t, read reg (read_v1 parse_f32 inflate unmarshal) IZ R s <> Ok (rec, n, None, t).
Proof.
  intros parse_f32 inflate unmarshal reg IZ S R eager I HR H0 payload k s Hl Hk HI rec n t H.
  destruct k as [|k]; [lia|]. cbn [firstn] in HI. destruct rec as [r|]; [|now apply (read_none _ _ _ _ _ _ _ _ _ HR _ _ _ _ HI) in H].
  assert (Hc : exists c after, firstn k (v1_frame payload) = v1_frame c ++ after /\ lenN c <= 2 ^ 48).
  { destruct (C38_consumed _ _ _ _ _ _ _ _ _ HR H0 _ _ _ _ _ _ HI H) as (c & after & s3 & d & m & Hd & _).
    destruct (d_more _ _ _ HR s _ 1 HI) as (p & q & e1 & s0 & E & Hpq & Hp & Hlp & _ & He); try discriminate.
    destruct p as [|b' [|? ?]]; [congruence| |unfold lenN in Hlp; cbn [length] in Hlp; lia]. cbn in Hpq. injection Hpq as <- _.
    exists c, after. split; [exact Hd|].
    destruct He as [->|(_ & -> & _)]; [|unfold read, get_version in H; rewrite E in H; discriminate H].
    apply (f_equal (@length byte)) in Hd. rewrite firstn_length in Hd. unfold v1_frame in Hd.
    rewrite !app_length, !le_bytes_length in Hd. unfold lenN in *. cbn [bs map length] in Hd. unfold bytes in *. lia. }
  destruct Hc as (c & after & Hd & Hlc).
  assert (Hsz : lenN payload = lenN c).
  { apply frame_prefix with (rest := []) (rest' := after ++ skipn k (v1_frame payload)); auto.
    rewrite app_nil_r, app_assoc, <- Hd. symmetry. apply firstn_skipn. }
  cbn [length] in Hk. apply (f_equal (@length byte)) in Hd. rewrite firstn_length in Hd. unfold v1_frame in Hd, Hk.
  rewrite !app_length, !le_bytes_length in Hd. rewrite !app_length, le_bytes_length in Hk.
  unfold lenN in Hsz. cbn [bs map length] in Hd, Hk. unfold bytes in *. lia.
Qed.
Print Assumptions C38_truncated.

(** Any other count is rejected. *)
Theorem C38_other_counts : forall parse_f32 inflate unmarshal reg IZ count rest,
  (0 <= count < 2 ^ 32)%Z -> count <> 1%Z ->
  read reg (read_v1 parse_f32 inflate unmarshal) IZ flat (x01 :: le_bytes 4 count ++ rest)
  = Ok (None, 5, Some (EV1Count (Z.to_N count)), inl rest) /\
  forall S (R : Reader S) eager I, delivers R eager I -> inflate [] = None ->
  forall s, I s (x01 :: le_bytes 4 count ++ rest) ->
  forall rec n t, read reg (read_v1 parse_f32 inflate unmarshal) IZ R s <> Ok (rec, n, None, t).
Proof.
  intros parse_f32 inflate unmarshal reg IZ count rest Hc H1.
  assert (Hv : le_val (le_bytes 4 count) = count).
  { rewrite le_val_bytes. apply Z.mod_small. change (256 ^ Z.of_nat 4)%Z with (2 ^ 32)%Z. lia. }
  split.
  - unfold read, get_version. cbn [rread flat bind].
    change (takeN 1 (x01 :: le_bytes 4 count ++ rest)) with [x01].
    replace (dropN 1 (x01 :: le_bytes 4 count ++ rest)) with (le_bytes 4 count ++ rest) by (symmetry; apply (dropN_app [x01]); reflexivity).
    change (b2n (hd x00 [x01]) =? 1) with true. cbv iota. unfold read_v1.
    replace (rread flat 4 (le_bytes 4 count ++ rest)) with (@Ok (bytes * option err * bytes) (le_bytes 4 count, None, rest)).
    2: { symmetry. apply (flat_read (le_bytes 4 count)). left. discriminate. }
    cbn [bind]. rewrite le_bytes_lenN. change (negb (N.of_nat 4 =? 4)) with false. cbv iota zeta. rewrite Hv.
    destruct (N.eqb_spec (Z.to_N count) 1); [lia|]. reflexivity.
  - intros S R eager I HR H0 s HI rec n t H.
    destruct rec as [r|]; [|now apply (read_none _ _ _ _ _ _ _ _ _ HR _ _ _ _ HI) in H].
    destruct (C38_consumed _ _ _ _ _ _ _ _ _ HR H0 _ _ _ _ _ _ HI H) as (c & after & s3 & d & m & Hd & _).
    apply (f_equal (takeN 4)) in Hd. unfold v1_frame in Hd. rewrite <- app_assoc, !takeN_app in Hd by reflexivity.
    rewrite Hd in Hv. change (le_val (bs [1; 0; 0; 0])) with 1%Z in Hv. lia.
Qed.
Print Assumptions C38_other_counts.

(** Unlike version 2, the payload must arrive in one piece: the very file that
    C38_in_memory accepts is rejected when its payload comes in two. *)
Theorem C38_short_reads : forall parse_f32 inflate unmarshal reg IZ a b,
  a <> [] -> b <> [] -> lenN (a ++ b) <= 2 ^ 48 ->
  let pieces := [[x01]; bs [1; 0; 0; 0]; le_bytes 8 (Z.of_N (lenN (a ++ b))); a; b] in
  concat pieces = x01 :: v1_frame (a ++ b) /\
  exists n t, read reg (read_v1 parse_f32 inflate unmarshal) IZ (chunked false) pieces = Ok (None, n, Some EV1Short, t).
Proof.
  intros parse_f32 inflate unmarshal reg IZ a b Ha Hb Hl pieces. split.
  { unfold pieces, v1_frame. cbn [concat app]. now rewrite app_nil_r. }
  assert (Hc : forall p l, rread (chunked false) (lenN p) (p :: l) = Ok (p, None, l)).
  { intros p l. cbn [rread chunked]. rewrite dropN_all, takeN_all by lia. reflexivity. }
  exists (13 + lenN a), (inl [b]). unfold read, get_version, pieces.
  change 1 with (lenN [x01]) at 1. rewrite Hc. cbn [bind]. change (b2n (hd x00 [x01]) =? 1) with true. cbv iota.
  unfold read_v1. change 4 with (lenN (bs [1; 0; 0; 0])) at 1. rewrite Hc. cbn [bind].
  change (negb (lenN (bs [1; 0; 0; 0]) =? 4)) with false. cbv iota zeta.
  change (negb (Z.to_N (le_val (bs [1; 0; 0; 0])) =? 1)) with false. cbv iota.
  replace 8 with (lenN (le_bytes 8 (Z.of_N (lenN (a ++ b))))) at 1 by (now rewrite le_bytes_lenN).
  rewrite Hc. cbn [bind]. rewrite le_bytes_lenN. change (negb (N.of_nat 8 =? 8)) with false. cbv iota.
  rewrite le_val_bytes, Z.mod_small by (change (256 ^ Z.of_nat 8)%Z with (2 ^ 64)%Z; lia).
  rewrite signed64_small by lia. destruct (Z.ltb_spec (Z.of_N (lenN (a ++ b))) 0); [lia|]. rewrite N2Z.id.
  unfold go_make, make_ok. destruct (N.leb_spec (1 * lenN (a ++ b)) (2 ^ 48)); [|lia].
  cbn [rread chunked]. assert (Hab : lenN a < lenN (a ++ b)).
  { rewrite lenN_app. destruct b; [congruence|]. unfold lenN. cbn [length]. lia. }
  rewrite dropN_all, takeN_all by lia. cbn [bind]. destruct (N.eqb_spec (lenN a) (lenN (a ++ b))); [lia|]. cbn [negb bind].
  do 4 f_equal. change (lenN (bs [1; 0; 0; 0])) with 4. change (lenN [x01]) with 1. lia.
Qed.
Print Assumptions C38_short_reads.

(** A size that is negative or beyond the address space makes the reader panic. *)
Theorem C38_bad_size_panics : forall parse_f32 inflate unmarshal reg IZ size rest,
  (- 2 ^ 63 <= size < 0)%Z \/ (2 ^ 48 < size < 2 ^ 63)%Z ->
  read reg (read_v1 parse_f32 inflate unmarshal) IZ flat (x01 :: bs [1; 0; 0; 0] ++ le_bytes 8 size ++ rest) = Panic.
Proof.
  intros parse_f32 inflate unmarshal reg IZ size rest Hs. unfold read, get_version. cbn [rread flat bind].
  set (tl := bs [1; 0; 0; 0] ++ le_bytes 8 size ++ rest).
  change (takeN 1 (x01 :: tl)) with [x01].
  replace (dropN 1 (x01 :: tl)) with tl by (symmetry; apply (dropN_app [x01]); reflexivity).
  change (b2n (hd x00 [x01]) =? 1) with true. cbv iota. unfold read_v1.
  replace (rread flat 4 tl) with (@Ok (bytes * option err * bytes) (bs [1; 0; 0; 0], None, le_bytes 8 size ++ rest)).
  2: { symmetry. apply (flat_read (bs [1; 0; 0; 0])). left. discriminate. }
  cbn [bind]. change (negb (lenN (bs [1; 0; 0; 0]) =? 4)) with false. cbv iota zeta.
  change (negb (Z.to_N (le_val (bs [1; 0; 0; 0])) =? 1)) with false. cbv iota.
  replace (rread flat 8 (le_bytes 8 size ++ rest)) with (@Ok (bytes * option err * bytes) (le_bytes 8 size, None, rest)).
  2: { symmetry. apply (flat_read (le_bytes 8 size)). left. discriminate. }
  cbn [bind]. rewrite le_bytes_lenN. change (negb (N.of_nat 8 =? 8)) with false. cbv iota.
  rewrite le_val_bytes. change (256 ^ Z.of_nat 8)%Z with (2 ^ 64)%Z.
  assert (Hsg : signed 64 (size mod 2 ^ 64) = size).
  { unfold signed. destruct Hs as [Hs|Hs].
    - assert (Hm : (size mod 2 ^ 64 = size + 2 ^ 64)%Z).
      { rewrite <- (Z.mod_small (size + 2 ^ 64) (2 ^ 64)) by lia. now rewrite <- (Z_mod_plus_full size 1). }
      rewrite Hm. destruct (Z.ltb_spec (size + 2 ^ 64) (2 ^ (64 - 1))); lia.
    - rewrite Z.mod_small by lia. destruct (Z.ltb_spec size (2 ^ (64 - 1))); lia. }
  rewrite Hsg. destruct (Z.ltb_spec size 0); [reflexivity|].
  unfold go_make, make_ok. destruct (N.leb_spec (1 * Z.to_N size) (2 ^ 48)); [lia|]. reflexivity.
Qed.
Print Assumptions C38_bad_size_panics.

(** A decoder that knows one message. *)
Definition toy_inflate (c : bytes) : option bytes := match c with [] => None | _ => Some (tl c) end.
Definition toy_unmarshal (d : bytes) : option v1_rec := if str_eqb d (lit "old") then Some old_demo else None.
Definition toy_v1 := read_v1 toy_f32 toy_inflate toy_unmarshal.
Example C38_example :
  read load_encoders toy_v1 toy_iz flat (x01 :: v1_frame (lit "!old") ++ [xff])
  = Ok (Some (v1_to_std toy_f32 old_demo), 17, None, inl [xff]) /\
  (forall k rec n t, (0 < k < 17)%nat ->
   read load_encoders toy_v1 toy_iz flat (firstn k (x01 :: v1_frame (lit "!old"))) <> Ok (rec, n, None, t)) /\
  read load_encoders toy_v1 toy_iz flat [x01; x02; x00; x00; x00; x07] = Ok (None, 5, Some (EV1Count 2), inl [x07]) /\
  read load_encoders toy_v1 toy_iz flat (x01 :: bs [1; 0; 0; 0] ++ le_bytes 8 (-1) ++ lit "!old") = Panic.
Proof.
  unfold toy_v1. split; [|split; [|split]].
  - change 17 with (13 + lenN (lit "!old")). apply C38_in_memory with (lit "old"); [discriminate|discriminate|reflexivity|reflexivity].
  - intros k rec n t Hk. apply (C38_truncated toy_f32 toy_inflate toy_unmarshal load_encoders toy_iz _ flat false _ (flat_delivers false) eq_refl (lit "!old") k);
      [discriminate|exact Hk|reflexivity].
  - apply (C38_other_counts toy_f32 toy_inflate toy_unmarshal load_encoders toy_iz 2 [x07]); lia.
  - apply C38_bad_size_panics. lia.
Qed.

(** ** C27, with the version 1 reader *)
Theorem C27_read_ends_v1 : forall tp te tf reg parse_f32 inflate unmarshal IZ S (R : Reader S) eager (I : S -> bytes -> Prop) s d,
  Forall (builtin tp te tf) reg -> inflation_ends IZ ->
  delivers R eager I -> (forall s d, I s d -> rread R 0 s <> Stuck) -> I s d ->
  let v1 := read_v1 parse_f32 inflate unmarshal in
  (exists rec n e s', read reg v1 IZ R s = Ok (rec, n, e, s')) \/ read reg v1 IZ R s = Panic.
Proof.
  intros tp te tf reg parse_f32 inflate unmarshal IZ S R eager I s d Hreg HIZ HR H0 HI v1.
  eapply C27_read_ends; eauto. intros s0 d0 H. eapply read_v1_not_stuck; eauto.
Qed.
Print Assumptions C27_read_ends_v1.
Example C27_v1_example : forall d : bytes,
  (exists rec n e s', read load_encoders toy_v1 toy_iz (chunked true) (bytewise d) = Ok (rec, n, e, s')) \/
  read load_encoders toy_v1 toy_iz (chunked true) (bytewise d) = Panic.
Proof.
  intro d. destruct default_valid as (_ & _ & _ & _ & H & _).
  eapply C27_read_ends_v1; [exact H | apply toy_ends | apply (chunked_delivers true) | | apply (bytewise_ok d)].
  intros s e _. cbn [rread chunked]. destruct s as [|c s]; [discriminate|]. destruct (dropN 0 c); discriminate.
Qed.

(** ** C43 *)
Lemma upgrade_valid : valid_config 3 2 0 upgrade_writer.
Proof.
  unfold valid_config. cbn [w_time w_encs upgrade_writer]. repeat split; try reflexivity.
  - repeat constructor; unfold builtin; tauto.
  - repeat constructor; cbn; intuition discriminate.
Qed.
Lemma upgrade_load : forall e, In e (w_encs upgrade_writer) -> can_read load_encoders e.
Proof.
  intros e He. apply can_read_builtin with 3 2 0 2 1 0.
  - destruct upgrade_valid as (_ & _ & _ & _ & H & _). rewrite Forall_forall in H. auto.
  - apply default_valid.
  - cbn in He. destruct He as [<-|[<-|[<-|[<-|[]]]]];
      [exists event_encoder|exists (position_encoder 2)|exists (euler_encoder 1)|exists enum_encoder]; (split; [cbn; tauto|reflexivity]).
Qed.
Lemma old_accepted : forall parse_f32 m, ~ unaccepted (w_encs upgrade_writer) (v1_to_std parse_f32 m).
Proof.
  intros parse_f32 m. apply accepted_by. intros c Hc. unfold v1_to_std in Hc. cbn [tree_colls flat_map app] in Hc.
  destruct Hc as [<-|Hc]; [reflexivity|]. apply in_flat_map in Hc as (o & Ho & Hc).
  apply in_map_iff in Ho as (x & <- & Hx). cbn in Hc. intuition (subst; reflexivity).
Qed.
Theorem C43_upgrade : forall parse_f32 inflate unmarshal IZ Z payload d m rA rE,
  payload <> [] -> lenN payload <= 2 ^ 48 -> inflate payload = Some d -> unmarshal d = Some m ->
  v1_wf m -> codec_ok Z IZ ->
  let v1 := read_v1 parse_f32 inflate unmarshal in
  exists r, read load_encoders v1 IZ flat (x01 :: v1_frame payload) = Ok (Some r, 13 + lenN payload, None, inl []) /\
    recording_kept parse_f32 m r /\
    (rec_equiv r rA -> rec_equiv r rE ->
     exists n file, write_views upgrade_writer Z buffer rA rE r [] = Ok (n, None, file) /\
       (n <= 2 ^ 40 ->
        exists r',
          rec_rel block_equiv (fun c d =>
            same_but_numbers c d /\
            exists cE e ts, coll_equiv c cE /\ In e (w_encs upgrade_writer) /\ e_accepts e cE = true /\
              stored_times 2 (c_times c) ts /\ c_times d = ts /\ stored_by e ts cE d) r r' /\
          forall S (R : Reader S) eager I, delivers R eager I -> forall s rest, I s (file ++ rest) ->
          exists s', read load_encoders v1 IZ R s = Ok (Some r', n, None, s'))).
Proof.
  intros parse_f32 inflate unmarshal IZ Z payload d m rA rE Hp Hl Ei Eu Hm HZ v1.
  exists (v1_to_std parse_f32 m). split.
  { pose proof (C38_in_memory parse_f32 inflate unmarshal load_encoders IZ payload [] d m Hp Hl Ei Eu) as H.
    rewrite app_nil_r in H. exact H. }
  split; [now apply C34_import|]. intros HA HE.
  destruct (C19_only_numbers 3 2 0 upgrade_writer Z IZ load_encoders v1 (v1_to_std parse_f32 m) rA rE) as (n & file & Hw & Hr);
    auto using upgrade_valid, upgrade_load, v1_to_std_wf, old_accepted.
  exists n, file. auto.
Qed.
Print Assumptions C43_upgrade.
Example C43_example : v1_wf old_demo /\ codec_ok toy_z toy_iz /\ exists r n file r' s',
  read load_encoders toy_v1 toy_iz flat (x01 :: v1_frame (lit "!old")) = Ok (Some r, 17, None, inl []) /\
  write_views upgrade_writer toy_z buffer r r r [] = Ok (n, None, file) /\
  rec_rel block_equiv same_but_numbers r r' /\
  read load_encoders toy_v1 toy_iz flat file = Ok (Some r', n, None, s').
Proof.
  split; [apply old_demo_wf|]. split; [apply toy_ok|].
  destruct (C43_upgrade toy_f32 toy_inflate toy_unmarshal toy_iz toy_z (lit "!old") (lit "old") old_demo
    (v1_to_std toy_f32 old_demo) (v1_to_std toy_f32 old_demo)) as (r & Hr & _ & Hup);
    auto using old_demo_wf, toy_ok; try discriminate; try reflexivity.
  assert (Er : r = v1_to_std toy_f32 old_demo).
  { rewrite <- (app_nil_r (v1_frame _)) in Hr.
    rewrite (C38_in_memory toy_f32 toy_inflate toy_unmarshal load_encoders toy_iz (lit "!old") [] (lit "old") old_demo) in Hr
      by (try discriminate; reflexivity). now injection Hr. }
  subst r. destruct Hup as (n & file & Hw & Hread); auto using rec_equiv_refl, v1_to_std_wf, old_demo_wf.
  assert (En : n <= 2 ^ 40).
  { assert (Ec : match write_views upgrade_writer toy_z buffer (v1_to_std toy_f32 old_demo) (v1_to_std toy_f32 old_demo) (v1_to_std toy_f32 old_demo) [] with
                 | Ok (n, _, _) => n <=? 2 ^ 40 | _ => true end = true) by (vm_compute; reflexivity).
    rewrite Hw in Ec. now apply N.leb_le. }
  destruct (Hread En) as (r' & Hrel & Hl). destruct (Hl _ flat false _ (flat_delivers false) file []) as (s' & Es); [now rewrite app_nil_r|].
  exists (v1_to_std toy_f32 old_demo), n, file, r', s'. split; [exact Hr|]. split; [exact Hw|]. split; [|exact Es].
  eapply rec_rel_mono; [| |exact Hrel]; [auto|]. intros c d0 _ H. apply H.
Qed.
