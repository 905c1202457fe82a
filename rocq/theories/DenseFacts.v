(** Dense numbers: the format says what the decoders compute. *)
From Coq Require Import ZArith Lia.
From Flocq Require Import IEEE754.Bits.
From Verif Require Import Base BaseFacts IO Spec IOFacts Floats ByteFacts BinaryIO BinaryIOFacts VarintFacts PropPrimitives.
From Verif Require Import Metadata SpecMeta MetadataFacts Recording SpecRec RecordingFacts Encoding SpecEnc.
From Verif Require Import EncTableFacts EncEvent EncEventFacts EncEnum EncEnumFacts EncPosition EncEuler EncFloat EncNumFacts OctFacts EncLawful StreamFacts TimeIO TimeFacts.
From Verif Require Import Writer Reader SpecFile WriterFacts KeyFacts PlanFacts ReaderFacts SpecFormat FormatFacts.
Local Open Scope N_scope.
Local Open Scope format_scope.

(** ** Walks *)
Fixpoint halved (k : nat) (s : f64) : f64 := match k with O => s | S k' => halved k' (fdiv s f2) end.
Lemma walk_app : forall u v x s, walk x s (u ++ v) = walk (walk x s u) (halved (length u) s) v.
Proof. induction u as [|a u IH]; intros v x s; [reflexivity|]. cbn [app walk length halved]. apply IH. Qed.
Fixpoint bits_from (k : nat) (i b : N) : list bool :=
  match k with O => [] | S k' => N.testbit b i :: bits_from k' (i + 1) b end.
Lemma bits_from_len : forall k i b, length (bits_from k i b) = k.
Proof. induction k as [|k IH]; intros; cbn [bits_from length]; auto. Qed.
Lemma bits_all : forall c, bits c = bits_from 8 0 (b2n c).
Proof. reflexivity. Qed.
Lemma bits_len : forall c, length (bits c) = 8%nat.
Proof. reflexivity. Qed.
Lemma bst_bits_walk : forall k i b x s, bst_dec_bits k i b x s = (walk x s (bits_from k i b), halved k s).
Proof.
  induction k as [|k IH]; intros i b x s; [reflexivity|]. cbn [bst_dec_bits bits_from walk halved]. rewrite land_1_bit.
  destruct (N.testbit b i); [change (1 =? 1) with true|change (0 =? 1) with false]; cbv iota; apply IH.
Qed.
Lemma bst_walk : forall b x s, bst_dec_bytes b x s = walk x s (flat_map bits b).
Proof.
  induction b as [|c b IH]; intros x s; [reflexivity|]. cbn [bst_dec_bytes flat_map]. rewrite bst_bits_walk, IH, walk_app, bits_all, bits_from_len. reflexivity.
Qed.
Lemma level_iff : forall lo w x b, level lo w x b <-> lenN b = 2 /\ x = bst_dec lo w b.
Proof.
  intros lo w x b. unfold level, bst_dec. rewrite bst_walk. unfold lenN. split; intros [H1 H2]; (split; [lia|exact H2]).
Qed.

(** ** Positions *)
Lemma plus_vadd : plus = vadd.
Proof. reflexivity. Qed.
Lemma land_bit : forall x, (N.land x 4 =? 0) = negb (N.testbit x 2) /\ (N.land x 2 =? 0) = negb (N.testbit x 1) /\ (N.land x 1 =? 0) = negb (N.testbit x 0).
Proof. intros [|p]; [auto|]. do 3 (destruct p as [p|p|]; auto). Qed.
Lemma oct_walk : forall cs c ix iy iz, oct_dec_loop cs c ix iy iz =
  mkVec (walk (vx c) ix (map negb (map (fun x => N.testbit x 1) cs))) (walk (vy c) iy (map negb (map (fun x => N.testbit x 2) cs)))
        (walk (vz c) iz (map negb (map (fun x => N.testbit x 0) cs))).
Proof.
  induction cs as [|x cs IH]; intros c ix iy iz; [now destruct c|]. cbn [oct_dec_loop map walk]. rewrite IH. cbn [vx vy vz].
  destruct (land_bit x) as (-> & -> & ->). reflexivity.
Qed.
Lemma cells24 : forall z x y, let cs := bytes_to_cells24 [z; x; y] in
  map (fun c => N.testbit c 1) cs = bits x /\ map (fun c => N.testbit c 2) cs = bits y /\ map (fun c => N.testbit c 0) cs = bits z.
Proof.
  intros z x y. cbn [bytes_to_cells24]. rewrite unpack_zip.
  destruct (split_zip (byte_bits (b2n z)) (byte_bits (b2n x)) (byte_bits (b2n y))) as (E0 & E1 & E2); auto.
Qed.
Definition unpacks (w : nat) : bytes -> list N := match w with 3%nat => bytes_to_cells24 | _ => bytes_to_cells48 end.
Lemma distance_iff : forall lo hi w d b, (w = 3 \/ w = 6)%nat -> (distance lo hi w d b <-> lenN b = N.of_nat w /\ d = oct_dec lo hi (unpacks w b)).
Proof.
  intros lo hi w d b Hw. unfold oct_dec. rewrite oct_walk. unfold vhalf, vadd, vsub. cbn [vx vy vz]. split.
  - intro H. inversion H; subst; (split; [reflexivity|]); cbn [unpacks].
    + destruct (cells24 z x y) as (-> & -> & ->). reflexivity.
    + unfold bytes_to_cells48. cbn [skipn]. change (bytes_to_cells24 [z; x; y; z'; x'; y']) with (bytes_to_cells24 [z; x; y]). rewrite !map_app.
      destruct (cells24 z x y) as (-> & -> & ->). destruct (cells24 z' x' y') as (-> & -> & ->).
      unfold axis. cbn [flat_map]. rewrite !app_nil_r, !map_app. reflexivity.
  - intros [Hl ->]. unfold lenN in Hl. destruct Hw as [->| ->]; cbn [unpacks].
    + destruct b as [|z [|x [|y [|? ?]]]]; try (cbn [length] in Hl; lia).
      destruct (cells24 z x y) as (-> & -> & ->). apply Distance3.
    + destruct b as [|z [|x [|y [|z' [|x' [|y' [|? ?]]]]]]]; try (cbn [length] in Hl; lia).
      unfold bytes_to_cells48. cbn [skipn]. change (bytes_to_cells24 [z; x; y; z'; x'; y']) with (bytes_to_cells24 [z; x; y]). rewrite !map_app.
      destruct (cells24 z x y) as (-> & -> & ->). destruct (cells24 z' x' y') as (-> & -> & ->).
      pose proof (Distance6 lo hi z x y z' x' y') as H. unfold axis in H. cbn [flat_map] in H. rewrite !app_nil_r, !map_app in H. exact H.
Qed.
Lemma near_iff : forall x b, near x b <-> exists y, x = near32 y /\ b = wr32 y.
Proof. intros x b. apply (stored_iff 1 x b). reflexivity. Qed.
Lemma point_near : forall v b, point near v b <-> exists w, v = vmap near32 w /\ b = wr32v w.
Proof.
  intros v b. split.
  - intro H. apply (vec_exists near near32 wr32) in H; [exact H|]. intros x c. apply near_iff.
  - intros (w & -> & ->). apply (exists_vec near near32 wr32). intro y. apply near_iff. eauto.
Qed.
Lemma hops_read : forall lo hi w p l r, (w = 3 \/ w = 6)%nat -> path plus (distance lo hi w) p l r ->
  forall ts buf, length ts = length l -> lenN buf = N.of_nat w -> oct_unsteps (unpacks w) lo hi p ts buf r = combine ts l.
Proof.
  intros lo hi w p l r Hw H. induction H as [p|p d l b c Hd H IH]; intros [|t ts] buf Ht Hb; try discriminate; [reflexivity|].
  injection Ht as Ht. cbn [oct_unsteps combine]. apply distance_iff in Hd as [Hl Ed]; [|exact Hw].
  rewrite flat_read_exact_; [|congruence|intros ->; cbn in Hl; lia].
  rewrite <- Ed. change (vadd p d) with (plus p d). rewrite IH by auto. reflexivity.
Qed.
Lemma dense_positions_read : forall w ps r ts, (w = 3 \/ w = 6)%nat -> dense_positions w ps r -> length ts = length ps ->
  decode_oct w (unpacks w) ts r = Ok (combine ts ps, None).
Proof.
  intros w ps r ts Hw H Ht. destruct ps as [|p [|p2 ps]]; destruct ts as [|t [|t2 ts]]; try discriminate; cbn [dense_positions] in H; cbn [decode_oct].
  - reflexivity.
  - apply point_near in H as (v & -> & ->). rewrite <- (app_nil_r (wr32v v)), rd32v_flat. reflexivity.
  - destruct H as (lo & hi & b1 & r1 & -> & H1 & b2 & r2 & -> & H2 & b3 & r3 & -> & H3 & H4).
    apply point_near in H1 as (v1 & -> & ->), H2 as (v2 & -> & ->), H3 as (v3 & -> & ->).
    rewrite rd32v_flat. cbn [bind]. rewrite rd32v_flat. cbn [bind]. rewrite rd32v_flat. cbn [bind]. rewrite !vec_of32_near.
    injection Ht as Ht. rewrite (hops_read _ _ w _ _ _ Hw H4) by (try apply lenN_repeat; cbn [length] in *; lia). reflexivity.
Qed.
Lemma hops_written : forall lo hi k pack w cs p, (w = 3 \/ w = 6)%nat -> packs k pack (unpacks w) (N.of_nat w) ->
  Forall (fun c => length c = k /\ Forall (fun x => x < 8) c) cs -> path plus (distance lo hi w) p (oct_path lo hi p cs) (flat_map pack cs).
Proof.
  intros lo hi k pack w cs p Hw [HP _] H. revert p. induction H as [|c cs [Hl Hc] H IH]; intro p; cbn [oct_path flat_map]; [constructor|].
  rewrite <- plus_vadd. constructor; [|apply IH]. destruct (HP c Hl Hc) as [E L]. apply distance_iff; [exact Hw|]. rewrite E. auto.
Qed.
Lemma oct_cells_ok : forall k mn mx l q, Forall (fun c => length c = k /\ Forall (fun x => x < 8) c) (oct_cells k mn mx q l).
Proof. intros k mn mx. induction l as [|p l IH]; intro q; cbn [oct_cells]; constructor; auto. apply oct_enc_loop_ok. Qed.
Lemma dense_positions_written : forall k pack w l, (w = 3 \/ w = 6)%nat -> packs k pack (unpacks w) (N.of_nat w) ->
  dense_positions w (oct_values k l) (encode_oct k pack l).
Proof.
  intros k pack w [|p [|p2 l]] Hw HP; [reflexivity| |].
  - cbn [oct_values encode_oct dense_positions]. apply point_near. eauto.
  - unfold oct_values, encode_oct. destruct (step_range p (p2 :: l) vec_pinf vec_minf) as [mn mx]. rewrite oct_steps_cells.
    pose proof (hops_written (vmap near32 mn) (vmap near32 mx) k pack w (oct_cells k mn mx p (p2 :: l)) (vmap near32 p) Hw HP (oct_cells_ok _ _ _ _ _)) as H.
    pose proof (oct_path_length (vmap near32 mn) (vmap near32 mx) (oct_cells k mn mx p (p2 :: l)) (vmap near32 p)) as L. rewrite oct_cells_length in L.
    destruct (oct_path (vmap near32 mn) (vmap near32 mx) (vmap near32 p) (oct_cells k mn mx p (p2 :: l))) as [|a rest]; [discriminate|].
    cbn [dense_positions]. exists (vmap near32 mn), (vmap near32 mx). do 2 eexists. split; [reflexivity|]. split; [apply point_near; eauto|].
    do 2 eexists. split; [reflexivity|]. split; [apply point_near; eauto|]. do 2 eexists. split; [reflexivity|]. split; [apply point_near; eauto|exact H].
Qed.

(** ** Angles *)
Lemma angles_read : forall vs r, each (point (level f0 f360)) vs r -> forall ts buf, length ts = length vs -> lenN buf = 2 ->
  euler_decode16 ts buf r = combine ts vs.
Proof.
  intros vs r H. induction H as [|v vs b c (b1 & r1 & -> & H1 & b2 & b3 & -> & H2 & H3) H IH]; intros [|t ts] buf Ht Hb; try discriminate; [reflexivity|].
  injection Ht as Ht. apply level_iff in H1 as [L1 E1], H2 as [L2 E2], H3 as [L3 E3]. cbn [euler_decode16 combine]. rewrite <- !app_assoc.
  assert (Hne : forall q : bytes, lenN q = 2 -> q <> []) by (intros q Hq ->; discriminate).
  rewrite flat_read_exact_ by (auto; congruence). rewrite flat_read_exact_ by (auto; congruence). rewrite flat_read_exact_ by (auto; congruence).
  rewrite IH by auto. unfold dec16. rewrite <- E1, <- E2, <- E3. now destruct v.
Qed.
Lemma dense_angles_read : forall vs r ts, dense_angles vs r -> length ts = length vs -> decode_raw16 ts r = Ok (combine ts vs, None).
Proof.
  intros vs r ts H Ht. destruct vs as [|v [|v2 vs]]; destruct ts as [|t [|t2 ts]]; try discriminate; cbn [dense_angles] in H; cbn [decode_raw16].
  - reflexivity.
  - apply point_near in H as (w & -> & ->). rewrite <- (app_nil_r (wr32v w)), rd32v_flat. reflexivity.
  - rewrite (angles_read _ _ H) by auto. reflexivity.
Qed.
Lemma dense_angles_written : forall l, dense_angles (euler_values 2 l) (encode_raw16 l).
Proof.
  assert (G : forall l, each (point (level f0 f360)) (map (vmap angle16) l) (flat_map enc16v l)).
  { intro l. apply exists_each. intro v. apply (exists_vec (level f0 f360) angle16 enc16). intro x. apply level_iff. split; [apply bst_enc_len|reflexivity]. }
  intros [|v [|v2 l]]; unfold euler_values, encode_raw16.
  - constructor.
  - cbn [dense_angles]. apply point_near. exists (vmap wrap_angle v). split; reflexivity.
  - exact (G (v :: v2 :: l)).
Qed.

(** ** Numbers *)
Lemma numbers_read : forall k lo w xs r, each (level lo w) xs r -> forall ts buf, length ts = length xs -> lenN buf = 2 ->
  parses (flatI k) false (float_decode16 ts lo w buf) r (combine ts xs).
Proof.
  intros k lo w xs r H. induction H as [|x xs b c Hx H IH]; intros [|t ts] buf Ht Hb s rest HI Hm; try discriminate.
  - exists s. auto.
  - injection Ht as Ht. apply level_iff in Hx as [Lb Ex]. cbn [float_decode16 combine]. rewrite <- app_assoc in HI.
    destruct (er_read_ok flat false _ k flat_serves s b _ 2 HI Lb) as (s1 & -> & HI1). cbn [bind].
    assert (E : fill buf b = b) by (unfold fill; rewrite dropN_all by lia; apply app_nil_r). rewrite E.
    destruct (IH ts b Ht Lb s1 rest HI1) as (s2 & -> & HI2); auto with more. cbn [bind]. rewrite <- Ex. exists s2. auto.
Qed.
Lemma dense_numbers_read : forall k xs r ts, dense_numbers xs r -> length ts = length xs ->
  parses (flatI k) false (float_decode_bst ts) r (combine ts xs).
Proof.
  intros k xs r ts (lo & hi & b1 & r1 & -> & H1 & b2 & r2 & -> & H2 & H3) Ht s rest HI Hm. apply single_iff in H1, H2. subst b1 b2.
  rewrite <- !app_assoc in HI. unfold float_decode_bst.
  destruct (rd32_ok _ _ _ (flat_er_serves k) f32_0 lo s _ HI) as (s1 & -> & HI1); auto with more. cbn [bind].
  destruct (rd32_ok _ _ _ (flat_er_serves k) f32_0 hi s1 _ HI1) as (s2 & -> & HI2); auto with more. cbn [bind fst].
  apply (numbers_read k _ _ _ _ H3 ts (zeros 2) Ht eq_refl s2 rest HI2). auto with more.
Qed.
Lemma dense_numbers_written : forall l, dense_numbers (float_values 2 l) (encode_bst16 l).
Proof.
  intro l. unfold float_values, encode_bst16. destruct (val_range l fpinf fminf) as [mn mx]. cbn [fst snd].
  exists (f32_of_f64 mn), (f32_of_f64 mx). do 2 eexists. split; [reflexivity|]. split; [now apply single_iff|].
  do 2 eexists. split; [reflexivity|]. split; [now apply single_iff|].
  apply exists_each. intro x. apply level_iff. split; [apply bst_enc_len|reflexivity].
Qed.

(** ** Times *)
Lemma steps_exist : forall w x l r, path fadd (level f0 w) x l r ->
  exists cs, concat cs = r /\ Forall (fun b => lenN b = 2) cs /\ time_path cs x w = l.
Proof.
  intros w x l r H. induction H as [x|x d l b c Hd H (cs & <- & Hc & E)]; [now exists []|].
  apply level_iff in Hd as [Lb ->]. exists (b :: cs). split; [reflexivity|]. split; [now constructor|]. cbn [time_path]. now rewrite E.
Qed.
Lemma exist_steps : forall w cs x, Forall (fun b => lenN b = 2) cs -> path fadd (level f0 w) x (time_path cs x w) (concat cs).
Proof.
  intros w cs x H. revert x. induction H as [|b cs Hb H IH]; intro x; cbn [time_path concat]; constructor; auto. now apply level_iff.
Qed.
Lemma dense_times_written : forall l, dense_times (time_values 2 l) (encode_time16 l).
Proof.
  intro l. unfold time_values, encode_time16. destruct (time_range None l fpinf fminf) as [st mx]. destruct l as [|t [|t2 l]]; [reflexivity| |].
  - cbn [time_codes time_path dense_times]. apply near_iff. eauto.
  - rewrite time_steps_codes. pose proof (exist_steps (near32 mx) (time_codes (t2 :: l) st mx) (near32 st) (time_codes_2 _ _ _)) as H.
    pose proof (time_path_len (time_codes (t2 :: l) st mx) (near32 st) (near32 mx)) as L. rewrite time_codes_len in L.
    destruct (time_path (time_codes (t2 :: l) st mx) (near32 st) (near32 mx)) as [|a rest]; [discriminate|]. cbn [dense_times].
    exists (near32 mx). do 2 eexists. split; [reflexivity|]. split; [apply near_iff; eauto|]. do 2 eexists. split; [reflexivity|]. split; [apply near_iff; eauto|exact H].
Qed.
Lemma steps_size : forall w x l r, path fadd (level f0 w) x l r -> lenN l <= lenN r.
Proof.
  intros w x l r H. induction H as [x|x d l b c Hd H IH]; [discriminate|]. apply level_iff in Hd as [Lb _]. rewrite lenN_cons, lenN_app. lia.
Qed.
Lemma dense_times_size : forall ts r, dense_times ts r -> lenN ts <= lenN r.
Proof.
  intros [|x [|x2 ts]] r H; cbn [dense_times] in H.
  - subst. discriminate.
  - apply near_iff in H as (y & _ & ->). rewrite wr32_len. discriminate.
  - destruct H as (w & b1 & r1 & -> & H1 & b2 & r2 & -> & H2 & H3). apply near_iff in H1 as (y1 & _ & ->), H2 as (y2 & _ & ->).
    apply steps_size in H3. rewrite ?lenN_app, ?wr32_len, ?lenN_cons in *. lia.
Qed.
Section Reading.
Context {S : Type} (R : Reader S) (I : S -> bytes -> Prop).
Hypothesis HR : serves R false I.
Hypothesis HX : exact R I.
Lemma dense_times_read : forall ts r, dense_times ts r -> lenN ts <= 2 ^ 45 -> parses I false (decode_time16 R (lenN ts)) r (ts, None).
Proof.
  intros ts r H Hl s rest HI Hm. unfold decode_time16. destruct ts as [|x ts]; [cbn [dense_times] in H; subst r; exists s; auto|].
  destruct (N.eqb_spec (lenN (x :: ts)) 0) as [E|_]; [rewrite lenN_cons in E; lia|].
  destruct ts as [|x2 ts]; cbn [dense_times] in H.
  - apply near_iff in H as (y & -> & ->). destruct (rd32_ok R false I HR f32_0 (f32_of_f64 y) s _ HI) as (s1 & -> & HI1); auto with more.
    cbn [bind]. rewrite (proj2 (N.eqb_eq _ _)) by reflexivity. exists s1. auto.
  - destruct H as (w & b1 & r1 & -> & H1 & b2 & r2 & -> & H2 & H3). apply near_iff in H1 as (y1 & -> & ->), H2 as (y2 & -> & ->).
    rewrite <- !app_assoc in HI. destruct (rd32_ok R false I HR f32_0 (f32_of_f64 y1) s _ HI) as (s1 & -> & HI1); auto with more.
    cbn [bind]. destruct (N.eqb_spec (lenN (near32 y1 :: x2 :: ts)) 1) as [E|_]; [rewrite !lenN_cons in E; lia|].
    destruct (rd32_ok R false I HR f32_0 (f32_of_f64 y2) s1 _ HI1) as (s2 & -> & HI2); auto with more.
    cbn [bind]. rewrite go_make_ok.
    2:{ change (2 ^ 48) with (8 * 2 ^ 45). now apply N.mul_le_mono_l. }
    destruct (steps_exist _ _ _ _ H3) as (cs & <- & Hc & Ep).
    assert (Lc : length cs = length (x2 :: ts)) by (rewrite <- Ep; symmetry; apply time_path_len).
    replace (N.to_nat (N.pred (lenN (near32 y1 :: x2 :: ts)))) with (length cs).
    2:{ unfold lenN. cbn [length] in *. lia. }
    destruct (time_unsteps_ok R I HX cs (f64_of_f32 (f32_of_f64 y1)) (f64_of_f32 (f32_of_f64 y2)) (zeros 2) Hc eq_refl s2 rest HI2) as (s3 & -> & HI3); auto with more.
    cbn [bind]. change (f64_of_f32 (f32_of_f64 y1)) with (near32 y1). change (f64_of_f32 (f32_of_f64 y2)) with (near32 y2). rewrite Ep. exists s3. auto.
Qed.
Lemma times_parse : forall ts b, times ts b -> lenN b <= 2 ^ 45 -> parses I false (decode_time R) b (ts, None).
Proof.
  intros ts b (t & r & -> & [[Hk Hc]|[-> (p & q & -> & Hp & Hq)]]) Hl s rest HI Hm.
  - assert (Hpl : plain_times ts (t :: r)) by (exists t, r; auto). apply times_iff in Hpl as (tech & l & Ht & _ & -> & E).
    rewrite E in *. apply (decode_time_ok R I HR HX tech l ltac:(lia)); auto. pose proof (encode_time_len tech l ltac:(lia)). lia.
  - apply varint_iff in Hp as [Hn ->]. pose proof (dense_times_size _ _ Hq) as Hs. rewrite lenN_cons, lenN_app in Hl.
    assert (Hts : lenN ts <= 2 ^ 45) by (revert Hl Hs; generalize (2 ^ 45); intros; lia). clear Hl.
    unfold decode_time. change (x02 :: ?x) with ([x02] ++ x) in HI. rewrite <- !app_assoc in HI.
    destruct (HX s [x02] _ 1 HI eq_refl) as (s1 & -> & HI1). cbn [bind].
    destruct (read_uvarint_ok HR (lenN ts) Hn s1 _ HI1) as (s2 & -> & HI2); auto with more. cbn [bind hd].
    change (b2n x02) with 2. cbv iota. apply (dense_times_read ts q Hq Hts s2 rest HI2). auto with more.
Qed.
End Reading.

(** ** Collections *)
Lemma event_body : forall names keys (l : list (f64 * (str * block))) b,
  each (fun e => place names (fst (snd e)) ;; metadata keys (snd (snd e))) l b ->
  stream_of names keys l b /\ Forall (fun x => built_block (snd (snd x))) l.
Proof.
  intros names keys l b H. induction H as [|[t [n m]] l b c (p & q & -> & (i & Hi & Hv) & Hm) H [IH1 IH2]]; [split; constructor|].
  cbn [fst snd] in *. apply varint_iff in Hv as [_ ->]. apply metadata_written in Hm as (is & d & Hs & _ & _ & Hb & Hd & ->).
  split; [|constructor; auto]. rewrite <- !app_assoc. constructor; auto. now rewrite nthN_nth_error.
Qed.
Lemma body_decodes : forall k c h b name e tp te tf, SpecFile.builtin tp te tf e -> e_sig e = signature k ->
  header k h -> body k c b -> lenN h <= 2 ^ 44 -> lenN b <= 2 ^ 44 ->
  e_decode e name h b (times_of c) = Ok (Some (mkColl name c), None).
Proof.
  intros k c h b name e tp te tf He Hs Hh Hb Lh Lb.
  destruct k as [names keys|members| | |]; destruct c as [l|l|l|l|ms l|? ?]; try contradiction Hb; cbn [header body] in Hh, Hb; unfold times_of, c_times; cbn [c_body];
    destruct He as [ -> |[ -> |[ -> |[ -> | -> ]]]]; try (vm_compute in Hs; discriminate Hs); clear Hs.
  - destruct Hh as (p & q & -> & Hp & Hq). apply texts_iff in Hp as (_ & _ & ->), Hq as (_ & _ & ->). rewrite lenN_app in Lh.
    cbn [e_decode event_encoder]. unfold event_decode, event_header.
    destruct (string_array_len names) as [LN1 LN2]. destruct (string_array_len keys) as [LK1 LK2].
    destruct (flat_array names (string_array_to_bytes keys)) as [E1 _]; [lia|]. rewrite E1. cbn [bind].
    destruct (flat_array keys []) as [E2 _]; [lia|]. rewrite app_nil_r in E2. rewrite E2. cbn [bind].
    apply event_body in Hb as [Hso Hwl].
    rewrite (dec_events_ok names keys l b Hso Hwl) with (rest := @nil byte); auto; try lia.
    + cbn [bind]. now rewrite pair_list.
    + apply map_length.
    + unfold bufI, new_bufio. cbn. now rewrite app_nil_r.
  - apply texts_iff in Hh as (_ & _ & ->). destruct Hb as (p & q & -> & Hp & Hq). apply places_iff in Hp as (is & Hp & _ & Hlt & ->).
    assert (Hv : Forall (fun x : f64 * Z => (- 2 ^ 63 <= snd x < 2 ^ 63)%Z) l) by (eapply each_Forall; [|exact Hq]; intros x d H; exact (proj1 H)).
    apply each_flat with (f := fun c : f64 * Z => put_uvarint (u64_of_int (snd c))) in Hq; [|intros x d [_ H]; now apply varint_iff in H]. subst q.
    cbn [e_decode enum_encoder]. unfold enum_decode.
    destruct (flat_array members []) as [E1 HlK]; [lia|]. rewrite app_nil_r in E1. rewrite E1. cbn [bind].
    set (b := uvarint_array_to_bytes is ++ flat_map (fun c : f64 * Z => put_uvarint (u64_of_int (snd c))) l) in *.
    pose proof (new_er_inv (fun s d : bytes => s = d) b b eq_refl) as HI.
    pose proof (er_serves flat false (fun s d => s = d) (lenN b) (delivers_serves _ _ _ (flat_delivers false))) as HR.
    assert (Hb' : b = uvarint_array_to_bytes is ++ flat_map (fun c : f64 * Z => put_uvarint (u64_of_int (snd c))) l ++ []) by (now rewrite app_nil_r).
    assert (Hlis : lenN is <= 2 ^ 45).
    { pose proof (uvarint_array_len is). unfold b in Lb. rewrite lenN_app in Lb. eapply N.le_trans with (2 ^ 44); [lia | discriminate]. }
    rewrite Hb' in HI at 3.
    destruct (read_uvarint_array_ok HR is Hlis Hlt _ _ HI) as (s1 & -> & HI1); auto with more.
    cbn [bind]. rewrite (pick_ok _ _ _ Hp). cbn [bind].
    destruct (dec_enums_ok (lenN b) l (map fst l) Hv) with (s := s1) (rest := @nil byte) as (s2 & -> & HI2); auto with more.
    { apply map_length. }
    cbn [bind]. destruct HI2 as (-> & _). now rewrite pair_list.
  - destruct Hb as (t & r & -> & [[Hk Hr]|Hb]).
    2:{ cbn [e_decode position_encoder]. unfold pos_decode. destruct Hb as [[-> Hb]|[-> Hb]].
        - change (b2n x02) with 2. cbv iota. change bytes_to_cells48 with (unpacks 6). rewrite (dense_positions_read 6 (map snd l)) by (auto; now rewrite !map_length).
          cbn [bind]. now rewrite pair_list.
        - change (b2n x03) with 3. cbv iota. change bytes_to_cells24 with (unpacks 3). rewrite (dense_positions_read 3 (map snd l)) by (auto; now rewrite !map_length).
          cbn [bind]. now rewrite pair_list. }
    apply known_iff in Hk as (tech & Hl & ->).
    apply (points_of tech stored put_num) in Hr as (l0 & E0 & ->); [|exact Hl|intros; now apply stored_iff].
    assert (Hlen : length (map fst l) = length l0) by (rewrite map_length; rewrite <- (map_length snd), E0; apply map_length).
    cbn [e_decode position_encoder]. unfold pos_decode. assert (Hn : b2n (n2b tech) = tech) by (apply b2n_n2b_small; lia). rewrite Hn.
    assert (tech = 0 \/ tech = 1) as [->| ->] by lia.
    + change (flat_map (put_vec (put_num 0)) l0) with (encode_raw64 l0). rewrite <- (app_nil_r (encode_raw64 _)), decode_raw64_ok by auto.
      rewrite vmap_near in E0. now rewrite <- E0, pair_list.
    + change (flat_map (put_vec (put_num 1)) l0) with (encode_raw32 l0). rewrite <- (app_nil_r (encode_raw32 _)), decode_raw32_ok by auto.
      change (map (vmap near32) l0) with (map (vmap (keep 1)) l0). cbn [bind]. now rewrite <- E0, pair_list.
  - destruct Hb as (t & r & -> & [[Hk Hr]|[-> Hb]]).
    2:{ cbn [e_decode euler_encoder]. unfold euler_decode. change (b2n x02) with 2. cbv iota.
        rewrite (dense_angles_read (map snd l)) by (auto; now rewrite !map_length). cbn [bind]. now rewrite pair_list. }
    apply known_iff in Hk as (tech & Hl & ->).
    apply (points_of tech angle put_angle) in Hr as (l0 & E0 & ->); [|exact Hl|intros; now apply angle_iff].
    assert (Hlen : length (map fst l) = length l0) by (rewrite map_length; rewrite <- (map_length snd), E0; apply map_length).
    cbn [e_decode euler_encoder]. unfold euler_decode. assert (Hn : b2n (n2b tech) = tech) by (apply b2n_n2b_small; lia). rewrite Hn.
    assert (tech = 0 \/ tech = 1) as [->| ->] by lia.
    + change (flat_map (put_vec (put_angle 0)) l0) with (euler_raw64 l0). rewrite <- (app_nil_r (euler_raw64 _)), euler_decode64_ok by auto.
      rewrite vmap_near in E0. now rewrite <- E0, pair_list.
    + change (flat_map (put_vec (put_angle 1)) l0) with (encode_raw32 l0). rewrite <- (app_nil_r (encode_raw32 _)), euler_decode32_ok by auto.
      change (map (vmap near32) l0) with (map (vmap (keep 1)) l0). cbn [bind]. now rewrite <- E0, pair_list.
  - destruct Hb as (t & r & -> & [[Hk Hr]|[-> Hb]]).
    2:{ cbn [e_decode float_encoder]. unfold float_decode. change (b2n x02) with 2. cbv iota.
        assert (HI : flatI (lenN r) (new_er r) (r ++ [])) by (rewrite app_nil_r; now apply new_er_inv).
        destruct (dense_numbers_read (lenN r) (map snd l) r (map fst l) Hb ltac:(now rewrite !map_length) _ _ HI) as (s & -> & (He & _)); auto with more.
        cbn [bind]. rewrite He. now rewrite pair_list. }
    apply known_iff in Hk as (tech & Hl & ->).
    apply snd_map in Hr. destruct (each_exists _ _ _ (keep tech) (put_num tech) _ _ (fun x c => proj1 (stored_iff tech x c Hl)) Hr) as (l0 & E0 & ->).
    assert (Hlen : length (map fst l) = length l0) by (rewrite map_length; rewrite <- (map_length snd), E0; apply map_length).
    cbn [e_decode float_encoder]. unfold float_decode. assert (Hn : b2n (n2b tech) = tech) by (apply b2n_n2b_small; lia). rewrite Hn.
    assert (HI : forall d, flatI (lenN d) (new_er d) (d ++ [])) by (intro d; rewrite app_nil_r; now apply new_er_inv).
    assert (tech = 0 \/ tech = 1) as [->| ->] by lia.
    + change (put_num 0) with f64_bytes. destruct (float_decode64_ok _ l0 (map fst l) f0 Hlen _ _ (HI _)) as (s & -> & (He & _)); auto with more.
      cbn [bind]. rewrite He. assert (E1 : map (keep 0) l0 = l0) by apply map_id. rewrite E1 in E0. now rewrite <- E0, pair_list.
    + change (put_num 1) with wr32. destruct (float_decode32_ok _ l0 (map fst l) f32_0 Hlen _ _ (HI _)) as (s & -> & (He & _)); auto with more.
      cbn [bind]. rewrite He. change (map near32 l0) with (map (keep 1) l0). now rewrite <- E0, pair_list.
Qed.
