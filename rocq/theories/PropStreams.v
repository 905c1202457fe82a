(** Properties C07-C10, C13, C15 and C17: what the stream encoders give back. *)
From Coq Require Import ZArith Lia Reals.
From Flocq Require Import Core IEEE754.BinarySingleNaN IEEE754.Binary IEEE754.Bits.
From Verif Require Import Base BaseFacts IO Spec IOFacts Floats ByteFacts BinaryIO BinaryIOFacts.
From Verif Require Import Metadata SpecMeta MetadataFacts Recording SpecRec RecordingFacts Encoding SpecEnc.
From Verif Require Import EncEvent EncEventFacts EncEnum EncEnumFacts EncPosition EncEuler EncFloat.
From Verif Require Import EncNumFacts OctFacts EncLawful StreamFacts TimeIO TimeFacts Near32Facts.
Local Open Scope N_scope.

(** [decodes E h s c c']: decoding stream [s] with header [h] and the capture
    times of [c] gives [c'] and no error. *)
Definition decodes (E : encoder) (h s : bytes) (c c' : coll) : Prop :=
  e_decode E (c_name c) h s (c_times c) = Ok (Some c', None).

(** ** C07 *)
Definition event_coll (c : coll) : Prop :=
  exists l, c_body c = BEvent l /\ Forall (fun x => built_block (snd (snd x))) l.

(** [views] are the collections as the encoder's map iterations happen to see
    them: equal up to the order of metadata entries, at every depth. *)
Theorem C07_event_roundtrip : forall cs views,
  Forall event_coll cs -> Forall2 coll_equiv cs views ->
  exists h ss, e_encode event_encoder views = Ok (h, ss, None) /\ length ss = length cs /\
    (lenN h <= 2 ^ 44 ->
     forall i c s, nth_error cs i = Some c -> nth_error ss i = Some s -> lenN s <= 2 ^ 44 ->
       exists c', decodes event_encoder h s c c' /\ coll_equiv c c').
Proof.
  intros cs views Hcs Hv.
  assert (Hall : Forall (fun c => wf_coll c /\ e_accepts event_encoder c = true) views).
  { clear -Hcs Hv. induction Hv as [|c c' cs cs' H Hv IH]; [constructor|].
    inversion Hcs as [|? ? (l & El & Hl) Hcs']; subst. constructor; [|auto]. split.
    - eapply coll_equiv_wf; [exact H|]. unfold wf_coll. now rewrite El.
    - cbn. rewrite <- (coll_equiv_sig _ _ H). unfold c_sig. rewrite El. reflexivity. }
  destruct (event_lawful views Hall) as (h & ss & E & L & D). exists h, ss.
  split; [exact E|]. split; [rewrite L; symmetry; eapply Forall2_len; eauto|].
  intros Hh i c s Hc Hs Hl.
  destruct (Forall2_nth_l _ _ _ _ _ Hv i c Hc) as (c' & Hc' & He).
  exists c'. split; [|exact He]. unfold decodes.
  rewrite (coll_equiv_name _ _ He), (coll_equiv_times _ _ He).
  rewrite (D Hh i c' s Hc' Hs Hl (c_times c') eq_refl). now rewrite retime_self.
Qed.
Print Assumptions C07_event_roundtrip.

Definition sample_events : list coll :=
  [mkColl (bs [65]) (BEvent [(f0, (bs [1], [(bs [2], PInt 5%Z); (bs [3], PBool true)]));
                             (f0, (bs [2], [(bs [3], PString (bs [7]))]))]);
   mkColl (bs [66]) (BEvent [(f0, (bs [1], [(bs [9], PBlock [(bs [2], PByte x01); (bs [1], PByte x02)])]))]);
   mkColl (bs [67]) (BEvent [])].
Definition sample_events_view : list coll :=
  [mkColl (bs [65]) (BEvent [(f0, (bs [1], [(bs [3], PBool true); (bs [2], PInt 5%Z)]));
                             (f0, (bs [2], [(bs [3], PString (bs [7]))]))]);
   mkColl (bs [66]) (BEvent [(f0, (bs [1], [(bs [9], PBlock [(bs [1], PByte x02); (bs [2], PByte x01)])]))]);
   mkColl (bs [67]) (BEvent [])].
Ltac solve_built := cbn [built snd]; repeat match goal with
    | |- _ /\ _ => split
    | |- True => exact I
    | |- NoDup _ => repeat constructor; cbn; intuition discriminate
    | |- In _ _ => cbn; tauto
    | |- _ = _ => reflexivity
    | |- (_ <= _)%Z => discriminate
    | |- (_ < _)%Z => reflexivity
    end.
Example C07_example :
  Forall event_coll sample_events /\ Forall2 coll_equiv sample_events sample_events_view /\
  exists h ss, e_encode event_encoder sample_events_view = Ok (h, ss, None) /\
    lenN h = 12 /\ map lenN ss = [16; 13; 0].
Proof.
  split; [|split].
  - repeat (apply Forall_cons || apply Forall_nil); (eexists; split; [reflexivity|]);
      repeat (apply Forall_cons || apply Forall_nil); unfold built_block; solve_built.
  - assert (P : forall a b : str * prop, Permutation.Permutation [a; b] [b; a]) by (intros; constructor).
    repeat (apply Forall2_cons || apply Forall2_nil); (split; [reflexivity|]);
      repeat (apply Forall2_cons || apply Forall2_nil);
      (split; [reflexivity | split; [reflexivity|]]).
    + cbn. apply BE with [(bs [3], PBool true); (bs [2], PInt 5%Z)]; [apply P|].
      repeat constructor.
    + apply block_equiv_refl.
    + cbn. apply BE with [(bs [9], PBlock [(bs [2], PByte x01); (bs [1], PByte x02)])]; [reflexivity|].
      repeat constructor. eapply BE; [apply P|]. repeat constructor.
  - eexists. eexists. split; [vm_compute; reflexivity|]. split; reflexivity.
Qed.

(** ** C08 *)
Definition enum_coll (c : coll) : Prop :=
  exists ms l, c_body c = BEnum ms l /\ Forall (fun x => (- 2 ^ 63 <= snd x < 2 ^ 63)%Z) l.
Theorem C08_enum_roundtrip : forall cs, Forall enum_coll cs ->
  exists h ss, e_encode enum_encoder cs = Ok (h, ss, None) /\ length ss = length cs /\
    (lenN h <= 2 ^ 44 ->
     forall i c s, nth_error cs i = Some c -> nth_error ss i = Some s -> lenN s <= 2 ^ 44 ->
       decodes enum_encoder h s c c).
Proof.
  intros cs Hcs.
  assert (Hall : Forall (fun c => wf_coll c /\ e_accepts enum_encoder c = true) cs).
  { eapply Forall_impl; [|exact Hcs]. intros c (ms & l & El & Hl). split.
    - unfold wf_coll. now rewrite El.
    - cbn. unfold c_sig. rewrite El. reflexivity. }
  destruct (enum_lawful cs Hall) as (h & ss & E & L & D). exists h, ss.
  split; [exact E|]. split; [exact L|].
  intros Hh i c s Hc Hs Hl. unfold decodes.
  rewrite (D Hh i c s Hc Hs Hl (c_times c) eq_refl). now rewrite retime_self.
Qed.
Print Assumptions C08_enum_roundtrip.

Definition sample_enums : list coll :=
  [mkColl (bs [65]) (BEnum [bs [1]; bs [2]; bs [1]] [(f0, (-1)%Z); (f0, 99%Z); (f0, 2%Z)]);
   mkColl (bs [66]) (BEnum [bs [2]; bs [3]] [])].
Example C08_example : Forall enum_coll sample_enums /\
  exists h ss, e_encode enum_encoder sample_enums = Ok (h, ss, None) /\
    lenN h = 7 /\ map lenN ss = [16; 3].
Proof.
  split.
  - repeat constructor; eexists; eexists; (split; [reflexivity|]); repeat constructor;
      solve [discriminate | reflexivity].
  - eexists. eexists. split; [vm_compute; reflexivity|]. split; reflexivity.
Qed.

(** ** C09: equality of [coll] is equality of all 64-bit patterns (a float is
    determined by its bits, and conversely). *)
Theorem C09_float_is_its_bits : forall x y : f64, bits_of_b64 x = bits_of_b64 y <-> x = y.
Proof.
  intros x y. split; [|now intros ->]. intro H.
  rewrite <- (f64_bytes_roundtrip x), <- (f64_bytes_roundtrip y). unfold f64_bytes. now rewrite H.
Qed.
Print Assumptions C09_float_is_its_bits.

(** the statement shared by C09 and C10: [E] returns the collections with all
    components passed through [f] *)
Definition returns (E : encoder) (kind : cbody -> Prop) (f : f64 -> f64) : Prop :=
  forall cs, Forall (fun c => kind (c_body c)) cs ->
  exists h ss, e_encode E cs = Ok (h, ss, None) /\ length ss = length cs /\
    forall i c s, nth_error cs i = Some c -> nth_error ss i = Some s -> lenN s <= 2 ^ 44 ->
      decodes E h s c
        (mkColl (c_name c)
           match c_body c with
           | BPos l => BPos (map (fun x => (fst x, vmap f (snd x))) l)
           | BEuler l => BEuler (map (fun x => (fst x, vmap f (snd x))) l)
           | BFloat l => BFloat (map (fun x => (fst x, f (snd x))) l)
           | b => b
           end).
Definition is_pos (b : cbody) : Prop := match b with BPos _ => True | _ => False end.
Definition is_euler (b : cbody) : Prop := match b with BEuler _ => True | _ => False end.
Definition is_float (b : cbody) : Prop := match b with BFloat _ => True | _ => False end.

Lemma combine_map : forall {A B} (f : B -> B) (l : list (A * B)),
  combine (map fst l) (map f (map snd l)) = map (fun x => (fst x, f (snd x))) l.
Proof. intros A B f. induction l as [|[a b] l IH]; [reflexivity|]. cbn. now rewrite IH. Qed.
Lemma vmap_id : forall v, vmap (fun x => x) v = v.
Proof. now intros []. Qed.
Lemma map_vmap_id : forall l, map (vmap (fun x : f64 => x)) l = l.
Proof. intro l. rewrite <- (map_id l) at 2. apply map_ext. apply vmap_id. Qed.

Lemma returns_pos : forall tech f, tech < 4 ->
  (forall l, pos_values tech l = map (vmap f) l) -> returns (position_encoder tech) is_pos f.
Proof.
  intros tech f Ht Hf cs Hcs.
  destruct (position_lawful tech Ht cs) as (h & ss & E & L & D).
  { eapply Forall_impl; [|exact Hcs]. intros [n []]; try contradiction. intros _. split; [exact I|reflexivity]. }
  exists h, ss. split; [exact E|]. split; [exact L|]. intros i c s Hc Hs Hl. unfold decodes.
  assert (Hh : lenN h <= 2 ^ 44).
  { cbn [e_encode position_encoder] in E. unfold pos_encode in E. apply bind_ok in E as (? & _ & E).
    apply ok_inj in E. injection E as <- _. discriminate. }
  rewrite (D Hh i c s Hc Hs Hl (c_times c) eq_refl). do 2 f_equal. f_equal.
  rewrite Forall_forall in Hcs. pose proof (Hcs c (nth_error_In _ _ Hc)) as Hk.
  unfold pos_post, c_times. destruct (c_body c); try contradiction. do 2 f_equal.
  rewrite Hf. apply combine_map.
Qed.
Lemma returns_euler : forall tech f, tech < 3 ->
  (forall l, euler_values tech l = map (vmap f) l) -> returns (euler_encoder tech) is_euler f.
Proof.
  intros tech f Ht Hf cs Hcs.
  destruct (euler_lawful tech Ht cs) as (h & ss & E & L & D).
  { eapply Forall_impl; [|exact Hcs]. intros [n []]; try contradiction. intros _. split; [exact I|reflexivity]. }
  exists h, ss. split; [exact E|]. split; [exact L|]. intros i c s Hc Hs Hl. unfold decodes.
  assert (Hh : lenN h <= 2 ^ 44).
  { cbn [e_encode euler_encoder] in E. unfold euler_encode in E. apply bind_ok in E as (? & _ & E).
    apply ok_inj in E. injection E as <- _. discriminate. }
  rewrite (D Hh i c s Hc Hs Hl (c_times c) eq_refl). do 2 f_equal. f_equal.
  rewrite Forall_forall in Hcs. pose proof (Hcs c (nth_error_In _ _ Hc)) as Hk.
  unfold euler_post, c_times. destruct (c_body c); try contradiction. do 2 f_equal.
  rewrite Hf. apply combine_map.
Qed.
Lemma returns_float : forall tech f, tech < 3 ->
  (forall l, float_values tech l = map f l) -> returns (float_encoder tech) is_float f.
Proof.
  intros tech f Ht Hf cs Hcs.
  destruct (float_lawful tech Ht cs) as (h & ss & E & L & D).
  { eapply Forall_impl; [|exact Hcs]. intros [n []]; try contradiction. intros _. split; [exact I|reflexivity]. }
  exists h, ss. split; [exact E|]. split; [exact L|]. intros i c s Hc Hs Hl. unfold decodes.
  assert (Hh : lenN h <= 2 ^ 44).
  { cbn [e_encode float_encoder] in E. unfold float_encode in E. destruct (float_streams tech cs).
    - apply ok_inj in E. injection E as <- _. discriminate.
    - apply ok_inj in E. discriminate E. }
  rewrite (D Hh i c s Hc Hs Hl (c_times c) eq_refl). do 2 f_equal. f_equal.
  rewrite Forall_forall in Hcs. pose proof (Hcs c (nth_error_In _ _ Hc)) as Hk.
  unfold float_post, c_times. destruct (c_body c); try contradiction. do 2 f_equal.
  rewrite Hf. apply combine_map.
Qed.

(** Raw64 is technique 0 of each of the three encoders. *)
Theorem C09_raw64_exact :
  returns (position_encoder 0) is_pos (fun x => x) /\
  returns (euler_encoder 0) is_euler (fun x => x) /\
  returns (float_encoder 0) is_float (fun x => x).
Proof.
  split; [|split].
  - apply returns_pos; [reflexivity|]. intro l. now rewrite map_vmap_id.
  - apply returns_euler; [reflexivity|]. intro l. now rewrite map_vmap_id.
  - apply returns_float; [reflexivity|]. intro l. now rewrite map_id.
Qed.
Print Assumptions C09_raw64_exact.

(** a collection of special values: -0, +Inf, a NaN with payload 5, the
    smallest subnormal, and -(2^53-1) *)
Definition nzero : f64 := B754_zero 53 1024 true.
Definition nan5 : f64 := B754_nan 53 1024 true 5 eq_refl.
Definition tiny : f64 := B754_finite 53 1024 false 1 (-1074) eq_refl.
Definition big53 : f64 := B754_finite 53 1024 true 9007199254740991 0 eq_refl.
Definition sample_vecs : list (f64 * vec) :=
  [(f0, mkVec nzero fpinf nan5); (tiny, mkVec tiny big53 fminf)].
Example C09_example :
  Forall (fun c => is_pos (c_body c)) [mkColl [] (BPos sample_vecs)] /\
  exists h s, e_encode (position_encoder 0) [mkColl [] (BPos sample_vecs)] = Ok (h, [s], None) /\
    lenN s = 49.
Proof. split; [repeat constructor|]. eexists. eexists. split; vm_compute; reflexivity. Qed.

(** ** C10 *)

(** [nearest32 x y]: [y] is the nearest 32-bit float of [x] (ties to even); a
    finite [x] becomes infinite only on overflow, infinities and NaNs stay. *)
Definition nearest32 (x y : f64) : Prop :=
  match x with
  | B754_nan _ _ s _ _ => exists pl H, y = B754_nan 53 1024 s pl H
  | B754_infinity _ _ _ | B754_zero _ _ _ => y = x
  | B754_finite _ _ _ _ _ _ =>
      (y = B754_infinity 53 1024 (Bsign 53 1024 x) /\
       (bpow radix2 128 <= Rabs (round radix2 (FLT_exp (-149) 24) ZnearestE (B2R 53 1024 x)))%R)
      \/
      (is_finite 53 1024 y = true /\ Bsign 53 1024 y = Bsign 53 1024 x /\
       B2R 53 1024 y = round radix2 (FLT_exp (-149) 24) ZnearestE (B2R 53 1024 x) /\
       (* no 32-bit float is nearer *)
       (forall z : f32, Rabs (B2R 53 1024 y - B2R 53 1024 x) <= Rabs (B2R 24 128 z - B2R 53 1024 x))%R /\
       (* half an ulp *)
       (Rabs (B2R 53 1024 y - B2R 53 1024 x)
        <= / 2 * ulp radix2 (FLT_exp (-149) 24) (B2R 53 1024 x))%R)
  end.
#[local] Instance prec24 : Prec_gt_0 24 := eq_refl.
Lemma near32_nearest : forall x, nearest32 x (near32 x).
Proof.
  intros x. destruct x as [s|s|s pl H|s m e H] eqn:Ex; cbn [nearest32]; try reflexivity.
  - apply near32_nan.
  - rewrite <- Ex. assert (Hf : is_finite 53 1024 x = true) by (now rewrite Ex).
    destruct (Rlt_or_le (Rabs (rnd32 (val64 x))) (bpow radix2 128)) as [Hb|Hb].
    + right. destruct (near32_finite x Hf Hb) as (F & V & Sg). split; [exact F|]. split; [exact Sg|].
      split; [exact V|]. rewrite V. split.
      * intro z.
        destruct (round_N_pt radix2 (FLT_exp (-149) 24) (fun n => negb (Z.even n)) (val64 x)) as [_ N].
        apply N. apply (generic_format_B2R 24 128 z).
      * apply error_le_half_ulp. auto with typeclass_instances.
    + left. split; [now apply near32_overflow | exact Hb].
Qed.

(** Raw32 is technique 1 of each encoder. *)
Theorem C10_raw32_nearest : exists f,
  (forall x, nearest32 x (f x)) /\ (forall x, f (f x) = f x) /\
  returns (position_encoder 1) is_pos f /\
  returns (euler_encoder 1) is_euler f /\
  returns (float_encoder 1) is_float f.
Proof.
  exists near32. split; [exact near32_nearest|]. split; [exact near32_idem|]. split; [|split].
  - apply returns_pos; [reflexivity|]. reflexivity.
  - apply returns_euler; [reflexivity|]. reflexivity.
  - apply returns_float; [reflexivity|]. reflexivity.
Qed.
Print Assumptions C10_raw32_nearest.

(** Hence a second encoding of the decoded collection returns it unchanged. *)
Definition stable (E : encoder) (kind : cbody -> Prop) : Prop :=
  forall c h s c', kind (c_body c) -> e_encode E [c] = Ok (h, [s], None) -> lenN s <= 2 ^ 44 ->
  decodes E h s c c' ->
  exists h2 s2, e_encode E [c'] = Ok (h2, [s2], None) /\
    (lenN s2 <= 2 ^ 44 -> decodes E h2 s2 c' c').
Lemma returns_stable : forall E (kind : cbody -> Prop) f, returns E kind f ->
  (forall x, f (f x) = f x) ->
  (forall b, kind b -> match b with BPos _ | BEuler _ | BFloat _ => True | _ => False end) ->
  (forall l l', kind (BPos l) -> kind (BPos l')) -> (forall l l', kind (BEuler l) -> kind (BEuler l')) ->
  (forall l l', kind (BFloat l) -> kind (BFloat l')) -> stable E kind.
Proof.
  intros E kind f HP Hf K0 K1 K2 K3 c h s c' Hk E0 Hl Hd.
  destruct (HP [c]) as (h1 & ss & E1 & L1 & D1); [repeat constructor; auto|].
  rewrite E0 in E1. apply ok_inj in E1. injection E1 as <- <-.
  specialize (D1 0%nat c s eq_refl eq_refl Hl). unfold decodes in D1, Hd. rewrite Hd in D1.
  apply ok_inj in D1. injection D1 as ->.
  set (c2 := mkColl _ _).
  destruct (HP [c2]) as (h2 & ss2 & E2 & L2 & D2).
  { constructor; [|constructor]. unfold c2. cbn [c_body]. pose proof (K0 _ Hk) as Hb.
    destruct (c_body c); try contradiction; eauto. }
  destruct ss2 as [|s2 [|]]; try discriminate. exists h2, s2. split; [exact E2|]. intro Hl2.
  specialize (D2 0%nat c2 s2 eq_refl eq_refl Hl2). unfold decodes in *.
  etransitivity; [exact D2|]. do 3 f_equal. unfold c2. cbn [c_name c_body]. f_equal.
  pose proof (K0 _ Hk) as Hb. destruct (c_body c); try contradiction; f_equal; rewrite map_map;
    apply map_ext; intros [t v]; cbn [fst snd]; f_equal; unfold vmap; cbn [vx vy vz]; now rewrite !Hf.
Qed.
Theorem C10_raw32_stable : stable (position_encoder 1) is_pos /\ stable (euler_encoder 1) is_euler /\ stable (float_encoder 1) is_float.
Proof.
  destruct C10_raw32_nearest as (f & _ & Hf & H1 & H2 & H3).
  split; [|split]; eapply returns_stable; try eassumption; intros; cbn in *; tauto ||
    match goal with b : cbody |- _ => destruct b; cbn in *; tauto end.
Qed.
Print Assumptions C10_raw32_stable.

Example C10_example :
  (exists h s, e_encode (position_encoder 1) [mkColl [] (BPos sample_vecs)] = Ok (h, [s], None) /\
    lenN s = 25) /\
  (* 2^53 - 1 becomes 2^53 *)
  b64_compare (near32 (B754_finite 53 1024 false 9007199254740991 0 eq_refl))
              (B754_finite 53 1024 false 4503599627370496 1 eq_refl) = Some Eq.
Proof. split; [eexists; eexists; split|]; vm_compute; reflexivity. Qed.

(** ** C13: an octree cell is a number below 8; Oct24 packs 8 of them into 3
    bytes, Oct48 packs 16 into 6. *)
Theorem C13_pack24_bijection :
  (forall cells, length cells = 8%nat -> Forall (fun c => c < 8) cells ->
     lenN (cells_to_bytes24 cells) = 3 /\ bytes_to_cells24 (cells_to_bytes24 cells) = cells) /\
  (forall b, lenN b = 3 ->
     length (bytes_to_cells24 b) = 8%nat /\ Forall (fun c => c < 8) (bytes_to_cells24 b) /\
     cells_to_bytes24 (bytes_to_cells24 b) = b).
Proof.
  destruct packs24 as [P U]. split.
  - intros cells Hl Hc. destruct (P cells Hl Hc). auto.
  - intros b Hb. destruct (U b Hb) as (? & ? & ?). auto.
Qed.
Print Assumptions C13_pack24_bijection.
Theorem C13_pack48_bijection :
  (forall cells, length cells = 16%nat -> Forall (fun c => c < 8) cells ->
     lenN (cells_to_bytes48 cells) = 6 /\ bytes_to_cells48 (cells_to_bytes48 cells) = cells) /\
  (forall b, lenN b = 6 ->
     length (bytes_to_cells48 b) = 16%nat /\ Forall (fun c => c < 8) (bytes_to_cells48 b) /\
     cells_to_bytes48 (bytes_to_cells48 b) = b).
Proof.
  destruct packs48 as [P U]. split.
  - intros cells Hl Hc. destruct (P cells Hl Hc). auto.
  - intros b Hb. destruct (U b Hb) as (? & ? & ?). auto.
Qed.
Print Assumptions C13_pack48_bijection.
Example C13_example :
  cells_to_bytes24 [5; 0; 7; 2; 1; 6; 4; 3] = bs [149; 172; 101] /\
  bytes_to_cells24 (bs [149; 172; 101]) = [5; 0; 7; 2; 1; 6; 4; 3].
Proof. split; vm_compute; reflexivity. Qed.

(** ** C15: times are read through an ErrReader around any transport. *)
Theorem C15_times_roundtrip : forall S (R : Reader S) eager (I : S -> bytes -> Prop),
  delivers R eager I -> forall times, lenN times <= 2 ^ 45 ->
  forall tech, tech < 2 -> forall s rest, I s (encode_time tech times ++ rest) ->
  exists s', decode_time (err_reader R) (new_er s)
             = Ok (match tech with 0 => times | _ => map near32 times end, None, s') /\
             I (er_in s') rest /\ er_err s' = None.
Proof.
  intros S R eager I HR times Ht tech Hk s rest HI.
  pose proof (delivers_serves _ _ _ HR) as HS.
  destruct (decode_time_ok (err_reader R) (er_inv I (lenN (encode_time tech times ++ rest)))
              (er_serves R eager I _ HS) (er_exact R eager I _ HS) tech times) with
    (s := new_er s) (rest := rest) as (s' & E & HI').
  - lia.
  - exact Ht.
  - now apply new_er_inv.
  - auto with more.
  - exists s'. destruct HI' as (He & Hi & _). split; [|auto]. rewrite E. do 2 f_equal.
    destruct tech as [|[]]; try lia; reflexivity.
Qed.
Print Assumptions C15_times_roundtrip.
Example C15_example :
  match decode_time (err_reader (chunked true))
          (new_er (map (fun b => [b]) (encode_time 0 [big53; nan5; nzero]))) with
  | Ok (l, None, s') => map bits_of_b64 l = map bits_of_b64 [big53; nan5; nzero] /\
                        s' = mkEr [] None 26
  | _ => False
  end.
Proof. vm_compute. split; reflexivity. Qed.

(** ** C17: bytes per stream (one technique byte included) as a function of
    the number of captures *)
Definition pos_size (tech n : N) : N :=
  match tech, n with
  | 0, _ => 1 + 24 * n                   (* 192 bits *)
  | 1, _ => 1 + 12 * n                   (* 96 bits *)
  | _, 0 => 1
  | _, 1 => 1 + 12
  | 2, _ => 1 + 36 + 6 * (n - 1)         (* 48 bits, after the box and the first capture *)
  | _, _ => 1 + 36 + 3 * (n - 1)         (* 24 bits *)
  end.
Definition euler_size (tech n : N) : N :=
  match tech, n with
  | 0, _ => 1 + 30 * n                   (* 240 bits; documented as 192 *)
  | 1, _ => 1 + 12 * n                   (* 96 bits *)
  | _, 1 => 1 + 12
  | _, _ => 1 + 6 * n                    (* 48 bits *)
  end.
Definition float_size (tech n : N) : N :=
  match tech with
  | 0 => 1 + 8 * n                       (* 64 bits *)
  | 1 => 1 + 4 * n                       (* 32 bits *)
  | _ => 1 + 8 + 2 * n                   (* 16 bits, after the range *)
  end.
Definition sized (E : encoder) (kind : cbody -> Prop) (size : N -> N) : Prop :=
  forall cs, Forall (fun c => kind (c_body c)) cs ->
  exists h ss, e_encode E cs = Ok (h, ss, None) /\ h = [] /\
    map lenN ss = map (fun c => size (lenN (c_times c))) cs.

Lemma flat_map_len : forall {A} (f : A -> bytes) k l, (forall a, lenN (f a) = k) ->
  lenN (flat_map f l) = k * lenN l.
Proof.
  intros A f k l H. induction l as [|a l IH]; [cbn; lia|]. cbn [flat_map].
  rewrite lenN_app, lenN_cons, H, IH. lia.
Qed.
Lemma oct_len : forall k pack unpack w l, packs k pack unpack w ->
  lenN (encode_oct k pack l)
  = if lenN l =? 0 then 0 else if lenN l =? 1 then 12 else 36 + w * (lenN l - 1).
Proof.
  intros k pack unpack w l [P _]. destruct l as [|p [|p2 l]]; [reflexivity | apply wr32v_len |].
  unfold encode_oct. destruct (step_range p (p2 :: l) vec_pinf vec_minf) as [mn mx].
  rewrite !lenN_app, !wr32v_len, oct_steps_cells.
  assert (E : forall l q, lenN (flat_map pack (oct_cells k mn mx q l)) = w * lenN l).
  { clear l. induction l as [|a l IH]; intro q; cbn [oct_cells flat_map]; [symmetry; apply N.mul_0_r|].
    rewrite lenN_app, lenN_cons, IH, N.mul_add_distr_l. destruct (P (oct_enc k (vsub a q) mn mx)) as [_ L];
      try apply oct_enc_loop_ok. rewrite L. lia. }
  rewrite E. rewrite !lenN_cons.
  destruct (N.eqb_spec (lenN l + 1 + 1) 0); [lia|]. destruct (N.eqb_spec (lenN l + 1 + 1) 1); [lia|].
  replace (lenN l + 1 + 1 - 1) with (lenN l + 1) by lia. lia.
Qed.
Theorem C17_sizes :
  (forall tech, tech < 4 -> sized (position_encoder tech) is_pos (pos_size tech)) /\
  (forall tech, tech < 3 -> sized (euler_encoder tech) is_euler (euler_size tech)) /\
  (forall tech, tech < 3 -> sized (float_encoder tech) is_float (float_size tech)).
Proof.
  split; [|split]; intros tech Ht cs Hcs.
  - cbn [e_encode position_encoder]. unfold pos_encode. rewrite (map_res_ok _ (pos_stream tech)).
    2:{ eapply Forall_impl; [|exact Hcs]. intros [n []]; try contradiction. reflexivity. }
    cbn [bind]. eexists. eexists. split; [reflexivity|]. split; [reflexivity|].
    rewrite map_map. apply map_ext_in. intros c Hc. rewrite Forall_forall in Hcs. apply Hcs in Hc.
    unfold pos_stream, pos_encode1, pos_caps, c_times.
    destruct (c_body c) as [l| | | | |]; try contradiction. rewrite lenN_cons, lenN_map.
    destruct tech as [|[[|[]|]|[[]|[]|]|]]; try lia; unfold pos_size.
    + unfold encode_raw64. rewrite (flat_map_len _ 24) by apply wr64v_len. rewrite lenN_map. lia.
    + rewrite (oct_len _ _ _ _ _ packs24), lenN_map.
      destruct (N.eqb_spec (lenN l) 0) as [->|]; [reflexivity|].
      destruct (N.eqb_spec (lenN l) 1) as [->|]; [reflexivity|].
      destruct (lenN l) as [|[]]; lia.
    + rewrite (oct_len _ _ _ _ _ packs48), lenN_map.
      destruct (N.eqb_spec (lenN l) 0) as [->|]; [reflexivity|].
      destruct (N.eqb_spec (lenN l) 1) as [->|]; [reflexivity|].
      destruct (lenN l) as [|[]]; lia.
    + unfold encode_raw32. rewrite (flat_map_len _ 12) by apply wr32v_len. rewrite lenN_map. lia.
  - cbn [e_encode euler_encoder]. unfold euler_encode. rewrite (map_res_ok _ (euler_stream tech)).
    2:{ eapply Forall_impl; [|exact Hcs]. intros [n []]; try contradiction. reflexivity. }
    cbn [bind]. eexists. eexists. split; [reflexivity|]. split; [reflexivity|].
    rewrite map_map. apply map_ext_in. intros c Hc. rewrite Forall_forall in Hcs. apply Hcs in Hc.
    unfold euler_stream, euler_encode1, euler_caps, c_times.
    destruct (c_body c) as [|l| | | |]; try contradiction. rewrite lenN_cons, lenN_map.
    destruct tech as [|[[]|[]|]]; try lia; unfold euler_size.
    + unfold euler_raw64. rewrite (flat_map_len _ 30).
      * rewrite lenN_map. lia.
      * intro a. now rewrite !lenN_app, !wr80_len.
    + assert (F : forall l : list vec, lenN (flat_map enc16v l) = 6 * lenN l).
      { intro. apply flat_map_len. intro a. unfold enc16v, enc16. now rewrite !lenN_app, !bst_enc_len. }
      rewrite <- (lenN_map snd l). generalize (map snd l). intros [|v [|v2 l']].
      * reflexivity.
      * unfold encode_raw16. rewrite !lenN_app, !wr32_len. reflexivity.
      * unfold encode_raw16. rewrite F. rewrite !lenN_cons.
        destruct (lenN l' + 1 + 1) as [|[]] eqn:El; lia.
    + unfold encode_raw32. rewrite (flat_map_len _ 12) by apply wr32v_len. rewrite lenN_map. lia.
  - cbn [e_encode float_encoder]. unfold float_encode. rewrite float_streams_ok.
    2:{ eapply Forall_impl; [|exact Hcs]. intros [n []]; try contradiction. intros _; eexists; reflexivity. }
    eexists. eexists. split; [reflexivity|]. split; [reflexivity|].
    rewrite map_map. apply map_ext_in. intros c Hc. rewrite Forall_forall in Hcs. apply Hcs in Hc.
    unfold float_stream, float_encode1, c_times.
    destruct (c_body c) as [| |l| | |]; try contradiction. rewrite lenN_cons, lenN_map.
    destruct tech as [|[[]|[]|]]; try lia; unfold float_size.
    + rewrite (flat_map_len _ 8) by apply f64_bytes_len. rewrite lenN_map. lia.
    + unfold encode_bst16. destruct (val_range (map snd l) fpinf fminf) as [mn mx].
      rewrite !lenN_app, !wr32_len. rewrite (flat_map_len _ 2) by (intro; apply bst_enc_len).
      rewrite lenN_map. lia.
    + rewrite (flat_map_len _ 4) by apply wr32_len. rewrite lenN_map. lia.
Qed.
Print Assumptions C17_sizes.
(** The documented 192 bits per capture of euler Raw64 do not hold. *)
Theorem C17_euler_raw64_192_refuted :
  ~ sized (euler_encoder 0) is_euler (fun n => 1 + 24 * n).
Proof.
  intro H. destruct (H [mkColl [] (BEuler sample_vecs)]) as (h & ss & E & _ & L); [repeat constructor|].
  assert (M : match e_encode (euler_encoder 0) [mkColl [] (BEuler sample_vecs)] with
              | Ok (_, ss, _) => map lenN ss | _ => [] end = [61]) by (vm_compute; reflexivity).
  rewrite E in M. rewrite M in L. vm_compute in L. discriminate.
Qed.
Print Assumptions C17_euler_raw64_192_refuted.
Example C17_example :
  exists h s, e_encode (position_encoder 3) [mkColl [] (BPos (sample_vecs ++ sample_vecs))] = Ok (h, [s], None)
    /\ lenN s = 1 + 36 + 3 * 3.
Proof. eexists. eexists. split; vm_compute; reflexivity. Qed.
