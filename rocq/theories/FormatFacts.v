(** Files in the documented format: what the format says about their parts, in
    terms of the encoding functions. *)
From Coq Require Import ZArith Lia.
From Flocq Require Import IEEE754.Bits.
From Verif Require Import Base BaseFacts IO Spec IOFacts Floats ByteFacts BinaryIO BinaryIOFacts VarintFacts PropPrimitives.
From Verif Require Import Metadata SpecMeta MetadataFacts Recording SpecRec RecordingFacts Encoding SpecEnc.
From Verif Require Import EncTableFacts EncEvent EncEventFacts EncEnum EncEnumFacts EncPosition EncEuler EncFloat EncNumFacts EncLawful StreamFacts TimeIO TimeFacts.
From Verif Require Import SpecFile SpecFormat.
Local Open Scope N_scope.
Local Open Scope format_scope.

(** ** Numbers and texts *)
Lemma digits_unique : forall p q, digits p -> digits q -> length p = length q -> digits_value p = digits_value q -> p = q.
Proof.
  induction p as [|a p IH]; intros [|b q] Hp Hq Hl Hv; try discriminate; [reflexivity|]. injection Hl as Hl.
  cbn [digits_value] in Hv.
  assert (M : b2n a mod 128 = b2n b mod 128 /\ digits_value p = digits_value q).
  { pose proof (N.mod_lt (b2n a) 128 ltac:(discriminate)). pose proof (N.mod_lt (b2n b) 128 ltac:(discriminate)).
    revert Hv H H0. generalize (b2n a mod 128) (b2n b mod 128) (digits_value p) (digits_value q). intros x y u v Hv H H0. split; lia. }
  destruct M as [M1 M2]. assert (b2n a < 256 /\ b2n b < 256) as [Ba Bb] by (split; apply b2n_lt).
  assert (E : b2n a = b2n b).
  { destruct p as [|a' p]; destruct q as [|b' q]; try discriminate; cbn [digits] in Hp, Hq.
    - rewrite !N.mod_small in M1 by assumption. exact M1.
    - destruct Hp as [Hp _], Hq as [Hq _].
      rewrite (N.div_mod (b2n a) 128), (N.div_mod (b2n b) 128), M1 by discriminate.
      assert (b2n a / 128 = 1 /\ b2n b / 128 = 1) as [-> ->]; [|reflexivity].
      split; symmetry; [apply N.div_unique with (r := b2n a - 128)|apply N.div_unique with (r := b2n b - 128)]; lia. }
  f_equal.
  - apply (f_equal n2b) in E. now rewrite !n2b_b2n in E.
  - destruct p as [|a' p]; destruct q as [|b' q]; try discriminate; [reflexivity|].
    apply IH; auto; [exact (proj2 Hp)|exact (proj2 Hq)].
Qed.
Lemma varint_iff : forall n b, varint n b <-> n < 2 ^ 64 /\ b = put_uvarint n.
Proof.
  intros n b. split.
  - intros (Hn & Hd & Hv & Hl). split; [exact Hn|].
    destruct (C01_varint_format n Hn) as (Hd' & Hv' & Hl' & _).
    apply digits_unique; auto; [|congruence]. rewrite <- Hl' in Hl. unfold lenN in Hl. lia.
  - intros [Hn ->]. destruct (C01_varint_format n Hn) as (Hd & Hv & Hl & _). now repeat split.
Qed.
Lemma little_eq : forall b, little b = le_val b.
Proof. induction b as [|x b IH]; [reflexivity|]. cbn [little le_val]. now rewrite IH. Qed.
Lemma fixed_iff : forall k z b, fixed k z b <-> b = le_bytes k z.
Proof.
  intros k z b. unfold fixed. rewrite little_eq. split.
  - intros [<- H]. rewrite <- (le_bytes_val b), H at 1. rewrite <- (ByteFacts.le_val_bytes (length b) z).
    rewrite <- (le_bytes_length (length b) z) at 1. apply le_bytes_val.
  - intros ->. rewrite le_bytes_length, ByteFacts.le_val_bytes. auto.
Qed.
Lemma double_iff : forall x b, double x b <-> b = f64_bytes x.
Proof. intros. apply fixed_iff. Qed.
Lemma single_iff : forall x b, single x b <-> b = f32_bytes x.
Proof. intros. apply fixed_iff. Qed.
Lemma text_iff : forall s b, text s b <-> lenN s < 2 ^ 64 /\ b = string_to_bytes s.
Proof.
  intros s b. split.
  - intros (p & q & -> & Hp & <-). apply varint_iff in Hp as [Hs ->]. auto.
  - intros [Hs ->]. exists (put_uvarint (lenN s)), s. split; [reflexivity|]. split; [now apply varint_iff|reflexivity].
Qed.
(** Elements with a given encoding each. *)
Lemma each_flat : forall A (P : A -> bytes -> Prop) (f : A -> bytes) l b,
  (forall x c, P x c -> c = f x) -> each P l b -> b = flat_map f l.
Proof. intros A P f l b H E. induction E as [|x l b c Hx E IH]; [reflexivity|]. cbn [flat_map]. now rewrite (H _ _ Hx), IH. Qed.
Lemma flat_each : forall A (P : A -> bytes -> Prop) (f : A -> bytes) l,
  Forall (fun x => P x (f x)) l -> each P l (flat_map f l).
Proof. intros A P f l H. induction H; constructor; auto. Qed.
Lemma each_Forall : forall A (P : A -> bytes -> Prop) (Q : A -> Prop) l b, (forall x c, P x c -> Q x) -> each P l b -> Forall Q l.
Proof. intros A P Q l b H E. induction E; constructor; eauto. Qed.
Lemma each_weaken : forall A (P Q : A -> bytes -> Prop) l b, (forall x c, P x c -> Q x c) -> each P l b -> each Q l b.
Proof. intros A P Q l b H E. induction E; constructor; auto. Qed.
Lemma each_map : forall A B (f : A -> B) (P : B -> bytes -> Prop) l b, each P (map f l) b <-> each (fun x => P (f x)) l b.
Proof.
  intros A B f P l. induction l as [|x l IH]; intro b; cbn [map]; split; intro H; inversion H; subst; constructor; auto; now apply IH.
Qed.
Lemma texts_iff : forall l b, counted text l b <-> lenN l < 2 ^ 64 /\ Forall (fun s => lenN s < 2 ^ 64) l /\ b = string_array_to_bytes l.
Proof.
  intros l b. split.
  - intros (p & q & -> & Hp & Hq). apply varint_iff in Hp as [Hl ->]. split; [exact Hl|]. split.
    + eapply each_Forall; [|exact Hq]. intros x c H. now apply text_iff in H.
    + unfold string_array_to_bytes. f_equal. eapply each_flat; [|exact Hq]. intros x c H. now apply text_iff in H.
  - intros (Hl & Hs & ->). exists (put_uvarint (lenN l)), (flat_map string_to_bytes l). split; [reflexivity|].
    split; [now apply varint_iff|]. apply flat_each. eapply Forall_impl; [|exact Hs]. intros s H. now apply text_iff.
Qed.

(** ** Properties *)
Scheme value_mut := Minimality for value Sort Prop
  with entries_mut := Minimality for entries Sort Prop
  with items_mut := Minimality for items Sort Prop.
Combined Scheme value_all from value_mut, entries_mut, items_mut.
Lemma values_written :
  (forall p c b, value p c b -> built p /\ prop_code p = Ok c /\ prop_data p = Ok b) /\
  (forall m b, entries m b -> Forall (fun kv => built (snd kv)) m /\ entries_data m = Ok b) /\
  (forall base l b, items base l b -> Forall (fun v => prop_code v = Ok base /\ built v) l /\ elems_data l = Ok b).
Proof.
  apply value_all; intros; try (split; [exact I|split; [reflexivity|]]; cbn [prop_data]; try reflexivity).
  - apply text_iff in H as [_ ->]. reflexivity.
  - split; [exact H|]. split; [reflexivity|]. apply fixed_iff in H0. now rewrite H0.
  - apply single_iff in H. now rewrite H.
  - destruct H as (p & q & -> & Hp & Hq). apply double_iff in Hp, Hq. now subst.
  - destruct H as (p & q & -> & Hp & q1 & q2 & -> & Hq1 & Hq2). apply double_iff in Hp, Hq1, Hq2. now subst.
  - destruct H2 as [Hb Hd]. split; [now apply built_block_iff|]. split; [reflexivity|].
    rewrite prop_data_block, Hd. cbn [bind]. apply texts_iff in H0 as (_ & _ & ->). reflexivity.
  - split; [exact H|]. split; [reflexivity|]. apply fixed_iff in H0. now rewrite H0.
  - destruct H2 as [Hb Hd]. split; [now apply built_array_iff|]. split.
    + cbn [prop_code]. f_equal. cbn in H. repeat destruct H as [<-|H]; try reflexivity. contradiction.
    + rewrite prop_data_array, Hd. cbn [bind]. apply varint_iff in H0 as [_ ->]. reflexivity.
  - split; [|split; reflexivity]. right. exists d. apply text_iff in H as [_ ->]. reflexivity.
  - split; [|split; reflexivity]. left. exists d. apply text_iff in H as [_ ->]. reflexivity.
  - split; [constructor|reflexivity].
  - destruct H0 as (Hb & Hc & Hd). destruct H2 as [Hf He]. split; [constructor; auto|].
    cbn [entries_data]. rewrite Hc, Hd, He. cbn [bind]. now rewrite n2b_b2n.
  - split; [constructor|reflexivity].
  - destruct H0 as (Hb & Hc & Hd). destruct H2 as [Hf He]. split; [constructor; auto|].
    cbn [elems_data]. now rewrite Hd, He.
Qed.

(** ** Tables of names *)
Lemma places_iff : forall K ks b, counted (place K) ks b <->
  exists is, picks K is ks /\ lenN is < 2 ^ 64 /\ Forall (fun i => i < 2 ^ 64) is /\ b = uvarint_array_to_bytes is.
Proof.
  intros K ks b. split.
  - intros (p & q & -> & Hp & Hq). apply varint_iff in Hp as [Hl ->].
    assert (exists is, picks K is ks /\ Forall (fun i => i < 2 ^ 64) is /\ q = flat_map put_uvarint is) as (is & H1 & H2 & ->).
    { clear Hl. induction Hq as [|k ks b c (i & Hi & Hv) Hq (is & H1 & H2 & ->)]; [exists []; repeat split; constructor|].
      apply varint_iff in Hv as [Hi' ->]. exists (i :: is). split; [constructor; auto; now rewrite nthN_nth_error|]. split; [now constructor|reflexivity]. }
    assert (E : lenN is = lenN ks) by (unfold lenN; f_equal; eapply Forall2_len; exact H1).
    exists is. rewrite E. repeat split; auto. unfold uvarint_array_to_bytes. now rewrite E.
  - intros (is & H1 & Hl & H2 & ->). assert (E : lenN is = lenN ks) by (unfold lenN; f_equal; eapply Forall2_len; exact H1).
    rewrite E in Hl. exists (put_uvarint (lenN is)), (flat_map put_uvarint is). split; [reflexivity|]. rewrite E. split; [now apply varint_iff|].
    clear Hl E. induction H1 as [|i k is ks Hi H1 IH]; [constructor|]. inversion H2; subst. cbn [flat_map]. constructor; auto.
    exists i. split; [now rewrite <- nthN_nth_error|]. now apply varint_iff.
Qed.
Lemma picks_selects : forall K is m, picks K is (map fst m) <-> selects K is m.
Proof.
  intros K is m. revert is. induction m as [|[k v] m IH]; intro is; cbn [map]; split; intro H; inversion H; subst; constructor; auto; now apply IH.
Qed.
Lemma metadata_written : forall keys m b, metadata keys m b ->
  exists is d, selects keys is m /\ lenN is < 2 ^ 64 /\ Forall (fun i => i < 2 ^ 64) is /\ built_block m /\ entries_data m = Ok d /\
    b = uvarint_array_to_bytes is ++ d.
Proof.
  intros keys m b (Hn & p & q & -> & Hp & Hq). apply places_iff in Hp as (is & H1 & H2 & H3 & ->).
  apply (proj1 (proj2 values_written)) in Hq as [Hb Hd]. exists is, q. apply picks_selects in H1. repeat split; auto. now apply built_block_iff.
Qed.

(** ** Numbers *)
Definition keep (tech : N) (x : f64) : f64 := match tech with 0 => x | _ => near32 x end.
Definition put_num (tech : N) (x : f64) : bytes := match tech with 0 => f64_bytes x | _ => wr32 x end.
Lemma known_iff : forall t, known t <-> exists tech, tech < 2 /\ t = n2b tech.
Proof.
  intro t. split.
  - intros [->| ->]; [exists 0|exists 1]; split; reflexivity.
  - intros (tech & Hl & ->). assert (tech = 0 \/ tech = 1) as [->| ->] by lia; [left|right]; reflexivity.
Qed.
Lemma stored_iff : forall tech x b, tech < 2 -> (stored (n2b tech) x b <-> exists y, x = keep tech y /\ b = put_num tech y).
Proof.
  intros tech x b Hl. assert (tech = 0 \/ tech = 1) as [->| ->] by lia; unfold stored; cbn [keep put_num]; split.
  - intros [[_ H]|[H _]]; [|discriminate H]. apply double_iff in H. exists x. auto.
  - intros (y & -> & ->). left. split; [reflexivity|]. now apply double_iff.
  - intros [[H _]|[_ (y & -> & H)]]; [discriminate H|]. apply single_iff in H. exists y. auto.
  - intros (y & -> & ->). right. split; [reflexivity|]. exists y. split; [reflexivity|]. now apply single_iff.
Qed.
Lemma keep_all : forall tech l, tech < 2 -> time_values tech l = map (keep tech) l.
Proof.
  intros tech l Hl. assert (tech = 0 \/ tech = 1) as [->| ->] by lia; cbn [time_values]; [|reflexivity]. symmetry. apply map_id.
Qed.
Lemma each_exists : forall A B (P : A -> bytes -> Prop) (g : B -> A) (f : B -> bytes) l b,
  (forall x c, P x c -> exists y, x = g y /\ c = f y) -> each P l b -> exists l0, l = map g l0 /\ b = flat_map f l0.
Proof.
  intros A B P g f l b H E. induction E as [|x l b c Hx E (l0 & -> & ->)]; [now exists []|].
  apply H in Hx as (y & -> & ->). now exists (y :: l0).
Qed.
Lemma exists_each : forall A B (P : A -> bytes -> Prop) (g : B -> A) (f : B -> bytes) l,
  (forall y, P (g y) (f y)) -> each P (map g l) (flat_map f l).
Proof. intros A B P g f l H. induction l; cbn; constructor; auto. Qed.
Definition plain_times (ts : list f64) (b : bytes) : Prop := exists t r, b = t :: r /\ known t /\ counted (stored t) ts r.
Lemma times_iff : forall ts b, plain_times ts b <-> exists tech l, tech < 2 /\ lenN l < 2 ^ 64 /\ ts = time_values tech l /\ b = encode_time tech l.
Proof.
  intros ts b. split.
  - intros (t & r & -> & Hk & p & q & -> & Hp & Hq). apply known_iff in Hk as (tech & Hl & ->).
    apply varint_iff in Hp as [Hn ->]. destruct (each_exists _ _ _ (keep tech) (put_num tech) _ _ (fun x c => proj1 (stored_iff tech x c Hl)) Hq) as (l & El & ->). subst ts.
    rewrite lenN_map in *. exists tech, l. split; [exact Hl|]. split; [exact Hn|]. rewrite keep_all by exact Hl. split; [reflexivity|].
    unfold encode_time. do 2 f_equal. assert (tech = 0 \/ tech = 1) as [->| ->] by lia; reflexivity.
  - intros (tech & l & Hl & Hn & -> & ->). rewrite keep_all by exact Hl. exists (n2b tech). eexists. split; [reflexivity|].
    split; [apply known_iff; eauto|]. exists (put_uvarint (lenN (map (keep tech) l))), (flat_map (put_num tech) l). rewrite lenN_map. split.
    + f_equal. assert (tech = 0 \/ tech = 1) as [->| ->] by lia; reflexivity.
    + split; [now apply varint_iff|]. apply exists_each. intro y. apply stored_iff; [exact Hl|]. eauto.
Qed.

(** ** Collections *)
Lemma snd_map : forall A B (P : B -> bytes -> Prop) (l : list (A * B)) b, each (fun e => P (snd e)) l b <-> each P (map snd l) b.
Proof. intros. symmetry. apply each_map. Qed.
Definition put_vec (f : f64 -> bytes) (v : vec) : bytes := f (vx v) ++ f (vy v) ++ f (vz v).
Lemma vec_exists : forall (P : f64 -> bytes -> Prop) (g : f64 -> f64) (f : f64 -> bytes) v b,
  (forall x c, P x c -> exists y, x = g y /\ c = f y) -> (P (vx v) ;; P (vy v) ;; P (vz v)) b ->
  exists w, v = vmap g w /\ b = put_vec f w.
Proof.
  intros P g f [x y z] b H (p & q & -> & Hx & p2 & q2 & -> & Hy & Hz). cbn [vx vy vz] in *.
  apply H in Hx as (x' & -> & ->). apply H in Hy as (y' & -> & ->). apply H in Hz as (z' & -> & ->).
  now exists (mkVec x' y' z').
Qed.
Lemma exists_vec : forall (P : f64 -> bytes -> Prop) (g : f64 -> f64) (f : f64 -> bytes) w,
  (forall y, P (g y) (f y)) -> (P (vx (vmap g w)) ;; P (vy (vmap g w)) ;; P (vz (vmap g w))) (put_vec f w).
Proof. intros P g f [x y z] H. cbn. do 2 eexists. split; [reflexivity|]. split; [apply H|]. do 2 eexists. split; [reflexivity|]. split; apply H. Qed.
Definition put_angle (tech : N) (x : f64) : bytes := match tech with 0 => wr80 x | _ => wr32 x end.
Lemma angle_iff : forall tech x b, tech < 2 -> (angle (n2b tech) x b <-> exists y, x = keep tech y /\ b = put_angle tech y).
Proof.
  intros tech x b Hl. unfold angle. split.
  - intros (p & q & -> & Hp & <-). apply stored_iff in Hp as (y & -> & ->); [|exact Hl]. exists y. split; [reflexivity|].
    assert (tech = 0 \/ tech = 1) as [->| ->] by lia; [reflexivity|apply app_nil_r].
  - intros (y & -> & ->). exists (put_num tech y). eexists. split; [|split; [|reflexivity]].
    + assert (tech = 0 \/ tech = 1) as [->| ->] by lia; [reflexivity|symmetry; apply app_nil_r].
    + apply stored_iff; eauto.
Qed.
Definition times_of (c : cbody) : list f64 := c_times (mkColl [] c).
Lemma points_of : forall tech (P : byte -> f64 -> bytes -> Prop) (f : N -> f64 -> bytes) (l : list (f64 * vec)) r, tech < 2 ->
  (forall x b, P (n2b tech) x b <-> exists y, x = keep tech y /\ b = f tech y) ->
  (each (fun e => point (P (n2b tech)) (snd e)) l r <->
   exists l0, map snd l = map (vmap (keep tech)) l0 /\ r = flat_map (put_vec (f tech)) l0).
Proof.
  intros tech P f l r Hl HP. rewrite (snd_map _ _ (point (P (n2b tech)))). split.
  - intro H. eapply each_exists in H; [exact H|]. intros v b Hv. eapply vec_exists; [|exact Hv]. intros x c. apply HP.
  - intros (l0 & -> & ->). apply exists_each. intro w. apply exists_vec. intro y. apply HP. eauto.
Qed.
Lemma pair_list : forall A B (l : list (A * B)), combine (map fst l) (map snd l) = l.
Proof. intros. apply combine_times. Qed.
Lemma vmap_near : forall l, map (vmap (keep 0)) l = l.
Proof. intro l. rewrite <- (map_id l) at 2. apply map_ext. now intros []. Qed.

