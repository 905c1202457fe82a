(** Lemmas for C60. *)
From Coq Require Import ZArith Reals Lia Lra.
From Flocq Require Import Core IEEE754.BinarySingleNaN IEEE754.Binary IEEE754.Bits.
From Verif Require Import Base BaseFacts IO Spec IOFacts SchedFacts Floats SpecFloat FloatFacts BinaryIO BinaryIOFacts.
From Verif Require Import Metadata SpecMeta Recording SpecRec RecordingFacts Encoding SpecEnc Near32Facts.
From Verif Require Import EncPosition EncEuler EncFloat EncNumFacts OctFacts EncLawful StreamFacts TimeIO TimeFacts.
From Verif Require Import NumFacts WalkFacts QuantFacts DriftFacts OctWalkFacts PropStreams PropNumeric.
From Verif Require Import Writer Reader SpecFile FileFacts BuiltinFacts SpecAccuracy.
Local Open Scope R_scope.

Lemma nearest_all : forall l, Forall2 nearest32 l (map near32 l).
Proof. induction l; cbn [map]; constructor; auto using near32_nearest. Qed.
Lemma nearest_vecs : forall l, Forall2 nearest32_vec l (map (vmap near32) l).
Proof.
  induction l as [|v l IH]; cbn [map]; constructor; auto. intros a [<-|[<-|[<-|[]]]]; cbn [vmap vx vy vz]; apply near32_nearest.
Qed.

Lemma times_kept : forall tt ts, (tt < 3)%N -> kept_times tt ts (time_values tt ts).
Proof.
  intros tt ts Ht. split; [apply time_values_len|]. assert (C : (tt = 0 \/ tt = 1 \/ tt = 2)%N) by lia.
  destruct C as [ -> | [ -> | -> ]]; [reflexivity|apply nearest_all|]. intros e D He Hb Hs HD Hn.
  destruct (C16_drift _ flat false _ (flat_delivers false) ts e D (encode_time 2 ts) [] He Hb Hs HD Hn) as (out & s' & E & _ & _ & H1 & H2).
  { now rewrite app_nil_r. }
  pose proof (delivers_serves _ _ _ (flat_delivers false)) as HS.
  destruct (decode_time_ok (err_reader flat) (er_inv (fun s d => s = d) (lenN (encode_time 2 ts ++ [])))
              (er_serves flat false _ _ HS) (er_exact flat false _ _ HS) 2 ts) with (s := new_er (encode_time 2 ts)) (rest := @nil byte) as (s2 & E2 & _).
  - lia.
  - eapply N.le_trans; [exact Hn | discriminate].
  - apply new_er_inv. now rewrite app_nil_r.
  - auto with more.
  - rewrite E in E2. apply ok_inj in E2. injection E2 as -> _. split; [exact H1|]. intros j x x' Hx Hx'. eapply H2; eauto.
Qed.

Lemma positions_kept : forall tp l, (tp < 4)%N -> kept_positions tp l (pos_values tp l).
Proof.
  intros tp l Ht. assert (C : (tp = 0 \/ tp = 1 \/ tp = 2 \/ tp = 3)%N) by lia. split.
  { destruct C as [ -> | [ -> | [ -> | -> ]]]; cbn [pos_values]; rewrite ?map_length, ?oct_values_len; reflexivity. }
  assert (Ho : forall tp, (tp = 2 \/ tp = 3)%N -> forall a, In a axes -> forall e L H G, (-100 <= e <= 126)%Z ->
    Forall (bounded e) (map a l) -> steps_between L H (map a l) ->
    Rabs L <= G -> Rabs H <= G -> INR (length l) * G <= bpow radix2 e -> INR (length l) <= 2 ^ 40 ->
    drifts (bpow radix2 (e - 25))
      ((H - L) / 2 ^ (if (tp =? 2)%N then 17 else 9) + G / 2 ^ 24 + bpow radix2 (e - 44)) (map a l) (map a (pos_values tp l))).
  { clear. intros tech Ht a Ha e L0 H0 G He Hbd Hst HL HH HG Hn j x x' Hx Hx'. destruct (in_axes a Ha) as (m & Hm).
    set (k := if (tech =? 2)%N then 16%nat else 8%nat).
    assert (Hv : pos_values tech l = oct_values k l) by (destruct Ht as [->| ->]; reflexivity). rewrite Hv in Hx'.
    rewrite nth_error_map in Hx, Hx'. destruct (nth_error l j) as [p|] eqn:Epl; [|discriminate]. injection Hx as <-.
    destruct (nth_error (oct_values k l) j) as [p'|] eqn:Ep; [|discriminate]. injection Hx' as <-.
    assert (HP : half_pow (S k) = / 2 ^ (if (tech =? 2)%N then 17 else 9)).
    { rewrite half_pow_pow. unfold k. now destruct (tech =? 2)%N. }
    destruct l as [|x0 l']; [destruct j; discriminate|]. destruct l' as [|x1 l'].
    + destruct j as [|[|j]]; try discriminate. injection Epl as <-. injection Ep as <-.
      cbn [map] in Hbd. inversion Hbd as [|? ? (F0 & B0) _]; subst.
      assert (A3 : a (vmap near32 x0) = near32 (a x0)) by (destruct Ha as [<-|[<-|[<-|[]]]]; reflexivity).
      rewrite A3. destruct (near32_err (a x0) e F0 B0) as (_ & Fr & _ & _ & Er0 & _); [lia|].
      split; [assumption|]. cbn [INR]. lra.
    + assert (G0 : 0 <= G) by (pose proof (Rabs_pos L0); lra).
      set (rest := x1 :: l') in *. cbn [length] in HG, Hn. rewrite S_INR in HG, Hn.
      destruct (oct_drift a m Hm k x0 rest e L0 H0 G) with (j := j) (p := p) as (q & E1 & E2 & E3); auto.
      * discriminate.
      * unfold k. destruct (tech =? 2)%N; lia.
      * exact (proj1 (Forall_map a (bounded e) (x0 :: rest)) Hbd).
      * apply steps_gaps_in. exact Hst.
      * lra.
      * change (bp 40) with 1099511627776. lra.
      * rewrite E1 in Ep. injection Ep as <-. split; [assumption|].
        rewrite HP in E3. unfold Rdiv in *. replace (/ 2 ^ 24) with (/ 16777216) by (f_equal; lra). exact E3. }
  destruct C as [ -> | [ -> | [ -> | -> ]]]; [reflexivity|apply nearest_vecs|apply (Ho 2%N); auto|apply (Ho 3%N); auto].
Qed.

Lemma angles_kept : forall te l, (te < 3)%N -> kept_angles te l (euler_values te l).
Proof.
  intros te l Ht. assert (C : (te = 0 \/ te = 1 \/ te = 2)%N) by lia. split.
  { destruct C as [ -> | [ -> | -> ]]; cbn [euler_values]; [reflexivity|now rewrite map_length|].
    destruct l as [|x [|y l]]; cbn [length map]; rewrite ?map_length; reflexivity. }
  destruct C as [ -> | [ -> | -> ]]; [reflexivity|apply nearest_vecs|]. intros H2 a Ha Hok.
  assert (Ev : euler_values 2 l = map (vmap angle16) l) by (destruct l as [|x [|y l]]; cbn in H2; try lia; reflexivity).
  rewrite Ev, map_map. clear -Ha Hok. induction l as [|v l IH]; cbn [map] in *; constructor; inversion Hok as [|? ? (F & R) Hok']; subst; auto.
  destruct (angle16_ok _ F R) as (A1 & A2 & A3 & _). replace 131072 with (2 ^ 17) in * by lra.
  replace (a (vmap angle16 v)) with (angle16 (a v)) by (destruct Ha as [<-|[<-|[<-|[]]]]; reflexivity). unfold angle_near. auto.
Qed.

Lemma numbers_kept : forall tf l, (tf < 3)%N -> kept_numbers tf l (float_values tf l).
Proof.
  intros tf l Ht. assert (C : (tf = 0 \/ tf = 1 \/ tf = 2)%N) by lia. split.
  { destruct C as [ -> | [ -> | -> ]]; cbn [float_values]; rewrite ?map_length; reflexivity. }
  destruct C as [ -> | [ -> | -> ]]; [reflexivity|apply nearest_all|]. intros e lo hi He Hb Hlh.
  assert (Hfin : Forall (fun v => fin64 v = true) l) by (eapply Forall_impl; [|exact Hb]; intros x (F & _); exact F).
  assert (Hin : forall v, In v l -> Rabs (val64 v) <= bp e) by (intros v H; rewrite Forall_forall in Hb; now apply Hb).
  rewrite Forall_forall in Hlh, Hfin. intros j x x' Hx Hx'.
  assert (Hne : l <> []) by (destruct l; [destruct j; discriminate|discriminate]).
  destruct (val_range_finite l) as (mn & mx & Er & I1 & I2 & F1 & F2 & Hr); auto.
  { apply Forall_forall. exact Hfin. }
  assert (Hle : val64 mn <= val64 mx) by apply (Hr mx I2).
  change (float_values 2 l) with (map (float16 (fst (val_range l fpinf fminf)) (snd (val_range l fpinf fminf))) l) in Hx'.
  rewrite Er in Hx'. cbn [fst snd] in Hx'. rewrite nth_error_map, Hx in Hx'. injection Hx' as <-. pose proof (nth_error_In _ _ Hx) as Hi.
  destruct (float16_accuracy mn mx e F1 F2 Hle) with (v := x) (x := val64 x) as (G1 & G2); auto.
  - apply xval_finite. now apply Hfin.
  - split; [assumption|]. pose proof (Hlh _ I1). pose proof (Hlh _ I2). replace (2 ^ 17) with 131072 by lra. lra.
Qed.

Lemma snd_combine : forall {A B} (l : list A) (m : list B), length l = length m -> map snd (combine l m) = m.
Proof. intros A B. induction l as [|a l IH]; intros [|b m] H; try discriminate; cbn [combine map snd]; [reflexivity|]. f_equal. apply IH. now injection H. Qed.

Lemma decoded_kept : forall tp te tf cfg, (tp < 4)%N -> (te < 3)%N -> (tf < 3)%N -> (w_time cfg < 3)%N ->
  Forall (builtin tp te tf) (w_encs cfg) -> forall c d, wf_coll c ->
  decoded (w_encs cfg) (fun _ => num_post tp te tf) (w_time cfg) c d -> as_stored tp te tf (w_time cfg) c d.
Proof.
  intros tp te tf cfg Hp He Hf Ht Hes c d Hw Hd.
  destruct (decoded_same tp te tf cfg Hp He Hf Ht Hes c d Hw Hd) as ((Hn & Hl & Hb) & _).
  destruct Hd as (cE & e & Heq & Hch & ->). set (ts := time_values (w_time cfg) (c_times c)) in *.
  assert (Hlen : length ts = length (c_times cE)) by (unfold ts; rewrite time_values_len; now rewrite (coll_equiv_times _ _ Heq)).
  split; [now symmetry|]. split.
  { rewrite num_post_times by exact Hlen. now apply times_kept. }
  unfold coll_equiv in Heq.
  destruct (c_body c) as [l|l|l|l|ms l|sg l] eqn:Ec; try exact Hb; subst cE; unfold c_times in Hlen; rewrite Ec in Hlen; rewrite map_length in Hlen.
  - unfold num_post, pos_post. rewrite Ec. cbn [c_body]. rewrite snd_combine; [now apply positions_kept|].
    rewrite Hlen. symmetry. rewrite <- (map_length snd l). apply (positions_kept tp (map snd l) Hp).
  - unfold num_post, euler_post. rewrite Ec. cbn [c_body]. rewrite snd_combine; [now apply angles_kept|].
    rewrite Hlen. symmetry. rewrite <- (map_length snd l). apply (angles_kept te (map snd l) He).
  - unfold num_post, float_post. rewrite Ec. cbn [c_body]. rewrite snd_combine; [now apply numbers_kept|].
    rewrite Hlen. symmetry. rewrite <- (map_length snd l). apply (numbers_kept tf (map snd l) Hf).
Qed.
