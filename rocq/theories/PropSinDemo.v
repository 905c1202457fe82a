(** C61: what the example program leaves behind. *)
From Coq Require Import ZArith Reals Lia Lra Strings.String.
From Flocq Require Import Core IEEE754.Binary IEEE754.Bits.
From Verif Require Import Base BaseFacts IO Spec IOFacts SchedFacts Floats SpecFloat FloatFacts Near32Facts NumFacts Metadata SpecMeta MetadataFacts.
From Verif Require Import Recording SpecRec RecordingFacts Encoding SpecEnc EncPosition EncLawful Writer Reader SpecFile FileFacts BuiltinFacts.
From Verif Require Import PropStreams PropNumeric SpecAccuracy PropAccuracy Toy Demo SinDemo.
Local Open Scope N_scope.
Local Notation length := List.length.

Lemma demo_time : forall i, (i < 1000)%nat ->
  let t := fdiv (f64_of_Z (Z.of_nat i)) (f64_of_Z 100) in
  fin64 t = true /\ (Rabs (val64 t - INR i / 100) <= bpow radix2 (-50))%R.
Proof.
  intros i Hi t. destruct (val_f64_of_Z (Z.of_nat i) ltac:(lia)) as (Fi & Vi). destruct (val_f64_of_Z 100 ltac:(lia)) as (F1 & V1).
  assert (B : (Rabs (IZR (Z.of_nat i) / 100) < bpow radix2 4)%R).
  { change (bpow radix2 4) with 16%R. assert (0 <= IZR (Z.of_nat i) <= 1000)%R by (split; apply IZR_le; lia). apply Rabs_lt. lra. }
  destruct (fdiv_correct (f64_of_Z (Z.of_nat i)) (f64_of_Z 100) Fi) as (F & E).
  - rewrite V1. lra.
  - rewrite Vi, V1. apply (rnd64_fits _ 4); [exact B|lia].
  - split; [exact F|]. unfold t. rewrite E, Vi, V1, INR_IZR_INZ. exact (rnd64_err _ 4 B ltac:(lia)).
Qed.

(** A thousand captures, in order, each hundredth of a second to within a tenth of a
    millisecond, at the height given by the sine, rounded to 32 bits. *)
Definition wave (sin : f64 -> f64) (l : list (f64 * vec)) : Prop :=
  lenN l = 1000 /\ never_decreases (map fst l) /\
  forall j t v, nth_error l j = Some (t, v) ->
    fin64 t = true /\ (Rabs (val64 t - INR j / 100) <= / 10000)%R /\ vx v = f0 /\ vz v = f0 /\
    nearest32 (sin (fmul (fdiv (f64_of_Z (Z.of_nat j)) (f64_of_Z 100)) (f64_of_Z 10))) (vy v).

Lemma samples_nth : forall sin j x, nth_error (samples sin) j = Some x -> (j < 1000)%nat /\ x = sample sin j.
Proof.
  intros sin j x H. unfold samples in H. rewrite nth_error_map in H.
  destruct (nth_error (seq 0 (N.to_nat iterations)) j) as [k|] eqn:E; [|discriminate]. injection H as <-.
  assert (Hj : (j < N.to_nat iterations)%nat) by (rewrite <- (seq_length (N.to_nat iterations) 0); apply nth_error_Some; rewrite E; intro; discriminate).
  rewrite (nth_error_nth' _ 0%nat) in E by now rewrite seq_length. rewrite seq_nth in E by exact Hj. injection E as <-.
  split; [unfold iterations in Hj; lia|reflexivity].
Qed.
Lemma samples_len : forall sin, lenN (samples sin) = 1000.
Proof. intro sin. unfold samples, lenN. rewrite map_length, seq_length. unfold iterations. apply N2Nat.id. Qed.

Lemma samples_wave : forall sin l, kept_times 2 (map fst (samples sin)) (map fst l) ->
  kept_positions 1 (map snd (samples sin)) (map snd l) -> wave sin l.
Proof.
  intros sin l (Hl & Ht) (_ & Hp). rewrite !map_length in Hl.
  assert (Tn : forall j t, nth_error (map fst (samples sin)) j = Some t ->
    (j < 1000)%nat /\ fin64 t = true /\ (Rabs (val64 t - INR j / 100) <= bpow radix2 (-50))%R).
  { intros j t H. rewrite nth_error_map in H. destruct (nth_error (samples sin) j) as [x|] eqn:E; [|discriminate].
    apply samples_nth in E as (Hj & ->). injection H as <-. destruct (demo_time j Hj) as (F & B). auto. }
  assert (Ln : INR (length (map fst (samples sin))) = 1000%R).
  { rewrite map_length. pose proof (samples_len sin) as E. unfold lenN in E. rewrite INR_IZR_INZ. apply (f_equal IZR). lia. }
  change (bpow radix2 (-50)) with (/ 1125899906842624)%R in Tn.
  assert (Jb : forall j, (j < 1000)%nat -> (0 <= INR j <= 999)%R).
  { intros j Hj. rewrite INR_IZR_INZ. split; apply IZR_le; lia. }
  destruct (Ht 4%Z (/ 90)%R) as (Hs & Hd).
  - lia.
  - apply Forall_forall. intros t Hi. apply In_nth_error in Hi as (j & Hj). destruct (Tn j t Hj) as (Hj' & F & B). split; [exact F|].
    change (bpow radix2 4) with 16%R. pose proof (Jb j Hj'). apply Rabs_le_inv in B. apply Rabs_le. lra.
  - intros j x y Hx Hy. destruct (Tn _ _ Hx) as (_ & _ & B1). destruct (Tn _ _ Hy) as (_ & _ & B2).
    rewrite S_INR in B2. apply Rabs_le_inv in B1. apply Rabs_le_inv in B2. lra.
  - rewrite Ln. change (bpow radix2 4) with 16%R. lra.
  - unfold lenN. rewrite map_length. fold (lenN (samples sin)). rewrite samples_len. discriminate.
  - split; [unfold lenN; rewrite Hl; apply samples_len|]. split; [exact Hs|]. intros j t v Hj.
    assert (Hjl : (j < 1000)%nat).
    { assert (H : (j < length l)%nat) by (apply nth_error_Some; rewrite Hj; intro; discriminate). rewrite Hl in H.
      pose proof (samples_len sin) as E. unfold lenN in E. lia. }
    assert (Hsj : nth_error (samples sin) j = Some (sample sin j)).
    { destruct (nth_error (samples sin) j) as [x|] eqn:E; [apply samples_nth in E as (_ & ->); reflexivity|].
      apply nth_error_None in E. pose proof (samples_len sin) as E'. unfold lenN in E'. lia. }
    destruct (Hd j (fst (sample sin j)) t) as (F & B).
    { rewrite nth_error_map, Hsj. reflexivity. }
    { rewrite nth_error_map, Hj. reflexivity. }
    split; [exact F|]. split.
    + destruct (demo_time j Hjl) as (_ & B2). change (bpow radix2 (-50)) with (/ 1125899906842624)%R in B2.
      change (4 - 25)%Z with (-21)%Z in B. change (4 - 44)%Z with (-40)%Z in B.
      change (bpow radix2 (-21)) with (/ 2097152)%R in B. change (bpow radix2 (-40)) with (/ 1099511627776)%R in B.
      pose proof (Jb j Hjl) as J. set (q := (/ 90 / 2 ^ 17 + / 90 / 2 ^ 24 + / 1099511627776)%R) in B.
      assert (Q : (0 <= q <= 9 / 100000000)%R) by (unfold q; lra).
      assert (P : (INR j * q <= 999 * (9 / 100000000))%R) by (apply Rmult_le_compat; lra).
      change (fst (sample sin j)) with (fdiv (f64_of_Z (Z.of_nat j)) (f64_of_Z 100)) in B.
      apply Rabs_le_inv in B. apply Rabs_le_inv in B2. apply Rabs_le. lra.
    + assert (Hv : nearest32_vec (snd (sample sin j)) v).
      { clear -Hp Hsj Hj. assert (H1 : nth_error (map snd (samples sin)) j = Some (snd (sample sin j))) by (rewrite nth_error_map, Hsj; reflexivity).
        assert (H2 : nth_error (map snd l) j = Some v) by (rewrite nth_error_map, Hj; reflexivity).
        revert H1 H2. generalize (snd (sample sin j)). clear Hsj Hj. revert Hp. generalize (map snd (samples sin)) (map snd l). intros a b Hp. revert j.
        induction Hp as [|x y a b Hxy Hp IH]; intros [|j] u H1 H2; try discriminate; cbn [nth_error] in *; [injection H1 as <-; injection H2 as <-; exact Hxy|eapply IH; eauto]. }
      split; [exact (Hv vx (or_introl eq_refl))|]. split; [exact (Hv vz (or_intror (or_intror (or_introl eq_refl))))|].
      exact (Hv vy (or_intror (or_introl eq_refl))).
Qed.

Lemma demo_valid : valid_config 1 0 0 demo_writer.
Proof.
  unfold valid_config. cbn [w_time w_encs demo_writer]. repeat split; try reflexivity.
  - repeat constructor; unfold builtin; tauto.
  - repeat constructor; cbn; intuition discriminate.
Qed.
Lemma demo_load : forall e, In e (w_encs demo_writer) -> can_read load_encoders e.
Proof.
  intros e He. apply can_read_builtin with 1 0 0 2 1 0.
  - destruct demo_valid as (_ & _ & _ & _ & H & _). rewrite Forall_forall in H. auto.
  - apply default_valid.
  - cbn in He. destruct He as [<-|[]]. exists (position_encoder 2). split; [cbn; tauto|reflexivity].
Qed.
Lemma demo_built : forall elapsed, built_block [(lit "iterations", new_int (Z.of_N iterations)); (lit "benchmark", PString elapsed)].
Proof.
  intro elapsed. apply built_block_iff. split.
  - cbn [map fst]. repeat constructor; cbn [In]; [intros [H|[]]|intros []]. vm_compute in H. discriminate.
  - repeat constructor. all: vm_compute; congruence.
Qed.
Lemma sin_wf : forall sin elapsed, wf_rec (sin_demo sin elapsed).
Proof.
  intros sin elapsed. unfold sin_demo. constructor.
  - each. eexists; split; [reflexivity|exact I].
  - each. eexists; split; [reflexivity|]. constructor; [each; eexists; split; [reflexivity|exact I]|constructor|apply built_nil| |]; constructor.
  - apply demo_built.
  - constructor.
  - constructor.
Qed.

(** The program writes its file without an error, and whoever opens it with the library
    finds the wave in the recording and in the recording inside it. *)
Theorem C61_example_program : forall sin elapsed Z IZ v1 rA rE,
  codec_ok Z IZ -> rec_equiv (sin_demo sin elapsed) rA -> rec_equiv (sin_demo sin elapsed) rE ->
  exists n file, write_views demo_writer Z buffer rA rE (sin_demo sin elapsed) [] = Ok (n, None, file) /\
    (n <= 2 ^ 40 ->
     exists l l' md, wave sin l /\ wave sin l' /\
       block_equiv [(lit "iterations", PInt 1000); (lit "benchmark", PString elapsed)] md /\
       forall S (R : Reader S) eager I, delivers R eager I -> forall s rest, I s (file ++ rest) ->
       exists s', read load_encoders v1 IZ R s =
         Ok (Some (mkRec [] (lit "Sin Wave Demo") [Some (mkColl (lit "Sin Wave") (BPos l))]
                     [Some (mkRec [] (lit "Sin Wave") [Some (mkColl (lit "Position") (BPos l'))] [] [] [] [])] md [] []),
             n, None, s')).
Proof.
  intros sin elapsed Z IZ v1 rA rE Hz HA HE.
  destruct (C60_accuracy 1 0 0 demo_writer Z IZ load_encoders v1 (sin_demo sin elapsed) rA rE) as (n & file & Hw & Hr);
    auto using demo_valid, demo_load, sin_wf.
  { apply accepted_by. intros c Hc. cbn in Hc. intuition (subst; reflexivity). }
  exists n, file. split; [exact Hw|]. intro Hn. destruct (Hr Hn) as (r' & Hrel & Hread).
  unfold sin_demo in Hrel.
  inversion Hrel as [? ? ? colls' ? recs' ? md ? bins' ? refs' Hc Hrs Hm Hbs Hrf]; subst. clear Hrel.
  inversion Hbs; subst. inversion Hrf; subst. clear Hbs Hrf.
  inversion Hc as [|? ? ? ? (c & d & E1 & -> & Hcd) Hc']; subst. inversion Hc'; subst. injection E1 as <-. clear Hc Hc'.
  inversion Hrs as [|? ? ? ? (c & r & E1 & -> & Hr1) Hrs']; subst. inversion Hrs'; subst. injection E1 as <-. clear Hrs Hrs'.
  inversion Hr1 as [? ? ? colls' ? recs' ? md1 ? bins' ? refs' Hc Hrs Hm1 Hbs Hrf]; subst. clear Hr1.
  inversion Hbs; subst. inversion Hrf; subst. inversion Hrs; subst. clear Hbs Hrf Hrs.
  inversion Hc as [|? ? ? ? (c & d' & E1 & -> & Hcd') Hc']; subst. inversion Hc'; subst. injection E1 as <-. clear Hc Hc'.
  assert (Em : md1 = []).
  { inversion Hm1 as [? m ? Hp He]; subst. apply Permutation.Permutation_nil in Hp. subst. now inversion He. } subst md1.
  destruct d as [dn db]. destruct Hcd as (Hn1 & Ht1 & Hb1). cbn [c_name c_body] in Hn1, Hb1. subst dn. destruct db as [l| | | | |]; try contradiction.
  destruct d' as [dn db]. destruct Hcd' as (Hn2 & Ht2 & Hb2). cbn [c_name c_body] in Hn2, Hb2. subst dn. destruct db as [l'| | | | |]; try contradiction.
  exists l, l', md. split; [exact (samples_wave sin l Ht1 Hb1)|]. split; [exact (samples_wave sin l' Ht2 Hb2)|]. split; [exact Hm|exact Hread].
Qed.
Print Assumptions C61_example_program.

(** With the compressor of Toy.v, and a line in place of the sine, the program runs, and
    its file is far below 2^40 bytes. *)
Definition line_demo : recording := sin_demo (fun x => x) (lit "1ms").
Example C61_example : codec_ok toy_z toy_iz /\ rec_equiv line_demo line_demo /\
  exists n file, write_views demo_writer toy_z buffer line_demo line_demo line_demo [] = Ok (n, None, file) /\ n <= 2 ^ 40.
Proof.
  split; [exact toy_ok|]. set (r := line_demo). assert (Heq : rec_equiv r r).
  { constructor; try constructor; try constructor.
    - eexists _, _; split; [reflexivity|]; split; [reflexivity|]; split; reflexivity.
    - eexists _, _; split; [reflexivity|]; split; [reflexivity|]. constructor; try constructor; try constructor.
      + eexists _, _; split; [reflexivity|]; split; [reflexivity|]; split; reflexivity.
      + apply block_equiv_refl.
    - apply block_equiv_refl. }
  split; [exact Heq|].
  destruct (C61_example_program (fun x => x) (lit "1ms") toy_z toy_iz no_v1 r r toy_ok Heq Heq) as (n & file & Hw & _).
  exists n, file. split; [exact Hw|].
  assert (E : match write_views demo_writer toy_z buffer r r r [] with Ok (n, _, _) => (n <=? 2 ^ 40) | _ => false end = true) by (vm_compute; reflexivity).
  change (sin_demo (fun x => x) (lit "1ms")) with r in Hw. rewrite Hw in E. now apply N.leb_le.
Qed.
