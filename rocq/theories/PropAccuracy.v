(** C60: how close the numbers in a file are to those of the recording. *)
From Coq Require Import ZArith Reals Lia Lra Strings.String.
From Flocq Require Import Core IEEE754.Binary IEEE754.Bits.
From Verif Require Import Base BaseFacts IO Spec IOFacts SchedFacts Floats SpecFloat Near32Facts Metadata SpecMeta MetadataFacts.
From Verif Require Import Recording SpecRec RecordingFacts Encoding SpecEnc Writer Reader SpecFile FileFacts BuiltinFacts.
From Verif Require Import PropStreams PropNumeric SpecAccuracy AccuracyFacts Toy Demo PropFile.
Local Open Scope N_scope.
Local Notation length := List.length.

(** Whatever the settings, whatever the structure of the recording: what is read back
    has for each collection, at any depth, one of the same name whose times and values
    are as close as the techniques promise. *)
Theorem C60_accuracy : forall tp te tf cfg Z IZ reg v1 r rA rE,
  valid_config tp te tf cfg -> (w_compress cfg = true -> codec_ok Z IZ) ->
  (forall e, In e (w_encs cfg) -> can_read reg e) ->
  wf_rec r -> ~ unaccepted (w_encs cfg) r -> rec_equiv r rA -> rec_equiv r rE ->
  exists n file, write_views cfg Z buffer rA rE r [] = Ok (n, None, file) /\
    (n <= 2 ^ 40 ->
     exists r', rec_rel block_equiv (as_stored tp te tf (w_time cfg)) r r' /\
       forall S (R : Reader S) eager I, delivers R eager I -> forall s rest, I s (file ++ rest) ->
       exists s', read reg v1 IZ R s = Ok (Some r', n, None, s')).
Proof.
  intros tp te tf cfg Z IZ reg v1 r rA rE (Hp & He & Hf & Ht & Hes & Hs) Hz Hreg Hwf Hacc HA HE.
  destruct (builtin_round_trip tp te tf cfg Z r rA rE reg v1 IZ) as (n & file & Hw & _ & Hr); auto.
  exists n, file. split; [apply (Hw [])|]. intro Hn. destruct (Hr Hn Hz) as (r' & Hrel & Hread).
  exists r'. split.
  - eapply rec_rel_mono; [| |exact Hrel]; [intros m ? <-; apply block_equiv_refl|].
    intros c d Hc Hd. pose proof (wf_tree_colls _ Hwf) as Hwc. rewrite Forall_forall in Hwc.
    exact (decoded_kept tp te tf cfg Hp He Hf Ht Hes c d (Hwc c Hc) Hd).
  - intros S R eager I HR s rest HI. destruct (Hread S R eager I HR s rest HI) as (s' & E & _). eauto.
Qed.
Print Assumptions C60_accuracy.

(** Three positions of someone who moves by at most 5 between them, saved with the
    default settings: their path along the first axis comes back with an error below
    1/1000. *)
Definition walk : recording := mkRec [] (lit "walk") [Some (mkColl (lit "Position") (BPos sample_walk))] [] [] [] [].
Example C60_example : wf_rec walk /\ rec_equiv walk walk /\ ~ unaccepted (w_encs recolude_writer) walk /\
  exists n file l' s, write_views recolude_writer toy_z buffer walk walk walk [] = Ok (n, None, file) /\
    read load_encoders no_v1 toy_iz flat file =
      Ok (Some (mkRec [] (lit "walk") [Some (mkColl (lit "Position") (BPos l'))] [] [] [] []), n, None, s) /\
    forall j x x', nth_error sample_walk j = Some x -> nth_error l' j = Some x' ->
      (Rabs (val64 (vx (snd x')) - val64 (vx (snd x))) <= / 1000)%R.
Proof.
  assert (Hwf : wf_rec walk) by (repeat constructor; eexists; split; [reflexivity|exact I]).
  assert (Heq : rec_equiv walk walk).
  { constructor; try constructor; [eexists _, _; split; [reflexivity|]; split; reflexivity|constructor|apply block_equiv_refl]. }
  assert (Hacc : ~ unaccepted (w_encs recolude_writer) walk).
  { apply accepted_by. intros c Hc. cbn in Hc. intuition (subst; reflexivity). }
  split; [exact Hwf|]. split; [exact Heq|]. split; [exact Hacc|].
  destruct (C60_accuracy 2 1 0 recolude_writer toy_z toy_iz load_encoders no_v1 walk walk walk) as (n & file & Hw & Hr);
    auto using default_valid, can_load, toy_ok.
  assert (En : n <= 2 ^ 40).
  { assert (E : match write_views recolude_writer toy_z buffer walk walk walk [] with Ok (n, _, _) => (n <=? 2 ^ 40) | _ => false end = true) by (vm_compute; reflexivity).
    rewrite Hw in E. now apply N.leb_le. }
  destruct (Hr En) as (r' & Hrel & Hread). destruct (Hread _ flat false _ (flat_delivers false) file []) as (s & Hs); [now rewrite app_nil_r|].
  inversion Hrel as [? ? ? colls' ? recs' ? md' ? bins' ? refs' Hc Hrs Hm Hbs Hrf]; subst.
  inversion Hrs; subst. inversion Hbs; subst. inversion Hrf; subst. inversion Hc as [|? ? ? ? (c & d & E1 & E2 & Hcd) Hc']; subst. inversion Hc'; subst. injection E1 as <-.
  assert (Em : md' = []).
  { inversion Hm as [? m ? Hp He]; subst. apply Permutation.Permutation_nil in Hp. subst. now inversion He. } subst md'.
  destruct d as [dn db]. destruct Hcd as (Hn & _ & Hb). cbn [c_name c_body] in Hn, Hb. subst dn. destruct db as [l'| | | | |]; try contradiction.
  exists n, file, l', s. split; [exact Hw|]. split; [exact Hs|]. destruct Hb as (Hl & Hb).
  intros j x x' Hx Hx'. destruct C41_example as (B1 & B2 & B3 & _).
  destruct (Hb vx (or_introl eq_refl) 5%Z (-1)%R 5%R 5%R) with (j := j) (x := vx (snd x)) (x' := vx (snd x')) as (_ & G); auto; try lia.
  - rewrite map_map. apply Forall_map. exact B1.
  - apply Rabs_le. lra.
  - apply Rabs_le. lra.
  - cbn. lra.
  - rewrite map_map. rewrite nth_error_map, Hx. reflexivity.
  - rewrite map_map. rewrite nth_error_map, Hx'. reflexivity.
  - eapply Rle_trans; [exact G|]. change (2 =? 2) with true. change (5 - 25)%Z with (-20)%Z. change (5 - 44)%Z with (-39)%Z.
    change (bpow radix2 (-20)) with (/ 1048576)%R. change (bpow radix2 (-39)) with (/ 549755813888)%R.
    assert (J : (INR j <= 2)%R). { assert (Hj : (j < 3)%nat) by (apply (proj1 (nth_error_Some sample_walk j)); rewrite Hx; discriminate).
      destruct j as [|[|[|j]]]; cbn; try lra; lia. }
    assert (J0 := pos_INR j). set (q := ((5 - -1) / 2 ^ 17 + 5 / 2 ^ 24 + / 549755813888)%R).
    assert (Q : (0 <= q <= / 10000)%R) by (unfold q; lra).
    apply Rle_trans with (/ 1048576 + 2 * q)%R; [|lra]. apply Rplus_le_compat_l. apply Rmult_le_compat_r; lra.
Qed.
