(** A concrete recording, used to show that the theorems about files are not
    vacuous. *)
From Coq Require Import ZArith Lia Permutation.
From Flocq Require Import Core IEEE754.BinarySingleNaN IEEE754.Binary IEEE754.Bits.
From Verif Require Import Base BaseFacts IO Spec Floats Metadata SpecMeta MetadataFacts Recording SpecRec Encoding.
From Verif Require Import EncEvent EncEnum EncPosition EncEuler EncFloat TimeIO.
From Verif Require Import Writer Reader SpecFile BuiltinFacts.
Local Open Scope N_scope.

Definition d_one : f64 := B754_finite 53 1024 false 4503599627370496 (-52) eq_refl.
Definition d_three : f64 := B754_finite 53 1024 false 6755399441055744 (-51) eq_refl.
Definition d_child : recording :=
  mkRec (bs [99]) (bs [100])
    [Some (mkColl (bs [80]) (BPos [(d_one, mkVec d_one d_three d_one); (d_three, mkVec d_three d_one d_one)]))]
    [] [(bs [2], PString (bs [104; 105]))] [] [].
Definition d_events (m : block) : coll := mkColl (bs [69]) (BEvent [(d_one, (bs [1], m)); (d_three, (bs [2], []))]).
Definition demo_with (md em bm : block) : recording :=
  mkRec (bs [97]) (bs [98])
    [Some (d_events em);
     Some (mkColl (bs [81]) (BEnum [bs [1]; bs [2]] [(d_one, 1%Z); (d_three, (-5)%Z)]));
     Some (mkColl (bs [82]) (BEuler [(d_one, mkVec d_three d_one d_one)]))]
    [Some d_child; Some (mkRec [] [] [] [] [] [] [])]
    md
    [Some (mkBin (bs [3]) (bs [7; 8; 9]) 3 bm); Some (mkBin (bs [4]) [] 0 [])]
    [Some (mkRef (bs [5]) (bs [6]) 700 [(bs [2], PBool false)])].
Definition md1 : block := [(bs [1], PInt 7%Z); (bs [2], PBool true)].
Definition md2 : block := [(bs [2], PBool true); (bs [1], PInt 7%Z)].
Definition demo : recording := demo_with md1 md1 md1.
(** the same recording, iterated over in other orders *)
Definition demoA : recording := demo_with md2 md1 md1.
Definition demoE : recording := demo_with md1 md2 md2.

Lemma built_md1 : built_block md1.
Proof.
  apply built_block_iff. split.
  - repeat constructor; cbn; intuition discriminate.
  - repeat constructor; cbn; try discriminate.
Qed.
Lemma built_nil : built_block [].
Proof. apply built_block_iff. split; constructor. Qed.
Lemma built_one : forall k v, built v -> built_block [(k, v)].
Proof. intros. apply built_block_iff. split; repeat constructor; auto. Qed.
Ltac each := match goal with |- Forall _ [] => constructor | |- Forall _ (_ :: _) => constructor; [|each] end.
Lemma demo_wf : wf_rec demo.
Proof.
  unfold demo, demo_with. constructor.
  - each; (eexists; split; [reflexivity|]); unfold wf_coll, d_events; cbn [c_body]; auto.
    + each; cbn [snd]; auto using built_md1, built_nil.
    + repeat constructor; cbn; discriminate.
  - each; (eexists; split; [reflexivity|]).
    + unfold d_child. constructor; try each; auto.
      * eexists; split; [reflexivity|]. exact I.
      * apply built_one. exact I.
    + constructor; try each; auto using built_nil.
  - apply built_md1.
  - each; (eexists; split; [reflexivity|]); split; cbn [b_md]; auto using built_md1, built_nil.
  - each. eexists; split; [reflexivity|]. split; [apply built_one; exact I | reflexivity].
Qed.
Lemma md12 : block_equiv md1 md2.
Proof. apply perm_block_equiv. constructor. Qed.
Lemma demo_rel : forall md em bm md' em' bm', block_equiv md md' -> block_equiv em em' -> block_equiv bm bm' ->
  rec_equiv (demo_with md em bm) (demo_with md' em' bm').
Proof.
  intros. unfold demo_with. constructor; auto.
  - repeat constructor; try (eexists; eexists; split; [reflexivity|split; [reflexivity|]]); try reflexivity.
    cbn. split; [reflexivity|]. repeat constructor; cbn; auto using block_equiv_refl.
  - constructor; [|constructor; [|constructor]];
      (eexists; eexists; split; [reflexivity|split; [reflexivity|]]).
    + apply rec_equiv_refl. unfold d_child. constructor; try each; auto.
      * eexists; split; [reflexivity|]. exact I.
      * apply built_one. exact I.
    + apply rec_equiv_refl. constructor; try each; auto using built_nil.
  - repeat constructor; (eexists; eexists; split; [reflexivity|split; [reflexivity|]]);
      repeat split; auto using block_equiv_refl.
  - repeat constructor; (eexists; eexists; split; [reflexivity|split; [reflexivity|]]);
      repeat split; auto using block_equiv_refl.
Qed.
Lemma demoA_equiv : rec_equiv demo demoA.
Proof. apply demo_rel; auto using md12, block_equiv_refl. Qed.
Lemma demoE_equiv : rec_equiv demo demoE.
Proof. apply demo_rel; auto using md12, block_equiv_refl. Qed.

(** Raw64 everywhere *)
Definition raw_config (compress : bool) : wconfig :=
  mkWConfig [event_encoder; float_encoder 0; position_encoder 0; euler_encoder 0; enum_encoder] 0 compress.
Lemma raw_valid : forall b, valid_config 0 0 0 (raw_config b).
Proof.
  intro b. unfold valid_config. cbn [w_time w_encs raw_config]. repeat split; try reflexivity.
  - repeat constructor; unfold builtin; tauto.
  - repeat constructor; cbn; intuition discriminate.
Qed.
(** the library's default writer *)
Lemma default_valid : valid_config 2 1 0 recolude_writer.
Proof.
  unfold valid_config. cbn [w_time w_encs recolude_writer]. repeat split; try reflexivity.
  - repeat constructor; unfold builtin; tauto.
  - repeat constructor; cbn; intuition discriminate.
Qed.
Lemma accepted_by : forall es r, (forall c, In c (tree_colls r) -> existsb (fun e => e_accepts e c) es = true) ->
  ~ unaccepted es r.
Proof.
  intros es r H (c & x & Hc & Hx & Hno).
  assert (Hin : In x (tree_colls r)).
  { clear -Hc Hx. induction Hc as [r | r c d Hd Hc IH].
    - destruct r. cbn in *. apply in_or_app. left. apply in_flat_map. exists (Some x). split; [exact Hx | now left].
    - destruct r. cbn in *. apply in_or_app. right. apply in_flat_map. exists (Some d). auto. }
  specialize (H x Hin). apply existsb_exists in H as (e & He & Ha). rewrite (Hno e He) in Ha. discriminate.
Qed.
Lemma demo_accepted : forall b, ~ unaccepted (w_encs (raw_config b)) demo.
Proof. intro b. apply accepted_by. intros c Hc. cbn in Hc. intuition (subst; reflexivity). Qed.
Lemma demo_accepted_default : ~ unaccepted (w_encs recolude_writer) demo.
Proof. apply accepted_by. intros c Hc. cbn in Hc. intuition (subst; reflexivity). Qed.
Lemma can_read_self : forall b e, In e (w_encs (raw_config b)) -> can_read (w_encs (raw_config b)) e.
Proof. intros b e. apply can_read_same. apply (raw_valid b). Qed.
Lemma can_load : forall e, In e (w_encs recolude_writer) -> can_read load_encoders e.
Proof. intro e. apply (can_read_same load_encoders). apply default_valid. Qed.
(** any version 1 reader *)
Definition no_v1 : v1_reader := fun S R s => Ok (None, 0, Some EEOF, s).
