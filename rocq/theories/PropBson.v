(** C54: the BSON export of metadata. *)
From Coq Require Import ZArith Lia Permutation Strings.String.
From Flocq Require Import Core.Zaux IEEE754.Binary.
From Verif Require Import Base BaseFacts Floats BinaryIO Metadata SpecMeta MetadataFacts Recording.
From Verif Require Import Bson SpecBson BsonFacts.
Local Open Scope N_scope.

(** Whatever order the maps are visited in: if MarshalBSON gives data, the data
    is one BSON document, it can be read in one way only, and it says what the
    metadata says. *)
Theorem C54_faithful : forall m m0 data, built_block m -> ordinary (PBlock m) -> block_equiv m m0 ->
  marshal_bson m0 = inl data ->
  exists d, shown (PBlock m) (VDoc d) /\ forall d', document d' data <-> d' = d.
Proof.
  intros m m0 data Hb Ho He H. assert (Hp : prop_equiv (PBlock m) (PBlock m0)) by now apply PE_block.
  destruct (value_told (PBlock m0)) as (v & Hs & Ht); [eapply equiv_built; eauto|eapply ordinary_equiv; eauto|].
  unfold marshal_bson in H. unfold told in Ht. destruct (bson_value (PBlock m0)) as [[t b]|e] eqn:E; [|discriminate H].
  injection H as ->. destruct Ht as [_ [HL HV]]. cbn [fst snd] in *.
  assert (Ht : t = 3 /\ lenN data < 2 ^ 31).
  { rewrite value_block in E. destruct (block_body m0) as [b|e]; [|discriminate E]. unfold finish in E.
    destruct (N.leb_spec (0 + (4 + lenN b + 1)) 2147483647) as [L|L]; [|discriminate E].
    pose proof (f_equal (fun x : bson (N * bytes) => match x with inl y => fst y | inr _ => 0 end) E) as E1.
    apply (f_equal (fun x : bson (N * bytes) => match x with inl y => snd y | inr _ => [] end)) in E.
    cbn [fst snd] in E, E1. subst t data. split; [reflexivity|]. rewrite !lenN_app, ByteFacts.le_bytes_lenN, lenN_cons.
    change (lenN (@nil byte)) with 0. change (2 ^ 31) with 2147483648. lia. }
  destruct Ht as [-> Ht]. specialize (HV ltac:(lia)). inversion HV as [| |l ? Hd| | | | | |]; subst.
  exists l. split; [eapply shown_equiv; eauto|]. intro d'. split; [|intros ->; exact Hd].
  intro H. eapply document_unique; eauto.
Qed.
Print Assumptions C54_faithful.

(** MarshalBSON fails only for a key with a zero byte, which no BSON document
    can hold, or where the document reaches the limit of two gigabytes. *)
Theorem C54_refused : forall m e, built_block m -> ordinary (PBlock m) -> marshal_bson m = inr e ->
  zero_key (PBlock m) \/ exists v, shown (PBlock m) v /\ 2 ^ 31 - 2 <= size v.
Proof.
  intros m e Hb Ho H. destruct (value_told (PBlock m) Hb Ho) as (v & Hs & Ht).
  unfold marshal_bson in H. unfold told in Ht. destruct (bson_value (PBlock m)) as [[t b]|e']; [discriminate H|].
  destruct e'; [now left|right; eauto|right; eauto].
Qed.
Print Assumptions C54_refused.
Theorem C54_zero_key : forall m, built_block m -> ordinary (PBlock m) -> zero_key (PBlock m) ->
  exists e, marshal_bson m = inr e.
Proof.
  intros m Hb Ho Hz. destruct (value_told (PBlock m) Hb Ho) as (v & Hs & Ht).
  unfold marshal_bson. unfold told in Ht. destruct (bson_value (PBlock m)) as [[t b]|e]; [|now exists e].
  destruct Ht as [C _]. contradiction.
Qed.
Print Assumptions C54_zero_key.
(** [size] is the number of bytes. *)
Theorem C54_size : forall l b, document l b -> lenN b = size (VDoc l).
Proof.
  assert (A : (forall t v b, value t v b -> lenN b = size v) /\ (forall l b, document l b -> lenN b = size (VDoc l)) /\
              (forall l b, elements l b -> lenN b = esize l)).
  { apply bson_mutind; intros.
    - apply ByteFacts.f64_bytes_len.
    - destruct H as [_ ->]. cbn [size]. rewrite !lenN_app, ByteFacts.le_bytes_lenN, lenN_cons. change (lenN (@nil byte)) with 0. lia.
    - assumption.
    - now rewrite size_array.
    - destruct H as [_ ->]. cbn [size]. rewrite !lenN_app, ByteFacts.le_bytes_lenN, lenN_cons. change (lenN (@nil byte)) with 0. lia.
    - reflexivity.
    - apply ByteFacts.le_bytes_lenN.
    - reflexivity.
    - apply ByteFacts.le_bytes_lenN.
    - destruct H1 as [_ ->]. rewrite size_doc, !lenN_app, ByteFacts.le_bytes_lenN, lenN_cons. change (lenN (@nil byte)) with 0. lia.
    - reflexivity.
    - cbn [esize fst snd app]. rewrite lenN_cons, lenN_app, lenN_cons, lenN_app. lia. }
  apply A.
Qed.
Print Assumptions C54_size.

(** A time after the year 2262 (or before 1678) is exported as another time:
    its nanoseconds do not fit an int64. *)
Theorem C54_time_refuted : exists us ms data, built (PTime us) /\
  marshal_bson [(lit "t", PTime us)] = inl data /\ document [(lit "t", VDate ms)] data /\
  ~ shown (PTime us) (VDate ms).
Proof.
  exists 9223372036854776%Z, (-9223372036855)%Z. eexists. split; [split; reflexivity || discriminate|].
  split; [vm_compute; reflexivity|]. split.
  - refine (G_document _ (([n2b 9] ++ lit "t" ++ [x00] ++ le_bytes 8 (-9223372036855)) ++ []) (le_bytes 4 16) _ _).
    + rewrite <- !app_assoc. apply G_element; [intros [C|[]]; discriminate C| |constructor].
      constructor. split; reflexivity || discriminate.
    + split; reflexivity.
  - intro H. inversion H as [| | | | | | | |? ? C| | |]; subst. lia.
Qed.
Print Assumptions C54_time_refuted.
(** The export does not tell a byte from an integer. *)
Theorem C54_kind_refuted : exists p q, built p /\ built q /\ ~ prop_equiv p q /\
  marshal_bson [(lit "k", p)] = marshal_bson [(lit "k", q)] /\ exists d, marshal_bson [(lit "k", p)] = inl d.
Proof.
  exists (PByte x05), (PInt 5). split; [exact I|]. split; [split; reflexivity || discriminate|].
  split; [intro H; inversion H|]. split; [vm_compute; reflexivity|]. eexists. vm_compute. reflexivity.
Qed.
Print Assumptions C54_kind_refuted.

(** ** Non-vacuity *)
Definition bson_sample : block :=
  [(lit "STR", PString (lit "Meeee")); (lit "BYTE", PByte x7b); (lit "BOOL_ARR", new_bool_array [true; false; false]);
   (lit "TIME", PTime 1234567000001); (lit "VEC2", PVec2 (B754_zero 53 1024 true) (B754_finite 53 1024 false 4503599627370496 (-52) eq_refl));
   (lit "BIN_ARR", new_binary_array (lit "abc"));
   (lit "INTS", PArray 1 [PInt (-1); PInt 888888]);
   (lit "SUB", PBlock [(lit "FLOAT", PFloat (B754_infinity 24 128 true)); (lit "", PBlock [])])].
Example C54_sample_meets : built_block bson_sample /\ ordinary (PBlock bson_sample) /\
  exists data, marshal_bson bson_sample = inl data /\ lenN data = 178.
Proof.
  split; [|split].
  - unfold bson_sample, built_block. apply built_block_iff. split.
    + repeat constructor; cbn; intuition discriminate.
    + repeat (apply Forall_cons; [cbn [snd]|]); try apply Forall_nil; try exact I.
      * right. now exists [x01; x00; x00].
      * cbn. split; reflexivity || discriminate.
      * left. now exists (lit "abc").
      * cbn. repeat split; try discriminate; auto.
      * apply built_block_iff. split; [repeat constructor; cbn; intuition discriminate|].
        repeat (apply Forall_cons; [cbn [snd]|]); try apply Forall_nil; try exact I.
        apply built_block_iff. split; constructor.
  - apply O_block. intros k v Hin. unfold bson_sample in Hin.
    repeat (destruct Hin as [E|Hin]; [injection E as <- <-|]); try destruct Hin; try (now apply O_leaf).
    + apply O_bools. reflexivity.
    + apply O_time. split; reflexivity || discriminate.
    + apply O_bytes. reflexivity.
    + apply O_array. intros v [<-|[<-|[]]]; now apply O_leaf.
    + apply O_block. intros k v [E|[E|[]]]; injection E as <- <-; [now apply O_leaf|]. apply O_block. intros k v [].
  - eexists. split; [vm_compute; reflexivity|]. vm_compute. reflexivity.
Qed.
Example C54_zero_meets : zero_key (PBlock [(lit "a", PArray 11 [PBlock [(bs [97; 0], PInt 1)]])]) /\
  marshal_bson [(lit "a", PArray 11 [PBlock [(bs [97; 0], PInt 1)]])] = inr BadKey.
Proof.
  split; [|reflexivity]. eapply Z_block; [now left|]. eapply Z_array; [now left|]. eapply Z_here; [now left|].
  right. now left.
Qed.
