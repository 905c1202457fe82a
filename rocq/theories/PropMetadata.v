(** Properties C05 and C06: metadata properties. *)
From Coq Require Import ZArith Permutation.
From Verif Require Import Base BaseFacts IO Spec SpecMeta IOFacts Floats BinaryIO.
From Verif Require Import BinaryIOFacts Metadata MetadataFacts.
Local Open Scope N_scope.

(** C05: every property made with the constructors can be written, and is
    returned equal, whatever reader delivers the bytes and whatever follows;
    exactly the written bytes are consumed. *)
Theorem C05_property_roundtrip : forall p, built p ->
  exists enc, write_property p = Ok enc /\
  (lenN enc <= 2 ^ 44 ->
   forall S (R : Reader S) eager (I : S -> bytes -> Prop), delivers R eager I ->
   forall s rest, I s (enc ++ rest) -> more eager rest ->
   exists s', read_property R s = Ok (Some p, None, s') /\ I s' rest).
Proof.
  intros p Hp. destruct (built_writes p Hp) as [enc E]. exists enc. split; [exact E|].
  intros Hl S R eager I HR. exact (read_property_ok (delivers_serves R eager I HR) p enc Hp E Hl).
Qed.
Print Assumptions C05_property_roundtrip.

Definition sample_prop : prop :=
  PBlock [(bs [97], PArray 1 [PInt (-5)%Z; PInt 7%Z]);
          (bs [98], PBlock [(bs [], new_bool_array [true; false]); (bs [99], PBool true)]);
          (bs [99], PArray 11 [PBlock []; PBlock [(bs [1], PTime (-1)%Z)]])].
Example C05_example :
  built sample_prop /\
  exists enc, write_property sample_prop = Ok enc /\ lenN enc = 43 /\
    read_property (chunked true) (map (fun b => [b]) enc ++ [bs [9]])
    = Ok (Some sample_prop, None, [bs [9]]).
Proof.
  split.
  - unfold sample_prop. cbn [built snd].
    repeat match goal with
    | |- _ /\ _ => split
    | |- True => exact I
    | |- NoDup _ => repeat constructor; cbn; intuition discriminate
    | |- In _ _ => cbn; tauto
    | |- _ = _ => reflexivity
    | |- built (new_bool_array _) => right; eexists; reflexivity
    | |- (_ <= _)%Z => discriminate
    | |- (_ < _)%Z => reflexivity
    end.

  - eexists. split; [vm_compute; reflexivity|]. split; vm_compute; reflexivity.
Qed.

(** C06: any two runs may visit the entries of every block, at every depth,
    in different orders ([prop_equiv p q]: [q] is [p] as one run happens to
    see it).  Whatever the order, what is read is the same property. *)
Theorem C06_property_any_order : forall p q, built p -> prop_equiv p q ->
  exists enc, write_property q = Ok enc /\
  (lenN enc <= 2 ^ 44 ->
   forall S (R : Reader S) eager (I : S -> bytes -> Prop), delivers R eager I ->
   forall s rest, I s (enc ++ rest) -> more eager rest ->
   exists p' s', read_property R s = Ok (Some p', None, s') /\ I s' rest /\
                 prop_equiv p p' /\ built p').
Proof.
  intros p q Hp Hq. pose proof (equiv_built p q Hq Hp) as Hb.
  destruct (built_writes q Hb) as [enc E]. exists enc. split; [exact E|].
  intros Hl S R eager I HR s rest HI Hm.
  destruct (read_property_ok (delivers_serves R eager I HR) q enc Hb E Hl s rest HI Hm)
    as (s' & E' & HI').
  exists q, s'. auto.
Qed.
Print Assumptions C06_property_any_order.

(** Equivalent blocks are the same mapping: equal keys, equivalent values. *)
Theorem C06_same_mapping : forall m n, built (PBlock m) -> block_equiv m n ->
  forall k, opt_equiv (lookup k m) (lookup k n).
Proof.
  intros m n H. apply built_block_iff in H as [H _]. exact (block_equiv_lookup m n H).
Qed.
Print Assumptions C06_same_mapping.

Example C06_example :
  let inner1 := [(bs [1], PBool true); (bs [2], PInt 3%Z)] in
  let inner2 := [(bs [2], PInt 3%Z); (bs [1], PBool true)] in
  let p := PBlock [(bs [97], PBlock inner1); (bs [98], PString (bs [120]))] in
  let q := PBlock [(bs [98], PString (bs [120])); (bs [97], PBlock inner2)] in
  prop_equiv p q /\ write_property p <> write_property q.
Proof.
  cbv zeta. split; [|vm_compute; discriminate].
  apply PE_block. eapply BE; [apply perm_swap|].
  constructor; [constructor|]. constructor; [|constructor].
  apply PE_block, perm_block_equiv, perm_swap.
Qed.
