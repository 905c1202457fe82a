(** Property C64: where an uncompressed file ends. *)
From Coq Require Import Lia.
From Verif Require Import Base BaseFacts IO Spec IOFacts Floats BinaryIO Recording SpecRec Encoding SpecEnc.
From Verif Require Import Writer Reader SpecFile SafeFacts BuiltinFacts Toy Demo SchedFacts TruncFacts DelimFacts PropFile PropRead.
Local Open Scope N_scope.

(** C64: whatever the bytes are and over whatever transport they come: if Read
    accepts them as an uncompressed file (the final state is that of the
    transport itself, not of an inflater on top of it), the count it returns is
    the number of bytes it took from the transport.  What it returns depends on
    these bytes only: behind them other bytes may follow, or none, over another
    transport. *)
Theorem C64_delimited : forall reg v1 IZ, Forall ends reg -> inflation_ends IZ ->
  forall S (R : Reader S) I s d rec n s', delivers R false I -> I s d -> (forall d', d <> x01 :: d') ->
  read reg v1 IZ R s = Ok (rec, n, None, inl s') ->
  exists file rest, d = file ++ rest /\ lenN file = n /\ I s' rest /\
  forall S2 (R2 : Reader S2) I2 s2 rest2, delivers R2 false I2 -> I2 s2 (file ++ rest2) ->
  exists s2', read reg v1 IZ R2 s2 = Ok (rec, n, None, inl s2') /\ I2 s2' rest2.
Proof. exact read_delimited. Qed.
Print Assumptions C64_delimited.

(** C64: no beginning of such a file is itself accepted, so a sequence of files
    can be taken apart in one way only. *)
Theorem C64_no_beginning : forall reg v1 IZ, Forall ends reg -> inflation_ends IZ ->
  forall S (R : Reader S) I s part missing rec n s', delivers R false I -> I s (part ++ missing) -> missing <> [] ->
  (forall d', part ++ missing <> x01 :: d') ->
  read reg v1 IZ R s = Ok (rec, n, None, inl s') -> n = lenN (part ++ missing) ->
  forall S2 (R2 : Reader S2) I2 s2, delivers R2 false I2 -> I2 s2 part ->
  forall rec2 n2 s2', read reg v1 IZ R2 s2 <> Ok (rec2, n2, None, s2').
Proof.
  intros reg v1 IZ Hreg HIZ S R I s part missing rec n s' HR HI Hm Hd E Hn S2 R2 I2 s2 HR2 HI2 rec2 n2 s2' E2.
  assert (Hd2 : forall d', part <> x01 :: d') by (intros d' ->; now apply (Hd (d' ++ missing))).
  pose proof (extend_read R2 R I2 I missing HR2 HR reg v1 IZ s2 s part rec2 n2 s2' Hreg HI2 HI Hd2 E2) as K.
  destruct s2' as [t|t]; [|now apply K in E].
  destruct K as (u & K & _). rewrite E in K. apply ok_inj in K.
  assert (n = n2) as -> by congruence.
  destruct (C64_delimited reg v1 IZ Hreg HIZ S2 R2 I2 s2 part rec2 n2 t HR2 HI2 Hd2 E2) as (file & rest & Ep & El & _).
  subst part. rewrite !lenN_app in Hn. assert (0 < lenN missing) by (destruct missing; [congruence | rewrite lenN_cons; lia]). lia.
Qed.
Print Assumptions C64_no_beginning.

(** C64: when Read reports an error instead, its count is at most the number of
    bytes it took (an incomplete encoder version, for one, is not counted). *)
Theorem C64_never_more : forall reg v1 IZ S (R : Reader S) I s d rec n e s',
  delivers R false I -> I s d -> (forall d', d <> x01 :: d') ->
  read reg v1 IZ R s = Ok (rec, n, e, inl s') ->
  exists taken rest, d = taken ++ rest /\ I s' rest /\ n <= lenN taken.
Proof. intros reg v1 IZ S R I s d rec n e s' HR. exact (read_upto R I HR reg v1 IZ s d rec n e s'). Qed.
Print Assumptions C64_never_more.
Example C64_example_fewer :
  match read (w_encs (raw_config false)) no_v1 toy_iz flat (bs [2; 1; 1; 97; 128]) with
  | Ok (None, n, Some EEOF, inl rest) => n = 4 /\ rest = [] | _ => False end.
Proof. vm_compute. split; reflexivity. Qed.

Lemma same_numbers : forall l l' : bytes, map b2n l = map b2n l' -> l = l'.
Proof.
  induction l as [|a l IH]; intros [|a' l'] Hl; try discriminate; [reflexivity|]. injection Hl as Ha Hl.
  f_equal; [rewrite <- (n2b_b2n a), Ha; apply n2b_b2n | auto].
Qed.
(** A damaged file (its stream names an unknown technique) with other bytes behind
    it: 72 bytes are read. *)
Definition trailing : bytes := small_file 9 0 ++ bs [2; 0; 7].
Example C64_example :
  match read (w_encs (raw_config false)) no_v1 toy_iz flat trailing with
  | Ok (Some _, n, None, inl rest) => n = 72 /\ map b2n rest = [2; 0; 7]
  | _ => False
  end.
Proof. vm_compute. split; reflexivity. Qed.
Example C64_example_applied : exists file rec s,
  lenN file = 72 /\ trailing = file ++ bs [2; 0; 7] /\
  read (w_encs (raw_config false)) no_v1 toy_iz (chunked false) (bytewise (file ++ bs [1])) = Ok (rec, 72, None, inl s) /\ concat s = bs [1].
Proof.
  destruct (read (w_encs (raw_config false)) no_v1 toy_iz flat trailing) as [[[[rec n] e] t]| |] eqn:E;
    pose proof C64_example as X; rewrite E in X; try contradiction.
  destruct rec as [rec|]; [|contradiction]. destruct e; [contradiction|]. destruct t as [t|]; [|contradiction]. destruct X as [-> Ht].
  destruct (C64_delimited (w_encs (raw_config false)) no_v1 toy_iz (raw_ends false) toy_ends _ flat _ trailing trailing (Some rec) 72 t
    (flat_delivers false) eq_refl) as (file & rest & Ed & El & <- & H); [discriminate | exact E|].
  destruct (H _ (chunked false) _ (bytewise (file ++ bs [1])) (bs [1]) (chunked_delivers false) (bytewise_ok _)) as (s' & Es & _ & Hs).
  assert (t = bs [2; 0; 7]) as ->.
  { apply same_numbers. rewrite Ht. reflexivity. }
  exists file, (Some rec), s'. split; [exact El|]. split; [exact Ed|]. split; [exact Es | symmetry; exact Hs].
Qed.
