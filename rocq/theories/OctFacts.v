(** Packing octree cells, and reading back octree-coded positions. *)
From Coq Require Import ZArith Lia.
From Verif Require Import Base BaseFacts IO Spec IOFacts Floats ByteFacts BinaryIO BinaryIOFacts.
From Verif Require Import Metadata Recording SpecRec RecordingFacts Encoding SpecEnc.
From Verif Require Import EncPosition EncNumFacts.
Local Open Scope N_scope.

(** eight bits, least significant first *)
Fixpoint bits_val (l : list bool) : N :=
  match l with
  | [] => 0
  | b :: l' => (if b then 1 else 0) + 2 * bits_val l'
  end.
Lemma bits_val_lt : forall l, bits_val l < 2 ^ lenN l.
Proof.
  induction l as [|b l IH]; [reflexivity|]. cbn [bits_val]. rewrite lenN_cons, N.pow_add_r.
  change (2 ^ 1) with 2. destruct b; lia.
Qed.

Lemma land_bit : forall c j, N.shiftr (N.land c (N.shiftl 1 j)) j = if N.testbit c j then 1 else 0.
Proof.
  intros c j. apply N.bits_inj. intro k. rewrite N.shiftr_spec', N.land_spec.
  rewrite N.shiftl_spec_high' by lia. replace (k + j - j) with k by lia.
  destruct (N.eq_dec k 0) as [->|Hk].
  - change (N.testbit 1 0) with true. rewrite N.add_0_l, andb_true_r.
    destruct (N.testbit c j); reflexivity.
  - rewrite (N.bits_above_log2 1 k) by (change (N.log2 1) with 0; lia). rewrite andb_false_r.
    destruct (N.testbit c j); [|now rewrite N.bits_0].
    rewrite (N.bits_above_log2 1 k); [reflexivity | change (N.log2 1) with 0; lia].
Qed.

Lemma pack_plane_val : forall j cells i,
  pack_plane j i cells = N.shiftl (bits_val (map (fun c => N.testbit c j) cells)) i.
Proof.
  intros j. induction cells as [|c cells IH]; intro i; cbn [pack_plane map bits_val].
  - now rewrite N.shiftl_0_l.
  - rewrite land_bit, IH. set (b := N.testbit c j). set (v := bits_val _).
    rewrite (N.add_comm i 1), <- N.shiftl_shiftl.
    rewrite <- N.shiftl_lor. f_equal.
    apply N.bits_inj. intro k. rewrite N.lor_spec.
    destruct (N.eq_dec k 0) as [->|Hk].
    + rewrite N.shiftl_spec_low by lia. destruct b.
      * now rewrite N.add_comm, N.testbit_odd_0.
      * now rewrite N.add_0_l, N.testbit_even_0.
    + rewrite N.shiftl_spec_high' by lia. replace k with (N.succ (k - 1)) at 1 3 by lia.
      destruct b.
      * rewrite N.add_comm, N.testbit_odd_succ by lia.
        rewrite (N.bits_above_log2 1) by (change (N.log2 1) with 0; lia). reflexivity.
      * rewrite N.add_0_l, N.testbit_even_succ by lia. now rewrite N.bits_0.
Qed.

(** the bits of a byte *)
Definition bit (b : N) (i : N) : bool := N.testbit b i.
Definition byte_bits (b : N) : list bool := map (bit b) [0; 1; 2; 3; 4; 5; 6; 7].

Lemma byte_bits_val : forall l, length l = 8%nat -> byte_bits (b2n (n2b (bits_val l))) = l.
Proof.
  intros l H. do 8 (destruct l as [|[] l]; [discriminate| |]); try (destruct l; [|discriminate]).
  all: reflexivity.
Qed.
Lemma val_byte_bits : forall b, n2b (bits_val (byte_bits (b2n b))) = b.
Proof. intro b. destruct b; reflexivity. Qed.

Definition cell_bits (a b c : bool) : N :=
  (if a then 1 else 0) + (if b then 2 else 0) + (if c then 4 else 0).
Fixpoint zip3 (l0 l1 l2 : list bool) : list N :=
  match l0, l1, l2 with
  | a :: l0', b :: l1', c :: l2' => cell_bits a b c :: zip3 l0' l1' l2'
  | _, _, _ => []
  end.

Lemma land_1_bit : forall b i, N.land (N.shiftr b i) 1 = if N.testbit b i then 1 else 0.
Proof.
  intros b i. rewrite (N.land_ones _ 1 : N.land _ 1 = _). change (2 ^ 1) with 2.
  rewrite <- N.bit0_mod. rewrite N.shiftr_spec', N.add_0_l. now destruct (N.testbit b i).
Qed.
Lemma cell_lor : forall a b c : bool,
  N.lor (N.lor (if a then 1 else 0) (N.shiftl (if b then 1 else 0) 1))
        (N.shiftl (if c then 1 else 0) 2) = cell_bits a b c.
Proof. intros [] [] []; reflexivity. Qed.

Lemma unpack_zip : forall b0 b1 b2,
  unpack_cells 8 0 b0 b1 b2 = zip3 (byte_bits b0) (byte_bits b1) (byte_bits b2).
Proof.
  intros. cbn [unpack_cells]. rewrite !land_1_bit, !cell_lor. reflexivity.
Qed.

Lemma cell_split : forall c, c < 8 ->
  cell_bits (N.testbit c 0) (N.testbit c 1) (N.testbit c 2) = c.
Proof.
  intros c H. assert (E : In c [0; 1; 2; 3; 4; 5; 6; 7]).
  { destruct c as [|p]; [left; reflexivity|]. do 3 (try destruct p as [p|p|]); try lia; cbn; tauto. }
  repeat (destruct E as [<-|E]; [reflexivity|]). destruct E.
Qed.
Lemma zip_split : forall l, Forall (fun c => c < 8) l ->
  zip3 (map (fun c => N.testbit c 0) l) (map (fun c => N.testbit c 1) l)
       (map (fun c => N.testbit c 2) l) = l.
Proof.
  induction 1 as [|c l Hc H IH]; [reflexivity|]. cbn [map zip3]. now rewrite cell_split, IH.
Qed.
Lemma split_zip : forall l0 l1 l2, length l1 = length l0 -> length l2 = length l0 ->
  map (fun c => N.testbit c 0) (zip3 l0 l1 l2) = l0 /\
  map (fun c => N.testbit c 1) (zip3 l0 l1 l2) = l1 /\
  map (fun c => N.testbit c 2) (zip3 l0 l1 l2) = l2.
Proof.
  induction l0 as [|a l0 IH]; intros [|b l1] [|c l2] H1 H2; try discriminate; [auto|].
  cbn [zip3 map]. destruct (IH l1 l2) as (E0 & E1 & E2); auto. rewrite E0, E1, E2.
  destruct a, b, c; auto.
Qed.
Lemma zip3_length : forall l0 l1 l2, length l1 = length l0 -> length l2 = length l0 ->
  length (zip3 l0 l1 l2) = length l0.
Proof.
  induction l0 as [|a l0 IH]; intros [|b l1] [|c l2] H1 H2; try discriminate; [auto|].
  cbn [zip3 length]. f_equal. auto.
Qed.

Definition packs (n : nat) (pack : list N -> bytes) (unpack : bytes -> list N) (w : N) : Prop :=
  (forall cells, length cells = n -> Forall (fun c => c < 8) cells ->
     unpack (pack cells) = cells /\ lenN (pack cells) = w) /\
  (forall b, lenN b = w -> pack (unpack b) = b /\ length (unpack b) = n /\
     Forall (fun c => c < 8) (unpack b)).

Lemma zip3_lt : forall l0 l1 l2, Forall (fun c => c < 8) (zip3 l0 l1 l2).
Proof.
  induction l0 as [|a l0 IH]; intros [|b l1] [|c l2]; cbn [zip3]; try apply Forall_nil.
  constructor; [|apply IH]. now destruct a, b, c.
Qed.
Lemma packs24 : packs 8 cells_to_bytes24 bytes_to_cells24 3.
Proof.
  split.
  - intros cells Hl Hc. unfold cells_to_bytes24. rewrite firstn_all2 by lia.
    rewrite !pack_plane_val, !N.shiftl_0_r. split; [|reflexivity].
    cbn [bytes_to_cells24]. rewrite unpack_zip, !byte_bits_val by (now rewrite map_length).
    now apply zip_split.
  - intros b Hb. destruct b as [|b0 [|b1 [|b2 [|? ?]]]]; try (cbn in Hb; lia).
    cbn [bytes_to_cells24]. rewrite unpack_zip.
    assert (L : length (zip3 (byte_bits (b2n b0)) (byte_bits (b2n b1)) (byte_bits (b2n b2))) = 8%nat)
      by (now rewrite zip3_length).
    split; [|split; [exact L | apply zip3_lt]].
    unfold cells_to_bytes24. rewrite firstn_all2 by lia.
    rewrite !pack_plane_val, !N.shiftl_0_r.
    destruct (split_zip (byte_bits (b2n b0)) (byte_bits (b2n b1)) (byte_bits (b2n b2)))
      as (-> & -> & ->); auto. now rewrite !val_byte_bits.
Qed.
Lemma packs48 : packs 16 cells_to_bytes48 bytes_to_cells48 6.
Proof.
  destruct packs24 as [P U]. split.
  - intros cells Hl Hc. unfold cells_to_bytes48, bytes_to_cells48.
    rewrite <- (firstn_skipn 8 cells) in Hc at 1. apply Forall_app in Hc as [H1 H2].
    destruct (P (firstn 8 cells)) as [E1 L1]; auto; [rewrite firstn_length; lia|].
    destruct (P (skipn 8 cells)) as [E2 L2]; auto; [rewrite skipn_length; lia|].
    assert (EF : cells_to_bytes24 cells = cells_to_bytes24 (firstn 8 cells)).
    { unfold cells_to_bytes24. now rewrite firstn_firstn. }
    rewrite EF. split; [|rewrite lenN_app; now rewrite L1, L2].
    transitivity (firstn 8 cells ++ skipn 8 cells); [|apply firstn_skipn]. f_equal.
    + etransitivity; [|exact E1]. unfold cells_to_bytes24 at 1. reflexivity.
    + etransitivity; [|exact E2]. f_equal.
  - intros b Hb. do 6 (destruct b as [|? b]; [cbn in Hb; lia|]).
    destruct b; [|rewrite !lenN_cons in Hb; lia].
    unfold bytes_to_cells48. cbn [skipn].
    destruct (U [b0; b1; b2]) as (E1 & L1 & F1); [reflexivity|].
    destruct (U [b3; b4; b5]) as (E2 & L2 & F2); [reflexivity|].
    change (bytes_to_cells24 [b0; b1; b2; b3; b4; b5]) with (bytes_to_cells24 [b0; b1; b2]).
    set (c1 := bytes_to_cells24 [b0; b1; b2]) in *. set (c2 := bytes_to_cells24 [b3; b4; b5]) in *.
    split; [|split; [rewrite app_length; lia | now apply Forall_app]].
    unfold cells_to_bytes48.
    assert (EF : cells_to_bytes24 (c1 ++ c2) = cells_to_bytes24 c1).
    { unfold cells_to_bytes24. rewrite firstn_app, L1. cbn [Nat.sub firstn]. now rewrite app_nil_r. }
    assert (ES : skipn 8 (c1 ++ c2) = c2) by (rewrite skipn_app, L1, skipn_all2 by lia; reflexivity).
    rewrite EF, E1, ES, E2. reflexivity.
Qed.

(** ** reading back octree-coded positions *)
Lemma oct_enc_loop_ok : forall k v c ix iy iz,
  length (oct_enc_loop k v c ix iy iz) = k /\ Forall (fun c => c < 8) (oct_enc_loop k v c ix iy iz).
Proof.
  induction k as [|k IH]; intros; cbn [oct_enc_loop]; [auto|].
  edestruct IH as [L F]. split; [cbn [length]; f_equal; apply L|]. constructor; [|apply F].
  unfold cell_of. destruct (flt (vy v) (vy c)), (flt (vx v) (vx c)), (flt (vz v) (vz c)); reflexivity.
Qed.

(** The positions a decoder computes from the start and the steps' cells; the
    encoder follows the same path with the unrounded box. *)
Fixpoint oct_cells (k : nat) (mn mx q : vec) (l : list vec) : list (list N) :=
  match l with
  | [] => []
  | p :: l' =>
      let cells := oct_enc k (vsub p q) mn mx in
      cells :: oct_cells k mn mx (vadd q (oct_dec mn mx cells)) l'
  end.
Fixpoint oct_path (mn mx q : vec) (cs : list (list N)) : list vec :=
  match cs with
  | [] => []
  | c :: cs' => let q' := vadd q (oct_dec mn mx c) in q' :: oct_path mn mx q' cs'
  end.
Definition oct_values (k : nat) (l : list vec) : list vec :=
  match l with
  | [] => []
  | [p] => [vmap near32 p]
  | p :: rest =>
      let (mn, mx) := step_range p rest vec_pinf vec_minf in
      vmap near32 p :: oct_path (vmap near32 mn) (vmap near32 mx) (vmap near32 p)
                                (oct_cells k mn mx p rest)
  end.

Lemma oct_steps_cells : forall k pack mn mx l q,
  oct_steps k pack mn mx q l = flat_map pack (oct_cells k mn mx q l).
Proof.
  intros k pack mn mx. induction l as [|p l IH]; intro q; cbn [oct_steps oct_cells flat_map]; [auto|].
  now rewrite IH.
Qed.
Lemma oct_cells_length : forall k mn mx l q, length (oct_cells k mn mx q l) = length l.
Proof. intros k mn mx. induction l as [|p l IH]; intro q; cbn; [auto|]. now rewrite IH. Qed.
Lemma oct_path_length : forall mn mx cs q, length (oct_path mn mx q cs) = length cs.
Proof. intros mn mx. induction cs as [|p l IH]; intro q; cbn; [auto|]. now rewrite IH. Qed.

Lemma oct_unsteps_ok : forall k pack unpack w mn mx mn' mx', packs k pack unpack w -> w <> 0 ->
  forall l q cur times buf rest, length times = length l -> lenN buf = w ->
  oct_unsteps unpack mn' mx' cur times buf (oct_steps k pack mn mx q l ++ rest)
  = combine times (oct_path mn' mx' cur (oct_cells k mn mx q l)).
Proof.
  intros k pack unpack w mn mx mn' mx' [HP _] Hw.
  induction l as [|p l IH]; intros q cur [|t times] buf rest Ht Hb; try discriminate; [reflexivity|].
  injection Ht as Ht. cbn [oct_steps oct_cells oct_unsteps oct_path].
  set (cells := oct_enc k (vsub p q) mn mx).
  destruct (HP cells) as [E L]; [apply oct_enc_loop_ok | apply oct_enc_loop_ok |].
  rewrite <- app_assoc. rewrite flat_read_exact_.
  - rewrite E. rewrite IH by auto. reflexivity.
  - now rewrite L.
  - eapply len_nonempty; eauto.
Qed.

Lemma decode_oct_ok : forall k pack unpack w l times rest, packs k pack unpack (N.of_nat w) ->
  N.of_nat w <> 0 -> length times = length l ->
  decode_oct w unpack times (encode_oct k pack l ++ rest) = Ok (combine times (oct_values k l), None).
Proof.
  intros k pack unpack w l times rest HP Hw Ht.
  destruct l as [|p l]; [destruct times; [reflexivity|discriminate]|].
  destruct times as [|t times]; [discriminate|]. injection Ht as Ht.
  destruct l as [|p2 l].
  - destruct times; [|discriminate]. cbn [decode_oct encode_oct]. rewrite rd32v_flat. reflexivity.
  - destruct times as [|t2 times]; [discriminate|].
    unfold decode_oct, encode_oct, oct_values.
    destruct (step_range p (p2 :: l) vec_pinf vec_minf) as [mn mx].
    rewrite <- !app_assoc. rewrite rd32v_flat. cbn [bind]. rewrite rd32v_flat. cbn [bind].
    rewrite rd32v_flat. cbn [bind]. rewrite !vec_of32_near.
    rewrite (oct_unsteps_ok k pack unpack (N.of_nat w) mn mx _ _ HP Hw); auto.
    apply lenN_repeat.
Qed.
