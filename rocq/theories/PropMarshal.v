(** C45: metadata written as JSON and read again. *)
From Coq Require Import Strings.String Permutation Reals Lia.
From Flocq Require Import IEEE754.Binary IEEE754.Bits.
From Verif Require Import Base BaseFacts Floats Metadata SpecMeta MetadataFacts Recording SpecRec SpecFile.
From Verif Require Import Text SpecText TextFacts Json SpecJson JsonFacts SpecToJson Quote JsonText SpecJsonText QuoteFacts JsonTextFacts JsonOrderFacts.
From Verif Require Import NumFacts Near32Facts ToJson ToJsonFacts MarshalFacts PropJson PropJsonText.
Local Open Scope N_scope.

Section RoundTrip.
Context (parse64 : str -> option f64) (reparse32 : f64 -> option f32) (num64 : f64 -> str) (num32 : f32 -> str)
  (time_text : Z -> str) (parse_time : str -> option Z) (HN : number_text parse64 reparse32 num64 num32).
Notation marshal := (marshal json_quote num64 num32 time_text).
Notation unmarshal_block := (unmarshal_block parse64 parse_time reparse32).
Notation block_of_json := (block_of_json parse_time reparse32).
Notation get := (get_properties parse_time reparse32).
Lemma marshal_decodes : forall p, printable p -> (levels p <= N.to_nat 10000)%nat ->
  exists text t, marshal p = Some text /\ shown clean num64 num32 time_text p t /\
    forall j, means parse64 t j -> decodes parse64 text j.
Proof.
  intros p Hp Hl.
  destruct (marshal_reads _ clean _ _ time_text (go_writer _ _ (written64 _ _ _ _ HN) (written32 _ _ _ _ HN)) p Hp) as (text & t & E & Hr & Hs).
  exists text, t. split; [exact E|]. split; [exact Hs|]. intros j Hj. exists text, t. split; [|split; [|split; [|exact Hj]]].
  - pose proof (clean_repaired text) as H. rewrite (clean_valid_id text) in H; [exact H|].
    eapply marshal_valid; [exact HN|exact E].
  - exists [], text, []. rewrite app_nil_r. repeat split; [constructor|exact Hr|constructor].
  - exact (shown_nesting _ _ _ parse_time _ _ _ Hs Hl).
Qed.
Lemma says_block : forall j b, says parse_time reparse32 j (PBlock b) -> block_of_json j = Ok (Some b).
Proof.
  intros j b H. pose proof (get_complete _ _ _ _ H) as E. inversion H; subst. cbn [JsonText.block_of_json]. rewrite E. reflexivity.
Qed.
Lemma round_trip : forall m, faithful time_text parse_time (PBlock m) -> (levels (PBlock m) <= N.to_nat 10000)%nat ->
  exists text, marshal (PBlock m) = Some text /\
    (exists b, unmarshal_block text = Ok (Some b) /\ block_equiv m b) /\
    (forall j, decodes parse64 text j -> exists b, block_of_json j = Ok (Some b) /\ block_equiv m b).
Proof.
  intros m Hf Hl. destruct (marshal_decodes _ (faithful_printable _ _ _ Hf) Hl) as (text & t & E & Hs & Hd).
  destruct (shown_back _ _ _ _ _ _ HN _ _ Hf Hs) as (j0 & p0 & Hm & Hp & He). apply Hd in Hm.
  assert (A : forall j, decodes parse64 text j -> exists b, block_of_json j = Ok (Some b) /\ block_equiv m b).
  { intros j Hj. destruct (says_same _ _ _ j _ (decodes_wf _ _ _ Hm) (C44_one_meaning _ _ _ _ Hm Hj) Hp) as (p1 & Hp1 & He1).
    pose proof (prop_equiv_trans _ _ _ He He1) as Hx. inversion Hx as [q|? b Hb|]; subst.
    - exists m. split; [now apply says_block|apply block_equiv_refl].
    - exists b. split; [now apply says_block|exact Hb]. }
  exists text. split; [exact E|]. split; [|exact A].
  destruct (decodes_unmarshal _ _ _ Hm) as (j' & Ej & _). unfold JsonText.unmarshal_block. rewrite Ej. apply A. now apply unmarshal_decodes.
Qed.
Lemma single : forall k v, valid_utf8 k -> printable v -> (levels v < N.to_nat 10000)%nat ->
  exists text t, marshal (PBlock [(k, v)]) = Some text /\ shown clean num64 num32 time_text v t /\
    forall j, means parse64 t j -> jwf j /\ exists j', same_json j j' /\
      unmarshal_block text = do p <- get j'; match p with Some p => ret [(k, p)] | None => fail end.
Proof.
  intros k v Hk Hv Hl. destruct (marshal_decodes (PBlock [(k, v)])) as (text & t & E & Hs & Hd).
  { constructor. repeat constructor. exact Hv. }
  { cbn [levels snd]. lia. }
  inversion Hs as [| | | | | | |? m' l Hp HF| | | | |]; subst. apply Permutation_length_1_inv in Hp. subst m'.
  inversion HF as [|? [k' t'] ? l' [Ek Hv'] HF']; subst. inversion HF'; subst. cbn [fst snd] in *. rewrite clean_valid_id in Ek by exact Hk. subst k'.
  exists text, t'. split; [exact E|]. split; [exact Hv'|]. intros j Hj. split; [eapply means_wf; exact Hj|].
  assert (Hm : means parse64 (TObj [(k, t')]) (JObj [(k, j)])).
  { apply N_obj with [(k, j)]; [now repeat constructor| |reflexivity]. cbn. repeat constructor. intros []. }
  apply Hd in Hm. destruct (decodes_unmarshal _ _ _ Hm) as (o & Eo & So).
  inversion So as [| | | | |? m1 m2 Hp HF2]; subst. apply Permutation_length_1_inv in Hp. subst m1.
  inversion HF2 as [|? [k2 j'] ? ? [Ek2 Hj'] HF3]; subst. inversion HF3; subst. cbn [fst snd] in *. subst k2.
  exists j'. split; [exact Hj'|]. unfold JsonText.unmarshal_block. rewrite Eo. cbn [JsonText.block_of_json].
  rewrite block_props. 2:{ intros [[L _]|[L _]]; discriminate L. }
  cbn [each]. unfold entry_of. cbn [fst snd]. destruct (get j') as [[p|]| |]; reflexivity.
Qed.
(** What a value becomes when it is the only entry. *)
Definition becomes (v : prop) (r : res (option prop)) : Prop :=
  forall k, valid_utf8 k -> exists text, marshal (PBlock [(k, v)]) = Some text /\
    unmarshal_block text = do p <- r; match p with Some p => ret [(k, p)] | None => fail end.
Lemma becomes_ok : forall v r, printable v -> (levels v < N.to_nat 10000)%nat ->
  (forall t, shown clean num64 num32 time_text v t -> exists j, means parse64 t j /\ forall j', same_json j j' -> get j' = r) -> becomes v r.
Proof.
  intros v r Hv Hl H k Hk. destruct (single k v Hk Hv Hl) as (text & t & E & Hs & Hj). destruct (H t Hs) as (j & Hm & Hr).
  exists text. split; [exact E|]. destruct (Hj j Hm) as (_ & j' & Sj & Eu). now rewrite Eu, (Hr j' Sj).
Qed.
Lemma same_num : forall x j, same_json (JNum x) j -> j = JNum x. Proof. intros x j H. now inversion H. Qed.
Lemma same_str : forall s j, same_json (JStr s) j -> j = JStr s. Proof. intros s j H. now inversion H. Qed.
Lemma big_int : forall z, (10 ^ 6 <= Z.abs z)%Z -> (- 2 ^ 31 <= z < 2 ^ 31)%Z -> becomes (PInt z) (Ok None).
Proof.
  intros z Hz Hr. apply becomes_ok; [constructor|cbn [levels]; lia|]. intros t H. inversion H as [|? tx Ht| | | | | | | | | | |]; subst.
  destruct (reads_int _ _ _ _ HN tx z Ht Hr) as (x & Ex & Hx). exists (JNum x). split; [now constructor|].
  intros j' Sj. apply same_num in Sj as ->. apply unreadable_no_trap. right. eauto.
Qed.
Lemma whole_float : forall f z, is_finite 24 128 f = true -> B2R 24 128 f = IZR z -> (Z.abs z < 10 ^ 6)%Z ->
  becomes (PFloat f) (Ok (Some (PInt z))).
Proof.
  intros f z Hf Hz Hr. change (10 ^ 6)%Z with 1000000%Z in Hr. apply becomes_ok; [now constructor|cbn [levels]; lia|].
  intros t H. inversion H; subst. destruct (reads32 _ _ _ _ HN f Hf) as (x & Ex & _ & Hx & _ & Hi).
  exists (JNum x). split; [now constructor|]. intros j' Sj. apply same_num in Sj as ->. apply get_complete. apply S_int.
  - split; [exact Hx|]. split; [apply Hi; [change (2 ^ 24)%Z with 16777216%Z; lia|exact Hz]|].
    change (2 ^ 63)%Z with 9223372036854775808%Z. lia.
  - change (10 ^ 6)%Z with 1000000%Z. lia.
Qed.
Lemma one_byte : forall b, becomes (new_binary_array [b]) (Ok (Some (PByte b))).
Proof.
  intro b. apply becomes_ok; [constructor; reflexivity|cbn [levels new_binary_array]; lia|].
  intros t H. inversion H as [| | | | | | | | | |d s [Hh _] Ed| |]; subst. symmetry in Ed. apply raw_inj in Ed as <-; [|reflexivity].
  exists (JStr (lit "0x" ++ s)). split; [constructor|]. intros j' Sj. apply same_str in Sj as ->. apply get_complete.
  inversion Hh as [|a c x y s' d Ha Hc Hn]; subst. inversion Hn; subst. now constructor.
Qed.
Lemma empty_array : forall c, becomes (PArray c []) Panic.
Proof.
  intro c. apply becomes_ok; [constructor; constructor|cbn [levels]; lia|]. intros t H. inversion H as [| | | | | | | | |? ? l HF| | |]; subst.
  inversion HF; subst. exists (JArr []). split; [constructor; constructor|]. intros j' Sj. inversion Sj as [| | | |? l' HF'|]; subst.
  inversion HF'; subst. reflexivity.
Qed.
Lemma text_becomes : forall s r, valid_utf8 s -> get (JStr s) = r -> becomes (PString s) r.
Proof.
  intros s r Hs Hr. apply becomes_ok; [constructor|cbn [levels]; lia|]. intros t H. inversion H; subst. rewrite clean_valid_id by exact Hs.
  exists (JStr s). split; [constructor|]. intros j' Sj. now apply same_str in Sj as ->.
Qed.
Lemma quote_text : forall s t, valid_utf8 (s ++ """"%byte :: t) -> plain_text s -> ~ starts_0x (s ++ """"%byte :: t) ->
  becomes (PString (s ++ """"%byte :: t)) (Ok None).
Proof. intros s t Hu Hs Hx. apply text_becomes; [exact Hu|]. apply unreadable_no_trap. left. eauto. Qed.
Lemma time_like : forall s us, text_ok s -> parse_time s = Some us -> becomes (PString s) (Ok (Some (PTime us))).
Proof.
  intros s us (Hu & Hp & Hx) Ht. apply text_becomes; [exact Hu|]. apply get_complete. eapply S_time; eauto using plain_unquote. congruence.
Qed.
Lemma hex_like : forall h d, valid_utf8 (lit "0x" ++ h) -> hex_text h d -> length d <> 1%nat ->
  becomes (PString (lit "0x" ++ h)) (Ok (Some (new_binary_array d))).
Proof.
  intros h d Hu Hh Hl. apply text_becomes; [exact Hu|]. apply get_complete. constructor; [|exact Hh]. apply hex_length in Hh. lia.
Qed.
Lemma coordinates : forall f g, is_finite 24 128 f = true -> is_finite 24 128 g = true ->
  exists x y, becomes (PBlock [(lit "x", PFloat f); (lit "y", PFloat g)]) (Ok (Some (PVec2 x y))).
Proof.
  intros f g Hf Hg. destruct (reads32 _ _ _ _ HN f Hf) as (x & Ex & _). destruct (reads32 _ _ _ _ HN g Hg) as (y & Ey & _).
  exists x, y. apply becomes_ok; [repeat constructor; assumption|cbn [levels snd]; lia|]. intros t H.
  inversion H as [| | | | | | |? m' l Hp HF| | | | |]; subst.
  assert (Hn : NoDup (map fst [(lit "x", JNum x); (lit "y", JNum y)])) by (repeat constructor; cbn; intuition discriminate).
  assert (Hs : says parse_time reparse32 (JObj [(lit "x", JNum x); (lit "y", JNum y)]) (PVec2 x y)).
  { constructor; try reflexivity. split; [reflexivity|]. intros k [<-|[<-|[]]]; cbn; auto. }
  exists (JObj [(lit "x", JNum x); (lit "y", JNum y)]). split.
  - apply Permutation_length_2_inv in Hp as [-> | ->].
    + inversion HF as [|? [k1 t1] ? l1 [E1 H1] HF1]; subst. inversion HF1 as [|? [k2 t2] ? l2 [E2 H2] HF2]; subst. inversion HF2; subst.
      cbn [fst snd] in *. inversion H1; inversion H2; subst. apply N_obj with [(lit "x", JNum x); (lit "y", JNum y)]; [|exact Hn|].
      * repeat constructor; assumption.
      * intro k. apply jlookup_perm; [exact Hn|apply Permutation_rev].
    + inversion HF as [|? [k1 t1] ? l1 [E1 H1] HF1]; subst. inversion HF1 as [|? [k2 t2] ? l2 [E2 H2] HF2]; subst. inversion HF2; subst.
      cbn [fst snd] in *. inversion H1; inversion H2; subst. apply N_obj with [(lit "y", JNum y); (lit "x", JNum x)]; [|exact Hn|reflexivity].
      repeat constructor; assumption.
  - intros j' Sj. destruct (says_same _ _ _ j' _ (W_obj _ Hn ltac:(repeat constructor)) Sj Hs) as (p' & Hp' & He).
    inversion He; subst. now apply get_complete.
Qed.
End RoundTrip.

(** Faithful metadata written with MarshalJSON reads back with UnmarshalJSON, in
    whatever order Go visits the decoded maps. *)
Theorem C45_round_trip : forall parse64 reparse32 num64 num32 time_text parse_time,
  number_text parse64 reparse32 num64 num32 -> forall m,
  faithful time_text parse_time (PBlock m) -> (levels (PBlock m) <= N.to_nat 10000)%nat ->
  exists text, marshal json_quote num64 num32 time_text (PBlock m) = Some text /\
    (exists b, unmarshal_block parse64 parse_time reparse32 text = Ok (Some b) /\ block_equiv m b) /\
    (forall j, decodes parse64 text j -> exists b, block_of_json parse_time reparse32 j = Ok (Some b) /\ block_equiv m b).
Proof. intros. now apply round_trip. Qed.
Print Assumptions C45_round_trip.

(** Other metadata does not: an integer of seven digits or a text with a quote
    makes the reader fail, ... *)
Theorem C45_error_refuted : forall parse64 reparse32 num64 num32 time_text parse_time,
  number_text parse64 reparse32 num64 num32 -> forall k, valid_utf8 k ->
  (forall z, (10 ^ 6 <= Z.abs z)%Z -> (- 2 ^ 31 <= z < 2 ^ 31)%Z ->
     exists text, marshal json_quote num64 num32 time_text (PBlock [(k, PInt z)]) = Some text /\
       unmarshal_block parse64 parse_time reparse32 text = Ok None) /\
  (forall s t, valid_utf8 (s ++ """"%byte :: t) -> plain_text s -> ~ starts_0x (s ++ """"%byte :: t) ->
     exists text, marshal json_quote num64 num32 time_text (PBlock [(k, PString (s ++ """"%byte :: t))]) = Some text /\
       unmarshal_block parse64 parse_time reparse32 text = Ok None).
Proof.
  intros p r n6 n3 tt pt HN k Hk. split.
  - intros z Hz Hr. exact (big_int p r n6 n3 tt pt HN z Hz Hr k Hk).
  - intros s t Hu Hs Hx. exact (quote_text p r n6 n3 tt pt HN s t Hu Hs Hx k Hk).
Qed.
Print Assumptions C45_error_refuted.
(** ... an empty array makes it panic, ... *)
Theorem C45_panic_refuted : forall parse64 reparse32 num64 num32 time_text parse_time,
  number_text parse64 reparse32 num64 num32 -> forall k c, valid_utf8 k ->
  exists text, marshal json_quote num64 num32 time_text (PBlock [(k, PArray c [])]) = Some text /\
    unmarshal_block parse64 parse_time reparse32 text = Panic.
Proof. intros p r n6 n3 tt pt HN k c Hk. exact (empty_array p r n6 n3 tt pt HN c k Hk). Qed.
Print Assumptions C45_panic_refuted.
(** ... and some values come back as others: a whole float as an integer, one byte
    in an array as a byte, text that looks like a time or like hexadecimal as a
    time or an array of bytes, and a block with the keys x and y as a vector. *)
Theorem C45_confused_refuted : forall parse64 reparse32 num64 num32 time_text parse_time,
  number_text parse64 reparse32 num64 num32 -> forall k, valid_utf8 k ->
  let becomes v w := exists text, marshal json_quote num64 num32 time_text (PBlock [(k, v)]) = Some text /\
    unmarshal_block parse64 parse_time reparse32 text = Ok (Some [(k, w)]) in
  (forall f z, is_finite 24 128 f = true -> B2R 24 128 f = IZR z -> (Z.abs z < 10 ^ 6)%Z -> becomes (PFloat f) (PInt z)) /\
  (forall b, becomes (new_binary_array [b]) (PByte b)) /\
  (forall s us, text_ok s -> parse_time s = Some us -> becomes (PString s) (PTime us)) /\
  (forall h d, valid_utf8 (lit "0x" ++ h) -> hex_text h d -> length d <> 1%nat ->
     becomes (PString (lit "0x" ++ h)) (new_binary_array d)) /\
  (forall f g, is_finite 24 128 f = true -> is_finite 24 128 g = true -> exists x y,
     becomes (PBlock [(lit "x", PFloat f); (lit "y", PFloat g)]) (PVec2 x y)).
Proof.
  intros p r n6 n3 tt pt HN k Hk becomes. split; [|split; [|split; [|split]]].
  - intros f z Hf Hz Hr. exact (whole_float p r n6 n3 tt pt HN f z Hf Hz Hr k Hk).
  - intro b. exact (one_byte p r n6 n3 tt pt HN b k Hk).
  - intros s us Hs Ht. exact (time_like p r n6 n3 tt pt HN s us Hs Ht k Hk).
  - intros h d Hu Hh Hl. exact (hex_like p r n6 n3 tt pt HN h d Hu Hh Hl k Hk).
  - intros f g Hf Hg. destruct (coordinates p r n6 n3 tt pt HN f g Hf Hg) as (x & y & H). exists x, y. exact (H k Hk).
Qed.
Print Assumptions C45_confused_refuted.

(** ** Examples *)
(** A way of writing numbers with these laws: the bits of a float as a fraction. *)
Definition toy_num64 (x : f64) : str := lit "1." ++ show_N (Z.to_N (bits_of_b64 x)).
Definition toy_num32 (f : f32) : str := toy_num64 (f64_of_f32 f).
Definition toy_parse (t : str) : option f64 :=
  match strip (lit "1.") t with
  | Some d => Some (b64_of_bits (Z.of_N (text_val 0 d)))
  | None => match strip (lit "-") t with
            | Some d => Some (f64_of_Z (- Z.of_N (text_val 0 d)))
            | None => Some (f64_of_Z (Z.of_N (text_val 0 t)))
            end
  end.
Lemma strip_none : forall c p t, ~ In c t -> In c p -> strip p t = None.
Proof.
  intros c p t Ht Hp. destruct (strip p t) as [r|] eqn:E; [|reflexivity]. apply strip_iff in E. elim Ht. rewrite E. apply in_or_app. now left.
Qed.
Lemma not_digit : forall c t, Forall digit t -> In c t -> digit c.
Proof. intros c t H Hin. rewrite Forall_forall in H. auto. Qed.
Lemma toy_num_number : forall x, number (toy_num64 x).
Proof.
  intro x. unfold toy_num64. set (n := Z.to_N (bits_of_b64 x)). clearbody n.
  change (lit "1." ++ show_N n) with ([] ++ lit "1" ++ (lit "." ++ show_N n)). rewrite <- (app_nil_r (lit "." ++ show_N n)).
  destruct (show_N_spells n) as (H1 & H2 & _). constructor; auto.
  - split; [discriminate|]. constructor; [|constructor]. split; [apply N.leb_le|apply N.leb_le]; reflexivity.
  - intro E. discriminate E.
  - right. exists (show_N n). split; [reflexivity|]. split; auto.
Qed.
Lemma toy_reads : forall x, toy_parse (toy_num64 x) = Some x.
Proof.
  intro x. unfold toy_parse, toy_num64. replace (strip (lit "1.") _) with (Some (show_N (Z.to_N (bits_of_b64 x)))) by (symmetry; now apply strip_iff).
  destruct (show_N_spells (Z.to_N (bits_of_b64 x))) as (_ & _ & -> & _). f_equal. rewrite Z2N.id.
  - exact (binary_float_of_bits_of_binary_float 52 11 eq_refl eq_refl eq_refl x).
  - exact (proj1 (bits_of_binary_float_range 52 11 eq_refl eq_refl x)).
Qed.
Lemma toy_numbers : number_text toy_parse (fun x => Some (f32_of_f64 x)) toy_num64 toy_num32.
Proof.
  split.
  - intros x _. apply toy_num_number.
  - intros f _. apply toy_num_number.
  - intros t z Ht Hz. change (2 ^ 31)%Z with 2147483648%Z in Hz.
    assert (I : integral (f64_of_Z z) z).
    { destruct (val_f64_of_Z z) as [H1 H2]; [change (2 ^ 53)%Z with 9007199254740992%Z; lia|].
      split; [exact H1|]. split; [exact H2|]. change (2 ^ 63)%Z with 9223372036854775808%Z. lia. }
    exists (f64_of_Z z). split; [|exact I]. clear I. unfold toy_parse.
    destruct Ht as [(n & -> & (_ & Hd & Hv & _))|(n & d & -> & _ & -> & (_ & Hd & Hv & _))].
    + rewrite (strip_none "."%byte), (strip_none "-"%byte); [|intro Hin; pose proof (not_digit _ _ Hd Hin) as [H _]; now elim H|now left|
        intro Hin; pose proof (not_digit _ _ Hd Hin) as [H _]; now elim H|right; now left]. now rewrite Hv.
    + rewrite (strip_none "."%byte); [|intros [E|Hin]; [discriminate E|pose proof (not_digit _ _ Hd Hin) as [H _]; now elim H]|right; now left].
      replace (strip (lit "-") (lit "-" ++ d)) with (Some d) by (symmetry; now apply strip_iff). now rewrite Hv.
  - intros x _. apply toy_reads.
  - intros f Hf. destruct (f64_of_f32_correct f Hf) as (H1 & H2 & _). exists (f64_of_f32 f). split; [apply toy_reads|]. split; [|split; [exact H1|split]].
    + f_equal. apply f32_f64_f32. destruct f; try reflexivity; discriminate Hf.
    + intros [z Hz]. exists z. rewrite <- Hz. symmetry. exact H2.
    + intros z _ Hz. rewrite <- Hz. exact H2.
Qed.
Definition half32 : f32 := B754_finite 24 128 false 8388608 (-24) eq_refl.
Definition toy_clock (us : Z) : str := lit "noon".
Definition notes : block :=
  [(lit "text", PString (lit "caf" ++ utf8 233)); (lit "int", PInt (-999999)); (lit "half", PFloat half32); (lit "yes", PBool true);
   (lit "byte", PByte xff); (lit "at", PVec2 d_half d_million); (lit "when", PTime 43200000000); (lit "none", PNil);
   (lit "bytes", new_binary_array [x01; xff]); (lit "bools", new_bool_array [true; false]);
   (lit "list", PArray 1 [PInt 1; PInt 2]); (lit "x", PBlock [(lit "x", PInt 1)])].
Lemma half_no_integer : forall z, B2R 24 128 half32 <> IZR z.
Proof.
  intros z E. assert (H : B2R 24 128 half32 = (/ 2)%R).
  { unfold half32, B2R, Defs.F2R. cbn [Defs.Fnum Defs.Fexp Zaux.cond_Zopp]. change (Raux.bpow Zaux.radix2 (-24)) with (/ 16777216)%R. Lra.lra. }
  rewrite H in E. assert (E2 : (IZR (2 * z) = 1)%R) by (rewrite mult_IZR; Lra.lra). apply eq_IZR in E2. lia.
Qed.
Ltac txt_ok := split; [|split]; [apply ascii_valid; repeat (apply Forall_cons; [reflexivity|]); apply Forall_nil|plain_txt|intros (? & E); discriminate E].
Example notes_faithful : faithful toy_clock toy_time (PBlock notes) /\ (levels (PBlock notes) <= N.to_nat 10000)%nat.
Proof.
  assert (HV : forall s, forallb (fun c => b2n c <? 128) (lit s) = true -> valid_utf8 (lit s)) by (intros; now apply lit_valid).
  assert (HI : forall z, (-1000000 < z < 1000000)%Z -> faithful toy_clock toy_time (PInt z)).
  { intros z Hz. constructor. change (10 ^ 6)%Z with 1000000%Z. exact Hz. }
  split; [|apply PeanoNat.Nat.leb_le; vm_compute; reflexivity].
  constructor.
  - unfold notes. cbn [map fst]. repeat (apply NoDup_cons; [cbn; intuition discriminate|]). apply NoDup_nil.
  - intros [[L _]|[L _]]; discriminate L.
  - unfold notes. repeat apply Forall_cons; try apply Forall_nil; cbn [fst snd]; (split; [apply HV; reflexivity|]).
    + constructor; [|reflexivity]. split; [|split].
      * apply valid_app; [apply HV; reflexivity|]. rewrite <- (app_nil_r (utf8 233)). constructor; [left; reflexivity|constructor].
      * repeat (apply Forall_cons; [repeat split; try (intro E; discriminate E)|]). apply Forall_nil.
      * intros (? & E). discriminate E.
    + apply HI. lia.
    + constructor; [reflexivity|apply half_no_integer].
    + constructor.
    + constructor.
    + constructor; reflexivity.
    + constructor; [|reflexivity]. txt_ok.
    + constructor.
    + constructor; [discriminate|reflexivity].
    + constructor; [discriminate|reflexivity].
    + constructor; [discriminate|reflexivity|apply HI; lia|]. constructor; [apply HI; lia|constructor].
    + constructor; [repeat constructor; intros []| |].
      * intros [[L _]|[L _]]; discriminate L.
      * constructor; [|constructor]. split; [apply HV; reflexivity|apply HI; lia].
Qed.
Example notes_survive : exists text b, marshal json_quote toy_num64 toy_num32 toy_clock (PBlock notes) = Some text /\
  unmarshal_block toy_parse toy_time (fun x => Some (f32_of_f64 x)) text = Ok (Some b) /\ block_equiv notes b.
Proof.
  destruct (C45_round_trip _ _ _ _ toy_clock toy_time toy_numbers notes (proj1 notes_faithful) (proj2 notes_faithful)) as (text & E & (b & Eb & Hb) & _).
  eauto.
Qed.
Example notes_text : marshal json_quote toy_num64 toy_num32 toy_clock (PBlock [(lit "k""", PString (lit "a<b")); (lit "a", PArray 1 [PInt 1; PInt (-20)])])
  = Some (lit "{""a"":[1,-20],""k\"""":""a" ++ bs [92; 117; 48; 48; 51; 99] ++ lit "b""}").
Proof. vm_compute. reflexivity. Qed.
(** Cases of the refutations. *)
Example changed_cases :
  (10 ^ 6 <= Z.abs (- 1000000))%Z /\ valid_utf8 (lit "say ""hi""") /\ plain_text (lit "say ") /\ ~ starts_0x (lit "say ""hi""") /\
  text_ok (lit "noon") /\ toy_time (lit "noon") <> None /\ valid_utf8 (lit "0xab01") /\ hex_text (lit "ab01") [xab; x01] /\
  B2R 24 128 (B754_zero 24 128 false) = IZR 0.
Proof.
  split; [vm_compute; discriminate|]. split; [now apply lit_valid|]. split; [plain_txt|]. split; [intros (? & E); discriminate E|].
  split; [txt_ok|]. split; [discriminate|]. split; [now apply lit_valid|]. split; [|reflexivity]. now apply hex_decode_iff.
Qed.
