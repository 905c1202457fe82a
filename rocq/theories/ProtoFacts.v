(** Proofs about the decoding of version 1 messages. *)
From Coq Require Import ZArith Lia.
From Verif Require Import Base BaseFacts IO Spec Floats ByteFacts BinaryIO PropPrimitives Metadata Recording Text Quote SpecJsonText QuoteFacts RapV1 SpecV1 V1Facts Proto SpecProto.
Local Open Scope N_scope.

(** ** The wire format *)
Lemma varint_sound : forall i b n r, consume_varint i b = Some (n, r) ->
  exists p, b = p ++ r /\ digits p /\ digits_value p = n /\ (length p <= i)%nat /\ n < 2 ^ (7 * (N.of_nat i - 1) + 1).
Proof.
  induction i as [|i IH]; intros b n r H; [discriminate|]. destruct b as [|c b]; [discriminate|].
  cbn [consume_varint] in H. destruct i as [|i'].
  { destruct (N.ltb_spec (b2n c) 2) as [L|]; [|discriminate]. injection H as <- <-. exists [c].
    split; [reflexivity|]. cbn [digits digits_value length]. rewrite N.mod_small by lia. repeat split; try lia.
    change (7 * (N.of_nat 1 - 1) + 1) with 1. lia. }
  destruct (N.ltb_spec (b2n c) 128) as [L|L].
  - injection H as <- <-. exists [c]. split; [reflexivity|]. cbn [digits digits_value length]. rewrite N.mod_small by lia.
    repeat split; try lia. apply N.lt_le_trans with (2 ^ 7); [exact L|]. apply N.pow_le_mono_r; lia.
  - destruct (consume_varint (S i') b) as [[w r']|] eqn:E; [|discriminate].
    assert (Hn : n = b2n c - 128 + 128 * w) by congruence. assert (Hr : r = r') by congruence. subst n r. clear H.
    destruct (IH _ _ _ E) as (p & -> & D & V & Lp & B). exists (c :: p). pose proof (b2n_lt c) as Hc.
    assert (Em : b2n c mod 128 = b2n c - 128).
    { replace (b2n c) with (b2n c - 128 + 1 * 128) at 1 by lia. rewrite N.mod_add by lia. apply N.mod_small. lia. }
    split; [reflexivity|]. cbn [length]. change (digits_value (c :: p)) with (b2n c mod 128 + 128 * digits_value p). rewrite Em, V.
    split; [|split; [reflexivity|]]; [|split; [lia|]].
    + destruct p as [|d p]; [destruct D|]. split; [exact L|exact D].
    + replace (7 * (N.of_nat (S (S i')) - 1) + 1) with (7 + (7 * (N.of_nat (S i') - 1) + 1)) by lia.
      rewrite N.pow_add_r. change (2 ^ 7) with 128. clear -B Hc L. set (K := 2 ^ _) in *. lia.
Qed.
Lemma varint_complete : forall p i r, digits p -> (length p <= i)%nat -> digits_value p < 2 ^ (7 * (N.of_nat i - 1) + 1) ->
  consume_varint i (p ++ r) = Some (digits_value p, r).
Proof.
  induction p as [|c p IH]; intros i r D L B; [destruct D|]. cbn [length] in L. destruct i as [|i]; [lia|].
  cbn [app consume_varint]. pose proof (b2n_lt c) as Hc. destruct p as [|d p].
  - cbn [digits digits_value] in *. rewrite N.mod_small in * by lia. rewrite N.add_0_r in *. cbn [app]. destruct i as [|i].
    + change (2 ^ (7 * (N.of_nat 1 - 1) + 1)) with 2 in B. destruct (N.ltb_spec (b2n c) 2); [reflexivity|lia].
    + destruct (N.ltb_spec (b2n c) 128); [reflexivity|lia].
  - destruct D as [Dc D]. cbn [length] in L. destruct i as [|i]; [lia|].
    destruct (N.ltb_spec (b2n c) 128); [lia|].
    assert (Em : b2n c mod 128 = b2n c - 128).
    { replace (b2n c) with (b2n c - 128 + 1 * 128) at 1 by lia. rewrite N.mod_add by lia. apply N.mod_small. lia. }
    change (digits_value (c :: d :: p)) with (b2n c mod 128 + 128 * digits_value (d :: p)) in *. rewrite Em in *.
    rewrite (IH (S i) r D); [reflexivity|cbn [length]; lia|].
    replace (7 * (N.of_nat (S (S i)) - 1) + 1) with (7 + (7 * (N.of_nat (S i) - 1) + 1)) in B by lia.
    rewrite N.pow_add_r in B. change (2 ^ 7) with 128 in B. clear -B Hc. set (K := 2 ^ _) in *. lia.
Qed.
Lemma varint_iff : forall b n r, consume_varint 10 b = Some (n, r) <-> exists p, b = p ++ r /\ varint p n.
Proof.
  intros b n r. split.
  - intro H. apply varint_sound in H as (p & -> & D & V & L & B). exists p. repeat split; auto.
  - intros (p & -> & D & <- & L & B). now apply varint_complete.
Qed.
Lemma tag_iff : forall b num typ r, consume_tag b = Some (num, typ, r) <->
  exists p, b = p ++ r /\ tag p num typ /\ num < 2 ^ 31.
Proof.
  intros b num typ r. unfold consume_tag. split.
  - destruct (consume_varint 10 b) as [[x r']|] eqn:E; [|discriminate].
    destruct (N.leb_spec 1 (x / 8)) as [L|]; [|discriminate]. destruct (N.leb_spec (x / 8) 2147483647) as [L2|]; [|discriminate].
    cbn [andb]. intro H. injection H as <- <- <-. apply varint_iff in E as (p & -> & V). exists p. split; [reflexivity|].
    split; [|change (2 ^ 31) with 2147483648; lia]. split; [exact L|]. split; [apply N.mod_lt; lia|].
    now rewrite <- N.div_mod by lia.
  - intros (p & -> & (H1 & H8 & V) & Hn). assert (E : consume_varint 10 (p ++ r) = Some (8 * num + typ, r)) by (apply varint_iff; eauto).
    rewrite E. assert (Ed : (8 * num + typ) / 8 = num).
    { rewrite N.mul_comm, N.div_add_l by lia. rewrite (N.div_small typ 8) by lia. lia. }
    assert (Em : (8 * num + typ) mod 8 = typ).
    { rewrite N.add_comm, N.mul_comm, N.mod_add by lia. apply N.mod_small. lia. }
    rewrite Ed, Em. change (2 ^ 31) with 2147483648 in Hn. destruct (N.leb_spec 1 num); [|lia].
    destruct (N.leb_spec num 2147483647); [reflexivity|lia].
Qed.
Lemma consume_iff : forall n b p r, consume n b = Some (p, r) <-> b = p ++ r /\ lenN p = n.
Proof.
  intros n b p r. unfold consume, lenN. split.
  - destruct (N.leb_spec n (N.of_nat (length b))) as [L|]; [|discriminate]. intro H. injection H as <- <-.
    split; [now rewrite firstn_skipn|]. rewrite firstn_length. lia.
  - intros [-> <-]. rewrite app_length. destruct (N.leb_spec (N.of_nat (length p)) (N.of_nat (length p + length r))); [|lia].
    rewrite Nat2N.id. rewrite firstn_app, Nat.sub_diag, firstn_all, firstn_O, app_nil_r. rewrite skipn_app, skipn_all, Nat.sub_diag. reflexivity.
Qed.
Lemma bytes_iff : forall b p r, consume_bytes b = Some (p, r) <-> exists l, b = l ++ p ++ r /\ varint l (lenN p).
Proof.
  intros b p r. unfold consume_bytes. split.
  - destruct (consume_varint 10 b) as [[n r']|] eqn:E; [|discriminate]. intro H. apply consume_iff in H as [-> <-].
    apply varint_iff in E as (l & -> & V). eauto.
  - intros (l & -> & V). assert (E : consume_varint 10 (l ++ p ++ r) = Some (lenN p, p ++ r)) by (apply varint_iff; eauto).
    rewrite E. now apply consume_iff.
Qed.

Lemma value_sound : forall fuel,
  (forall depth num typ b v r, consume_value fuel depth num typ b = Some (v, r) -> exists p, b = p ++ r /\ value depth num typ v p) /\
  (forall depth num b r, consume_group fuel depth num b = Some r ->
     exists c e, b = c ++ e ++ r /\ contents depth c /\ tag e num 4).
Proof.
  induction fuel as [|fuel [IHv IHg]]; split.
  - discriminate.
  - discriminate.
  - intros depth num typ b v r. cbn [consume_value].
    destruct (N.eqb_spec typ 0) as [->|_].
    { destruct (consume_varint 10 b) as [[n r']|] eqn:E; [|discriminate]. cbn [only]. intro H. injection H as <- <-.
      apply varint_iff in E as (p & -> & V). exists p. split; [reflexivity|]. now apply V_varint. }
    destruct (N.eqb_spec typ 1) as [->|_].
    { destruct (consume 8 b) as [[p r']|] eqn:E; [|discriminate]. cbn [only]. intro H. injection H as <- <-.
      apply consume_iff in E as [-> L]. exists p. split; [reflexivity|]. now apply V_fixed64. }
    destruct (N.eqb_spec typ 2) as [->|_].
    { destruct (consume_bytes b) as [[p r']|] eqn:E; [|discriminate]. cbn [only]. intro H. injection H as <- <-.
      apply bytes_iff in E as (l & -> & V). exists (l ++ p). split; [now rewrite app_assoc|]. now apply V_len. }
    destruct (N.eqb_spec typ 3) as [->|_].
    { destruct (N.eqb_spec depth 0) as [|Hd]; [discriminate|].
      destruct (consume_group fuel (depth - 1) num b) as [r'|] eqn:E; [|discriminate]. intro H. injection H as <- <-.
      apply IHg in E as (c & e & -> & Hc & He). exists (c ++ e). split; [now rewrite app_assoc|].
      replace depth with (depth - 1 + 1) by lia. now apply V_group. }
    destruct (N.eqb_spec typ 5) as [->|_]; [|discriminate].
    destruct (consume 4 b) as [[p r']|] eqn:E; [|discriminate]. cbn [only]. intro H. injection H as <- <-.
    apply consume_iff in E as [-> L]. exists p. split; [reflexivity|]. now apply V_fixed32.
  - intros depth num b r. cbn [consume_group]. destruct (consume_tag b) as [[[num2 typ2] b1]|] eqn:E; [|discriminate].
    apply tag_iff in E as (t & -> & Ht & Hn). destruct (N.eqb_spec typ2 4) as [->|_].
    + destruct (N.eqb_spec num2 num) as [->|]; [|discriminate]. intro H. injection H as <-. exists [], t.
      split; [reflexivity|]. split; [constructor|exact Ht].
    + destruct (consume_value fuel depth num2 typ2 b1) as [[v b2]|] eqn:Ev; [|discriminate]. intro H.
      apply IHv in Ev as (p & -> & Hv). apply IHg in H as (c & e & -> & Hc & He). exists (t ++ p ++ c), e.
      split; [now rewrite <- !app_assoc|]. split; [|exact He]. now apply C_field with num2 typ2 v.
Qed.
Scheme value_min := Minimality for value Sort Prop with contents_min := Minimality for contents Sort Prop.
Combined Scheme value_mutind from value_min, contents_min.
Lemma tag_nonempty : forall t num typ, tag t num typ -> (1 <= length t)%nat.
Proof. intros [|c t] num typ (_ & _ & D & _); [destruct D|cbn [length]; lia]. Qed.
Lemma not_end : forall depth num typ v b, value depth num typ v b -> (typ =? 4) = false.
Proof. intros depth num typ v b H. now inversion H; subst. Qed.
Lemma value_complete :
  (forall depth num typ v p, value depth num typ v p -> num < 2 ^ 31 -> forall r fuel, (2 * length p + 2 <= fuel)%nat ->
     consume_value fuel depth num typ (p ++ r) = Some (v, r)) /\
  (forall depth c, contents depth c -> forall num e r fuel, tag e num 4 -> num < 2 ^ 31 -> (2 * length (c ++ e) + 1 <= fuel)%nat ->
     consume_group fuel depth num (c ++ e ++ r) = Some r).
Proof.
  apply value_mutind.
  - intros depth num b n V _ r [|fuel] L; [lia|]. cbn [consume_value]. rewrite N.eqb_refl.
    assert (E : consume_varint 10 (b ++ r) = Some (n, r)) by (apply varint_iff; eauto). now rewrite E.
  - intros depth num b V _ r [|fuel] L; [lia|]. cbn [consume_value].
    assert (E : consume 8 (b ++ r) = Some (b, r)) by (now apply consume_iff). rewrite E. reflexivity.
  - intros depth num l b V _ r [|fuel] L; [lia|]. cbn [consume_value]. rewrite <- app_assoc.
    assert (E : consume_bytes (l ++ b ++ r) = Some (b, r)) by (apply bytes_iff; eauto). rewrite E. reflexivity.
  - intros depth num c e Hc IH He Hn r [|fuel] L; [lia|]. cbn [consume_value]. change (3 =? 0) with false. change (3 =? 1) with false.
    change (3 =? 2) with false. change (3 =? 3) with true. cbv iota. destruct (N.eqb_spec (depth + 1) 0); [lia|].
    replace (depth + 1 - 1) with depth by lia. rewrite <- app_assoc. rewrite IH; auto. lia.
  - intros depth num b V _ r [|fuel] L; [lia|]. cbn [consume_value].
    assert (E : consume 4 (b ++ r) = Some (b, r)) by (now apply consume_iff). rewrite E. reflexivity.
  - intros depth num e r [|fuel] He Hn L; [lia|]. cbn [consume_group app].
    assert (E : consume_tag (e ++ r) = Some (num, 4, r)) by (apply tag_iff; eauto). rewrite E.
    change (4 =? 4) with true. cbv iota. now rewrite N.eqb_refl.
  - intros depth t num typ v b c Ht Hn Hv IHv Hc IHc num' e r [|fuel] He Hn' L; [lia|]. cbn [consume_group]. rewrite <- !app_assoc.
    assert (E : consume_tag (t ++ b ++ c ++ e ++ r) = Some (num, typ, b ++ c ++ e ++ r)) by (apply tag_iff; eauto). rewrite E.
    rewrite (not_end _ _ _ _ _ Hv). pose proof (tag_nonempty _ _ _ Ht). rewrite !app_length in L.
    rewrite IHv by (auto; lia). apply IHc; auto. rewrite app_length. lia.
Qed.
Lemma fields_sound : forall fuel b fs, fields fuel b = Some fs -> wire_message fs b.
Proof.
  induction fuel as [|fuel IH]; intros [|c b] fs H; try discriminate; try (injection H as <-; constructor).
  cbn [fields] in H. destruct (consume_tag (c :: b)) as [[[num typ] b1]|] eqn:E; [|discriminate].
  apply tag_iff in E as (t & -> & Ht & Hn). destruct (N.ltb_spec 536870911 num) as [|Hm]; [discriminate|].
  destruct (consume_value _ _ num typ b1) as [[v b2]|] eqn:Ev; [|discriminate].
  destruct (fields fuel b2) as [gs|] eqn:Ef; [|discriminate]. injection H as <-.
  apply (proj1 (value_sound _)) in Ev as (p & -> & Hv). apply (M_field t num typ); auto. change (2 ^ 29) with 536870912. lia.
Qed.
Lemma fields_complete : forall fs b, wire_message fs b -> forall fuel, (length b <= fuel)%nat -> fields fuel b = Some fs.
Proof.
  induction 1 as [|t num typ v b fs c Ht Hn Hv Hm IH]; intros fuel L; [now destruct fuel|].
  pose proof (tag_nonempty _ _ _ Ht) as Lt. rewrite !app_length in L. destruct fuel as [|fuel]; [lia|].
  destruct t as [|x t]; [cbn in Lt; lia|]. cbn [fields app].
  assert (Hn' : num < 2 ^ 31) by (eapply N.lt_trans; [exact Hn|]; now apply N.pow_lt_mono_r).
  assert (E : consume_tag ((x :: t) ++ b ++ c) = Some (num, typ, b ++ c)) by (apply tag_iff; eauto). cbn [app] in E. rewrite E.
  change (2 ^ 29) with 536870912 in Hn. destruct (N.ltb_spec 536870911 num); [lia|]. unfold max_groups.
  rewrite (proj1 value_complete _ _ _ _ _ Hv Hn'); [|rewrite app_length; lia]. rewrite IH by (cbn [length] in *; lia). reflexivity.
Qed.
Lemma message_iff : forall fs b, fields (length b) b = Some fs <-> wire_message fs b.
Proof. intros fs b. split; [apply fields_sound|]. intro H. now apply fields_complete. Qed.

(** ** UTF-8 *)
Lemma utf8_copy : forall p r, utf8_from (length p) (p ++ r) = utf8_from 0 r.
Proof. induction p as [|a p IH]; intro r; [reflexivity|]. cbn [length app utf8_from]. apply IH. Qed.
Lemma utf8_iff : forall s, utf8_from 0 s = true <-> valid_utf8 s.
Proof.
  split.
  - remember (length s) as n eqn:E. revert s E. induction n as [n IH] using lt_wf_ind. intros [|a s] -> H; [constructor|].
    cbn [utf8_from] in H. destruct (rune_size (a :: s)) as [|k] eqn:Er; [discriminate|].
    destruct (rune_scalar _ _ Er) as (r & t & Hr & Es & Hl). rewrite Es. constructor; [exact Hr|].
    destruct (utf8_cons r) as (c & p & Ep). rewrite Ep in *. injection Es as -> ->. cbn [length] in Hl. injection Hl as <-.
    rewrite utf8_copy in H. apply (IH (length t)); auto. cbn [length]. rewrite app_length. lia.
  - induction 1 as [|r s Hr _ IH]; [reflexivity|]. pose proof (rune_utf8 r s Hr) as E.
    destruct (utf8_cons r) as (a & p & Ep). rewrite Ep in *. cbn [app length utf8_from] in *. now rewrite E, utf8_copy.
Qed.
Lemma check_iff : forall s t, utf8_check s = Some t <-> valid_utf8 s /\ t = s.
Proof.
  intros s t. unfold utf8_check. rewrite <- utf8_iff. destruct (utf8_from 0 s); split; try discriminate.
  - intro H. injection H as <-. auto.
  - now intros [_ ->].
  - intros [H _]. discriminate.
Qed.

(** ** Fields *)
Lemma fold_snoc : forall A (step : A -> N * wire -> option A) fs m f,
  fold_fields step m (fs ++ [f]) = match fold_fields step m fs with Some x => step x f | None => None end.
Proof.
  intros A step. induction fs as [|g fs IH]; intros m f; cbn [app fold_fields]; [now destruct (step m f)|].
  destruct (step m g); [apply IH|reflexivity].
Qed.
Lemma fold_total : forall A (step : A -> N * wire -> option A) fs m, (forall x f, In f fs -> step x f <> None) ->
  exists y, fold_fields step m fs = Some y.
Proof.
  intros A step. induction fs as [|g fs IH]; intros m H; cbn [fold_fields]; [eauto|].
  destruct (step m g) as [x|] eqn:E; [|destruct (H m g (or_introl eq_refl) E)]. apply IH. intros. apply H. now right.
Qed.
Lemma floats_app : forall n a b, floats n (a ++ b) = floats n a ++ floats n b.
Proof. intros. apply flat_map_app. Qed.
Lemma varints_app : forall n a b, varints n (a ++ b) = varints n a ++ varints n b.
Proof. intros. apply flat_map_app. Qed.
Lemma lens_app : forall n a b, lens n (a ++ b) = lens n a ++ lens n b.
Proof. intros. apply flat_map_app. Qed.
Lemma float_same : forall n fs f x, floats n [f] = [] -> float_is n fs x -> float_is n (fs ++ [f]) x.
Proof. unfold float_is. intros n fs f x E ->. now rewrite floats_app, E, app_nil_r. Qed.
Lemma float_new : forall n fs f x, floats n [f] = [x] -> float_is n (fs ++ [f]) x.
Proof. unfold float_is. intros n fs f x E. now rewrite floats_app, E, last_last. Qed.
Lemma text_same : forall n fs f x, lens n [f] = [] -> text_is n fs x -> text_is n (fs ++ [f]) x.
Proof. unfold text_is. intros n fs f x E [H ->]. rewrite lens_app, E, app_nil_r. auto. Qed.
Lemma text_new : forall n fs f x y s, lens n [f] = [x] -> utf8_check x = Some s -> text_is n fs y -> text_is n (fs ++ [f]) s.
Proof.
  unfold text_is. intros n fs f x y s E C [H _]. apply check_iff in C as [V ->]. rewrite lens_app, E, last_last.
  split; [|reflexivity]. apply Forall_app. auto.
Qed.
Lemma int32_of_ok : forall v, int32 (int32_of v) /\ exists k, (Z.of_N v = int32_of v + k * 2 ^ 32)%Z.
Proof.
  intro v. unfold int32_of, signed, int32. change (32 - 1)%Z with 31%Z.
  pose proof (Z.mod_pos_bound (Z.of_N v) (2 ^ 32) ltac:(lia)) as B. pose proof (Z.div_mod (Z.of_N v) (2 ^ 32) ltac:(lia)) as E.
  destruct (Z.ltb_spec (Z.of_N v mod 2 ^ 32) (2 ^ 31)) as [L|L].
  - split; [lia|]. exists (Z.of_N v / 2 ^ 32)%Z. lia.
  - split; [lia|]. exists (Z.of_N v / 2 ^ 32 + 1)%Z. lia.
Qed.
Lemma int_same : forall n fs f x, varints n [f] = [] -> int_is n fs x -> int_is n (fs ++ [f]) x.
Proof. unfold int_is. intros n fs f x E H. now rewrite varints_app, E, app_nil_r. Qed.
Lemma int_new : forall n fs f v, varints n [f] = [v] -> int_is n (fs ++ [f]) (int32_of v).
Proof. unfold int_is. intros n fs f v E. rewrite varints_app, E, last_last. apply int32_of_ok. Qed.
Lemma all_same : forall A (P : _ -> A -> Prop) n fs f l, lens n [f] = [] -> all_are P n fs l -> all_are P n (fs ++ [f]) l.
Proof. unfold all_are. intros A P n fs f l E H. now rewrite lens_app, E, app_nil_r. Qed.
Lemma all_new : forall A (P : _ -> A -> Prop) n fs f l b x, lens n [f] = [b] -> all_are P n fs l ->
  (exists gs, wire_message gs b /\ P gs x) -> all_are P n (fs ++ [f]) (l ++ [x]).
Proof. unfold all_are. intros A P n fs f l b x E H Hx. rewrite lens_app, E. apply Forall2_app; auto. Qed.

(** [dec] makes of an encoding what its fields say. *)
Record decoder {A} (says : list (N * wire) -> A -> Prop) (dec : bytes -> option A) : Prop := {
  dec_sound : forall b m, dec b = Some m -> exists fs, wire_message fs b /\ says fs m;
  dec_total : forall b fs m, wire_message fs b -> says fs m -> exists m', dec b = Some m'
}.
Lemma decoder_of : forall A (says : _ -> A -> Prop) step zero,
  says [] zero -> (forall fs f m m', says fs m -> step m f = Some m' -> says (fs ++ [f]) m') ->
  (forall fs m x f, says fs m -> In f fs -> step x f <> None) -> decoder says (decode_message step zero).
Proof.
  intros A says step zero H0 Hs Ht. split.
  - intros b m. unfold decode_message. destruct (fields (length b) b) as [fs|] eqn:E; [|discriminate]. apply message_iff in E.
    intro H. exists fs. split; [exact E|]. clear E. revert m H. induction fs as [|f fs IH] using rev_ind; intros m H.
    + injection H as <-. exact H0.
    + rewrite fold_snoc in H. destruct (fold_fields step zero fs) as [x|]; [|discriminate]. exact (Hs _ _ _ _ (IH x eq_refl) H).
  - intros b fs m Hm Hm'. apply message_iff in Hm. unfold decode_message. rewrite Hm. apply fold_total. intros. eapply Ht; eauto.
Qed.
Lemma all_in : forall A (P : _ -> A -> Prop) n fs l b, all_are P n fs l -> In b (lens n fs) -> exists gs x, wire_message gs b /\ P gs x.
Proof.
  intros A P n fs l b H. unfold all_are in H. induction H as [|c x bs l (gs & Hg & Hx) _ IH]; intros []; subst; eauto.
Qed.
Lemma all_dec : forall A (P : _ -> A -> Prop) dec n fs l b, decoder P dec -> all_are P n fs l -> In b (lens n fs) -> exists y, dec b = Some y.
Proof. intros A P dec n fs l b D H Hi. destruct (all_in _ _ _ _ _ _ H Hi) as (gs & x & Hg & Hx). exact (dec_total _ _ D _ _ _ Hg Hx). Qed.
Lemma in_lens : forall n b fs, In (n, WLen b) fs -> In b (lens n fs).
Proof.
  intros n b fs H. unfold lens. apply in_flat_map. exists (n, WLen b). split; [exact H|]. cbn [fst snd]. rewrite N.eqb_refl. now left.
Qed.
Lemma text_in : forall n fs s b, text_is n fs s -> In (n, WLen b) fs -> exists t, utf8_check b = Some t.
Proof.
  intros n fs s b [H _] Hi. rewrite Forall_forall in H. exists b. apply check_iff. split; [|reflexivity]. apply H. now apply in_lens.
Qed.
Ltac field_cases n w := destruct n as [|[[[?|?|]|[?|?|]|]|[[?|?|]|[?|?|]|]|]]; destruct w.

(** ** Maps *)
Definition entry_says fs (e : str * str) : Prop := text_is 1 fs (fst e) /\ text_is 2 fs (snd e).
Lemma omap_some : forall A B (o : option A) (f : A -> B) y, omap o f = Some y -> exists x, o = Some x /\ f x = y.
Proof. intros A B [x|] f y H; [|discriminate]. injection H as <-. eauto. Qed.
Lemma omap_none : forall A B (o : option A) (f : A -> B), (exists x, o = Some x) -> omap o f <> None.
Proof. intros A B o f [x ->]. discriminate. Qed.
Lemma text_empty : forall n, text_is n [] [].
Proof. intro n. split; [constructor|reflexivity]. Qed.
Ltac same := first [ eapply float_same; [reflexivity|assumption] | eapply float_new; reflexivity
  | eapply text_same; [reflexivity|assumption] | eapply text_new; [reflexivity|eassumption|eassumption]
  | eapply int_same; [reflexivity|assumption] | eapply int_new; reflexivity
  | eapply all_same; [reflexivity|assumption] | eapply all_new; [reflexivity|assumption|] ].
Lemma some_eq : forall A (a b : A), Some a = Some b -> a = b.
Proof. intros A a b H. congruence. Qed.
Ltac took H := first [ apply some_eq in H; rewrite <- H; clear H | apply omap_some in H as (? & ? & H); rewrite <- H; clear H ].
Lemma entry_decoder : decoder entry_says (decode_message entry_field ([], [])).
Proof.
  apply decoder_of.
  - split; apply text_empty.
  - intros fs [n w] [k v] m' [H1 H2] H. cbn [fst snd] in *. field_cases n w; cbn [entry_field fst snd] in H; took H; split; cbn [fst snd]; same.
  - intros fs [k v] x [n w] [H1 H2] Hi. cbn [fst snd] in *.
    field_cases n w; cbn [entry_field]; try discriminate; apply omap_none; first [exact (text_in _ _ _ _ H1 Hi) | exact (text_in _ _ _ _ H2 Hi)].
Qed.
Lemma put_assoc : forall k k' v m, assoc k (put_entry k' v m) = if str_eqb k k' then Some v else assoc k m.
Proof.
  intros k k' v. induction m as [|[a w] m IH]; cbn [put_entry assoc]; [reflexivity|].
  destruct (str_eqb k' a) eqn:E; cbn [assoc].
  - apply str_eqb_eq in E as <-. now destruct (str_eqb k k').
  - rewrite IH. destruct (str_eqb k a) eqn:Ea; [|reflexivity]. apply str_eqb_eq in Ea as <-.
    destruct (str_eqb k k') eqn:Ek; [|reflexivity]. apply str_eqb_eq in Ek as <-. rewrite str_eqb_refl in E. discriminate.
Qed.
Lemma put_keys : forall k v m x, In x (map fst (put_entry k v m)) <-> In x (map fst m) \/ x = k.
Proof.
  intros k v. induction m as [|[a w] m IH]; intro x; cbn [put_entry map fst In]; [intuition|].
  destruct (str_eqb k a) eqn:E; cbn [map fst In]; [apply str_eqb_eq in E as ->; intuition|rewrite IH; intuition].
Qed.
Lemma put_nodup : forall k v m, NoDup (map fst m) -> NoDup (map fst (put_entry k v m)).
Proof.
  intros k v. induction m as [|[a w] m IH]; intro H; cbn [put_entry].
  - cbn. constructor; [intros []|constructor].
  - cbn [map fst] in H. inversion H as [|? ? Hn Hd]; subst. destruct (str_eqb k a) eqn:E; cbn [map fst].
    + apply str_eqb_eq in E as ->. now constructor.
    + constructor; [|now apply IH]. rewrite put_keys. intros [C| ->]; [now apply Hn|]. rewrite str_eqb_refl in E. discriminate.
Qed.
Lemma map_same : forall n fs f m, lens n [f] = [] -> map_is n fs m -> map_is n (fs ++ [f]) m.
Proof. intros n fs f m E (es & H & Hr). exists es. split; [now apply all_same|exact Hr]. Qed.
Lemma map_new : forall n fs f m b m', lens n [f] = [b] -> map_is n fs m -> add_entry b m = Some m' -> map_is n (fs ++ [f]) m'.
Proof.
  intros n fs f m b m' E (es & H & Hd & Ha) Hm. unfold add_entry in Hm. apply omap_some in Hm as (e & De & <-). exists (es ++ [e]).
  split; [|split].
  - eapply all_new; [exact E|exact H|]. exact (dec_sound _ _ entry_decoder _ _ De).
  - now apply put_nodup.
  - intro k. rewrite put_assoc, rev_app_distr. destruct e as [a w]. cbn [rev app assoc fst snd]. now rewrite Ha.
Qed.
Lemma map_empty : forall n, map_is n [] [].
Proof. intro n. exists []. repeat split; constructor. Qed.
Lemma map_in : forall n fs m b, map_is n fs m -> In (n, WLen b) fs -> forall x, exists y, add_entry b x = Some y.
Proof.
  intros n fs m b (es & H & _) Hi x. destruct (all_dec _ _ _ _ _ _ _ entry_decoder H (in_lens _ _ _ Hi)) as (e & E).
  unfold add_entry. rewrite E. cbn [omap]. eauto.
Qed.

(** ** The messages *)
Lemma vec_decoder : decoder vec_says decode_vec.
Proof.
  apply decoder_of.
  - repeat split.
  - intros fs [n w] [t x y z] m' (H1 & H2 & H3 & H4) H. cbn [vv_time vv_x vv_y vv_z] in *.
    field_cases n w; cbn [vec_field vv_time vv_x vv_y vv_z] in H; took H; refine (conj _ (conj _ (conj _ _))); cbn [vv_time vv_x vv_y vv_z]; same.
  - intros fs m x [n w] _ _. field_cases n w; discriminate.
Qed.
Lemma int_empty : forall n, int_is n [] 0.
Proof. intro n. split; [unfold int32; lia|]. now exists 0%Z. Qed.
Lemma life_decoder : decoder life_says decode_life.
Proof.
  apply decoder_of.
  - split; [reflexivity|apply int_empty].
  - intros fs [n w] [t z] m' (H1 & H2) H. cbn [vl_time vl_type] in *.
    field_cases n w; cbn [life_field vl_time vl_type] in H; took H; refine (conj _ _); cbn [vl_time vl_type]; same.
  - intros fs m x [n w] _ _. field_cases n w; discriminate.
Qed.
Ltac more_ := first [ eapply map_same; [reflexivity|assumption] | eapply map_new; [reflexivity|eassumption|eassumption] | same ].
Lemma event_decoder : decoder event_says decode_event.
Proof.
  apply decoder_of.
  - refine (conj eq_refl (conj (text_empty _) (conj (text_empty _) (map_empty _)))).
  - intros fs [n w] [t a c d] m' (H1 & H2 & H3 & H4) H. cbn [ve_time ve_name ve_contents ve_data] in *.
    field_cases n w; cbn [event_field ve_time ve_name ve_contents ve_data] in H; took H;
      refine (conj _ (conj _ (conj _ _))); cbn [ve_time ve_name ve_contents ve_data]; more_.
  - intros fs m x [n w] (H1 & H2 & H3 & H4) Hi. field_cases n w; try discriminate; cbn [event_field]; apply omap_none;
      first [exact (text_in _ _ _ _ H2 Hi) | exact (text_in _ _ _ _ H3 Hi) | exact (map_in _ _ _ _ H4 Hi _)].
Qed.
Lemma subject_decoder : decoder subject_says decode_subject.
Proof.
  apply decoder_of.
  - refine (conj (int_empty _) (conj (text_empty _) (conj (map_empty _) (conj _ (conj _ (conj _ _)))))); constructor.
  - intros fs [n w] [id a md ev li po ro] m' (H1 & H2 & H3 & H4 & H5 & H6 & H7) H. cbn [vs_id vs_name vs_md vs_events vs_life vs_pos vs_rot] in *.
    field_cases n w; cbn [subject_field] in H; took H;
      refine (conj _ (conj _ (conj _ (conj _ (conj _ (conj _ _)))))); cbn [vs_id vs_name vs_md vs_events vs_life vs_pos vs_rot]; more_;
      first [eapply (dec_sound _ _ event_decoder) | eapply (dec_sound _ _ life_decoder) | eapply (dec_sound _ _ vec_decoder)]; eassumption.
  - intros fs m [id a md ev li po ro] [n w] (H1 & H2 & H3 & H4 & H5 & H6 & H7) Hi. field_cases n w; try discriminate; cbn [subject_field]; apply omap_none;
      first [exact (text_in _ _ _ _ H2 Hi) | exact (map_in _ _ _ _ H3 Hi _) | apply in_lens in Hi;
        first [exact (all_dec _ _ _ _ _ _ _ event_decoder H4 Hi) | exact (all_dec _ _ _ _ _ _ _ life_decoder H5 Hi)
          | exact (all_dec _ _ _ _ _ _ _ vec_decoder H6 Hi) | exact (all_dec _ _ _ _ _ _ _ vec_decoder H7 Hi)]].
Qed.
Lemma recording_decoder : decoder recording_says proto_unmarshal.
Proof.
  apply decoder_of.
  - refine (conj (text_empty _) (conj (map_empty _) (conj _ _))); constructor.
  - intros fs [n w] [a md su ev] m' (H1 & H2 & H3 & H4) H. cbn [vr_name vr_md vr_subjects vr_events] in *.
    field_cases n w; cbn [recording_field] in H; took H;
      refine (conj _ (conj _ (conj _ _))); cbn [vr_name vr_md vr_subjects vr_events]; more_;
      first [eapply (dec_sound _ _ event_decoder) | eapply (dec_sound _ _ subject_decoder)]; eassumption.
  - intros fs m [a md su ev] [n w] (H1 & H2 & H3 & H4) Hi. field_cases n w; try discriminate; cbn [recording_field]; apply omap_none;
      first [exact (text_in _ _ _ _ H1 Hi) | exact (map_in _ _ _ _ H2 Hi _) | apply in_lens in Hi;
        first [exact (all_dec _ _ _ _ _ _ _ subject_decoder H3 Hi) | exact (all_dec _ _ _ _ _ _ _ event_decoder H4 Hi)]].
Qed.

(** ** One meaning *)
Lemma message_unique : forall b fs gs, wire_message fs b -> wire_message gs b -> fs = gs.
Proof. intros b fs gs H G. apply message_iff in H, G. congruence. Qed.
Lemma float_unique : forall n fs x y, float_is n fs x -> float_is n fs y -> x = y.
Proof. unfold float_is. congruence. Qed.
Lemma text_unique : forall n fs x y, text_is n fs x -> text_is n fs y -> x = y.
Proof. unfold text_is. intros n fs x y [_ ->] [_ ->]. reflexivity. Qed.
Lemma int_unique : forall n fs x y, int_is n fs x -> int_is n fs y -> x = y.
Proof.
  unfold int_is, int32. intros n fs x y [Hx [k Ek]] [Hy [j Ej]]. change (2 ^ 31)%Z with 2147483648%Z in *. change (2 ^ 32)%Z with 4294967296%Z in *. lia.
Qed.
Lemma all_unique : forall A (P : _ -> A -> Prop) (same : A -> A -> Prop) n fs l l',
  (forall gs x y, P gs x -> P gs y -> same x y) -> all_are P n fs l -> all_are P n fs l' -> Forall2 same l l'.
Proof.
  intros A P same n fs l l' HP. unfold all_are. intro H. revert l'. induction H as [|b x bs l (gs & Hg & Hx) _ IH]; intros l' H'.
  - inversion H'; subst. constructor.
  - inversion H' as [|? y ? l2 (hs & Hh & Hy) Hl2]; subst. rewrite (message_unique _ _ _ Hh Hg) in Hy. constructor; [exact (HP _ _ _ Hx Hy)|auto].
Qed.
Lemma Forall2_same : forall A (l l' : list A), Forall2 eq l l' -> l = l'.
Proof. induction 1; congruence. Qed.
Lemma map_unique : forall n fs a b, map_is n fs a -> map_is n fs b -> same_map a b.
Proof.
  intros n fs a b (es & He & Hd & Ha) (es' & He' & Hd' & Hb). split; [exact Hd|]. split; [exact Hd'|]. intro k. rewrite Ha, Hb.
  replace es' with es; [reflexivity|]. apply Forall2_same. eapply all_unique; [|exact He|exact He'].
  intros gs [k1 v1] [k2 v2] [X1 X2] [Y1 Y2]. cbn [fst snd] in *. f_equal; eapply text_unique; eassumption.
Qed.
Lemma vec_unique : forall fs x y, vec_says fs x -> vec_says fs y -> x = y.
Proof.
  intros fs [a b c d] [a' b' c' d'] (H1 & H2 & H3 & H4) (G1 & G2 & G3 & G4). cbn [vv_time vv_x vv_y vv_z] in *.
  f_equal; eapply float_unique; eassumption.
Qed.
Lemma life_unique : forall fs x y, life_says fs x -> life_says fs y -> x = y.
Proof.
  intros fs [a b] [a' b'] (H1 & H2) (G1 & G2). cbn [vl_time vl_type] in *. f_equal; [eapply float_unique|eapply int_unique]; eassumption.
Qed.
Lemma event_unique : forall fs x y, event_says fs x -> event_says fs y -> same_event x y.
Proof.
  intros fs x y (H1 & H2 & H3 & H4) (G1 & G2 & G3 & G4).
  refine (conj _ (conj _ (conj _ _))); [eapply float_unique|eapply text_unique|eapply text_unique|eapply map_unique]; eassumption.
Qed.
Lemma subject_unique : forall fs x y, subject_says fs x -> subject_says fs y -> same_subject x y.
Proof.
  intros fs x y (H1 & H2 & H3 & H4 & H5 & H6 & H7) (G1 & G2 & G3 & G4 & G5 & G6 & G7).
  refine (conj _ (conj _ (conj _ (conj _ (conj _ (conj _ _)))))).
  - eapply int_unique; eassumption.
  - eapply text_unique; eassumption.
  - eapply map_unique; eassumption.
  - eapply all_unique; [exact event_unique|eassumption|eassumption].
  - apply Forall2_same. eapply all_unique; [exact life_unique|eassumption|eassumption].
  - apply Forall2_same. eapply all_unique; [exact vec_unique|eassumption|eassumption].
  - apply Forall2_same. eapply all_unique; [exact vec_unique|eassumption|eassumption].
Qed.
Lemma recording_unique : forall fs x y, recording_says fs x -> recording_says fs y -> same_message x y.
Proof.
  intros fs x y (H1 & H2 & H3 & H4) (G1 & G2 & G3 & G4). refine (conj _ (conj _ (conj _ _))).
  - eapply text_unique; eassumption.
  - eapply map_unique; eassumption.
  - eapply all_unique; [exact subject_unique|eassumption|eassumption].
  - eapply all_unique; [exact event_unique|eassumption|eassumption].
Qed.

(** ** Well-formed messages *)
Lemma all_forall : forall A (P : _ -> A -> Prop) (Q : A -> Prop) n fs l, (forall gs x, P gs x -> Q x) -> all_are P n fs l -> Forall Q l.
Proof. intros A P Q n fs l HP. unfold all_are. induction 1 as [|b x bs l (gs & Hg & Hx) _ IH]; constructor; eauto. Qed.
Lemma map_nodup : forall n fs m, map_is n fs m -> NoDup (map fst m).
Proof. intros n fs m (es & _ & H & _). exact H. Qed.
Lemma says_wf : forall fs m, recording_says fs m -> v1_wf m.
Proof.
  assert (E : forall fs e, event_says fs e -> event_wf e) by (intros fs e (_ & _ & _ & H); exact (map_nodup _ _ _ H)).
  intros fs m (H1 & H2 & H3 & H4). split; [exact (map_nodup _ _ _ H2)|]. split; [exact (all_forall _ _ _ _ _ _ E H4)|].
  eapply all_forall; [|exact H3]. intros gs s (G1 & G2 & G3 & G4 & G5 & _). split; [exact (proj1 G1)|].
  split; [eapply all_forall; [|exact G5]; intros hs l (_ & [Hi _]); exact Hi|].
  split; [exact (map_nodup _ _ _ G3)|exact (all_forall _ _ _ _ _ _ E G4)].
Qed.

(** ** The usual encoding *)
Lemma message_app : forall fs a gs b, wire_message fs a -> wire_message gs b -> wire_message (fs ++ gs) (a ++ b).
Proof.
  intros fs a gs b H Hb. induction H as [|t num typ v p fs c Ht Hn Hv _ IH]; [exact Hb|].
  rewrite <- !app_assoc. cbn [app]. now apply M_field with typ.
Qed.
Lemma message_one : forall t num typ v b, tag t num typ -> num < 2 ^ 29 -> value 10001 num typ v b -> wire_message [(num, v)] (t ++ b).
Proof. intros t num typ v b Ht Hn Hv. rewrite <- (app_nil_r b). apply M_field with typ; auto. constructor. Qed.
Lemma put_varint : forall n, n < 2 ^ 64 -> varint (put_uvarint n) n.
Proof.
  intros n H. destruct (C01_varint_format n H) as (D & V & _ & L). unfold lenN in L. repeat split; auto. lia.
Qed.
Lemma put_tag_ok : forall num typ, 1 <= num < 2 ^ 29 -> typ < 8 -> tag (put_tag num typ) num typ.
Proof.
  intros num typ H T. split; [lia|]. split; [exact T|]. apply put_varint. change (2 ^ 29) with 536870912 in H.
  change (2 ^ 64) with 18446744073709551616. lia.
Qed.
Lemma put_len_ok : forall num b, 1 <= num < 2 ^ 29 -> lenN b < 2 ^ 64 -> wire_message [(num, WLen b)] (put_len num b).
Proof.
  intros num b H L. unfold put_len. apply message_one with 2; [apply put_tag_ok; [exact H|lia]|lia|].
  apply V_len. now apply put_varint.
Qed.
Lemma put_float_ok : forall num x, 1 <= num < 2 ^ 29 -> wire_message [(num, WFix32 (f32_bytes x))] (put_float num x).
Proof.
  intros num x H. unfold put_float. apply message_one with 5; [apply put_tag_ok; [exact H|lia]|lia|].
  apply V_fixed32. apply f32_bytes_len.
Qed.
Lemma put_int_ok : forall num z, 1 <= num < 2 ^ 29 -> wire_message [(num, WVar (Z.to_N (z mod 2 ^ 64)))] (put_int num z).
Proof.
  intros num z H. unfold put_int. apply message_one with 0; [apply put_tag_ok; [exact H|lia]|lia|].
  apply V_varint. apply put_varint. pose proof (Z.mod_pos_bound z (2 ^ 64) ltac:(lia)) as B.
  change (2 ^ 64)%Z with 18446744073709551616%Z in *. change (2 ^ 64) with 18446744073709551616. lia.
Qed.
Lemma len_app : forall (a b : bytes), lenN (a ++ b) = lenN a + lenN b.
Proof. intros. unfold lenN. rewrite app_length. lia. Qed.
Lemma put_len_size : forall num b, lenN b <= lenN (put_len num b).
Proof. intros. unfold put_len. rewrite !len_app. lia. Qed.
Lemma put_all_size : forall A (put : A -> bytes) num l x, In x l -> lenN (put x) <= lenN (put_all put num l).
Proof.
  intros A put num l x. unfold put_all. induction l as [|y l IH]; intros []; cbn [map concat]; rewrite len_app.
  - subst y. pose proof (put_len_size num (put x)). lia.
  - specialize (IH H). lia.
Qed.
Definition each {A} (put : A -> bytes) (num : N) (l : list A) : list (N * wire) := map (fun x => (num, WLen (put x))) l.
Lemma put_all_ok : forall A (put : A -> bytes) num l, 1 <= num < 2 ^ 29 -> lenN (put_all put num l) < 2 ^ 64 ->
  wire_message (each put num l) (put_all put num l).
Proof.
  intros A put num l H. unfold put_all, each. induction l as [|x l IH]; cbn [map concat]; intro L; [constructor|].
  rewrite len_app in L. apply (message_app [(num, WLen (put x))]); [|apply IH; lia].
  apply put_len_ok; [exact H|]. pose proof (put_len_size num (put x)). lia.
Qed.
Lemma lens_each : forall A (put : A -> bytes) num n l, lens n (each put num l) = if num =? n then map put l else [].
Proof.
  intros A put num n. unfold each, lens. induction l as [|x l IH]; cbn [map flat_map fst snd]; [now destruct (num =? n)|].
  rewrite IH. now destruct (num =? n).
Qed.
Lemma floats_each : forall A (put : A -> bytes) num n l, floats n (each put num l) = [].
Proof. intros A put num n. unfold each, floats. induction l as [|x l IH]; cbn [map flat_map fst snd]; auto. Qed.
Lemma varints_each : forall A (put : A -> bytes) num n l, varints n (each put num l) = [].
Proof. intros A put num n. unfold each, varints. induction l as [|x l IH]; cbn [map flat_map fst snd]; auto. Qed.
Definition put_entry_bytes (e : str * str) : bytes := put_len 1 (fst e) ++ put_len 2 (snd e).
Lemma put_map_all : forall num m, put_map num m = put_all put_entry_bytes num m.
Proof. reflexivity. Qed.
Lemma assoc_in : forall k m v, NoDup (map fst m) -> (assoc k m = Some v <-> In (k, v) m).
Proof.
  induction m as [|[a w] m IH]; intros v H; cbn [assoc In map fst] in *; [split; [discriminate|intros []]|].
  inversion H as [|? ? Hn Hd]; subst. destruct (str_eqb k a) eqn:E.
  - apply str_eqb_eq in E as ->. split; [intro X; injection X as ->; now left|]. intros [X|X]; [now injection X as ->|].
    destruct Hn. apply in_map_iff. now exists (a, v).
  - rewrite (IH v Hd). split; [now right|]. intros [X|X]; [|exact X]. injection X as -> ->. rewrite str_eqb_refl in E. discriminate.
Qed.
Lemma assoc_rev : forall k m, NoDup (map fst m) -> assoc k m = assoc k (rev m).
Proof.
  intros k m H. assert (H' : NoDup (map fst (rev m))) by (rewrite map_rev; now apply NoDup_rev).
  destruct (assoc k m) as [v|] eqn:E.
  - apply assoc_in in E; [|exact H]. symmetry. apply assoc_in; [exact H'|]. now apply in_rev in E.
  - destruct (assoc k (rev m)) as [v|] eqn:E'; [|reflexivity]. apply assoc_in in E'; [|exact H']. apply in_rev in E'.
    apply assoc_in in E'; [congruence|exact H].
Qed.

(** The fields of the usual encodings. *)
Lemma all_each : forall A (P : _ -> A -> Prop) put num fs l, lens num fs = map put l ->
  (forall x, In x l -> exists gs, wire_message gs (put x) /\ P gs x) -> all_are P num fs l.
Proof.
  intros A P put num fs l E H. unfold all_are. rewrite E. clear E. induction l as [|x l IH]; constructor.
  - apply H. now left.
  - apply IH. intros. apply H. now right.
Qed.
Lemma text_one : forall n fs s, lens n fs = [s] -> valid_utf8 s -> text_is n fs s.
Proof. intros n fs s E V. unfold text_is. rewrite E. split; [now constructor|reflexivity]. Qed.
Lemma float_one : forall n fs x, floats n fs = [f32_of_bytes (f32_bytes x)] -> float_is n fs x.
Proof. intros n fs x E. unfold float_is. rewrite E. symmetry. apply f32_bytes_roundtrip. Qed.
Lemma int_one : forall n fs z, int32 z -> varints n fs = [Z.to_N (z mod 2 ^ 64)] -> int_is n fs z.
Proof.
  intros n fs z Hz E. split; [exact Hz|]. rewrite E. cbn [last]. pose proof (Z.mod_pos_bound z (2 ^ 64) ltac:(lia)) as B.
  pose proof (Z.div_mod z (2 ^ 64) ltac:(lia)) as D. rewrite Z2N.id by lia. exists (- (z / 2 ^ 64) * 2 ^ 32)%Z.
  change (2 ^ 64)%Z with (2 ^ 32 * 2 ^ 32)%Z in *. lia.
Qed.
Lemma map_one : forall n fs m, NoDup (map fst m) -> utf8_map m -> lens n fs = map put_entry_bytes m ->
  lenN (put_map n m) < 2 ^ 64 -> map_is n fs m.
Proof.
  intros n fs m Hd Hu E L. exists m. split; [|split; [exact Hd|intro k; now apply assoc_rev]].
  apply (all_each _ _ put_entry_bytes); [exact E|]. intros [k v] Hi.
  unfold utf8_map in Hu. rewrite Forall_forall in Hu. destruct (Hu _ Hi) as [Hk Hv]. cbn [fst snd] in *.
  pose proof (put_all_size _ put_entry_bytes n m _ Hi) as S. rewrite <- put_map_all in S.
  unfold put_entry_bytes in S. cbn [fst snd] in S. rewrite len_app in S.
  pose proof (put_len_size 1 k). pose proof (put_len_size 2 v).
  exists [(1, WLen k); (2, WLen v)]. split.
  - unfold put_entry_bytes. cbn [fst snd]. apply (message_app [(1, WLen k)]); apply put_len_ok; (reflexivity || lia).
  - split; now apply text_one.
Qed.
Ltac fields_calc :=
  rewrite ?floats_app, ?lens_app, ?varints_app, ?lens_each, ?floats_each, ?varints_each;
  cbn [floats lens varints flat_map fst snd N.eqb Pos.eqb app]; rewrite ?app_nil_r; reflexivity.
Lemma put_vec_ok : forall m, exists fs, wire_message fs (put_vec m) /\ vec_says fs m.
Proof.
  intros [t x y z]. exists ([(1, WFix32 (f32_bytes t))] ++ [(2, WFix32 (f32_bytes x))] ++ [(3, WFix32 (f32_bytes y))] ++ [(4, WFix32 (f32_bytes z))]).
  split; [unfold put_vec; cbn [vv_time vv_x vv_y vv_z]; repeat apply message_app; apply put_float_ok; lia|].
  refine (conj _ (conj _ (conj _ _))); apply float_one; reflexivity.
Qed.
Lemma put_life_ok : forall m, int32 (vl_type m) -> exists fs, wire_message fs (put_life m) /\ life_says fs m.
Proof.
  intros [t z] Hz. cbn [vl_type] in Hz. exists ([(1, WFix32 (f32_bytes t))] ++ [(2, WVar (Z.to_N (z mod 2 ^ 64)))]).
  split; [unfold put_life; cbn [vl_time vl_type]; apply message_app; [apply put_float_ok|apply put_int_ok]; lia|].
  split; [apply float_one; reflexivity|]. now apply int_one.
Qed.
Lemma put_event_ok : forall m, event_wf m -> utf8_event m -> lenN (put_event m) < 2 ^ 64 ->
  exists fs, wire_message fs (put_event m) /\ event_says fs m.
Proof.
  intros [t a c d] Hw (Ha & Hc & Hd) L. unfold event_wf in Hw. cbn [ve_time ve_name ve_contents ve_data] in *.
  unfold put_event in *. cbn [ve_time ve_name ve_contents ve_data] in *. rewrite !len_app in L.
  pose proof (put_len_size 2 a). pose proof (put_len_size 3 c).
  exists ([(1, WFix32 (f32_bytes t))] ++ [(2, WLen a)] ++ [(3, WLen c)] ++ each put_entry_bytes 4 d). split.
  - rewrite put_map_all in *. repeat apply message_app; [apply put_float_ok|apply put_len_ok|apply put_len_ok|apply put_all_ok]; lia.
  - refine (conj _ (conj _ (conj _ _))); cbn [ve_time ve_name ve_contents ve_data].
    + apply float_one. fields_calc.
    + apply text_one; [fields_calc|exact Ha].
    + apply text_one; [fields_calc|exact Hc].
    + apply map_one; auto; [fields_calc|lia].
Qed.
Lemma put_subject_ok : forall m, subject_wf m -> utf8_subject m -> lenN (put_subject m) < 2 ^ 64 ->
  exists fs, wire_message fs (put_subject m) /\ subject_says fs m.
Proof.
  intros [id a md ev li po ro] (Hi & Hl & Hd & He) (Ha & Hm & Hu) L.
  cbn [vs_id vs_name vs_md vs_events vs_life vs_pos vs_rot] in *. unfold put_subject in *.
  cbn [vs_id vs_name vs_md vs_events vs_life vs_pos vs_rot] in *. rewrite !len_app in L.
  pose proof (put_len_size 2 a). rewrite Forall_forall in Hl, He, Hu.
  exists ([(1, WVar (Z.to_N (id mod 2 ^ 64)))] ++ [(2, WLen a)] ++ each put_entry_bytes 3 md ++ each put_event 4 ev ++
          each put_life 5 li ++ each put_vec 6 po ++ each put_vec 7 ro). split.
  - rewrite put_map_all in *. repeat apply message_app; [apply put_int_ok|apply put_len_ok|apply put_all_ok|apply put_all_ok|apply put_all_ok|apply put_all_ok|apply put_all_ok]; lia.
  - refine (conj _ (conj _ (conj _ (conj _ (conj _ (conj _ _)))))); cbn [vs_id vs_name vs_md vs_events vs_life vs_pos vs_rot].
    + apply int_one; [exact Hi|]. fields_calc.
    + apply text_one; [fields_calc|exact Ha].
    + apply map_one; auto; [fields_calc|lia].
    + apply (all_each _ _ put_event); [fields_calc|]. intros x Hx. apply put_event_ok; auto.
      pose proof (put_all_size _ put_event 4 _ _ Hx). lia.
    + apply (all_each _ _ put_life); [fields_calc|]. intros x Hx. apply put_life_ok; auto.
    + apply (all_each _ _ put_vec); [fields_calc|]. intros x _. apply put_vec_ok.
    + apply (all_each _ _ put_vec); [fields_calc|]. intros x _. apply put_vec_ok.
Qed.
Lemma put_recording_ok : forall m, v1_wf m -> utf8_message m -> lenN (put_recording m) < 2 ^ 64 -> encodes (put_recording m) m.
Proof.
  intros [a md su ev] (Hd & He & Hs) (Ha & Hm & Hus & Hue) L. cbn [vr_name vr_md vr_subjects vr_events] in *.
  unfold put_recording in *. cbn [vr_name vr_md vr_subjects vr_events] in *. rewrite !len_app in L.
  pose proof (put_len_size 1 a). rewrite Forall_forall in He, Hs, Hus, Hue.
  exists ([(1, WLen a)] ++ each put_entry_bytes 2 md ++ each put_subject 3 su ++ each put_event 4 ev). split.
  - rewrite put_map_all in *. repeat apply message_app; [apply put_len_ok|apply put_all_ok|apply put_all_ok|apply put_all_ok]; lia.
  - refine (conj _ (conj _ (conj _ _))); cbn [vr_name vr_md vr_subjects vr_events].
    + apply text_one; [fields_calc|exact Ha].
    + apply map_one; auto; [fields_calc|lia].
    + apply (all_each _ _ put_subject); [fields_calc|]. intros x Hx. apply put_subject_ok; auto.
      pose proof (put_all_size _ put_subject 3 _ _ Hx). lia.
    + apply (all_each _ _ put_event); [fields_calc|]. intros x Hx. apply put_event_ok; auto.
      pose proof (put_all_size _ put_event 4 _ _ Hx). lia.
Qed.
