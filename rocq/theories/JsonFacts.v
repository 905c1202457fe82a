(** Proofs about building recordings from JSON. *)
From Coq Require Import Strings.String Reals Lia Lra.
From Flocq Require Import Core IEEE754.Binary.
From Verif Require Import Base BaseFacts Floats Metadata SpecMeta MetadataFacts Recording SpecRec RecordingFacts Text Json SpecJson.
From Verif Require Import Encoding Writer Reader SpecFile FileFacts Demo.
Local Open Scope N_scope.

Lemma json_ind' : forall P : json -> Prop,
  P JNull -> (forall b, P (JBool b)) -> (forall x, P (JNum x)) -> (forall s, P (JStr s)) ->
  (forall l, Forall P l -> P (JArr l)) ->
  (forall m, Forall (fun kv => P (snd kv)) m -> P (JObj m)) -> forall j, P j.
Proof.
  intros P H1 H2 H3 H4 H5 H6. fix IH 1. intros [|b|x|s|l|m].
  - exact H1.
  - apply H2.
  - apply H3.
  - apply H4.
  - apply H5. induction l as [|x l IHl]; constructor; [apply IH|exact IHl].
  - apply H6. induction m as [|[k v] m IHm]; constructor; [apply IH|exact IHm].
Qed.

(** ** The error monad *)
Lemma obind_some : forall {A B} (m : res (option A)) (k : A -> res (option B)) b,
  obind m k = Ok (Some b) -> exists a, m = Ok (Some a) /\ k a = Ok (Some b).
Proof. intros A B [[a|]| |] k b H; cbn in H; try discriminate. eauto. Qed.
Lemma obind_panic : forall {A B} (m : res (option A)) (k : A -> res (option B)),
  obind m k = Panic -> m = Panic \/ exists a, m = Ok (Some a) /\ k a = Panic.
Proof. intros A B [[a|]| |] k H; cbn in H; try discriminate; eauto. Qed.
Lemma obind_not_stuck : forall {A B} (m : res (option A)) (k : A -> res (option B)),
  m <> Stuck -> (forall a, m = Ok (Some a) -> k a <> Stuck) -> obind m k <> Stuck.
Proof. intros A B [[a|]| |] k H H'; cbn; auto; discriminate. Qed.
Lemma obind_ret : forall {A B} (m : res (option A)) (k : A -> res (option B)) a,
  m = Ok (Some a) -> obind m k = k a.
Proof. intros A B m k a ->. reflexivity. Qed.

Lemma each_some : forall {A B} (f : A -> res (option B)) (P : A -> B -> Prop) l,
  Forall (fun x => forall y, f x = Ok (Some y) -> P x y) l ->
  forall r, each f l = Ok (Some r) -> Forall2 P l r.
Proof.
  intros A B f P l Hl. induction Hl as [|x l Hx Hl IH]; intros r H; cbn [each] in H.
  - injection H as <-. constructor.
  - apply obind_some in H as (y & Hy & H). apply obind_some in H as (r' & Hr & H). injection H as <-. constructor; auto.
Qed.
Lemma each_ok : forall {A B} (f : A -> res (option B)) l r,
  Forall2 (fun x y => f x = Ok (Some y)) l r -> each f l = Ok (Some r).
Proof.
  intros A B f l r H. induction H as [|x y l r Hx Hl IH]; [reflexivity|]. cbn [each].
  rewrite (obind_ret _ _ y Hx). rewrite (obind_ret _ _ r IH). reflexivity.
Qed.
Lemma each_panic : forall {A B} (f : A -> res (option B)) l,
  each f l = Panic -> exists x, In x l /\ f x = Panic.
Proof.
  intros A B f. induction l as [|x l IH]; intro H; cbn [each] in H; [discriminate|].
  apply obind_panic in H as [H|(y & Hy & H)]; [exists x; split; [now left|exact H]|].
  apply obind_panic in H as [H|(r & Hr & H)]; [|discriminate]. destruct (IH H) as (x' & Hin & Hx). exists x'. split; [now right|exact Hx].
Qed.
Lemma each_not_stuck : forall {A B} (f : A -> res (option B)) l,
  Forall (fun x => f x <> Stuck) l -> each f l <> Stuck.
Proof.
  intros A B f l H. induction H as [|x l Hx Hl IH]; cbn [each]; [discriminate|].
  apply obind_not_stuck; [exact Hx|]. intros y _. apply obind_not_stuck; [exact IH|]. discriminate.
Qed.

(** ** Keys *)
Lemma jlookup_In : forall k m v, jlookup k m = Some v -> In (k, v) m.
Proof.
  intros k. induction m as [|[a w] m IH]; intros v H; cbn [jlookup] in H; [discriminate|].
  destruct (str_eqb k a) eqn:E; [|right; auto]. apply str_eqb_eq in E. subst a. injection H as ->. now left.
Qed.
Lemma jlookup_key : forall k m, In k (map fst m) <-> jlookup k m <> None.
Proof.
  intros k. induction m as [|[a w] m IH]; cbn [jlookup map fst In]; [intuition|].
  destruct (str_eqb k a) eqn:E.
  - apply str_eqb_eq in E. subst a. split; [discriminate|auto].
  - rewrite <- IH. split; [intros [->|H]; [now rewrite str_eqb_refl in E|exact H]|auto].
Qed.
Lemma two_keys : forall m, has_keys m ["x"; "y"]%string <->
  (lenN m =? 2) = true /\ jlookup (lit "x") m <> None /\ jlookup (lit "y") m <> None.
Proof.
  intro m. unfold has_keys. cbn [length In]. rewrite N.eqb_eq. unfold lenN. split.
  - intros [H1 H2]. split; [lia|]. split; apply jlookup_key; apply H2; auto.
  - intros (H1 & H2 & H3). split; [lia|]. apply jlookup_key in H2, H3. intros k [<-|[<-|[]]]; auto.
Qed.
Lemma three_keys : forall m, has_keys m ["x"; "y"; "z"]%string <->
  (lenN m =? 3) = true /\ jlookup (lit "x") m <> None /\ jlookup (lit "y") m <> None /\ jlookup (lit "z") m <> None.
Proof.
  intro m. unfold has_keys. cbn [length In]. rewrite N.eqb_eq. unfold lenN. split.
  - intros [H1 H2]. split; [lia|]. repeat split; apply jlookup_key; apply H2; auto.
  - intros (H1 & H2 & H3 & H4). split; [lia|]. apply jlookup_key in H2, H3, H4. intros k [<-|[<-|[<-|[]]]]; auto.
Qed.

(** ** Hexadecimal text *)
Lemma hex_digit_iff : forall c n, hex_digit c = Some n <-> hex_value c n.
Proof.
  intros c n. unfold hex_digit, hex_value.
  destruct (N.leb_spec 48 (b2n c)), (N.leb_spec (b2n c) 57), (N.leb_spec 97 (b2n c)), (N.leb_spec (b2n c) 102),
    (N.leb_spec 65 (b2n c)), (N.leb_spec (b2n c) 70); cbn [andb];
    (split; [intro E; first [discriminate E | injection E as <-; lia]
            | intros [[Hr ->]|[[Hr ->]|[Hr ->]]]; first [exfalso; lia | f_equal; lia]]).
Qed.
Lemma hex_decode_sound : forall s d, hex_decode s = Some d -> hex_text s d.
Proof.
  intro s. remember (length s) as n eqn:E. revert s E.
  induction n as [n IH] using lt_wf_ind. intros [|a [|b s]] E d H; cbn [hex_decode] in H; try discriminate H.
  - injection H as <-. constructor.
  - destruct (hex_digit a) eqn:Ea; [|discriminate H]. destruct (hex_digit b) eqn:Eb; [|discriminate H].
    destruct (hex_decode s) eqn:Es; [|discriminate H]. injection H as <-. apply hex_digit_iff in Ea, Eb.
    constructor; auto. apply (IH (length s)); auto. cbn [length] in E. lia.
Qed.
Lemma hex_decode_iff : forall s d, hex_decode s = Some d <-> hex_text s d.
Proof.
  split; [apply hex_decode_sound|]. intro H. induction H as [|a b x y s d Ha Hb Hs IH]; [reflexivity|].
  cbn [hex_decode]. apply hex_digit_iff in Ha, Hb. now rewrite Ha, Hb, IH.
Qed.
Lemma strip_iff : forall p s r, strip p s = Some r <-> s = p ++ r.
Proof.
  induction p as [|x p IH]; intros s r; cbn [strip app].
  - split; [now injection 1 as <-|now intros <-].
  - destruct s as [|y s]; [split; discriminate|]. destruct (beqb x y) eqn:E.
    + apply beqb_eq in E. subst y. rewrite IH. split; [now intros ->|now injection 1 as ->].
    + split; [discriminate|]. intro H. injection H as Hy _. assert (beqb x y = true) by now apply beqb_eq. congruence.
Qed.
Lemma plain_unquote : forall s, plain_text s -> unquote s = Some s.
Proof.
  intros s H. unfold unquote. induction H as [|c s (H1 & H2 & H3) Hs IH]; [reflexivity|].
  cbn [unquote_from]. destruct (beqb c """") eqn:E; [apply beqb_eq in E; congruence|].
  destruct (N.ltb_spec (b2n c) 32); [lia|]. destruct (beqb c "\") eqn:E'; [apply beqb_eq in E'; congruence|].
  cbn [negb]. rewrite IH. reflexivity.
Qed.
Lemma hex_plain : forall c n, hex_value c n -> plain_char c.
Proof.
  intros c n H. unfold plain_char, hex_value in *. repeat split; [lia| |]; intros ->; cbn in H; lia.
Qed.

(** ** Integers *)
Lemma int_of_iff : forall x z, int_of x = Some z <-> integral x z.
Proof.
  intros x z. unfold int_of, integral. destruct x as [s|s|s pl H|s m e H]; cbn [is_finite].
  - cbn [B2R]. split.
    + injection 1 as <-. repeat split; lia.
    + intros (_ & Hr & _). apply (eq_IZR 0) in Hr. now subst.
  - split; [discriminate|]. intros (? & _). discriminate.
  - split; [discriminate|]. intros (? & _). discriminate.
  - unfold B2R, F2R, Fnum, Fexp.
    assert (Hpos : (0 <= e)%Z -> bpow radix2 e = IZR (2 ^ e)).
    { intro He. now rewrite <- IZR_Zpower. }
    assert (Hneg : (e < 0)%Z -> (bpow radix2 e * IZR (2 ^ (- e)) = 1)%R).
    { intro He. replace (IZR (2 ^ (- e))) with (bpow radix2 (- e)) by (rewrite <- IZR_Zpower by lia; reflexivity). rewrite <- bpow_plus. now replace (e + - e)%Z with 0%Z by lia. }
    split.
    + intro E. destruct (Z.leb_spec 0 e) as [He|He].
      * destruct (_ && _)%bool eqn:Er; [|discriminate E].
        apply (f_equal (fun o => match o with Some a => a | None => 0%Z end)) in E. cbv beta iota in E. subst z.
        apply andb_true_iff in Er as [Er1 Er2]. apply Z.leb_le in Er1. apply Z.ltb_lt in Er2.
        split; [reflexivity|]. split; [|lia]. rewrite Hpos, <- mult_IZR by assumption. f_equal. destruct s; cbn [cond_Zopp]; lia.
      * destruct (Z.eqb_spec (Zpos m mod 2 ^ (- e)) 0) as [Hm|]; [|discriminate E].
        destruct (_ && _)%bool eqn:Er; [|discriminate E].
        apply (f_equal (fun o => match o with Some a => a | None => 0%Z end)) in E. cbv beta iota in E. subst z.
        apply andb_true_iff in Er as [Er1 Er2]. apply Z.leb_le in Er1. apply Z.ltb_lt in Er2.
        split; [reflexivity|]. split; [|lia].
        assert (Hp : (0 < 2 ^ (- e))%Z) by (apply Z.pow_pos_nonneg; lia).
        pose proof (Z.div_exact (Zpos m) (2 ^ (- e))) as Hd. destruct Hd as [_ Hd]; [lia|]. specialize (Hd Hm).
        set (q := (Zpos m / 2 ^ (- e))%Z) in *.
        replace (IZR (cond_Zopp s (Z.pos m))) with (IZR (cond_Zopp s q) * IZR (2 ^ (- e)))%R.
        2: { rewrite <- mult_IZR. f_equal. destruct s; cbn [cond_Zopp]; lia. }
        rewrite Rmult_assoc, (Rmult_comm (IZR (2 ^ (- e)))), Hneg by assumption. lra.
    + intros (_ & Hr & Hz). destruct (Z.leb_spec 0 e) as [He|He].
      * rewrite Hpos, <- mult_IZR in Hr by assumption. apply eq_IZR in Hr.
        replace (cond_Zopp s (Z.pos m * 2 ^ e)) with z by (destruct s; cbn [cond_Zopp] in *; lia).
        destruct (Z.leb_spec (- 2 ^ 63) z); [|lia]. destruct (Z.ltb_spec z (2 ^ 63)); [reflexivity|lia].
      * assert (Hp : (0 < 2 ^ (- e))%Z) by (apply Z.pow_pos_nonneg; lia).
        assert (Hm : cond_Zopp s (Z.pos m) = (z * 2 ^ (- e))%Z).
        { apply eq_IZR. rewrite mult_IZR, <- Hr. rewrite Rmult_assoc, Hneg by assumption. lra. }
        assert (Hq : Zpos m = (cond_Zopp s z * 2 ^ (- e))%Z) by (destruct s; cbn [cond_Zopp] in *; lia).
        rewrite Hq, Z.mod_mul, Z.div_mul by lia. cbn [Z.eqb].
        replace (cond_Zopp s (cond_Zopp s z)) with z by (destruct s; cbn [cond_Zopp]; lia).
        destruct (Z.leb_spec (- 2 ^ 63) z); [|lia]. destruct (Z.ltb_spec z (2 ^ 63)); [reflexivity|lia].
Qed.
Lemma integral_inj : forall x a b, integral x a -> integral x b -> a = b.
Proof. intros x a b (_ & Ha & _) (_ & Hb & _). apply eq_IZR. congruence. Qed.

(** ** Properties *)
Section Props.
Context (parse_time : str -> option Z) (reparse32 : f64 -> option f32).
Notation says := (says parse_time reparse32).
Notation get := (get_properties parse_time reparse32).

Lemma number_some : forall x p, number_property reparse32 x = Ok (Some p) <-> says (JNum x) p.
Proof.
  intros x p. unfold number_property. split.
  - destruct (int_of x) as [z|] eqn:E.
    + apply int_of_iff in E. destruct (Z.ltb_spec (Z.abs z) (10 ^ 6)) as [Hz|]; [|discriminate].
      intro H. injection H as <-. apply S_int; [exact E|]. change (10 ^ 6)%Z with 1000000%Z in *. lia.
    + destruct (reparse32 x) as [f|] eqn:Ef; [|discriminate]. intro H. injection H as <-. apply S_float; [|exact Ef].
      intros z Hz. apply int_of_iff in Hz. congruence.
  - intro H. inversion H as [|  |? z Hz Hr|? f Hn Hf| | | | | | | | |]; subst.
    + apply int_of_iff in Hz. rewrite Hz. destruct (Z.ltb_spec (Z.abs z) (10 ^ 6)); [reflexivity|]. change (10 ^ 6)%Z with 1000000%Z in *. lia.
    + destruct (int_of x) as [z|] eqn:E; [apply int_of_iff in E; now elim (Hn z)|]. now rewrite Hf.
Qed.

Lemma unquote_two : forall a b t c d, unquote (lit "0x" ++ [a; b]) = Some t ->
  hex_decode match strip (lit "0x") t with Some r => r | None => t end = Some (c :: d) -> t = lit "0x" ++ [a; b].
Proof.
  intros a b t c d. unfold unquote. cbn [lit list_byte_of_string app Strings.String.list_byte_of_string].
  change (lit "0x") with ["0"%byte; "x"%byte]. cbn [app].
  assert (step : forall x s, beqb x """" = false -> (b2n x <? 32) = false -> beqb x "\" = false ->
     unquote_from None (x :: s) = match unquote_from None s with Some t => Some (x :: t) | None => None end).
  { intros x s H1 H2 H3. cbn [unquote_from]. rewrite H1, H2, H3. cbn [negb]. destruct (unquote_from None s); reflexivity. }
  rewrite !step by reflexivity. intros H.
  destruct (unquote_from None [a; b]) as [u|] eqn:Eu; [|discriminate H]. injection H as <-.
  cbn [strip]. change (beqb "0" "0") with true. change (beqb "x" "x") with true. cbv iota. cbn [strip]. intro Hd.
  f_equal. f_equal. cbn [unquote_from] in Eu.
  destruct (beqb a """"); [discriminate Eu|]. destruct (b2n a <? 32); [discriminate Eu|].
  destruct (beqb a "\"); cbn [negb] in Eu.
  - exfalso.
    assert (Hl : length u = 1%nat).
    { destruct (beqb b """" || beqb b "\" || beqb b "/"); [now injection Eu as <-|].
      destruct (beqb b "b"); [now injection Eu as <-|]. destruct (beqb b "f"); [now injection Eu as <-|].
      destruct (beqb b "n"); [now injection Eu as <-|]. destruct (beqb b "r"); [now injection Eu as <-|].
      destruct (beqb b "t"); [now injection Eu as <-|]. destruct (negb (beqb b "u")); discriminate Eu. }
    destruct u as [|v [|w u]]; try discriminate Hl. discriminate Hd.
  - destruct (beqb b """"); [discriminate Eu|]. destruct (b2n b <? 32); [discriminate Eu|].
    destruct (beqb b "\"); cbn [negb] in Eu; [discriminate Eu|]. now injection Eu as <-.
Qed.
Lemma two_hex : forall a b c d, hex_text [a; b] (c :: d) -> d = [] /\ plain_text (lit "0x" ++ [a; b]).
Proof.
  intros a b c d H. inversion H as [|? ? x y ? ? Ha Hb Hs]; subst. inversion Hs. subst. split; [reflexivity|].
  change (lit "0x") with ["0"%byte; "x"%byte]. cbn [app].
  assert (H0 : plain_char "0"%byte) by (repeat split; [cbn; lia|discriminate|discriminate]).
  assert (Hx : plain_char "x"%byte) by (repeat split; [cbn; lia|discriminate|discriminate]).
  apply hex_plain in Ha, Hb. repeat (apply Forall_cons; [assumption|]). apply Forall_nil.
Qed.
Lemma string_some : forall s p, string_property parse_time s = Ok (Some p) <-> says (JStr s) p.
Proof.
  intros s p. unfold string_property. split.
  - destruct (strip (lit "0x") s) as [r|] eqn:Es.
    + apply strip_iff in Es. subst s. destruct (N.eqb_spec (lenN (lit "0x" ++ r)) 4) as [H4|H4].
      * rewrite lenN_app in H4. change (lenN (lit "0x")) with 2 in H4.
        destruct r as [|a [|b [|? ?]]]; unfold lenN in H4; cbn [length] in H4; try lia.
        destruct (unquote (lit "0x" ++ [a; b])) as [t|] eqn:Eu; [|discriminate].
        destruct (hex_decode _) as [[|c d]|] eqn:Eh; try discriminate. intro H. injection H as <-.
        pose proof (unquote_two a b t c d Eu Eh) as ->.
        assert (Es : strip (lit "0x") (lit "0x" ++ [a; b]) = Some [a; b]) by now apply strip_iff.
        rewrite Es in Eh. apply hex_decode_iff in Eh. apply S_byte.
        destruct (two_hex a b c d Eh) as [-> _]. exact Eh.
      * destruct (hex_decode r) as [d|] eqn:Eh; [|discriminate]. intro H. injection H as <-. apply S_bytes; [|now apply hex_decode_iff].
        intro Hl. apply H4. rewrite lenN_app. change (lenN (lit "0x")) with 2. unfold lenN. unfold str, bytes in *. rewrite Hl. reflexivity.
    + assert (Hn : ~ starts_0x s) by (intros (r & ->); assert (strip (lit "0x") (lit "0x" ++ r) = Some r) by (now apply strip_iff); congruence).
      destruct (parse_time s) as [u|] eqn:Ep.
      * destruct (unquote s) as [t|] eqn:Eu; [|discriminate]. destruct (parse_time t) as [us|] eqn:Et; [|discriminate].
        intro H. injection H as <-. apply S_time with t; auto. congruence.
      * destruct (unquote s) as [t|] eqn:Eu; [|discriminate]. intro H. injection H as <-. now apply S_text.
  - intro H. remember (JStr s) as j eqn:Ej.
    destruct H as [|  | | |a b c Hx|r d Hl Hx|s' t us Hn Hp Hu Ht|s' t Hn Hp Hu| | | | |]; try discriminate Ej;
      apply (f_equal (fun j => match j with JStr s => s | _ => [] end)) in Ej; cbv beta iota in Ej; subst.
    + assert (Es : strip (lit "0x") (lit "0x" ++ [a; b]) = Some [a; b]) by now apply strip_iff.
      rewrite Es. replace (lenN (lit "0x" ++ [a; b]) =? 4) with true by reflexivity.
      destruct (two_hex a b c [] Hx) as [_ Hpl]. rewrite (plain_unquote _ Hpl), Es. apply hex_decode_iff in Hx. now rewrite Hx.
    + assert (Es : strip (lit "0x") (lit "0x" ++ r) = Some r) by now apply strip_iff.
      rewrite Es. destruct (N.eqb_spec (lenN (lit "0x" ++ r)) 4) as [H4|].
      * exfalso. apply Hl. rewrite lenN_app in H4. change (lenN (lit "0x")) with 2 in H4. unfold lenN in H4. unfold str, bytes in *. lia.
      * apply hex_decode_iff in Hx. now rewrite Hx.
    + destruct (strip (lit "0x") s) as [r|] eqn:Es; [apply strip_iff in Es; elim Hn; now exists r|].
      destruct (parse_time s) as [u|] eqn:Ep; [|congruence]. now rewrite Hu, Ht.
    + destruct (strip (lit "0x") s) as [r|] eqn:Es; [apply strip_iff in Es; elim Hn; now exists r|].
      now rewrite Hp, Hu.
Qed.
Lemma string_no_panic : forall s, string_property parse_time s <> Panic /\ string_property parse_time s <> Stuck.
Proof.
  intro s. unfold string_property. destruct (strip (lit "0x") s) as [r|] eqn:Es.
  - apply strip_iff in Es. subst s. destruct (N.eqb_spec (lenN (lit "0x" ++ r)) 4) as [H4|H4].
    + rewrite lenN_app in H4. change (lenN (lit "0x")) with 2 in H4.
      destruct r as [|a [|b [|? ?]]]; unfold lenN in H4; cbn [length] in H4; try lia.
      destruct (unquote (lit "0x" ++ [a; b])) as [t|] eqn:Eu; [|split; discriminate].
      destruct (hex_decode _) as [[|c d]|] eqn:Eh; try (split; discriminate). exfalso.
      change (lit "0x") with ["0"%byte; "x"%byte] in Eu. unfold unquote in Eu. cbn [app] in Eu.
      assert (step : forall x s, beqb x """" = false -> (b2n x <? 32) = false -> beqb x "\" = false ->
         unquote_from None (x :: s) = match unquote_from None s with Some t => Some (x :: t) | None => None end).
      { intros x s H1 H2 H3. cbn [unquote_from]. rewrite H1, H2, H3. cbn [negb]. destruct (unquote_from None s); reflexivity. }
      rewrite !step in Eu by reflexivity.
      destruct (unquote_from None [a; b]) as [u|] eqn:Ea; [|discriminate Eu]. injection Eu as <-.
      change (lit "0x") with ["0"%byte; "x"%byte] in Eh. cbn [strip] in Eh. change (beqb "0" "0") with true in Eh. change (beqb "x" "x") with true in Eh. cbv iota in Eh. cbn [strip] in Eh.
      destruct u as [|v u]; [|destruct u as [|w u]; cbn [hex_decode] in Eh; [discriminate Eh|];
        destruct (hex_digit v); [|discriminate Eh]; destruct (hex_digit w); [|discriminate Eh]; destruct (hex_decode u); discriminate Eh].
      cbn [unquote_from] in Ea. destruct (beqb a """"); [discriminate Ea|]. destruct (b2n a <? 32); [discriminate Ea|].
      destruct (beqb a "\"); cbn [negb] in Ea.
      * repeat (destruct (_ : bool) in Ea; [discriminate Ea|]). discriminate Ea.
      * destruct (beqb b """"); [discriminate Ea|]. destruct (b2n b <? 32); [discriminate Ea|].
        destruct (negb (beqb b "\")); discriminate Ea.
    + destruct (hex_decode r); split; discriminate.
  - destruct (parse_time s).
    + destruct (unquote s) as [t|]; [|split; discriminate]. destruct (parse_time t); split; discriminate.
    + destruct (unquote s) as [t|]; split; discriminate.
Qed.

Definition entry_of (kv : str * json) : res (option (str * prop)) :=
  obind (get (snd kv)) (fun p => ret (fst kv, p)).
Lemma get_obj : forall m, get (JObj m) =
  if lenN m =? 2 then
    match jlookup (lit "x") m, jlookup (lit "y") m with
    | Some x, Some y => match x, y with JNum x, JNum y => ret (PVec2 x y) | _, _ => Panic end
    | _, _ => obind (each entry_of m) (fun b => ret (PBlock b))
    end
  else if lenN m =? 3 then
    match jlookup (lit "x") m, jlookup (lit "y") m, jlookup (lit "z") m with
    | Some x, Some y, Some z =>
        match x, y, z with JNum x, JNum y, JNum z => ret (PVec3 x y z) | _, _, _ => Panic end
    | _, _, _ => obind (each entry_of m) (fun b => ret (PBlock b))
    end
  else obind (each entry_of m) (fun b => ret (PBlock b)).
Proof.
  intro m. cbn [get_properties].
  assert (Hgo : (fix go (l : list (str * json)) : res (option block) :=
                   match l with
                   | [] => ret []
                   | kv :: l' => let (k, v) := kv in
                       obind (get v) (fun p => obind (go l') (fun r => ret ((k, p) :: r)))
                   end) m = each entry_of m).
  { induction m as [|[k v] m IH]; [reflexivity|]. cbn [each]. rewrite IH. unfold entry_of. cbn [fst snd].
    destruct (get v) as [[p|]| |]; reflexivity. }
  rewrite Hgo. destruct (N.eqb_spec (lenN m) 2) as [E|E].
  - replace (lenN m =? 3) with false by (symmetry; apply N.eqb_neq; lia).
    destruct (jlookup (lit "x") m), (jlookup (lit "y") m); reflexivity.
  - destruct (N.eqb_spec (lenN m) 3); destruct (jlookup (lit "x") m), (jlookup (lit "y") m), (jlookup (lit "z") m); reflexivity.
Qed.
Lemma get_arr : forall j l, get (JArr (j :: l)) =
  match j with
  | JBool b => ret (new_bool_array (b :: map as_bool l))
  | _ => obind (each get (j :: l)) (fun ps => match ps with [] => Panic | p :: _ => do c <- prop_code p; ret (PArray c ps) end)
  end.
Proof.
  intros j l. cbn [get_properties].
  assert (Hgo : (fix go (l : list json) : res (option (list prop)) :=
                   match l with
                   | [] => ret []
                   | v :: l' => obind (get v) (fun p => obind (go l') (fun r => ret (p :: r)))
                   end) l = each get l).
  { induction l as [|v l IH]; [reflexivity|]. cbn [each]. now rewrite IH. }
  rewrite Hgo. destruct j; reflexivity.
Qed.


Theorem get_sound : forall j p, get j = Ok (Some p) -> says j p.
Proof.
  induction j as [|b|x|s|l IH|m IH] using json_ind'; intros p H.
  - injection H as <-. constructor.
  - injection H as <-. constructor.
  - now apply number_some.
  - now apply string_some.
  - destruct l as [|j l]; [discriminate H|]. rewrite get_arr in H.
    assert (HB : (exists b, j = JBool b) \/ (forall b, j <> JBool b)) by (destruct j; [right|left; eauto|right|right|right|right]; discriminate).
    destruct HB as [(b & ->)|HB]; [injection H as <-; constructor|].
    assert (H' : obind (each get (j :: l)) (fun ps => match ps with [] => Panic | p :: _ => do c <- prop_code p; ret (PArray c ps) end) = Ok (Some p)).
    { destruct j; try exact H. now elim (HB b). }
    apply obind_some in H' as (ps & Hps & H'). apply each_some with (P := says) in Hps; [|exact IH].
    inversion Hps as [|? q ? ps' Hj Hl]; subst. destruct (prop_code q) as [c| |] eqn:Ec; cbn [bind] in H'; try discriminate H'.
    injection H' as <-. now constructor.
  - rewrite get_obj in H.
    assert (HB : ~ is_vector m -> obind (each entry_of m) (fun b => ret (PBlock b)) = Ok (Some p) -> says (JObj m) p).
    { intros Hv Ho. apply obind_some in Ho as (b & Hb & Ho). injection Ho as <-. apply S_block; [exact Hv|].
      eapply each_some with (f := entry_of); [|exact Hb]. rewrite Forall_forall in *. intros [k v] Hin [k' q] Hq.
      unfold entry_of in Hq. apply obind_some in Hq as (q' & Hq' & E). injection E as <- <-. split; [reflexivity|]. cbn [fst snd] in *.
      apply (IH (k, v) Hin). exact Hq'. }
    unfold is_vector in HB. rewrite two_keys, three_keys in HB.
    destruct (N.eqb_spec (lenN m) 2) as [E2|E2].
    + destruct (jlookup (lit "x") m) as [jx|] eqn:Ex; [destruct (jlookup (lit "y") m) as [jy|] eqn:Ey|].
      * destruct jx; try discriminate H. destruct jy; try discriminate H. injection H as <-.
        apply S_vec2; auto. apply two_keys. rewrite Ex, Ey. split; [now apply N.eqb_eq|]. split; discriminate.
      * apply HB; [|exact H]. intros [(_ & _ & Hy)|(E3 & _)]; [congruence|]. apply N.eqb_eq in E3. lia.
      * apply HB; [|exact H]. intros [(_ & Hx & _)|(E3 & _)]; [congruence|]. apply N.eqb_eq in E3. lia.
    + destruct (N.eqb_spec (lenN m) 3) as [E3|E3].
      * assert (HN : ~ ((false = true) /\ jlookup (lit "x") m <> None /\ jlookup (lit "y") m <> None)) by (intros [? _]; discriminate).
        destruct (jlookup (lit "x") m) as [jx|] eqn:Ex; [destruct (jlookup (lit "y") m) as [jy|] eqn:Ey; [destruct (jlookup (lit "z") m) as [jz|] eqn:Ez|]|].
        -- destruct jx; try discriminate H. destruct jy; try discriminate H. destruct jz; try discriminate H. injection H as <-.
           apply S_vec3; auto. apply three_keys. rewrite Ex, Ey, Ez. split; [now apply N.eqb_eq|]. repeat split; discriminate.
        -- apply HB; [|exact H]. intros [Hd|(_ & _ & _ & Hz)]; [now apply HN|congruence].
        -- apply HB; [|exact H]. intros [Hd|(_ & _ & Hy & _)]; [now apply HN|congruence].
        -- apply HB; [|exact H]. intros [Hd|(_ & Hx & _)]; [now apply HN|congruence].
      * apply HB; [|exact H]. intros [(E & _)|(E & _)]; discriminate E.
Qed.

Theorem get_complete : forall j p, says j p -> get j = Ok (Some p).
Proof.
  induction j as [|b|x|s|l IH|m IH] using json_ind'; intros p H.
  - now inversion H.
  - now inversion H.
  - now apply number_some.
  - now apply string_some.
  - inversion H as [| | | | | | | | | | |b l' E|j l' q ps c Hj Hq Hl Hc]; subst.
    + reflexivity.
    + rewrite get_arr.
      assert (He : each get (j :: l') = Ok (Some (q :: ps))).
      { inversion IH as [|? ? IHj IHl]; subst. apply each_ok. constructor; [auto|].
        clear -IHl Hl. induction Hl as [|x y l r Hx Hl IHr]; constructor; inversion IHl; subst; auto. }
      rewrite (obind_ret _ _ _ He). cbn beta iota. rewrite Hc. cbn [bind]. destruct j; try reflexivity. now elim (Hj b).
  - rewrite get_obj. inversion H as [| | | | | | | |? x y Hk Hx Hy|? x y z Hk Hx Hy Hz|? b Hv Hb| |]; subst.
    + apply two_keys in Hk as (-> & _). now rewrite Hx, Hy.
    + apply three_keys in Hk as (E3 & _). rewrite E3. apply N.eqb_eq in E3.
      replace (lenN m =? 2) with false by (symmetry; apply N.eqb_neq; lia). now rewrite Hx, Hy, Hz.
    + assert (He : obind (each entry_of m) (fun b => ret (PBlock b)) = Ok (Some (PBlock b))).
      { assert (He : each entry_of m = Ok (Some b)).
        { apply each_ok. clear -IH Hb. induction Hb as [|[k v] [k' q] m b [Hk Hq] Hb IHb]; constructor.
          - inversion IH as [|? ? IHv _]; subst. cbn [fst snd] in *. subst k'. unfold entry_of. cbn [fst snd].
            now rewrite (obind_ret _ _ q (IHv q Hq)).
          - apply IHb. now inversion IH. }
        now rewrite (obind_ret _ _ b He). }
      unfold is_vector in Hv. rewrite two_keys, three_keys in Hv.
      destruct (N.eqb_spec (lenN m) 2) as [E2|E2]; [|destruct (N.eqb_spec (lenN m) 3) as [E3|E3]; [|exact He]].
      * destruct (jlookup (lit "x") m) eqn:Ex; [destruct (jlookup (lit "y") m) eqn:Ey|]; try exact He.
        elim Hv. left. repeat split; discriminate.
      * destruct (jlookup (lit "x") m) eqn:Ex; [destruct (jlookup (lit "y") m) eqn:Ey; [destruct (jlookup (lit "z") m) eqn:Ez|]|]; try exact He.
        elim Hv. right. repeat split; discriminate.
Qed.
Theorem get_iff : forall j p, get j = Ok (Some p) <-> says j p.
Proof. split; [apply get_sound|apply get_complete]. Qed.

Definition trapped (j : json) : Prop := exists t, within t j /\ trap t.
Lemma trapped_arr : forall x l, In x l -> trapped x -> trapped (JArr l).
Proof. intros x l Hin (t & Ht & Htr). exists t. split; [now apply I_arr with x|exact Htr]. Qed.
Lemma trapped_obj : forall k x m, In (k, x) m -> trapped x -> trapped (JObj m).
Proof. intros k x m Hin (t & Ht & Htr). exists t. split; [now apply I_obj with k x|exact Htr]. Qed.
Lemma code_panic : forall p, prop_code p = Panic -> p = PNil.
Proof. destruct p; cbn; try discriminate; auto. Qed.
Lemma code_not_stuck : forall p, prop_code p <> Stuck.
Proof. destruct p; cbn; discriminate. Qed.
Theorem get_panic : forall j, get j = Panic -> trapped j.
Proof.
  induction j as [|b|x|s|l IH|m IH] using json_ind'; intro H.
  - discriminate H.
  - discriminate H.
  - exfalso. cbn [get_properties] in H. unfold number_property in H. destruct (int_of x); [destruct (_ <? _)%Z; discriminate H|destruct (reparse32 x); discriminate H].
  - now apply string_no_panic in H.
  - destruct l as [|j l]; [exists (JArr []); split; constructor|]. rewrite get_arr in H.
    assert (H' : obind (each get (j :: l)) (fun ps => match ps with [] => Panic | p :: _ => do c <- prop_code p; ret (PArray c ps) end) = Panic).
    { destruct j; try exact H. discriminate H. }
    apply obind_panic in H' as [H'|(ps & Hps & H')].
    + apply each_panic in H' as (x & Hin & Hx). rewrite Forall_forall in IH. apply trapped_arr with x; auto.
    + apply each_some with (P := says) in Hps; [|rewrite Forall_forall; intros; now apply get_sound].
      inversion Hps as [|? q ? ps' Hj Hl]; subst. destruct (prop_code q) eqn:Ec; cbn [bind] in H'; try discriminate H'.
      apply code_panic in Ec. subst q. inversion Hj; subst. exists (JArr (JNull :: l)). split; constructor.
  - rewrite get_obj in H.
    assert (HB : obind (each entry_of m) (fun b => ret (PBlock b)) = Panic -> trapped (JObj m)).
    { intro Ho. apply obind_panic in Ho as [Ho|(b & _ & Ho)]; [|discriminate Ho].
      apply each_panic in Ho as ([k v] & Hin & Hx). unfold entry_of in Hx. cbn [fst snd] in Hx.
      apply obind_panic in Hx as [Hx|(q & _ & Hx)]; [|discriminate Hx]. rewrite Forall_forall in IH.
      apply trapped_obj with k v; auto. apply (IH (k, v) Hin Hx). }
    assert (HV : is_vector m -> (exists k v, jlookup k m = Some v /\ forall x, v <> JNum x) -> trapped (JObj m)).
    { intros Hv (k & v & Hk & Hn). exists (JObj m). split; [constructor|]. apply T_vector with k v; auto. now apply jlookup_In. }
    destruct (N.eqb_spec (lenN m) 2) as [E2|E2]; [|destruct (N.eqb_spec (lenN m) 3) as [E3|E3]; [|auto]].
    + destruct (jlookup (lit "x") m) as [jx|] eqn:Ex; [destruct (jlookup (lit "y") m) as [jy|] eqn:Ey|]; auto.
      apply HV.
      * left. apply two_keys. rewrite Ex, Ey, E2. repeat split; discriminate.
      * destruct jx; try (exists (lit "x"); eexists; split; [exact Ex|discriminate]).
        destruct jy; try (exists (lit "y"); eexists; split; [exact Ey|discriminate]).
    + destruct (jlookup (lit "x") m) as [jx|] eqn:Ex; [destruct (jlookup (lit "y") m) as [jy|] eqn:Ey; [destruct (jlookup (lit "z") m) as [jz|] eqn:Ez|]|]; auto.
      apply HV.
      * right. apply three_keys. rewrite Ex, Ey, Ez, E3. repeat split; discriminate.
      * destruct jx; try (exists (lit "x"); eexists; split; [exact Ex|discriminate]).
        destruct jy; try (exists (lit "y"); eexists; split; [exact Ey|discriminate]).
        destruct jz; try (exists (lit "z"); eexists; split; [exact Ez|discriminate]).
Qed.
Theorem get_not_stuck : forall j, get j <> Stuck.
Proof.
  induction j as [|b|x|s|l IH|m IH] using json_ind'; try discriminate.
  - cbn [get_properties]. unfold number_property. destruct (int_of x); [destruct (_ <? _)%Z; discriminate|destruct (reparse32 x); discriminate].
  - apply string_no_panic.
  - destruct l as [|j l]; [discriminate|]. rewrite get_arr.
    assert (H' : obind (each get (j :: l)) (fun ps => match ps with [] => Panic | p :: _ => do c <- prop_code p; ret (PArray c ps) end) <> Stuck).
    { apply obind_not_stuck; [now apply each_not_stuck|]. intros [|p ps] _; [discriminate|]. generalize (code_not_stuck p).
      destruct (prop_code p); cbn; intros Hc Hd; [discriminate Hd|discriminate Hd|now elim Hc]. }
    destruct j; try exact H'. discriminate.
  - rewrite get_obj.
    assert (HB : obind (each entry_of m) (fun b => ret (PBlock b)) <> Stuck).
    { apply obind_not_stuck; [|discriminate]. apply each_not_stuck. rewrite Forall_forall in *. intros [k v] Hin.
      unfold entry_of. apply obind_not_stuck; [apply (IH (k, v) Hin)|discriminate]. }
    destruct (lenN m =? 2); [|destruct (lenN m =? 3); [|exact HB]].
    + destruct (jlookup (lit "x") m) as [jx|], (jlookup (lit "y") m) as [jy|]; try exact HB. destruct jx, jy; discriminate.
    + destruct (jlookup (lit "x") m) as [jx|], (jlookup (lit "y") m) as [jy|], (jlookup (lit "z") m) as [jz|]; try exact HB. destruct jx, jy, jz; discriminate.
Qed.

(** ** Recordings *)
Definition risked (j : json) : Prop := exists t, risk t j.
Lemma risked_arr : forall x l, In x l -> risked x -> risked (JArr l).
Proof. intros x l Hin (t & m & o & Hw & H). exists t, m, o. split; [now apply I_arr with x|exact H]. Qed.
Lemma risked_obj : forall k x m, In (k, x) m -> risked x -> risked (JObj m).
Proof. intros k x m Hin (t & m' & o & Hw & H). exists t, m', o. split; [now apply I_obj with k x|exact H]. Qed.
Lemma risked_md : forall m o, In (lit "metadata", JObj o) m -> trapped (JObj o) -> risked (JObj m).
Proof. intros m o Hin (t & Hw & Ht). exists t, m, o. split; [constructor|auto]. Qed.
(** [f] builds what [R] says, panics only on traps in metadata and always ends. *)
Record good {A} (f : json -> res (option A)) (R : json -> A -> Prop) (j : json) : Prop := mkGood {
  g_sound : forall a, f j = Ok (Some a) -> R j a;
  g_complete : ~ risked j -> forall a, R j a -> f j = Ok (Some a);
  g_panic : f j = Panic -> risked j;
  g_ends : f j <> Stuck
}.

Lemma path_arr : forall k l v, path k (JArr l) = Some v -> exists r, v = JArr r.
Proof.
  intros k l v H. cbn [path] in H.
  match type of H with match ?g with _ => _ end = _ => destruct g as [|a r] end; [discriminate H|]. injection H as <-. eauto.
Qed.
Lemma skey_some : forall j k s, string_key j k = Ok (Some s) <-> exists m, j = JObj m /\ field m k (JStr s).
Proof.
  intros j k s. unfold string_key, field. split.
  - destruct (path (lit k) j) as [[| | |t| |]|] eqn:E; try discriminate. intro H. injection H as <-.
    destruct j as [| | | |l|m]; try discriminate E; [now apply path_arr in E as (r & E)|]. now exists m.
  - intros (m & -> & H). cbn [path]. now rewrite H.
Qed.
Lemma skey_ends : forall j k, string_key j k <> Panic /\ string_key j k <> Stuck.
Proof. intros j k. unfold string_key. destruct (path (lit k) j) as [[]|]; split; discriminate. Qed.
Lemma fkey_some : forall j k x, float_key j k = Ok (Some x) <-> exists m, j = JObj m /\ field m k (JNum x).
Proof.
  intros j k s. unfold float_key, field. split.
  - destruct (path (lit k) j) as [[| |x| | |]|] eqn:E; try discriminate. intro H. injection H as <-.
    destruct j as [| | | |l|m]; try discriminate E; [now apply path_arr in E as (r & E)|]. now exists m.
  - intros (m & -> & H). cbn [path]. now rewrite H.
Qed.
Lemma fkey_ends : forall j k, float_key j k <> Panic /\ float_key j k <> Stuck.
Proof. intros j k. unfold float_key. destruct (path (lit k) j) as [[]|]; split; discriminate. Qed.

Notation metadata_of := (metadata_of parse_time reparse32).
Notation pmeta := (parse_metadata parse_time reparse32).
Lemma md_some : forall m b, pmeta (JObj m) = Ok (Some b) -> metadata_of m b.
Proof.
  intros m b. unfold parse_metadata, SpecJson.metadata_of, field, no_field. cbn [path].
  destruct (jlookup (lit "metadata") m) as [[| | | | |o]|]; try discriminate.
  - intro H. right. exists o. split; [reflexivity|].
    destruct (get (JObj o)) as [[p|]| |] eqn:E; cbn [bind] in H; try discriminate H.
    + destruct p; injection H as <-;
        try (right; split; [reflexivity|]; intros b' Hb; apply get_complete in Hb; rewrite Hb in E; discriminate E).
      left. now apply get_sound.
    + injection H as <-. right. split; [reflexivity|]. intros b' Hb. apply get_complete in Hb. rewrite Hb in E. discriminate E.
  - intro H. injection H as <-. now left.
Qed.
Lemma md_complete : forall m b, ~ risked (JObj m) -> metadata_of m b -> pmeta (JObj m) = Ok (Some b).
Proof.
  intros m b Ht. unfold parse_metadata, SpecJson.metadata_of, field, no_field. cbn [path].
  intros [(-> & ->)|(o & E & H)]; [reflexivity|]. rewrite E. destruct H as [H|[-> H]].
  - apply get_complete in H. now rewrite H.
  - destruct (get (JObj o)) as [[p|]| |] eqn:Eg; cbn [bind].
    + destruct p as [| | | | | | |b0| | | |]; try reflexivity. apply get_sound in Eg. now elim (H b0).
    + reflexivity.
    + elim Ht. apply risked_md with o; [now apply jlookup_In|]. now apply get_panic.
    + now apply get_not_stuck in Eg.
Qed.
Lemma md_panic : forall m, pmeta (JObj m) = Panic -> risked (JObj m).
Proof.
  intro m. unfold parse_metadata. cbn [path]. destruct (jlookup (lit "metadata") m) as [[| | | | |o]|] eqn:E; try discriminate.
  intro H. apply risked_md with o; [now apply jlookup_In|]. apply get_panic.
  destruct (get (JObj o)) as [[p|]| |]; cbn [bind] in H; try discriminate H; [destruct p; discriminate H|reflexivity].
Qed.
Lemma md_ends : forall j, pmeta j <> Stuck.
Proof.
  intro j. unfold parse_metadata. destruct (path (lit "metadata") j) as [[| | | | |o]|]; try discriminate.
  generalize (get_not_stuck (JObj o)). destruct (get (JObj o)) as [[p|]| |]; cbn [bind]; try congruence; [|discriminate]. intros _. destruct p; discriminate.
Qed.

Lemma vec_good : forall j, good vec_capture vec_capture_of j.
Proof.
  intro j. unfold vec_capture. split.
  - intros [t v] H. apply obind_some in H as (t' & Ht & H). apply fkey_some in Ht as (m & -> & Ht).
    apply obind_some in H as (v' & Hv & H). injection H as -> ->. unfold parse_vector in Hv.
    destruct (path (lit "data") (JObj m)) as [d|] eqn:Ed; [|discriminate Hv].
    apply obind_some in Hv as (x & Hx & Hv). apply fkey_some in Hx as (dm & -> & Hx).
    apply obind_some in Hv as (y & Hy & Hv). apply fkey_some in Hy as (dm' & E & Hy). injection E as <-.
    apply obind_some in Hv as (z & Hz & Hv). apply fkey_some in Hz as (dm' & E & Hz). injection E as <-.
    injection Hv as <-. apply V_cap with dm; [exact Ht|exact Ed|]. now repeat split.
  - intros _ a H. destruct H as [m d t v Ht Hd (Hx & Hy & Hz)].
    rewrite (obind_ret _ _ t) by (apply fkey_some; eauto). cbn [path]. rewrite Hd. unfold parse_vector.
    rewrite (obind_ret _ _ (vx v)) by (apply fkey_some; eauto).
    rewrite (obind_ret _ _ (vy v)) by (apply fkey_some; eauto).
    rewrite (obind_ret _ _ (vz v)) by (apply fkey_some; eauto). destruct v; reflexivity.
  - intro H. exfalso. apply obind_panic in H as [H|(t & Ht & H)]; [now apply fkey_ends in H|].
    apply obind_panic in H as [H|(v & Hv & H)]; [|discriminate H]. unfold parse_vector in H.
    destruct (path (lit "data") j) as [d|]; [|discriminate H].
    apply obind_panic in H as [H|(? & _ & H)]; [now apply fkey_ends in H|].
    apply obind_panic in H as [H|(? & _ & H)]; [now apply fkey_ends in H|].
    apply obind_panic in H as [H|(? & _ & H)]; [now apply fkey_ends in H|]. discriminate H.
  - apply obind_not_stuck; [apply fkey_ends|]. intros t _. apply obind_not_stuck; [|discriminate]. unfold parse_vector.
    destruct (path (lit "data") j) as [d|]; [|discriminate].
    apply obind_not_stuck; [apply fkey_ends|]. intros ? _. apply obind_not_stuck; [apply fkey_ends|]. intros ? _.
    apply obind_not_stuck; [apply fkey_ends|]. discriminate.
Qed.
Lemma enum_good : forall j, good enum_capture enum_capture_of j.
Proof.
  intro j. unfold enum_capture. split.
  - intros [t v] H. apply obind_some in H as (t' & Ht & H). apply fkey_some in Ht as (m & -> & Ht).
    apply obind_some in H as (v' & Hv & H). injection H as -> ->. apply skey_some in Hv as (m' & E & Hv). injection E as <-.
    now constructor.
  - intros _ a H. destruct H as [m t v Ht Hd].
    rewrite (obind_ret _ _ t) by (apply fkey_some; eauto). rewrite (obind_ret _ _ v) by (apply skey_some; eauto). reflexivity.
  - intro H. exfalso. apply obind_panic in H as [H|(t & Ht & H)]; [now apply fkey_ends in H|].
    apply obind_panic in H as [H|(v & Hv & H)]; [|discriminate H]. now apply skey_ends in H.
  - apply obind_not_stuck; [apply fkey_ends|]. intros t _. apply obind_not_stuck; [apply skey_ends|discriminate].
Qed.
Lemma event_good : forall j, good (event_capture parse_time reparse32) (event_capture_of parse_time reparse32) j.
Proof.
  intro j. unfold event_capture. split.
  - intros [t [n md]] H. apply obind_some in H as (t' & Ht & H). apply fkey_some in Ht as (m & -> & Ht).
    destruct (path (lit "data") (JObj m)) as [d|] eqn:Ed; [|discriminate H].
    apply obind_some in H as (n' & Hn & H). apply skey_some in Hn as (dm & -> & Hn).
    apply obind_some in H as (md' & Hm & H). injection H as -> -> ->. apply md_some in Hm.
    now apply E_cap with dm.
  - intros Hx a H. destruct H as [m d t n md Ht Hd Hn Hm].
    rewrite (obind_ret _ _ t) by (apply fkey_some; eauto). cbn [path]. rewrite Hd.
    rewrite (obind_ret _ _ n) by (apply skey_some; eauto).
    rewrite (obind_ret _ _ md); [reflexivity|]. apply md_complete; [|exact Hm]. intro Htr. apply Hx.
    apply risked_obj with (lit "data") (JObj d); [now apply jlookup_In|exact Htr].
  - intro H. apply obind_panic in H as [H|(t & Ht & H)]; [now apply fkey_ends in H|].
    apply fkey_some in Ht as (m & -> & Ht). cbn [path] in H.
    destruct (jlookup (lit "data") m) as [d|] eqn:Ed; [|discriminate H].
    apply obind_panic in H as [H|(n & Hn & H)]; [now apply skey_ends in H|]. apply skey_some in Hn as (dm & -> & Hn).
    apply obind_panic in H as [H|(v & Hv & H)]; [|discriminate H]. apply md_panic in H.
    apply risked_obj with (lit "data") (JObj dm); [now apply jlookup_In|exact H].
  - apply obind_not_stuck; [apply fkey_ends|]. intros t _. destruct (path (lit "data") j) as [d|]; [|discriminate].
    apply obind_not_stuck; [apply skey_ends|]. intros n _. apply obind_not_stuck; [apply md_ends|discriminate].
Qed.

Lemma each_good : forall {A} (f : json -> res (option A)) R l, Forall (good f R) l ->
  (forall r, each f l = Ok (Some r) -> Forall2 R l r) /\
  (~ risked (JArr l) -> forall r, Forall2 R l r -> each f l = Ok (Some r)) /\
  (each f l = Panic -> risked (JArr l)) /\ each f l <> Stuck.
Proof.
  intros A f R l H. repeat split.
  - apply each_some. apply Forall_impl with (2 := H). intros j Hj. apply Hj.
  - intros Ht r Hr. apply each_ok.
    assert (Hn : Forall (fun j => ~ risked j) l) by (apply Forall_forall; intros x Hin Hx; apply Ht; now apply risked_arr with x).
    clear Ht. induction Hr as [|x y l r Hx Hr IH]; constructor; inversion H; subst; inversion Hn; subst; auto. now apply g_complete with (R := R).
  - intro Hp. apply each_panic in Hp as (x & Hin & Hx). rewrite Forall_forall in H. apply risked_arr with x; [exact Hin|].
    now apply (g_panic f R x (H x Hin)).
  - apply each_not_stuck. apply Forall_impl with (2 := H). intros j Hj. apply Hj.
Qed.

Notation collection_of := (collection_of parse_time reparse32).
Notation pcoll := (parse_collection parse_time reparse32).
Definition body_builder (ty : str) (l : list json) : res (option cbody) :=
  if str_eqb ty sig_position then obind (each vec_capture l) (fun c => ret (BPos c))
  else if str_eqb ty sig_euler then obind (each vec_capture l) (fun c => ret (BEuler c))
  else if str_eqb ty sig_event then obind (each (event_capture parse_time reparse32) l) (fun c => ret (BEvent c))
  else if str_eqb ty sig_enum then obind (each enum_capture l) (fun c => ret (enum_body c))
  else fail.
Lemma obind_assoc : forall {A B C} (m : res (option A)) (k : A -> res (option B)) (h : B -> res (option C)),
  obind (obind m k) h = obind m (fun a => obind (k a) h).
Proof. intros A B C [[a|]| |] k h; reflexivity. Qed.
Lemma pcoll_eq : forall j, pcoll j =
  obind (string_key j "name") (fun name => obind (string_key j "type") (fun ty =>
  match path (lit "captures") j with
  | Some (JArr l) => obind (body_builder ty l) (fun b => ret (mkColl name b))
  | _ => fail end)).
Proof.
  intro j. unfold parse_collection, body_builder. destruct (string_key j "name") as [[name|]| |]; try reflexivity.
  cbn [obind bind]. destruct (string_key j "type") as [[ty|]| |]; try reflexivity. cbn [obind bind].
  destruct (path (lit "captures") j) as [[| | | |l|]|]; try reflexivity.
  destruct (str_eqb ty sig_position); [now rewrite obind_assoc|]. destruct (str_eqb ty sig_euler); [now rewrite obind_assoc|].
  destruct (str_eqb ty sig_event); [now rewrite obind_assoc|]. destruct (str_eqb ty sig_enum); [now rewrite obind_assoc|]. reflexivity.
Qed.
Lemma body_sound : forall ty l b, body_builder ty l = Ok (Some b) ->
  exists t, ty = lit t /\ body_of parse_time reparse32 t l b.
Proof.
  intros ty l b. unfold body_builder.
  destruct (str_eqb ty sig_position) eqn:E1.
  { intro H. apply obind_some in H as (c & Hc & H). injection H as <-. apply str_eqb_eq in E1. exists "recolude.position"%string.
    split; [exact E1|]. constructor. eapply (each_good vec_capture); [|exact Hc]. apply Forall_forall. intros; apply vec_good. }
  destruct (str_eqb ty sig_euler) eqn:E2.
  { intro H. apply obind_some in H as (c & Hc & H). injection H as <-. apply str_eqb_eq in E2. exists "recolude.euler"%string.
    split; [exact E2|]. constructor. eapply (each_good vec_capture); [|exact Hc]. apply Forall_forall. intros; apply vec_good. }
  destruct (str_eqb ty sig_event) eqn:E3.
  { intro H. apply obind_some in H as (c & Hc & H). injection H as <-. apply str_eqb_eq in E3. exists "recolude.event"%string.
    split; [exact E3|]. constructor. eapply (each_good (event_capture parse_time reparse32)); [|exact Hc]. apply Forall_forall. intros; apply event_good. }
  destruct (str_eqb ty sig_enum) eqn:E4; [|discriminate].
  intro H. apply obind_some in H as (c & Hc & H). injection H as <-. apply str_eqb_eq in E4. exists "recolude.enum"%string.
  split; [exact E4|]. constructor. eapply (each_good enum_capture); [|exact Hc]. apply Forall_forall. intros; apply enum_good.
Qed.
Lemma body_complete : forall t l b, ~ risked (JArr l) -> body_of parse_time reparse32 t l b -> body_builder (lit t) l = Ok (Some b).
Proof.
  intros t l b Ht H. destruct H as [l c H|l c H|l c H|l c H]; unfold body_builder.
  - replace (str_eqb (lit "recolude.position") sig_position) with true by reflexivity.
    rewrite (obind_ret _ _ c); [reflexivity|]. apply (each_good vec_capture vec_capture_of); auto. apply Forall_forall. intros; apply vec_good.
  - replace (str_eqb (lit "recolude.euler") sig_position) with false by reflexivity.
    replace (str_eqb (lit "recolude.euler") sig_euler) with true by reflexivity.
    rewrite (obind_ret _ _ c); [reflexivity|]. apply (each_good vec_capture vec_capture_of); auto. apply Forall_forall. intros; apply vec_good.
  - replace (str_eqb (lit "recolude.event") sig_position) with false by reflexivity.
    replace (str_eqb (lit "recolude.event") sig_euler) with false by reflexivity.
    replace (str_eqb (lit "recolude.event") sig_event) with true by reflexivity.
    rewrite (obind_ret _ _ c); [reflexivity|]. apply (each_good (event_capture parse_time reparse32) (event_capture_of parse_time reparse32)); auto. apply Forall_forall. intros; apply event_good.
  - replace (str_eqb (lit "recolude.enum") sig_position) with false by reflexivity.
    replace (str_eqb (lit "recolude.enum") sig_euler) with false by reflexivity.
    replace (str_eqb (lit "recolude.enum") sig_event) with false by reflexivity.
    replace (str_eqb (lit "recolude.enum") sig_enum) with true by reflexivity.
    rewrite (obind_ret _ _ c); [reflexivity|]. apply (each_good enum_capture enum_capture_of); auto. apply Forall_forall. intros; apply enum_good.
Qed.
Lemma body_panic : forall ty l, (body_builder ty l = Panic -> risked (JArr l)) /\ body_builder ty l <> Stuck.
Proof.
  intros ty l. unfold body_builder.
  assert (HP : forall A B (f : json -> res (option A)) (k : A -> list A) R (h : list A -> B), Forall (good f R) l ->
    (obind (each f l) (fun c => ret (h c)) = Panic -> risked (JArr l)) /\ obind (each f l) (fun c => ret (h c)) <> Stuck).
  { intros A B f _ R h Hg. destruct (each_good f R l Hg) as (_ & _ & Hp & Hs). split.
    - intro H. apply obind_panic in H as [H|(? & _ & H)]; [auto|discriminate H].
    - apply obind_not_stuck; [exact Hs|discriminate]. }
  repeat (destruct (str_eqb ty _); [eapply HP; [exact (fun x => [x])|]; apply Forall_forall; intros|]);
    try apply vec_good; try apply event_good; try apply enum_good.
  split; discriminate.
Qed.
Lemma coll_good : forall j, good pcoll (fun j c => collection_of j (Some c)) j.
Proof.
  intro j. split; rewrite ?pcoll_eq.
  - intros c H. apply obind_some in H as (n & Hn & H). apply skey_some in Hn as (m & -> & Hn).
    apply obind_some in H as (ty & Hty & H). apply skey_some in Hty as (m' & E & Hty). injection E as <-.
    destruct (path (lit "captures") (JObj m)) as [[| | | |l|]|] eqn:El; try discriminate H.
    apply obind_some in H as (b & Hb & H). injection H as <-. apply body_sound in Hb as (t & -> & Hb). now apply C_coll with t l.
  - intros Ht a H. inversion H as [m n ty l b Hn Hty Hl Hb]. subst.
    rewrite (obind_ret _ _ n) by (apply skey_some; eauto). rewrite (obind_ret _ _ (lit ty)) by (apply skey_some; eauto).
    cbn [path]. rewrite Hl. rewrite (obind_ret _ _ b); [reflexivity|]. apply body_complete; [|exact Hb].
    intro Htr. apply Ht. apply risked_obj with (lit "captures") (JArr l); [now apply jlookup_In|exact Htr].
  - intro H. apply obind_panic in H as [H|(n & Hn & H)]; [now apply skey_ends in H|]. apply skey_some in Hn as (m & -> & Hn).
    apply obind_panic in H as [H|(ty & _ & H)]; [now apply skey_ends in H|]. cbn [path] in H.
    destruct (jlookup (lit "captures") m) as [[| | | |l|]|] eqn:El; try discriminate H.
    apply obind_panic in H as [H|(? & _ & H)]; [|discriminate H]. apply body_panic in H.
    apply risked_obj with (lit "captures") (JArr l); [now apply jlookup_In|exact H].
  - apply obind_not_stuck; [apply skey_ends|]. intros n _. apply obind_not_stuck; [apply skey_ends|]. intros ty _.
    destruct (path (lit "captures") j) as [[| | | |l|]|]; try discriminate. apply obind_not_stuck; [apply body_panic|discriminate].
Qed.
Lemma coll_obj : forall j c, collection_of j c -> is_obj j = true.
Proof. intros j c H. now destruct H. Qed.

Context (big_atoi : f64 -> option Z).
Notation reference_of := (reference_of parse_time reparse32 big_atoi).
Notation pref := (parse_reference parse_time reparse32 big_atoi).
Lemma size_iff : forall x n, (exists z, atoi big_atoi x = Some z /\ (0 <= z)%Z /\ Z.to_N z = n) <->
  ((integral x (Z.of_N n) /\ n <= 2 ^ 53) \/
   (exists z, integral x z /\ (2 ^ 53 < Z.abs z)%Z /\ big_atoi x = Some (Z.of_N n))).
Proof.
  intros x n. unfold atoi. split.
  - intros (z & H & H0 & <-). rewrite Z2N.id by exact H0. destruct (int_of x) as [w|] eqn:E; [|discriminate H]. apply int_of_iff in E.
    destruct (Z.leb_spec (Z.abs w) (2 ^ 53)).
    + injection H as ->. left. split; [exact E|]. change (2 ^ 53)%Z with 9007199254740992%Z in *. change (2 ^ 53) with 9007199254740992. lia.
    + right. exists w. auto.
  - intros [[H Hn]|(z & H & Hz & Hb)].
    + exists (Z.of_N n). apply int_of_iff in H. rewrite H. split; [|split; [lia|apply N2Z.id]].
      destruct (Z.leb_spec (Z.abs (Z.of_N n)) (2 ^ 53)); [reflexivity|].
      change (2 ^ 53)%Z with 9007199254740992%Z in *. change (2 ^ 53) with 9007199254740992 in *. lia.
    + exists (Z.of_N n). apply int_of_iff in H. rewrite H. split; [|split; [lia|apply N2Z.id]].
      destruct (Z.leb_spec (Z.abs z) (2 ^ 53)); [lia|exact Hb].
Qed.
Lemma ref_good : forall j, good pref (fun j c => reference_of j (Some c)) j.
Proof.
  intro j. unfold parse_reference. split.
  - intros r H. apply obind_some in H as (n & Hn & H). apply skey_some in Hn as (m & -> & Hn).
    apply obind_some in H as (u & Hu & H). apply skey_some in Hu as (m' & E & Hu). injection E as <-.
    apply obind_some in H as (md & Hmd & H). apply md_some in Hmd.
    destruct (path (lit "size") (JObj m)) as [[| |x| | |]|] eqn:Ex; try discriminate H.
    destruct (atoi big_atoi x) as [z|] eqn:Ea; [|discriminate H]. destruct (Z.ltb_spec z 0); [discriminate H|]. injection H as <-.
    apply R_ref with x; auto. apply size_iff. exists z. auto.
  - intros Ht a H. inversion H as [m n u x k md Hn Hu Hx Hk Hmd]. subst.
    rewrite (obind_ret _ _ n) by (apply skey_some; eauto). rewrite (obind_ret _ _ u) by (apply skey_some; eauto).
    rewrite (obind_ret _ _ md) by (now apply md_complete). cbn [path]. rewrite Hx. apply size_iff in Hk as (z & -> & Hz & <-).
    destruct (Z.ltb_spec z 0); [lia|]. reflexivity.
  - intro H. apply obind_panic in H as [H|(n & Hn & H)]; [now apply skey_ends in H|]. apply skey_some in Hn as (m & -> & Hn).
    apply obind_panic in H as [H|(u & _ & H)]; [now apply skey_ends in H|].
    apply obind_panic in H as [H|(md & _ & H)]; [now apply md_panic|]. exfalso.
    destruct (path (lit "size") (JObj m)) as [[| |x| | |]|]; try discriminate H. destruct (atoi big_atoi x) as [z|]; [|discriminate H].
    destruct (z <? 0)%Z; discriminate H.
  - apply obind_not_stuck; [apply skey_ends|]. intros n _. apply obind_not_stuck; [apply skey_ends|]. intros u _.
    apply obind_not_stuck; [apply md_ends|]. intros md _. destruct (path (lit "size") j) as [[| |x| | |]|]; try discriminate.
    destruct (atoi big_atoi x) as [z|]; [|discriminate]. destruct (z <? 0)%Z; discriminate.
Qed.
Lemma ref_obj : forall j c, reference_of j c -> is_obj j = true.
Proof. intros j c H. now destruct H. Qed.

(** Arrays of objects. *)
Lemma array_good : forall {A} k (f : json -> res (option A)) (R : json -> option A -> Prop) m,
  (forall j o, R j o -> is_obj j = true) -> (forall j o, R j o -> o <> None) ->
  (forall l, jlookup (lit k) m = Some (JArr l) -> Forall (good f (fun j a => R j (Some a))) l) ->
  (forall r, parse_array k f (JObj m) = Ok (Some r) -> exists l, array_field m k l /\ Forall2 R l r) /\
  (~ risked (JObj m) -> forall l r, array_field m k l -> Forall2 R l r -> parse_array k f (JObj m) = Ok (Some r)) /\
  (parse_array k f (JObj m) = Panic -> risked (JObj m)) /\ parse_array k f (JObj m) <> Stuck.
Proof.
  intros A k f R m HO HN HG. unfold parse_array, array_field, field, no_field. cbn [path].
  set (g := fun x => if is_obj x then f x else fail).
  assert (HG' : forall l, jlookup (lit k) m = Some (JArr l) -> Forall (good g (fun j a => R j (Some a))) l).
  { intros l Hl. specialize (HG l Hl). apply Forall_impl with (2 := HG). intros j Hj. unfold g. split.
    - intros a H. destruct (is_obj j); [now apply Hj|discriminate H].
    - intros Ht a Ha. rewrite (HO j _ Ha). now apply Hj.
    - intro H. destruct (is_obj j); [now apply Hj|discriminate H].
    - destruct (is_obj j); [apply Hj|discriminate]. }
  clear HG. destruct (jlookup (lit k) m) as [[| | | |l|]|] eqn:El.
  1-4,6: repeat split; [intros r H; discriminate H|intros _ l r [H|[H _]]; discriminate H|discriminate|discriminate].
  - destruct (each_good g _ l (HG' l eq_refl)) as (Hs & Hc & Hp & He). repeat split.
    + intros r H. apply obind_some in H as (a & Ha & H). injection H as <-. exists l. split; [now left|]. apply Hs in Ha.
      clear -Ha. induction Ha; constructor; auto.
    + intros Ht l' r [H|[H _]]; [|discriminate H]. injection H as <-. intro Hr.
      assert (exists a, r = map Some a /\ Forall2 (fun j a => R j (Some a)) l a) as (a & -> & Ha).
      { clear -Hr HN. induction Hr as [|x [y|] l r Hx Hr (a & -> & Ha)]; [exists []; split; [reflexivity|constructor]| |now elim (HN _ _ Hx)].
        exists (y :: a). split; [reflexivity|now constructor]. }
      rewrite (obind_ret _ _ a); [reflexivity|]. apply Hc; [|exact Ha]. intro Htr. apply Ht.
      apply risked_obj with (lit k) (JArr l); [now apply jlookup_In|exact Htr].
    + intro H. apply obind_panic in H as [H|(? & _ & H)]; [|discriminate H]. apply Hp in H.
      apply risked_obj with (lit k) (JArr l); [now apply jlookup_In|exact H].
    + apply obind_not_stuck; [exact He|discriminate].
  - repeat split.
    + intros r H. injection H as <-. exists []. split; [right; auto|constructor].
    + intros _ l r [H|[_ ->]]; [discriminate H|]. intro H. inversion H. reflexivity.
    + discriminate.
    + discriminate.
Qed.

Notation precord := (parse_recording parse_time reparse32 big_atoi).
Notation describes := (describes parse_time reparse32 big_atoi).
Lemma subs_eq : forall f m, sub_recordings f m = parse_array "recordings" f (JObj m).
Proof.
  intros f m. unfold parse_array. cbn [path]. induction m as [|[k v] m IH]; [reflexivity|].
  cbn [sub_recordings jlookup]. destruct (str_eqb (lit "recordings") k); [|exact IH].
  destruct v as [| | | |l|]; try reflexivity. f_equal. induction l as [|x l IHl]; [reflexivity|]. cbn [each]. now rewrite IHl.
Qed.
Lemma precord_eq : forall m, precord (JObj m) =
  obind (string_key (JObj m) "id") (fun id => obind (string_key (JObj m) "name") (fun name =>
  obind (parse_array "recordings" precord (JObj m)) (fun subs => obind (pmeta (JObj m)) (fun md =>
  obind (parse_array "references" pref (JObj m)) (fun refs => obind (parse_array "collections" pcoll (JObj m)) (fun colls =>
  ret (mkRec id name colls subs md [] refs))))))).
Proof. intro m. cbn [parse_recording]. rewrite subs_eq. reflexivity. Qed.

Definition sub_of (j : json) (o : option recording) : Prop := exists r, o = Some r /\ describes j r.
Lemma describes_obj : forall j r, describes j r -> is_obj j = true.
Proof. intros j r H. now destruct H. Qed.
Lemma describes_subs : forall m id name cs colls rs subs fs refs md,
  field m "id" (JStr id) -> field m "name" (JStr name) ->
  array_field m "collections" cs -> Forall2 collection_of cs colls ->
  array_field m "recordings" rs -> Forall2 sub_of rs subs ->
  array_field m "references" fs -> Forall2 reference_of fs refs ->
  metadata_of m md -> describes (JObj m) (mkRec id name colls subs md [] refs).
Proof. intros. eapply D_rec; eauto. Qed.
Lemma not_obj_fails : forall j, is_obj j = false -> precord j = Ok None.
Proof.
  assert (H : forall j k, is_obj j = false -> string_key j k = Ok None).
  { intros j k Hj. unfold string_key. destruct j as [| | | |l|]; try reflexivity; [|discriminate Hj].
    destruct (path (lit k) (JArr l)) as [v|] eqn:E; [|reflexivity]. apply path_arr in E as (r & ->). reflexivity. }
  intros j Hj. specialize (H j "id"%string Hj). destruct j; try discriminate Hj; cbn [parse_recording]; rewrite H; reflexivity.
Qed.
Lemma record_step : forall m,
  (forall l, jlookup (lit "recordings") m = Some (JArr l) -> Forall (good precord describes) l) ->
  good precord describes (JObj m).
Proof.
  intros m IH.
  assert (HI : forall l, jlookup (lit "recordings") m = Some (JArr l) -> Forall (good precord (fun j r => sub_of j (Some r))) l).
  { intros l Hl. apply Forall_impl with (2 := IH l Hl). intros j Hj. split.
    - intros a H. exists a. split; [reflexivity|now apply Hj].
    - intros Ht a (r & E & H). injection E as ->. now apply Hj.
    - apply Hj.
    - apply Hj. }
  destruct (array_good "recordings" precord sub_of m) as (Ss & Sc & Sp & Se);
    [intros j o (r & _ & H); now apply describes_obj with r|intros j o (r & -> & _); discriminate|exact HI|].
  destruct (array_good "references" pref reference_of m) as (Rs & Rc & Rp & Re);
    [apply ref_obj|intros j o H; now destruct H|intros l _; apply Forall_forall; intros; apply ref_good|].
  destruct (array_good "collections" pcoll collection_of m) as (Cs & Cc & Cp & Ce);
    [apply coll_obj|intros j o H; now destruct H|intros l _; apply Forall_forall; intros; apply coll_good|].
  split.
  - intros a H. rewrite precord_eq in H.
    apply obind_some in H as (id & Hid & H). apply skey_some in Hid as (m' & E & Hid). injection E as <-.
    apply obind_some in H as (name & Hn & H). apply skey_some in Hn as (m' & E & Hn). injection E as <-.
    apply obind_some in H as (subs & Hsubs & H). apply Ss in Hsubs as (rs & Hrs & Hsubs).
    apply obind_some in H as (md & Hmd & H). apply md_some in Hmd.
    apply obind_some in H as (refs & Hrefs & H). apply Rs in Hrefs as (fs & Hfs & Hrefs).
    apply obind_some in H as (colls & Hcolls & H). apply Cs in Hcolls as (cs & Hcs & Hcolls).
    injection H as <-. now apply describes_subs with cs rs fs.
  - intros Ht a H. rewrite precord_eq. inversion H as [m' id name cs colls rs subs fs refs md Hid Hn Hcs Hcolls Hrs Hsubs Hfs Hrefs Hmd]. subst.
    rewrite (obind_ret _ _ id) by (apply skey_some; eauto). rewrite (obind_ret _ _ name) by (apply skey_some; eauto).
    rewrite (obind_ret _ _ subs) by (now apply Sc with rs). rewrite (obind_ret _ _ md) by (now apply md_complete).
    rewrite (obind_ret _ _ refs) by (now apply Rc with fs). rewrite (obind_ret _ _ colls) by (now apply Cc with cs). reflexivity.
  - rewrite precord_eq. intro H.
    apply obind_panic in H as [H|(? & _ & H)]; [now apply skey_ends in H|].
    apply obind_panic in H as [H|(? & _ & H)]; [now apply skey_ends in H|].
    apply obind_panic in H as [H|(? & _ & H)]; [auto|].
    apply obind_panic in H as [H|(? & _ & H)]; [now apply md_panic in H|].
    apply obind_panic in H as [H|(? & _ & H)]; [auto|].
    apply obind_panic in H as [H|(? & _ & H)]; [auto|]. discriminate H.
  - rewrite precord_eq. apply obind_not_stuck; [apply skey_ends|]. intros ? _. apply obind_not_stuck; [apply skey_ends|]. intros ? _.
    apply obind_not_stuck; [exact Se|]. intros ? _. apply obind_not_stuck; [apply md_ends|]. intros ? _.
    apply obind_not_stuck; [exact Re|]. intros ? _. apply obind_not_stuck; [exact Ce|]. discriminate.
Qed.
Theorem record_good : forall j, good precord describes j.
Proof.
  assert (HF : forall j, is_obj j = false -> good precord describes j).
  { intros j Hj. pose proof (not_obj_fails j Hj) as E. split; rewrite ?E; try discriminate.
    intros _ a H. apply describes_obj in H. congruence. }
  assert (HA : forall j, good precord describes j /\ forall l, j = JArr l -> Forall (good precord describes) l).
  { induction j as [|b|x|s|l IH|m IH] using json_ind'.
    1-4: (split; [apply HF; reflexivity|discriminate]).
    - split; [apply HF; reflexivity|]. intros l' E. injection E as <-. apply Forall_impl with (2 := IH). intros j Hj. apply Hj.
    - split; [|discriminate]. apply record_step. intros l Hl. apply jlookup_In in Hl. rewrite Forall_forall in IH.
      apply (IH _ Hl). reflexivity. }
  intro j. apply HA.
Qed.
End Props.

(** ** Plain values *)
Section Plain.
Context (parse_time : str -> option Z) (reparse32 : f64 -> option f32).
Notation says := (says parse_time reparse32).
Notation plain := (plain parse_time reparse32).
Notation plain_document := (plain_document parse_time reparse32).

Lemma key_number : forall m k, (forall k v, In (k, v) m -> exists x, v = JNum x) ->
  In k (map fst m) -> exists x, jlookup k m = Some (JNum x).
Proof.
  intros m k H Hk. apply jlookup_key in Hk. destruct (jlookup k m) as [v|] eqn:E; [|congruence].
  apply jlookup_In in E. destruct (H k v E) as (x & ->). eauto.
Qed.
Lemma has_x_y : forall m : list (str * json), has_keys m ["x"; "y"]%string -> In (lit "x") (map fst m) /\ In (lit "y") (map fst m).
Proof. intros m [_ H]. split; apply H; cbn; auto. Qed.
Lemma has_x_y_z : forall m : list (str * json), has_keys m ["x"; "y"; "z"]%string ->
  In (lit "x") (map fst m) /\ In (lit "y") (map fst m) /\ In (lit "z") (map fst m).
Proof. intros m [_ H]. repeat split; apply H; cbn; auto. Qed.

Theorem plain_says : forall j c, plain c j -> exists p, says j p /\ built p /\ prop_code p = Ok c.
Proof.
  induction j as [|b|x|s|l IH|m IH] using json_ind'; intros c H.
  - inversion H.
  - inversion H; subst; eexists; (split; [constructor|split; [exact I|reflexivity]]).
  - inversion H as [|? z Hz Hr|? Hn Hf| | | | | | | | | |]; subst.
    + exists (PInt z). split; [now constructor|]. split; [|reflexivity]. cbn [built]. change (10 ^ 6)%Z with 1000000%Z in Hr. lia.
    + destruct (reparse32 x) as [f|] eqn:E; [|congruence]. exists (PFloat f). split; [now constructor|]. now split.
  - remember (JStr s) as j eqn:Ej.
    destruct H as [s' Hp Hn Ht| | | | |a b c Hx| | | |s' us Hp Hn Ht Hr|s' d Hl Hx| |]; try discriminate Ej;
      apply (f_equal (fun j => match j with JStr s => s | _ => [] end)) in Ej; cbv beta iota in Ej; subst.
    + exists (PString s). split; [apply S_text; auto; now apply plain_unquote|]. now split.
    + exists (PByte c). split; [now constructor|]. now split.
    + exists (PTime us). split; [apply S_time with s; auto; [congruence|now apply plain_unquote]|]. now split.
    + exists (new_binary_array d). split; [now constructor|]. split; [|reflexivity]. left. now exists d.
  - inversion H as [| | | | | | | | | | |? Hl Hb|k ? Hk Hl Hp]; subst.
    + destruct l as [|v l]; [congruence|]. destruct (Hb v) as (b & ->); [now left|].
      exists (new_bool_array (b :: map as_bool l)). split; [constructor|]. split; [|reflexivity]. right. eexists. reflexivity.
    + assert (exists ps, Forall2 says l ps /\ Forall (fun p => prop_code p = Ok k /\ built p) ps) as (ps & Hs & Hb).
      { clear H Hl. induction l as [|v l IHl]; [exists []; split; constructor|].
        inversion IH as [|? ? IHv IHl']; subst. inversion Hp as [|? ? Hv Hp']; subst.
        destruct (IHl IHl' Hp') as (ps & H1 & H2). destruct (IHv k Hv) as (p & P1 & P2 & P3).
        exists (p :: ps). split; constructor; auto. }
      destruct l as [|v l]; [congruence|]. inversion Hs as [|? p ? ps' Hv Hr]; subst.
      inversion Hb as [|? ? [Hc Hbp] Hb']; subst.
      exists (PArray k (p :: ps')). split; [|split].
      * apply S_array; auto. intros b ->. inversion Hp as [|? ? Hx _]; subst. inversion Hx; subst;
          cbn in Hk; intuition discriminate.
      * apply built_array_iff. split; [exact Hk|exact Hb].
      * cbn [prop_code]. f_equal. apply N.mod_small. cbn in Hk. intuition (subst; reflexivity).
  - inversion H as [| | | | | |? Hnd Hk Hn|? Hnd Hk Hn|? Hnd Hv Hp| | | |]; subst.
    + destruct (has_x_y m Hk) as [Hx Hy]. destruct (key_number m _ Hn Hx) as (x & Ex). destruct (key_number m _ Hn Hy) as (y & Ey).
      exists (PVec2 x y). split; [now constructor|]. now split.
    + destruct (has_x_y_z m Hk) as (Hx & Hy & Hz). destruct (key_number m _ Hn Hx) as (x & Ex).
      destruct (key_number m _ Hn Hy) as (y & Ey). destruct (key_number m _ Hn Hz) as (z & Ez).
      exists (PVec3 x y z). split; [now constructor|]. now split.
    + assert (exists b, Forall2 (fun kj kp => fst kj = fst kp /\ says (snd kj) (snd kp)) m b /\ Forall (fun kp => built (snd kp)) b)
        as (b & Hs & Hb).
      { clear H Hnd Hv. induction m as [|[k v] m IHm]; [exists []; split; constructor|].
        inversion IH as [|? ? IHv IHl']; subst. destruct (IHm IHl') as (b & H1 & H2).
        { intros k' v' Hin. apply (Hp k' v'). now right. }
        destruct (Hp k v) as (c & Hc); [now left|]. destruct (IHv c Hc) as (p & P1 & P2 & _).
        exists ((k, p) :: b). split; constructor; auto. }
      exists (PBlock b). split; [now constructor|]. split; [|reflexivity]. apply built_block_iff. split; [|exact Hb].
      assert (E : map fst b = map fst m) by (clear -Hs; induction Hs as [|? ? ? ? [E _] _ IH]; [reflexivity|]; cbn [map]; now rewrite IH, E).
      now rewrite E.
Qed.
Lemma says_inj : forall j p q, says j p -> says j q -> p = q.
Proof. intros j p q Hp Hq. apply get_complete in Hp, Hq. congruence. Qed.
Lemma plain_md_built : forall m b, plain_metadata parse_time reparse32 m -> metadata_of parse_time reparse32 m b -> built_block b.
Proof.
  intros m b Hp [(_ & ->)|(o & Ho & [H|[-> _]])]; [split; [constructor|exact I]| |split; [constructor|exact I]].
  destruct (Hp _ Ho) as (c & Hc). apply plain_says in Hc as (p & Hs & Hb & _).
  pose proof (says_inj _ _ _ H Hs). now subst p.
Qed.
Context (big_atoi : f64 -> option Z).
Notation describes := (describes parse_time reparse32 big_atoi).
Theorem document_wf : forall r j, (forall x z, big_atoi x = Some z -> (z < 2 ^ 63)%Z) ->
  plain_document j -> describes j r -> wf_rec r.
Proof.
  induction r as [id name colls recs md bins refs IH] using recording_ind'. intros j HB Hp H.
  inversion H as [m ? ? cs ? rs ? fs ? ? Hid Hn Hcs Hcolls Hrs Hsubs Hfs Hrefs Hmd]. subst. clear H.
  inversion Hp as [? Hpm Hpr Hpf Hpc]. subst. constructor.
  - destruct Hcs as [Hcs|[_ ->]]; [|inversion Hcolls; constructor].
    assert (Hin : forall o, In (JObj o) cs -> forall l c d, field o "captures" (JArr l) -> In (JObj c) l -> field c "data" (JObj d) ->
              plain_metadata parse_time reparse32 d) by eauto.
    clear -Hcolls Hin. induction Hcolls as [|c o cs colls Hc Hcolls IHc]; [constructor|]. constructor; [|apply IHc; intros; eapply Hin; eauto; now right].
    destruct Hc as [o name ty l b Hn Hty Hl Hb]. eexists. split; [reflexivity|].
    specialize (Hin o (or_introl eq_refl) l). unfold wf_coll. cbn [c_body].
    destruct Hb as [l c Hc|l c Hc|l c Hc|l c Hc]; try exact I.
    + assert (Hin' : forall k d, In (JObj k) l -> field k "data" (JObj d) -> plain_metadata parse_time reparse32 d) by eauto.
      clear -Hc Hin'. induction Hc as [|x y l c Hx Hc IHc]; constructor; [|apply IHc; intros; eapply Hin'; eauto; now right].
      destruct Hx as [k d t nm md Ht Hd Hnm Hmd]. cbn [snd]. apply plain_md_built with d; [|exact Hmd]. eapply Hin'; [now left|exact Hd].
    + apply Forall_forall. intros x Hx. apply in_map_iff in Hx as (y & <- & _). cbn [snd]. lia.
  - destruct Hrs as [Hrs|[_ ->]]; [|inversion Hsubs; constructor].
    assert (Hin : forall x, In x rs -> plain_document x) by eauto.
    clear -IH HB Hsubs Hin. induction Hsubs as [|x o rs recs (r & -> & Hr) Hs IHs]; [constructor|].
    constructor; [|apply IHs; [intros; apply IH with j; auto; now right|intros; apply Hin; now right]].
    exists r. split; [reflexivity|]. apply (IH r (or_introl eq_refl) x); auto. apply Hin. now left.
  - now apply plain_md_built with m.
  - constructor.
  - destruct Hfs as [Hfs|[_ ->]]; [|inversion Hrefs; constructor].
    assert (Hin : forall o, In (JObj o) fs -> plain_metadata parse_time reparse32 o) by eauto.
    clear -Hrefs Hin HB. induction Hrefs as [|x o fs refs Hx Hs IHs]; [constructor|].
    constructor; [|apply IHs; intros; apply Hin; now right]. destruct Hx as [m name uri x n md Hn Hu Hx Hz Hmd].
    eexists. split; [reflexivity|]. split; cbn [r_md r_size].
    + apply plain_md_built with m; [|exact Hmd]. apply Hin. now left.
    + destruct Hz as [(Hz & _)|(z & _ & _ & Hz)].
      * destruct Hz as (_ & _ & Hz). change (2 ^ 64) with 18446744073709551616. lia.
      * apply HB in Hz. change (2 ^ 64) with 18446744073709551616. lia.
Qed.
Lemma described_accepted : forall r j, describes j r -> forall c, In c (tree_colls r) ->
  exists s, In s [sig_position; sig_euler; sig_event; sig_enum] /\ c_sig c = s.
Proof.
  induction r as [id name colls recs md bins refs IH] using recording_ind'. intros j H.
  inversion H as [m ? ? cs ? rs ? fs ? ? Hid Hn Hcs Hcolls Hrs Hsubs Hfs Hrefs Hmd]. subst. clear H.
  intros c Hc. cbn [tree_colls] in Hc. apply in_app_or in Hc as [Hc|Hc].
  - apply in_flat_map in Hc as (o & Ho & Hc).
    clear -Hcolls Ho Hc. induction Hcolls as [|x y cs colls Hx Hcs IHc]; [destruct Ho|]. destruct Ho as [->|Ho]; [|auto].
    destruct Hx as [m n ty l b Hn Hty Hl Hb]. cbn in Hc. destruct Hc as [<-|[]]. destruct Hb; eexists; (split; [|reflexivity]); cbn; tauto.
  - apply in_flat_map in Hc as (o & Ho & Hc).
    clear -IH Hsubs Ho Hc. induction Hsubs as [|x y rs recs (r & -> & Hr) Hs IHs]; [destruct Ho|].
    destruct Ho as [<-|Ho]; [|apply IHs; [intros; eapply IH; eauto; now right|exact Ho]].
    now apply (IH r (or_introl eq_refl) x).
Qed.
End Plain.
