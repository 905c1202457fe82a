(** Reading JSON texts: the reader accepts exactly the grammar of RFC 8259 (up to
    the nesting it allows) and returns the content of the text. *)
From Coq Require Import Strings.String Lia.
From Verif Require Import Base BaseFacts Floats Recording Text SpecText CsvFacts Json SpecJson SpecToJson Quote JsonText SpecJsonText.
Local Open Scope N_scope.

(** ** Blanks *)
Lemma is_blank_iff : forall c, is_blank c = true <-> blank c.
Proof. intro c. unfold is_blank, blank. cbn [In]. rewrite !orb_true_iff, !N.eqb_eq. lia. Qed.
Lemma skip_spec : forall s, exists w, s = w ++ skip s /\ ws w.
Proof.
  induction s as [|c s (w & E & Hw)]; cbn [skip]; [exists []; split; [reflexivity|constructor]|].
  destruct (is_blank c) eqn:Ec.
  - exists (c :: w). split; [cbn [app]; congruence|]. constructor; [now apply is_blank_iff|exact Hw].
  - exists []. split; [reflexivity|constructor].
Qed.
Lemma skip_ws : forall w s, ws w -> skip (w ++ s) = skip s.
Proof.
  induction 1 as [|c w Hc _ IH]; [reflexivity|]. cbn [app skip]. apply is_blank_iff in Hc. now rewrite Hc.
Qed.
Lemma skip_id : forall c s, is_blank c = false -> skip (c :: s) = c :: s.
Proof. intros c s H. cbn [skip]. now rewrite H. Qed.
Lemma skip_len : forall s, (length (skip s) <= length s)%nat.
Proof. intro s. destruct (skip_spec s) as (w & E & _). rewrite E at 2. rewrite app_length. lia. Qed.

(** ** Strings *)
Lemma scan_sound : forall s u r, scan s = Some (u, r) -> s = u ++ lit """" ++ r.
Proof.
  intro s. remember (length s) as n eqn:En. revert s En.
  induction n as [n IH] using lt_wf_ind. intros s -> u r. destruct s as [|c s]; cbn [scan]; [discriminate|].
  destruct (beqb c """") eqn:E1.
  { intro H. injection H as <- <-. apply beqb_eq in E1. subst c. reflexivity. }
  destruct (beqb c "\") eqn:E2.
  - destruct s as [|e s]; [discriminate|]. destruct (scan s) as [[u' r']|] eqn:Es; [|discriminate].
    intro H. injection H as <- <-. cbn [app]. do 2 f_equal. apply (IH (length s)) in Es; [exact Es|cbn; lia|reflexivity].
  - destruct (scan s) as [[u' r']|] eqn:Es; [|discriminate].
    intro H. injection H as <- <-. cbn [app]. f_equal. apply (IH (length s)) in Es; [exact Es|cbn; lia|reflexivity].
Qed.
Lemma hex_not : forall c n, hex_digit c = Some n -> beqb c """" = false /\ beqb c "\" = false.
Proof. intros c n H. split; destruct c; try reflexivity; discriminate H. Qed.
Lemma scan_complete : forall u hi t r, unquote_from hi u = Some t -> scan (u ++ lit """" ++ r) = Some (u, r).
Proof.
  intro u. remember (length u) as n eqn:En. revert u En.
  induction n as [n IH] using lt_wf_ind. intros u -> hi t r. destruct u as [|c u].
  { intros _. reflexivity. }
  assert (K : forall u' hi' t', (length u' < length (c :: u))%nat -> unquote_from hi' u' = Some t' -> scan (u' ++ lit """" ++ r) = Some (u', r)).
  { intros u' hi' t' Hl H. eapply IH; eauto. }
  clear IH. cbn [unquote_from]. cbn [app scan].
  destruct (beqb c """") eqn:E1; [discriminate|].
  destruct (b2n c <? 32) eqn:E0; [discriminate|].
  destruct (beqb c "\") eqn:E2; cbn [negb].
  2: { destruct (unquote_from None u) as [t'|] eqn:Eu; [|discriminate]. intros _. rewrite (K u None t'); [reflexivity|cbn; lia|exact Eu]. }
  destruct u as [|e u]; [discriminate|]. cbn [app].
  assert (K1 : forall hi' t', unquote_from hi' u = Some t' -> scan (u ++ lit """" ++ r) = Some (u, r)).
  { intros hi' t' H. apply (K u hi' t'); [cbn; lia|exact H]. }
  destruct (beqb e """" || beqb e "\" || beqb e "/")%bool.
  { destruct (unquote_from None u) as [t'|] eqn:Eu; [|discriminate]. intros _. now rewrite (K1 None t' Eu). }
  do 5 (match goal with |- (if beqb e ?b then _ else _) = _ -> _ => destruct (beqb e b) end;
    [destruct (unquote_from None u) as [t'|] eqn:Eu; [|discriminate]; intros _; now rewrite (K1 None t' Eu)|]).
  destruct (negb (beqb e "u")); [discriminate|].
  destruct u as [|w [|x [|y [|z u]]]]; try discriminate.
  destruct (hex4 w x y z) as [h|] eqn:Eh; [|discriminate]. unfold hex4 in Eh.
  destruct (hex_digit w) eqn:Ew; [|discriminate]. destruct (hex_digit x) eqn:Ex; [|discriminate].
  destruct (hex_digit y) eqn:Ey; [|discriminate]. destruct (hex_digit z) eqn:Ez; [|discriminate].
  apply hex_not in Ew as [Ew1 Ew2]. apply hex_not in Ex as [Ex1 Ex2]. apply hex_not in Ey as [Ey1 Ey2]. apply hex_not in Ez as [Ez1 Ez2].
  assert (K2 : forall hi' t', unquote_from hi' u = Some t' -> scan (u ++ lit """" ++ r) = Some (u, r)).
  { intros hi' t' H. apply (K u hi' t'); [cbn; lia|exact H]. }
  cbn [app scan]. rewrite Ew1, Ew2, Ex1, Ex2, Ey1, Ey2, Ez1, Ez2.
  destruct ((55296 <=? h) && (h <? 56320))%bool.
  { destruct (unquote_from (Some h) u) as [t'|] eqn:Eu; [|discriminate]. intros _. now rewrite (K2 _ t' Eu). }
  destruct ((56320 <=? h) && (h <? 57344))%bool; [destruct hi as [hh|]|];
    (destruct (unquote_from None u) as [t'|] eqn:Eu; [|discriminate]; intros _; now rewrite (K2 _ t' Eu)).
Qed.
Lemma read_string_sound : forall s t r, read_string s = Some (t, r) -> exists v, lit """" ++ s = v ++ r /\ string_text v t.
Proof.
  intros s t r H. unfold read_string in H. destruct (scan s) as [[u r']|] eqn:E; [|discriminate].
  destruct (unquote u) as [t'|] eqn:Eu; [|discriminate]. injection H as -> ->. apply scan_sound in E. subst s.
  exists (lit """" ++ u ++ lit """"). split; [now rewrite <- !app_assoc|]. exists u. auto.
Qed.
Lemma read_string_complete : forall v t r, string_text v t -> exists s, v ++ r = lit """" ++ s /\ read_string s = Some (t, r).
Proof.
  intros v t r (u & -> & Hu). exists (u ++ lit """" ++ r). split; [now rewrite <- !app_assoc|].
  unfold read_string. now rewrite (scan_complete u None t r Hu), Hu.
Qed.

(** ** Numbers *)
Lemma is_digit_iff : forall c, is_digit c = true <-> digit c.
Proof. intro c. unfold is_digit, digit. rewrite andb_true_iff, !N.leb_le. reflexivity. Qed.
Lemma span_spec : forall f s a b, span f s = (a, b) -> s = a ++ b /\ Forall (fun c => f c = true) a /\ (b = [] \/ f (hd x00 b) = false).
Proof.
  intro f. induction s as [|c s IH]; intros a b H; cbn [span] in H; [injection H as <- <-; auto|].
  destruct (f c) eqn:Ec.
  - destruct (span f s) as [a' b'] eqn:Es. injection H as <- <-. destruct (IH a' b' eq_refl) as (-> & Ha & Hb).
    split; [reflexivity|]. split; [constructor; auto|exact Hb].
  - injection H as <- <-. split; [reflexivity|]. split; [constructor|now right].
Qed.
Lemma span_app : forall f a b, Forall (fun c => f c = true) a -> (b = [] \/ f (hd x00 b) = false) -> span f (a ++ b) = (a, b).
Proof.
  intros f a b Ha Hb. induction Ha as [|c a Hc _ IH]; cbn [app span].
  - destruct b as [|c b]; [reflexivity|]. cbn [span]. destruct Hb as [Hb|Hb]; [discriminate|]. cbn [hd] in Hb. now rewrite Hb.
  - now rewrite Hc, IH.
Qed.
Lemma digits_forall : forall d, Forall (fun c => is_digit c = true) d <-> Forall digit d.
Proof. intro d. split; intro H; (eapply Forall_impl; [|exact H]); intro c; apply is_digit_iff. Qed.
Lemma lenN_zero : forall A (l : list A), (lenN l =? 0) = true <-> l = [].
Proof. intros A [|x l]; split; intro H; try reflexivity; try discriminate. Qed.

Lemma digits_span : forall d r, digits d -> (r = [] \/ is_digit (hd x00 r) = false) -> span is_digit (d ++ r) = (d, r).
Proof. intros d r [_ Hd] Hr. apply span_app; [now apply digits_forall|exact Hr]. Qed.
Lemma negb_len : forall (d : str), digits d -> negb (lenN d =? 0) = true.
Proof. intros [|c d] [H _]; [congruence|]. reflexivity. Qed.
Lemma len_digits : forall d, negb (lenN d =? 0) = true -> Forall (fun c => is_digit c = true) d -> digits d.
Proof. intros d H1 H2. split; [intros ->; discriminate|now apply digits_forall]. Qed.

Definition exponent (exp : str) : Prop :=
  exp = [] \/ (exists e s d, exp = e ++ s ++ d /\ (e = lit "e" \/ e = lit "E") /\
                (s = [] \/ s = lit "+" \/ s = lit "-") /\ digits d).
Lemma exponent_ok_iff : forall t, exponent_ok t = true <-> exponent t.
Proof.
  intro t. split.
  - destruct t as [|e t]; cbn [exponent_ok]; intro H; [now left|]. right.
    apply andb_true_iff in H as [He H]. apply orb_true_iff in He.
    assert (HE : [e] = lit "e" \/ [e] = lit "E").
    { destruct He as [He|He]; apply beqb_eq in He; subst e; auto. }
    assert (K : forall u, (let (d, r) := span is_digit u in negb (lenN d =? 0) && (lenN r =? 0))%bool = true -> digits u).
    { intros u Hu. destruct (span is_digit u) as [d r] eqn:E. apply span_spec in E as (-> & Hd & _).
      apply andb_true_iff in Hu as [H1 H2]. apply lenN_zero in H2. subst r. rewrite app_nil_r. now apply len_digits. }
    destruct t as [|c t]; cbv zeta in H.
    + apply K in H. exists [e], [], []. auto.
    + destruct (beqb c "+" || beqb c "-")%bool eqn:Ec.
      * apply K in H. exists [e], [c], t. split; [reflexivity|]. split; [exact HE|]. split; [|exact H].
        apply orb_true_iff in Ec. destruct Ec as [Ec|Ec]; apply beqb_eq in Ec; subst c; auto.
      * apply K in H. exists [e], [], (c :: t). auto.
  - intros [->|(e & s & d & -> & He & Hs & Hd)]; [reflexivity|].
    assert (HS : span is_digit d = (d, [])) by (rewrite <- (app_nil_r d) at 1; apply digits_span; auto).
    pose proof (negb_len d Hd) as Hl.
    assert (HD : exists c d', d = c :: d' /\ beqb c "+" = false /\ beqb c "-" = false).
    { destruct d as [|c d]; [destruct Hd; congruence|]. exists c, d. split; [reflexivity|].
      destruct Hd as [_ Hd]. apply Forall_inv in Hd. apply is_digit_iff in Hd. split; destruct c; try reflexivity; discriminate Hd. }
    destruct HD as (c & d' & Ed & E1 & E2).
    subst d. change (lit "e") with ["e"%byte] in *. change (lit "E") with ["E"%byte] in *.
    change (lit "+") with ["+"%byte] in *. change (lit "-") with ["-"%byte] in *.
    destruct He as [-> | ->], Hs as [-> |[-> | ->]]; cbn [app exponent_ok]; cbv zeta; rewrite ?E1, ?E2; cbn [orb];
      try change (beqb "+" "+") with true; try change (beqb "-" "-") with true; rewrite ?orb_true_r; cbv iota; cbn [orb];
      rewrite HS, Hl; reflexivity.
Qed.
Lemma number_ok_iff : forall t, number_ok t = true <-> number t.
Proof.
  assert (NX : forall exp, exponent exp -> exp = [] \/ (is_digit (hd x00 exp) = false /\ hd x00 exp <> "."%byte)).
  { intros exp [->|(e & s & d & -> & [-> | ->] & _)]; [now left| |]; right; (split; [reflexivity|discriminate]). }
  intro t. split.
  - unfold number_ok. cbv zeta. intro H.
    assert (P : exists sign u, t = sign ++ u /\ (sign = [] \/ sign = lit "-") /\
              match t with c :: u => if beqb c "-" then u else t | [] => t end = u).
    { destruct t as [|c t]; [exists [], []; auto|]. destruct (beqb c "-") eqn:Ec.
      - apply beqb_eq in Ec. subst c. exists (lit "-"), t. auto.
      - exists [], (c :: t). auto. }
    destruct P as (sign & u & Et & Hsign & Eu). rewrite Eu in H. subst t. clear Eu.
    destruct (span is_digit u) as [int u'] eqn:E. apply span_spec in E as (-> & Hint & Hu').
    apply andb_true_iff in H as [H Hrest]. apply andb_true_iff in H as [H1 H2].
    pose proof (len_digits _ H1 Hint) as Hdig.
    assert (Hz : hd x00 int = "0"%byte -> int = lit "0").
    { intro Hh. rewrite Hh in H2. destruct int as [|c [|c' int]]; [discriminate| |].
      - cbn [hd] in Hh. now subst c.
      - exfalso. apply orb_true_iff in H2 as [H2|H2]; [discriminate|]. apply N.eqb_eq in H2. rewrite !lenN_cons in H2. lia. }
    destruct u' as [|c u'].
    { change (number (sign ++ int ++ [] ++ [])). apply Number; auto. }
    destruct (beqb c ".") eqn:Ec.
    + destruct (span is_digit u') as [d r] eqn:E. apply span_spec in E as (-> & Hd & _).
      apply andb_true_iff in Hrest as [H3 H4]. apply exponent_ok_iff in H4. apply beqb_eq in Ec. subst c.
      change ("."%byte :: d ++ r) with ((lit "." ++ d) ++ r). apply Number; auto.
      right. exists d. split; [reflexivity|]. now apply len_digits.
    + apply exponent_ok_iff in Hrest. change (int ++ c :: u') with (int ++ [] ++ c :: u'). apply Number; auto.
  - intros [sign int frac exp Hsign Hint Hz Hfrac Hexp].
    fold (exponent exp) in Hexp. pose proof (NX exp Hexp) as Hx. apply exponent_ok_iff in Hexp.
    assert (HC : exists c i, int = c :: i /\ beqb c "-" = false).
    { destruct int as [|c i]; [destruct Hint; congruence|]. exists c, i. split; [reflexivity|].
      destruct Hint as [_ Hd]. apply Forall_inv in Hd. apply is_digit_iff in Hd. destruct c; try reflexivity; discriminate Hd. }
    assert (ES : match sign ++ int ++ frac ++ exp with c :: u => if beqb c "-" then u else sign ++ int ++ frac ++ exp | [] => sign ++ int ++ frac ++ exp end
                 = int ++ frac ++ exp).
    { destruct HC as (c & i & -> & Ec). destruct Hsign as [-> | ->]; cbn [app]; [now rewrite Ec|reflexivity]. }
    unfold number_ok. cbv zeta. match goal with |- context [span is_digit ?M] => replace M with (int ++ frac ++ exp) by (symmetry; exact ES) end.
    assert (HF : frac ++ exp = [] \/ is_digit (hd x00 (frac ++ exp)) = false).
    { destruct Hfrac as [->|(d & -> & _)]; [|right; reflexivity]. destruct Hx as [->|[Hx _]]; auto. }
    rewrite (digits_span int (frac ++ exp) Hint HF). rewrite (negb_len int Hint). cbn [andb].
    assert (HZ : (negb (beqb (hd x00 int) "0") || (lenN int =? 1))%bool = true).
    { destruct (beqb (hd x00 int) "0") eqn:E; [|reflexivity]. apply beqb_eq in E. rewrite (Hz E). reflexivity. }
    rewrite HZ. cbn [andb].
    destruct Hfrac as [->|(d & -> & Hd)].
    + cbn [app]. destruct exp as [|c e]; [reflexivity|]. destruct Hx as [Hx|[_ Hx]]; [discriminate|]. cbn [hd] in Hx.
      destruct (beqb c ".") eqn:Ec; [apply beqb_eq in Ec; congruence|exact Hexp].
    + change ((lit "." ++ d) ++ exp) with ("."%byte :: d ++ exp). change (beqb "." ".") with true. cbv iota.
      rewrite (digits_span d exp Hd); [|destruct Hx as [->|[Hx _]]; auto]. rewrite (negb_len d Hd). exact Hexp.
Qed.
Lemma number_chars : forall t, number t -> t <> [] /\ Forall (fun c => number_char c = true) t.
Proof.
  intros t [sign int frac exp Hsign [Hi Hint] _ Hfrac Hexp]. split.
  { intro E. apply app_eq_nil in E as [_ E]. apply app_eq_nil in E as [E _]. congruence. }
  assert (D : forall d, Forall digit d -> Forall (fun c => number_char c = true) d).
  { intros d Hd. eapply Forall_impl; [|exact Hd]. intros c Hc. apply is_digit_iff in Hc. unfold number_char. now rewrite Hc. }
  rewrite !Forall_app. split; [destruct Hsign as [-> | ->]; repeat constructor|]. split; [auto|]. split.
  - destruct Hfrac as [->|(d & -> & _ & Hd)]; [constructor|]. apply Forall_app. split; [repeat constructor|auto].
  - destruct Hexp as [->|(e & s & d & -> & He & Hs & _ & Hd)]; [constructor|].
    apply Forall_app. split; [destruct He as [-> | ->]; repeat constructor|]. apply Forall_app.
    split; [destruct Hs as [-> |[-> | ->]]; repeat constructor|auto].
Qed.
Lemma number_start : forall t, number t -> exists c u, t = c :: u /\ (c = "-"%byte \/ digit c).
Proof.
  intros t [sign int frac exp Hsign [Hi Hint] _ _ _]. destruct Hsign as [-> | ->].
  - destruct int as [|c int]; [congruence|]. apply Forall_inv in Hint. cbn [app]. eauto.
  - exists "-"%byte, (int ++ frac ++ exp). auto.
Qed.

(** ** What the reader accepts is in the grammar *)
Lemma items_sound : forall A (f : str -> option (A * str)) close (P : str -> A -> Prop) (Q : str -> list A -> Prop),
  (forall s a r, f s = Some (a, r) -> exists v, s = v ++ r /\ P v a) ->
  (forall a v x b, ws a -> P v x -> ws b -> Q (a ++ v ++ b) [x]) ->
  (forall a v x b e l, ws a -> P v x -> ws b -> Q e l -> Q (a ++ v ++ b ++ lit "," ++ e) (x :: l)) ->
  forall fuel s l r, items f close fuel s = Some (l, r) -> exists e, s = e ++ [close] ++ r /\ Q e l.
Proof.
  intros A f close P Q Hf Q1 Q2. induction fuel as [|fuel IH]; intros s l r H; cbn [items] in H; [discriminate|].
  destruct (f (skip s)) as [[x r1]|] eqn:Ef; [|discriminate]. destruct (Hf _ _ _ Ef) as (v & Ev & Hv).
  destruct (skip_spec s) as (a & Ea & Ha). rewrite Ev in Ea. destruct (skip_spec r1) as (b & Eb & Hb).
  destruct (skip r1) as [|c r2] eqn:Es; [discriminate|].
  destruct (beqb c ",") eqn:Ec.
  - destruct (items f close fuel r2) as [[l' r3]|] eqn:Ei; [|discriminate]. injection H as <- <-.
    apply beqb_eq in Ec. subst c. destruct (IH _ _ _ Ei) as (e & -> & He).
    eexists. split; [|exact (Q2 a v x b e l' Ha Hv Hb He)]. rewrite Ea, Eb. now rewrite <- !app_assoc.
  - destruct (beqb c close) eqn:Ed; [|discriminate]. injection H as <- <-. apply beqb_eq in Ed. subst c.
    eexists. split; [|exact (Q1 a v x b Ha Hv Hb)]. rewrite Ea, Eb. now rewrite <- !app_assoc.
Qed.
Lemma series_sound : forall A (f : str -> option (A * str)) close (P : str -> A -> Prop) (Q : str -> list A -> Prop),
  (forall s a r, f s = Some (a, r) -> exists v, s = v ++ r /\ P v a) ->
  (forall a v x b, ws a -> P v x -> ws b -> Q (a ++ v ++ b) [x]) ->
  (forall a v x b e l, ws a -> P v x -> ws b -> Q e l -> Q (a ++ v ++ b ++ lit "," ++ e) (x :: l)) ->
  forall s l r, series f close s = Some (l, r) ->
  exists e, s = e ++ [close] ++ r /\ ((ws e /\ l = []) \/ Q e l).
Proof.
  intros A f close P Q Hf Q1 Q2 s l r H. unfold series in H. destruct (skip_spec s) as (w & Ew & Hw).
  destruct (skip s) as [|c r0] eqn:Es; [discriminate|]. destruct (beqb c close) eqn:Ec.
  - injection H as <- <-. apply beqb_eq in Ec. subst c. eauto.
  - destruct (items_sound A f close P Q Hf Q1 Q2 _ _ _ _ H) as (e & Ee & He). eauto.
Qed.

Definition reads_in (n : nat) (v : str) (t : tree) : Prop := reads v t /\ (nesting t <= n)%nat.
Lemma value_sound : forall n s t r, value n s = Some (t, r) -> exists v, s = v ++ r /\ reads_in n v t.
Proof.
  induction n as [|n IH]; intros s t r H; (destruct s as [|c s]; [discriminate|]); cbn [value] in H.
  all: destruct (beqb c """") eqn:E1;
    [apply beqb_eq in E1; subst c; destruct (read_string s) as [[t' r']|] eqn:Es; [|discriminate];
     injection H as <- <-; destruct (read_string_sound _ _ _ Es) as (v & Ev & Hv); exists v;
     split; [exact Ev|]; split; [now apply R_str|apply Nat.le_0_l]|].
  all: destruct (beqb c "[") eqn:E2.
  all: try discriminate.
  1: destruct (beqb c "{") eqn:E3; [discriminate|].
  2: { apply beqb_eq in E2. subst c. destruct (series (value n) "]" s) as [[l r']|] eqn:Es; [|discriminate]. injection H as <- <-.
       destruct (series_sound _ (value n) "]"%byte (reads_in n) (fun e l => elements e l /\ Forall (fun t => (nesting t <= n)%nat) l) IH) with (3 := Es)
         as (e & -> & He).
       - intros a v x b Ha [Hv Hn] Hb. split; [now apply E_one|auto].
       - intros a v x b e l' Ha [Hv Hn] Hb [He Hl]. split; [now apply E_more|auto].
       - exists (lit "[" ++ e ++ lit "]"). split; [now rewrite <- !app_assoc|].
         destruct He as [[Hw ->]|[He Hl]]; (split; [now constructor|]); cbn [nesting]; apply le_n_S; [apply Nat.le_0_l|].
         clear -Hl. induction Hl as [|x l Hx _ IH]; cbn [fold_right]; [apply Nat.le_0_l|now apply Nat.max_lub]. }
  2: destruct (beqb c "{") eqn:E3.
  2: { apply beqb_eq in E3. subst c. destruct (series (entry (value n)) "}" s) as [[l r']|] eqn:Es; [|discriminate]. injection H as <- <-.
       destruct (series_sound _ (entry (value n)) "}"%byte
           (fun v kt => exists k b c w, v = k ++ b ++ lit ":" ++ c ++ w /\ string_text k (fst kt) /\ ws b /\ ws c /\ reads_in n w (snd kt))
           (fun e l => members e l /\ Forall (fun kt => (nesting (snd kt) <= n)%nat) l)) with (4 := Es) as (e & -> & He).
       - intros s0 [k t0] r0 H. unfold entry in H. destruct s0 as [|c0 s0]; [discriminate|].
         destruct (beqb c0 """") eqn:Eq; [|discriminate]. apply beqb_eq in Eq. subst c0.
         destruct (read_string s0) as [[k' r1]|] eqn:Ek; [|discriminate].
         destruct (skip_spec r1) as (b & Eb & Hb). destruct (skip r1) as [|c1 r2] eqn:Er; [discriminate|].
         destruct (beqb c1 ":") eqn:Ec; [|discriminate]. apply beqb_eq in Ec. subst c1.
         destruct (value n (skip r2)) as [[t1 r3]|] eqn:Ev; [|discriminate]. injection H as -> -> ->.
         destruct (skip_spec r2) as (w & Ew & Hw). destruct (IH _ _ _ Ev) as (v & Ev' & Hv). rewrite Ev' in Ew.
         destruct (read_string_sound _ _ _ Ek) as (kt & Ekt & Hk).
         exists (kt ++ b ++ lit ":" ++ w ++ v). split; [|exists kt, b, w, v; auto].
         change ("""" :: s0)%byte with (lit """" ++ s0). rewrite Ekt, Eb, Ew. now rewrite <- !app_assoc.
       - intros a v [k t0] b Ha (kt & b' & c & w & -> & Hk & Hb' & Hc & Hw & Hn) Hb. cbn [fst snd] in *.
         split; [|repeat constructor; auto]. rewrite <- !app_assoc. now apply M_one.
       - intros a v [k t0] b e l' Ha (kt & b' & c & w & -> & Hk & Hb' & Hc & Hw & Hn) Hb [He Hl]. cbn [fst snd] in *.
         split; [|constructor; auto]. rewrite <- !app_assoc. now apply M_more.
       - exists (lit "{" ++ e ++ lit "}"). split; [now rewrite <- !app_assoc|].
         destruct He as [[Hw ->]|[He Hl]]; (split; [now constructor|]); cbn [nesting]; apply le_n_S; [apply Nat.le_0_l|].
         clear -Hl. induction Hl as [|x l Hx _ IH]; cbn [fold_right]; [apply Nat.le_0_l|now apply Nat.max_lub]. }
  all: destruct (strip (lit "null") (c :: s)) as [r0|] eqn:W1;
    [injection H as <- <-; apply strip_spec in W1; exists (lit "null"); split; [exact W1|split; [constructor|apply Nat.le_0_l]]|].
  all: destruct (strip (lit "true") (c :: s)) as [r0|] eqn:W2;
    [injection H as <- <-; apply strip_spec in W2; exists (lit "true"); split; [exact W2|split; [constructor|apply Nat.le_0_l]]|].
  all: destruct (strip (lit "false") (c :: s)) as [r0|] eqn:W3;
    [injection H as <- <-; apply strip_spec in W3; exists (lit "false"); split; [exact W3|split; [constructor|apply Nat.le_0_l]]|].
  all: destruct (span number_char (c :: s)) as [u r0] eqn:Eu; destruct (number_ok u) eqn:En; [|discriminate];
    injection H as <- <-; apply span_spec in Eu as (Eu & _); apply number_ok_iff in En;
    exists u; split; [exact Eu|split; [now constructor|apply Nat.le_0_l]].
Qed.

(** ** What is in the grammar is accepted *)
Definition stop (r : str) : Prop := r = [] \/ number_char (hd x00 r) = false.
Lemma stop_blank : forall w r, ws w -> stop r -> stop (w ++ r).
Proof.
  intros w r Hw Hr. destruct Hw as [|c w Hc _]; [exact Hr|]. right. cbn [app hd].
  apply is_blank_iff in Hc. destruct c; try reflexivity; discriminate Hc.
Qed.
Lemma string_start : forall v s, string_text v s -> exists u, v = """"%byte :: u.
Proof. intros v s (u & -> & _). exists (u ++ lit """"). reflexivity. Qed.
Lemma reads_start : forall v t, reads v t -> exists c u, v = c :: u /\ is_blank c = false /\ beqb c "]" = false.
Proof.
  intros v t H. destruct H as [| | |t H|t s H|w H|e l H|w H|e l H];
    try (eexists _, _; split; [reflexivity|split; reflexivity]).
  - apply number_start in H as (c & u & -> & Hc). exists c, u. split; [reflexivity|].
    destruct Hc as [->|Hc]; [split; reflexivity|]. apply is_digit_iff in Hc. destruct c; try discriminate Hc; split; reflexivity.
  - apply string_start in H as (u & ->). exists """"%byte, u. auto.
Qed.
Lemma nesting_arr : forall l n, (nesting (TArr l) <= n)%nat -> exists n', n = S n' /\ Forall (fun t => (nesting t <= n')%nat) l.
Proof.
  intros l [|n] H; cbn [nesting] in H; [lia|]. exists n. split; [reflexivity|]. apply le_S_n in H.
  induction l as [|x l IH]; [constructor|]. cbn [fold_right] in H. constructor; [lia|apply IH; lia].
Qed.
Lemma nesting_obj : forall l n, (nesting (TObj l) <= n)%nat -> exists n', n = S n' /\ Forall (fun kt => (nesting (snd kt) <= n')%nat) l.
Proof.
  intros l [|n] H; cbn [nesting] in H; [lia|]. exists n. split; [reflexivity|]. apply le_S_n in H.
  induction l as [|x l IH]; [constructor|]. cbn [fold_right] in H. constructor; [lia|apply IH; lia].
Qed.
Lemma entry_ok : forall n k s b c v t r, string_text k s -> ws b -> ws c -> reads v t ->
  value n (v ++ r) = Some (t, r) -> entry (value n) (k ++ b ++ lit ":" ++ c ++ v ++ r) = Some ((s, t), r).
Proof.
  intros n k s b c v t r Hk Hb Hc Hv E. destruct (read_string_complete k s (b ++ lit ":" ++ c ++ v ++ r) Hk) as (u & -> & Es).
  change (lit """" ++ u) with (""""%byte :: u). unfold entry. change (beqb """" """") with true. cbv iota. rewrite Es.
  rewrite (skip_ws b) by exact Hb. change (skip (lit ":" ++ c ++ v ++ r)) with (":"%byte :: c ++ v ++ r).
  change (beqb ":" ":") with true. cbv iota. rewrite (skip_ws c) by exact Hc.
  destruct (reads_start v t Hv) as (h & v' & -> & Hh & _). cbn [app]. rewrite (skip_id h _ Hh). cbn [app] in E. now rewrite E.
Qed.

Scheme reads_mutind := Induction for reads Sort Prop
  with elements_mutind := Induction for elements Sort Prop
  with members_mutind := Induction for members Sort Prop.
Definition comp_value (v : str) (t : tree) : Prop :=
  forall n r, (nesting t <= n)%nat -> stop r -> value n (v ++ r) = Some (t, r).
Definition comp_items (e : str) (l : list tree) : Prop :=
  (exists c u, skip e = c :: u /\ beqb c "]" = false) /\ (length l <= length e)%nat /\
  forall n fuel r, Forall (fun t => (nesting t <= n)%nat) l -> (length l <= fuel)%nat ->
    items (value n) "]" fuel (e ++ lit "]" ++ r) = Some (l, r).
Definition comp_entries (e : str) (l : list (str * tree)) : Prop :=
  (exists c u, skip e = c :: u /\ beqb c "}" = false) /\ (length l <= length e)%nat /\
  forall n fuel r, Forall (fun kt => (nesting (snd kt) <= n)%nat) l -> (length l <= fuel)%nat ->
    items (entry (value n)) "}" fuel (e ++ lit "}" ++ r) = Some (l, r).
Lemma skip_app : forall e c u r, skip e = c :: u -> skip (e ++ r) = c :: u ++ r.
Proof.
  induction e as [|h e IH]; intros c u r H; cbn [app skip] in *; [discriminate|].
  destruct (is_blank h); [now apply IH|]. injection H as -> ->. reflexivity.
Qed.
Lemma skip_value : forall a v t r, ws a -> reads v t -> skip (a ++ v ++ r) = v ++ r.
Proof.
  intros a v t r Ha Hv. rewrite (skip_ws a) by exact Ha. destruct (reads_start v t Hv) as (h & v' & -> & Hh & _).
  cbn [app]. now apply skip_id.
Qed.
Lemma skip_string : forall a k s r, ws a -> string_text k s -> skip (a ++ k ++ r) = k ++ r.
Proof.
  intros a k s r Ha Hk. rewrite (skip_ws a) by exact Ha. destruct (string_start k s Hk) as (k' & ->). reflexivity.
Qed.
Lemma reads_len : forall v t, reads v t -> (1 <= length v)%nat.
Proof. intros v t H. destruct (reads_start v t H) as (c & u & -> & _). cbn. lia. Qed.

Theorem value_complete : forall v t, reads v t -> comp_value v t.
Proof.
  apply (reads_mutind (fun v t _ => comp_value v t) (fun e l _ => comp_items e l) (fun e l _ => comp_entries e l)).
  - intros n r _ _. now destruct n.
  - intros n r _ _. now destruct n.
  - intros n r _ _. now destruct n.
  - intros t Ht n r _ Hr. destruct (number_chars t Ht) as [_ Hc]. pose proof (span_app number_char t r Hc Hr) as Es.
    destruct (number_start t Ht) as (c & u & -> & Hs). apply number_ok_iff in Ht. cbn [app] in *.
    assert (K : beqb c """" = false /\ beqb c "[" = false /\ beqb c "{" = false /\ beqb "n" c = false /\ beqb "t" c = false /\ beqb "f" c = false).
    { destruct Hs as [->|Hs]; [repeat split|]. apply is_digit_iff in Hs. destruct c; try discriminate Hs; repeat split. }
    destruct K as (K1 & K2 & K3 & K4 & K5 & K6).
    destruct n; cbn [value]; rewrite K1, K2, K3;
      change (strip (lit "null") (c :: u ++ r)) with (if beqb "n" c then strip (lit "ull") (u ++ r) else None);
      change (strip (lit "true") (c :: u ++ r)) with (if beqb "t" c then strip (lit "rue") (u ++ r) else None);
      change (strip (lit "false") (c :: u ++ r)) with (if beqb "f" c then strip (lit "alse") (u ++ r) else None);
      rewrite K4, K5, K6, Es, Ht; reflexivity.
  - intros t s Ht n r _ _. destruct (read_string_complete t s r Ht) as (u & -> & Eu).
    change (lit """" ++ u) with (""""%byte :: u). destruct n; cbn [value]; change (beqb """" """") with true; cbv iota; now rewrite Eu.
  - intros w Hw n r Hn _. destruct (nesting_arr _ _ Hn) as (n' & -> & _). rewrite <- !app_assoc.
    change (lit "[" ++ w ++ lit "]" ++ r) with ("["%byte :: w ++ lit "]" ++ r). cbn [value].
    change (beqb "[" """") with false. change (beqb "[" "[") with true. cbv iota. unfold series.
    rewrite (skip_ws w) by exact Hw. reflexivity.
  - intros e l He ((c & u & Es & Ec) & Hl & IH) n r Hn _. destruct (nesting_arr _ _ Hn) as (n' & -> & Hl'). rewrite <- !app_assoc.
    change (lit "[" ++ e ++ lit "]" ++ r) with ("["%byte :: e ++ lit "]" ++ r). cbn [value].
    change (beqb "[" """") with false. change (beqb "[" "[") with true. cbv iota. unfold series.
    rewrite (skip_app e c u _ Es), Ec, IH; [reflexivity|exact Hl'|rewrite app_length; lia].
  - intros w Hw n r Hn _. destruct (nesting_obj _ _ Hn) as (n' & -> & _). rewrite <- !app_assoc.
    change (lit "{" ++ w ++ lit "}" ++ r) with ("{"%byte :: w ++ lit "}" ++ r). cbn [value].
    change (beqb "{" """") with false. change (beqb "{" "[") with false. change (beqb "{" "{") with true. cbv iota. unfold series.
    rewrite (skip_ws w) by exact Hw. reflexivity.
  - intros e l He ((c & u & Es & Ec) & Hl & IH) n r Hn _. destruct (nesting_obj _ _ Hn) as (n' & -> & Hl'). rewrite <- !app_assoc.
    change (lit "{" ++ e ++ lit "}" ++ r) with ("{"%byte :: e ++ lit "}" ++ r). cbn [value].
    change (beqb "{" """") with false. change (beqb "{" "[") with false. change (beqb "{" "{") with true. cbv iota. unfold series.
    rewrite (skip_app e c u _ Es), Ec, IH; [reflexivity|exact Hl'|rewrite app_length; lia].
  - intros a v t b Ha Hv IH Hb. split; [|split].
    + destruct (reads_start v t Hv) as (c & u & E & Hc & H). exists c, (u ++ b).
      rewrite (skip_value a v t b Ha Hv), E. auto.
    + rewrite !app_length. pose proof (reads_len v t Hv). cbn [length]. lia.
    + intros n [|fuel] r Hn Hf; [cbn in Hf; lia|]. cbn [items]. rewrite <- !app_assoc.
      rewrite (skip_value a v t _ Ha Hv), IH; [|now apply Forall_inv in Hn|apply stop_blank; [exact Hb|now right]].
      rewrite (skip_ws b) by exact Hb. reflexivity.
  - intros a v t b e l Ha Hv IH Hb He (_ & Hl & IHe). split; [|split].
    + destruct (reads_start v t Hv) as (c & u & E & Hc & H). exists c, (u ++ b ++ lit "," ++ e).
      rewrite (skip_value a v t _ Ha Hv), E. auto.
    + rewrite !app_length. pose proof (reads_len v t Hv). cbn [length]. lia.
    + intros n [|fuel] r Hn Hf; [cbn in Hf; lia|]. cbn [items]. rewrite <- !app_assoc.
      rewrite (skip_value a v t _ Ha Hv), IH; [|now apply Forall_inv in Hn|apply stop_blank; [exact Hb|now right]].
      rewrite (skip_ws b) by exact Hb. change (skip (lit "," ++ e ++ lit "]" ++ r)) with (","%byte :: e ++ lit "]" ++ r).
      change (beqb "," ",") with true. cbv iota. rewrite IHe; [reflexivity|now apply Forall_inv_tail in Hn|cbn in Hf; lia].
  - intros a k s b c v t d Ha Hk Hb Hc Hv IH Hd. split; [|split].
    + destruct (string_start k s Hk) as (u & E). exists """"%byte, (u ++ b ++ lit ":" ++ c ++ v ++ d).
      rewrite (skip_string a k s _ Ha Hk), E. auto.
    + rewrite !app_length. pose proof (reads_len v t Hv). cbn [length]. lia.
    + intros n [|fuel] r Hn Hf; [cbn in Hf; lia|]. cbn [items]. rewrite <- !app_assoc.
      rewrite (skip_string a k s _ Ha Hk). apply Forall_inv in Hn.
      rewrite (entry_ok n k s b c v t (d ++ lit "}" ++ r) Hk Hb Hc Hv); [|apply IH; [exact Hn|apply stop_blank; [exact Hd|now right]]].
      rewrite (skip_ws d) by exact Hd. reflexivity.
  - intros a k s b c v t d e l Ha Hk Hb Hc Hv IH Hd He (_ & Hl & IHe). split; [|split].
    + destruct (string_start k s Hk) as (u & E). exists """"%byte, (u ++ b ++ lit ":" ++ c ++ v ++ d ++ lit "," ++ e).
      rewrite (skip_string a k s _ Ha Hk), E. auto.
    + rewrite !app_length. pose proof (reads_len v t Hv). cbn [length]. lia.
    + intros n [|fuel] r Hn Hf; [cbn in Hf; lia|]. cbn [items]. rewrite <- !app_assoc.
      rewrite (skip_string a k s _ Ha Hk). pose proof (Forall_inv Hn) as Hn'.
      rewrite (entry_ok n k s b c v t (d ++ lit "," ++ e ++ lit "}" ++ r) Hk Hb Hc Hv); [|apply IH; [exact Hn'|apply stop_blank; [exact Hd|now right]]].
      rewrite (skip_ws d) by exact Hd. change (skip (lit "," ++ e ++ lit "}" ++ r)) with (","%byte :: e ++ lit "}" ++ r).
      change (beqb "," ",") with true. cbv iota. rewrite IHe; [reflexivity|now apply Forall_inv_tail in Hn|cbn in Hf; lia].
Qed.

Theorem parse_text_iff : forall s t, parse_text s = Some t <-> document s t /\ (nesting t <= max_nesting)%nat.
Proof.
  intros s t. unfold parse_text. split.
  - destruct (value max_nesting (skip s)) as [[t' r]|] eqn:E; [|discriminate]. destruct (skip r) as [|c r'] eqn:Er; [|discriminate].
    intro H. injection H as ->. apply value_sound in E as (v & Ev & Hv & Hn). split; [|exact Hn].
    destruct (skip_spec s) as (a & Ea & Ha). destruct (skip_spec r) as (b & Eb & Hb). rewrite Er, app_nil_r in Eb. subst r.
    exists a, v, b. split; [congruence|auto].
  - intros [(a & v & b & -> & Ha & Hv & Hb) Hn]. rewrite (skip_value a v t b Ha Hv).
    rewrite (value_complete v t Hv max_nesting b Hn).
    + pose proof (skip_ws b [] Hb) as E. rewrite app_nil_r in E. now rewrite E.
    + rewrite <- (app_nil_r b). apply stop_blank; [exact Hb|now left].
Qed.
Corollary document_unique : forall s t1 t2, document s t1 -> document s t2 -> t1 = t2.
Proof.
  intros s t1 t2 (a1 & v1 & b1 & E1 & Ha1 & Hv1 & Hb1) (a2 & v2 & b2 & E2 & Ha2 & Hv2 & Hb2).
  set (n := Nat.max (nesting t1) (nesting t2)).
  assert (S1 : stop b1) by (rewrite <- (app_nil_r b1); apply stop_blank; [exact Hb1|now left]).
  assert (S2 : stop b2) by (rewrite <- (app_nil_r b2); apply stop_blank; [exact Hb2|now left]).
  pose proof (value_complete v1 t1 Hv1 n b1 ltac:(lia) S1) as P1. pose proof (value_complete v2 t2 Hv2 n b2 ltac:(lia) S2) as P2.
  assert (E : v1 ++ b1 = v2 ++ b2).
  { rewrite <- (skip_value a1 v1 t1 b1 Ha1 Hv1), <- (skip_value a2 v2 t2 b2 Ha2 Hv2). congruence. }
  congruence.
Qed.

(** ** Values *)
Lemma tree_ind' : forall P : tree -> Prop,
  (forall t, (forall l, t <> TArr l) -> (forall m, t <> TObj m) -> P t) ->
  (forall l, Forall P l -> P (TArr l)) -> (forall m, Forall (fun kt => P (snd kt)) m -> P (TObj m)) -> forall t, P t.
Proof.
  intros P H1 H2 H3. fix IH 1. intros [|b|s|s|l|m]; try (apply H1; congruence).
  - apply H2. induction l as [|x l IHl]; constructor; [apply IH|exact IHl].
  - apply H3. induction m as [|[k x] m IHm]; constructor; [apply IH|exact IHm].
Qed.
Lemma jput_lookup : forall k0 v m k, jlookup k (jput k0 v m) = if str_eqb k k0 then Some v else jlookup k m.
Proof.
  intros k0 v m k. induction m as [|[k' v'] m IH]; cbn [jput jlookup]; [reflexivity|].
  destruct (str_eqb k0 k') eqn:E0; cbn [jlookup].
  - apply str_eqb_eq in E0. subst k'. destruct (str_eqb k k0); reflexivity.
  - rewrite IH. destruct (str_eqb k k') eqn:E1; [|reflexivity]. apply str_eqb_eq in E1. subst k'.
    destruct (str_eqb k k0) eqn:E2; [|reflexivity]. apply str_eqb_eq in E2. subst k0.
    assert (str_eqb k k = true) by now apply str_eqb_eq. congruence.
Qed.
Lemma jput_keys : forall k0 v m k, In k (map fst (jput k0 v m)) -> k = k0 \/ In k (map fst m).
Proof.
  intros k0 v m k. induction m as [|[k' v'] m IH]; cbn [jput map fst In]; [intuition congruence|].
  destruct (str_eqb k0 k') eqn:E; cbn [map fst In]; intuition congruence.
Qed.
Lemma jput_nodup : forall k v m, NoDup (map fst m) -> NoDup (map fst (jput k v m)).
Proof.
  intros k v m. induction m as [|[k' v'] m IH]; cbn [jput map fst]; intro H.
  - constructor; [easy|constructor].
  - inversion H; subst. destruct (str_eqb k k') eqn:E; cbn [map fst].
    + apply str_eqb_eq in E. subst k'. now constructor.
    + constructor; [|auto]. intro Hin. apply jput_keys in Hin as [->|Hin]; [|contradiction].
      assert (str_eqb k k = true) by now apply str_eqb_eq. congruence.
Qed.
Lemma jlookup_app : forall k a b, jlookup k (a ++ b) = match jlookup k a with Some v => Some v | None => jlookup k b end.
Proof. intros k a b. induction a as [|[k' v] a IH]; cbn [app jlookup]; [reflexivity|]. now destruct (str_eqb k k'). Qed.
Definition put_all (r m : list (str * json)) : list (str * json) := fold_left (fun m kv => jput (fst kv) (snd kv) m) r m.
Lemma put_all_lookup : forall r m k, jlookup k (put_all r m) = match jlookup k (rev r) with Some v => Some v | None => jlookup k m end.
Proof.
  unfold put_all. induction r as [|[k0 v] r IH]; intros m k; cbn [fold_left rev]; [reflexivity|].
  rewrite IH, jlookup_app, jput_lookup. cbn [fst snd jlookup]. destruct (jlookup k (rev r)); [reflexivity|].
  now destruct (str_eqb k k0).
Qed.
Lemma put_all_nodup : forall r m, NoDup (map fst m) -> NoDup (map fst (put_all r m)).
Proof. unfold put_all. induction r as [|[k v] r IH]; intros m H; cbn [fold_left]; [exact H|]. apply IH. now apply jput_nodup. Qed.

Section Values.
Context (parse64 : str -> option f64).
Notation value_of := (value_of parse64). Notation means := (means parse64).
Definition values := fix go (l : list tree) : option (list json) :=
  match l with
  | [] => Some []
  | x :: l' => match value_of x, go l' with Some v, Some r => Some (v :: r) | _, _ => None end
  end.
Definition fields := fix go (m : list (str * tree)) : option (list (str * json)) :=
  match m with
  | [] => Some []
  | kx :: m' => match value_of (snd kx), go m' with Some v, Some r => Some ((fst kx, v) :: r) | _, _ => None end
  end.
Lemma value_of_arr : forall l, value_of (TArr l) = match values l with Some r => Some (JArr r) | None => None end.
Proof. reflexivity. Qed.
Lemma value_of_obj : forall m, value_of (TObj m) = match fields m with Some r => Some (JObj (put_all r [])) | None => None end.
Proof. reflexivity. Qed.
Theorem value_of_means : forall t j, value_of t = Some j -> means t j.
Proof.
  intro t. induction t as [t H1 H2|l IH|m IH] using tree_ind'; intros j H.
  - destruct t; try (injection H as <-; constructor; fail); try (destruct (H1 _ eq_refl)); try (destruct (H2 _ eq_refl)).
    cbn [JsonText.value_of] in H. destruct (parse64 t) eqn:E; [|discriminate]. injection H as <-. now constructor.
  - rewrite value_of_arr in H. destruct (values l) as [r|] eqn:E; [|discriminate]. injection H as <-. constructor.
    revert r E. induction IH as [|x l Hx _ IHl]; intros r E; cbn [values] in E; [injection E as <-; constructor|].
    destruct (value_of x) as [v|] eqn:Ev; [|discriminate]. destruct (values l) as [r'|]; [|discriminate]. injection E as <-.
    constructor; auto.
  - rewrite value_of_obj in H. destruct (fields m) as [r|] eqn:E; [|discriminate]. injection H as <-.
    apply (N_obj parse64 m r).
    + revert r E. induction IH as [|[k x] l Hx _ IHl]; intros r E; cbn [fields] in E; [injection E as <-; constructor|].
      cbn [fst snd] in *. destruct (value_of x) as [v|] eqn:Ev; [|discriminate]. destruct (fields l) as [r'|]; [|discriminate].
      injection E as <-. constructor; auto.
    + apply put_all_nodup. constructor.
    + intro k. rewrite put_all_lookup. now destruct (jlookup k (rev r)).
Qed.
Theorem means_value_of : forall t j, means t j -> exists j', value_of t = Some j'.
Proof.
  intro t. induction t as [t H1 H2|l IH|m IH] using tree_ind'; intros j H.
  - destruct H; cbn [JsonText.value_of]; try (eexists; reflexivity); try (destruct (H1 _ eq_refl)); try (destruct (H2 _ eq_refl)).
    rewrite H. eauto.
  - inversion H as [| | | |? r HF|]; subst. rewrite value_of_arr. clear H.
    enough (E : exists r', values l = Some r') by (destruct E as (r' & ->); eauto).
    induction HF as [|x v l r Hx _ IHF]; [exists []; reflexivity|]. inversion IH; subst. destruct (IHF H2) as (r' & E).
    destruct (H1 _ Hx) as (v' & Ev). exists (v' :: r'). cbn [values]. now rewrite Ev, E.
  - inversion H as [| | | | |? r o HF Hd Hk]; subst. rewrite value_of_obj. clear H Hd Hk.
    enough (E : exists r', fields m = Some r') by (destruct E as (r' & ->); eauto).
    induction HF as [|[k x] [k' v] l r [_ Hx] _ IHF]; [exists []; reflexivity|]. inversion IH; subst. destruct (IHF H2) as (r' & E).
    cbn [fst snd] in *. destruct (H1 _ Hx) as (v' & Ev). exists ((k, v') :: r'). cbn [fields fst snd]. now rewrite Ev, E.
Qed.
Lemma means_wf : forall t j, means t j -> jwf j.
Proof.
  intro t. induction t as [t H1 H2|l IH|m IH] using tree_ind'; intros j H.
  - destruct H; try constructor; try (destruct (H1 _ eq_refl)); try (destruct (H2 _ eq_refl)).
  - inversion H as [| | | |? r HF|]; subst. constructor. clear H. induction HF; [constructor|]. inversion IH; subst. constructor; auto.
  - inversion H as [| | | | |? r o HF Hd Hk]; subst. constructor; [exact Hd|].
    assert (Hr : forall k v, In (k, v) r -> jwf v).
    { clear -IH HF. induction HF as [|[k x] [k' v] l r [_ Hx] _ IHF]; intros k0 v0 Hin; [destruct Hin|]. inversion IH; subst.
      destruct Hin as [E|Hin]; [injection E as <- <-; eauto|eauto]. }
    assert (Hl : forall (o : list (str * json)) k v, NoDup (map fst o) -> In (k, v) o -> jlookup k o = Some v).
    { clear. induction o as [|[k' v'] o IHo]; intros k v Hnd Hin; [destruct Hin|]. inversion Hnd; subst. cbn [jlookup].
      destruct Hin as [E|Hin]; [injection E as -> ->; now rewrite (proj2 (str_eqb_eq k k) eq_refl)|].
      destruct (str_eqb k k') eqn:E; [|now apply IHo]. apply str_eqb_eq in E. subst k'. exfalso. apply H1.
      change k with (fst (k, v)). now apply in_map. }
    assert (Hin : forall (o : list (str * json)) k v, jlookup k o = Some v -> exists k', In (k', v) o).
    { clear. induction o as [|[k' v'] o IHo]; intros k v E; [discriminate|]. cbn [jlookup] in E.
      destruct (str_eqb k k'); [injection E as <-; eexists; now left|]. destruct (IHo k v E) as (k2 & H). exists k2. now right. }
    apply Forall_forall. intros [k v] Hkv. cbn [snd]. apply (Hl o k v Hd) in Hkv. rewrite Hk in Hkv.
    destruct (Hin _ _ _ Hkv) as (k' & H'). apply in_rev in H'. eauto.
Qed.
Theorem unmarshal_iff : forall s,
  (forall j, unmarshal parse64 s = Some j -> exists t, document (clean s) t /\ (nesting t <= max_nesting)%nat /\ means t j) /\
  (forall t j, document (clean s) t -> (nesting t <= max_nesting)%nat -> means t j -> exists j', unmarshal parse64 s = Some j' /\ means t j').
Proof.
  intro s. unfold unmarshal. split.
  - intros j H. destruct (parse_text (clean s)) as [t|] eqn:E; [|discriminate]. apply parse_text_iff in E as [Hd Hn].
    exists t. split; [exact Hd|]. split; [exact Hn|]. now apply value_of_means.
  - intros t j Hd Hn Hm. rewrite (proj2 (parse_text_iff (clean s) t) (conj Hd Hn)). destruct (means_value_of t j Hm) as (j' & E).
    exists j'. split; [exact E|]. now apply value_of_means.
Qed.
End Values.
