(** What encoding/json writes for a string is a JSON string. *)
From Coq Require Import Strings.String ZArith Lia.
From Verif Require Import Base BaseFacts ByteFacts Recording Text CsvFacts Json ToJson SpecJson SpecToJson Quote SpecJsonText.
Local Open Scope N_scope.

Lemma between_iff : forall a b c, between a b c = true <-> a <= b2n c <= b.
Proof. intros. unfold between. rewrite andb_true_iff, !N.leb_le. reflexivity. Qed.
Lemma rune_one : forall a s, rune_size (a :: s) = 1%nat <-> b2n a < 128.
Proof.
  intros a s. cbn [rune_size]. destruct (N.ltb_spec (b2n a) 128) as [H|H]; [tauto|]. split; [|lia]. intro E. exfalso.
  destruct s as [|b [|c [|d s]]]; try discriminate E;
    repeat match type of E with context [if ?x then _ else _] => destruct x end; discriminate E.
Qed.
Lemma app_split : forall A (a b c d : list A), a ++ b = c ++ d -> length a = length c -> a = c /\ b = d.
Proof.
  intros A a. induction a as [|x a IH]; intros b [|y c] d E H; try discriminate; [auto|].
  injection E as -> E. injection H as H. destruct (IH _ _ _ E H) as [-> ->]. auto.
Qed.
(** A code point of more than one byte. *)
Definition high (s : str) : Prop := Forall (fun c => 128 <= b2n c) s.
Lemma rune_many : forall s n, rune_size s = S (S n) -> exists a p r, s = a :: p ++ r /\ length p = S n /\ high (a :: p).
Proof.
  intros [|a s] n H; [discriminate|]. cbn [rune_size] in H. destruct (N.ltb_spec (b2n a) 128) as [Ha|Ha]; [discriminate|].
  destruct s as [|b s]; [discriminate|].
  destruct (between 194 223 a && between 128 191 b)%bool eqn:E2.
  { apply andb_true_iff in E2 as [_ Eb]. apply between_iff in Eb. injection H as <-.
    exists a, [b], s. split; [reflexivity|]. split; [reflexivity|]. repeat constructor; lia. }
  destruct s as [|c s]; [discriminate|].
  destruct (_ && between 128 191 c)%bool eqn:E3 in H.
  { apply andb_true_iff in E3 as [Eb Ec]. apply between_iff in Ec. rewrite !orb_true_iff, !andb_true_iff, !between_iff in Eb. injection H as <-.
    exists a, [b; c], s. split; [reflexivity|]. split; [reflexivity|]. repeat constructor; lia. }
  destruct s as [|d s]; [discriminate|].
  destruct (_ && between 128 191 d)%bool eqn:E4 in H; [|discriminate].
  apply andb_true_iff in E4 as [Eb Ed]. apply andb_true_iff in Eb as [Eb Ec]. apply between_iff in Ec, Ed.
  rewrite !orb_true_iff, !andb_true_iff, !between_iff in Eb. injection H as <-.
  exists a, [b; c; d], s. split; [reflexivity|]. split; [reflexivity|]. repeat constructor; lia.
Qed.
Lemma clean_copy : forall p r, clean_from (length p) (p ++ r) = p ++ clean_from 0 r.
Proof. induction p as [|a p IH]; intro r; [reflexivity|]. cbn [length app clean_from]. now rewrite IH. Qed.
Lemma escape_copy : forall p r, escape_from true (length p) (p ++ r) = p ++ escape_from true 0 r.
Proof. induction p as [|a p IH]; intro r; [reflexivity|]. cbn [length app escape_from]. now rewrite IH. Qed.
Lemma escape_drop : forall p r, escape_from false (length p) (p ++ r) = escape_from true 0 r.
Proof.
  induction p as [|a p IH]; intro r; [now destruct r|]. cbn [length app escape_from]. now rewrite IH.
Qed.

Lemma unquote_ascii : forall a s, b2n a < 128 ->
  unquote_from None (escape_ascii a ++ s) = match unquote_from None s with Some t => Some (a :: t) | None => None end.
Proof.
  intros a s H. destruct a; try (exfalso; revert H; apply N.le_ngt; discriminate); reflexivity.
Qed.
Lemma unquote_high : forall p s, high p ->
  unquote_from None (p ++ s) = match unquote_from None s with Some t => Some (p ++ t) | None => None end.
Proof.
  intros p s H. induction H as [|a p Ha _ IH]; [cbn [app]; now destruct (unquote_from None s)|].
  cbn [app unquote_from]. rewrite IH.
  assert (K : beqb a """" = false /\ beqb a "\" = false).
  { split; destruct a; try reflexivity; exfalso; revert Ha; apply N.lt_nge; reflexivity. }
  destruct K as [-> ->]. destruct (N.ltb_spec (b2n a) 32); [lia|]. cbn [negb]. now destruct (unquote_from None s).
Qed.
Lemma unquote_bad : forall s, unquote_from None (lit "\ufffd" ++ s) =
  match unquote_from None s with Some t => Some (utf8 65533 ++ t) | None => None end.
Proof. reflexivity. Qed.
Lemma separator_ok : forall s e, separator s = Some e -> exists p r, s = p ++ r /\ length p = 3%nat /\
  rune_size s = 3%nat /\ forall t, unquote_from None (e ++ t) = match unquote_from None t with Some u => Some (p ++ u) | None => None end.
Proof.
  intros s e H. unfold separator in H. destruct (strip (bs [226; 128; 168]) s) as [r|] eqn:E1.
  - injection H as <-. apply strip_spec in E1. subst s. exists (bs [226; 128; 168]), r. repeat split.
  - destruct (strip (bs [226; 128; 169]) s) as [r|] eqn:E2; [|discriminate]. injection H as <-.
    apply strip_spec in E2. subst s. exists (bs [226; 128; 169]), r. repeat split.
Qed.
Theorem quote_clean : forall s, unquote (escape_from true 0 s) = Some (clean s).
Proof.
  unfold unquote, clean. intro s. remember (length s) as n eqn:En. revert s En.
  induction n as [n IH] using lt_wf_ind. intros s ->. destruct s as [|a s]; [reflexivity|].
  cbn [escape_from clean_from]. destruct (rune_size (a :: s)) as [|[|m]] eqn:Er.
  - rewrite unquote_bad, (IH (length s)); [reflexivity|cbn; lia|reflexivity].
  - apply rune_one in Er. rewrite unquote_ascii by exact Er. rewrite (IH (length s)); [reflexivity|cbn; lia|reflexivity].
  - destruct (rune_many _ _ Er) as (a' & p & r & E & Hl & Hh). injection E as <- ->. rewrite <- Hl, clean_copy.
    assert (Hr : unquote_from None (escape_from true 0 r) = Some (clean_from 0 r)).
    { apply (IH (length r)); [cbn; rewrite app_length; lia|reflexivity]. }
    destruct (separator (a :: p ++ r)) as [e|] eqn:Ee.
    + destruct (separator_ok _ _ Ee) as (q & r' & Eq & Lq & Es & Hu). rewrite Er in Es. injection Es as ->.
      rewrite escape_drop, Hu, Hr. f_equal.
      assert (Epq : q = a :: p /\ r' = r).
      { change (a :: p ++ r) with ((a :: p) ++ r) in Eq. apply app_split in Eq as [<- <-]; [auto|]. rewrite Lq. cbn [length]. lia. }
      destruct Epq as [-> _]. reflexivity.
    + rewrite escape_copy. change ([a] ++ p ++ escape_from true 0 r) with ((a :: p) ++ escape_from true 0 r).
      rewrite unquote_high by exact Hh. now rewrite Hr.
Qed.
Corollary json_quote_text : forall s, string_text (json_quote s) (clean s).
Proof. intro s. exists (escape_from true 0 s). split; [reflexivity|apply quote_clean]. Qed.

(** ** UTF-8 *)
Lemma between_n2b : forall a b n, n < 256 -> between a b (n2b n) = ((a <=? n) && (n <=? b))%bool.
Proof. intros a b n H. unfold between. now rewrite b2n_n2b_small by exact H. Qed.
Lemma digits64 : forall r, exists q m1 m0, r = 4096 * q + 64 * m1 + m0 /\ m1 < 64 /\ m0 < 64 /\
  r / 4096 = q /\ r / 64 mod 64 = m1 /\ r mod 64 = m0.
Proof.
  intro r. exists (r / 4096), (r / 64 mod 64), (r mod 64). change 4096 with (64 * 64). rewrite <- N.div_div by discriminate.
  pose proof (N.div_mod r 64 ltac:(discriminate)). pose proof (N.div_mod (r / 64) 64 ltac:(discriminate)).
  pose proof (N.mod_lt r 64 ltac:(discriminate)). pose proof (N.mod_lt (r / 64) 64 ltac:(discriminate)).
  repeat split; try assumption; lia.
Qed.
Ltac bools := repeat (match goal with
  | |- context [?a <=? ?b] => destruct (N.leb_spec a b)
  | |- context [?a <? ?b] => destruct (N.ltb_spec a b)
  end; cbn [andb orb]; try lia); try lia; try reflexivity.
Lemma rune_utf8 : forall r s, scalar r -> rune_size (utf8 r ++ s) = length (utf8 r).
Proof.
  intros r s H. unfold scalar in H. unfold utf8.
  destruct (N.ltb_spec r 128); [|destruct (N.ltb_spec r 2048); [|destruct (N.ltb_spec r 65536)]].
  - unfold bs; cbn [map app rune_size length]. rewrite b2n_n2b_small by lia. bools.
  - destruct (digits64 r) as (q & m1 & m0 & E & L1 & L2 & _ & _ & ->). assert (E' : r / 64 = 64 * q + m1).
    { symmetry. apply N.div_unique with m0; lia. }
    rewrite E'. unfold bs; cbn [map app rune_size length]. rewrite !between_n2b by lia. rewrite b2n_n2b_small by lia. bools.
  - destruct (digits64 r) as (q & m1 & m0 & E & L1 & L2 & -> & -> & ->).
    unfold bs; cbn [map app rune_size length]. rewrite !between_n2b by lia. rewrite b2n_n2b_small by lia. bools.
  - destruct (digits64 r) as (q & m1 & m0 & E & L1 & L2 & E3 & -> & ->).
    assert (E4 : exists p m2, q = 64 * p + m2 /\ m2 < 64 /\ r / 262144 = p /\ r / 4096 mod 64 = m2).
    { exists (q / 64), (q mod 64). pose proof (N.div_mod q 64 ltac:(discriminate)). pose proof (N.mod_lt q 64 ltac:(discriminate)).
      split; [lia|]. split; [lia|]. split; [|congruence]. change 262144 with (4096 * 64). rewrite <- N.div_div by discriminate. congruence. }
    destruct E4 as (p & m2 & E4 & H4 & -> & ->).
    unfold bs; cbn [map app rune_size length]. rewrite !between_n2b by lia. rewrite b2n_n2b_small by lia. bools.
Qed.
Lemma utf8_cons : forall r, exists a p, utf8 r = a :: p.
Proof. intro r. unfold utf8, bs. destruct (r <? 128), (r <? 2048), (r <? 65536); cbn [map]; eauto. Qed.
Theorem clean_valid_id : forall s, valid_utf8 s -> clean s = s.
Proof.
  unfold clean. induction 1 as [|r s Hr _ IH]; [reflexivity|]. pose proof (rune_utf8 r s Hr) as E.
  destruct (utf8_cons r) as (a & p & Ep). rewrite Ep in *. cbn [app length clean_from] in *. rewrite E, clean_copy. now rewrite IH.
Qed.
(** A code point is the encoding of a scalar value. *)
Lemma rune_scalar : forall s n, rune_size s = S n -> exists r t, scalar r /\ s = utf8 r ++ t /\ length (utf8 r) = S n.
Proof.
  intros [|a s] n H; [discriminate|].
  assert (NB : forall c, n2b (b2n c) = c) by apply n2b_b2n.
  cbn [rune_size] in H. destruct (N.ltb_spec (b2n a) 128) as [Ha|Ha].
  { injection H as <-. exists (b2n a), s. split; [left; lia|]. unfold utf8. destruct (N.ltb_spec (b2n a) 128); [|lia].
    unfold bs. cbn [map app]. rewrite NB. auto. }
  destruct s as [|b s]; [discriminate|].
  destruct (between 194 223 a && between 128 191 b)%bool eqn:E2.
  { rewrite andb_true_iff, !between_iff in E2. injection H as <-. set (x := b2n a - 192) in *. set (y := b2n b - 128) in *.
    exists (64 * x + y), s. split; [left; lia|]. unfold utf8.
    destruct (N.ltb_spec (64 * x + y) 128); [lia|]. destruct (N.ltb_spec (64 * x + y) 2048); [|lia].
    replace ((64 * x + y) / 64) with x by (apply N.div_unique with y; lia).
    replace ((64 * x + y) mod 64) with y by (apply N.mod_unique with x; lia).
    replace (192 + x) with (b2n a) by lia. replace (128 + y) with (b2n b) by lia. unfold bs. cbn [map app]. rewrite !NB. auto. }
  destruct s as [|c s]; [discriminate|].
  destruct (_ && between 128 191 c)%bool eqn:E3 in H.
  { rewrite !andb_true_iff, !orb_true_iff, !andb_true_iff, !between_iff in E3. injection H as <-.
    set (x := b2n a - 224) in *. set (y := b2n b - 128) in *. set (z := b2n c - 128) in *.
    set (r := 4096 * x + 64 * y + z).
    exists r, s. split; [unfold scalar, r; lia|]. unfold utf8.
    destruct (N.ltb_spec r 128); [lia|]. destruct (N.ltb_spec r 2048); [lia|]. destruct (N.ltb_spec r 65536); [|lia].
    replace (r / 4096) with x by (apply N.div_unique with (64 * y + z); lia).
    replace (r / 64) with (64 * x + y) by (apply N.div_unique with z; lia).
    replace ((64 * x + y) mod 64) with y by (apply N.mod_unique with x; lia).
    replace (r mod 64) with z by (apply N.mod_unique with (64 * x + y); lia).
    replace (224 + x) with (b2n a) by lia. replace (128 + y) with (b2n b) by lia. replace (128 + z) with (b2n c) by lia.
    unfold bs. cbn [map app]. rewrite !NB. auto. }
  destruct s as [|d s]; [discriminate|].
  destruct (_ && between 128 191 d)%bool eqn:E4 in H; [|discriminate].
  rewrite !andb_true_iff, !orb_true_iff, !andb_true_iff, !between_iff in E4. injection H as <-.
  set (x := b2n a - 240) in *. set (y := b2n b - 128) in *. set (z := b2n c - 128) in *. set (w := b2n d - 128) in *.
  set (r := 262144 * x + 4096 * y + 64 * z + w).
  exists r, s. split; [unfold scalar, r; lia|]. unfold utf8.
  destruct (N.ltb_spec r 128); [lia|]. destruct (N.ltb_spec r 2048); [lia|]. destruct (N.ltb_spec r 65536); [lia|].
  replace (r / 262144) with x by (apply N.div_unique with (4096 * y + 64 * z + w); lia).
  replace (r / 4096) with (64 * x + y) by (apply N.div_unique with (64 * z + w); lia).
  replace (r / 64) with (64 * (64 * x + y) + z) by (apply N.div_unique with w; lia).
  replace ((64 * x + y) mod 64) with y by (apply N.mod_unique with x; lia).
  replace ((64 * (64 * x + y) + z) mod 64) with z by (apply N.mod_unique with (64 * x + y); lia).
  replace (r mod 64) with w by (apply N.mod_unique with (64 * (64 * x + y) + z); lia).
  replace (240 + x) with (b2n a) by lia. replace (128 + y) with (b2n b) by lia. replace (128 + z) with (b2n c) by lia.
  replace (128 + w) with (b2n d) by lia. unfold bs. cbn [map app]. rewrite !NB. auto.
Qed.
Theorem clean_valid : forall s, valid_utf8 (clean s).
Proof.
  unfold clean. intro s. remember (length s) as n eqn:En. revert s En.
  induction n as [n IH] using lt_wf_ind. intros s ->. destruct s as [|a s]; [constructor|].
  cbn [clean_from]. destruct (rune_size (a :: s)) as [|m] eqn:Er.
  - constructor; [right; lia|]. apply (IH (length s)); [cbn; lia|reflexivity].
  - destruct (rune_scalar _ _ Er) as (r & t & Hr & E & Hl). destruct (utf8_cons r) as (a' & p & Ep). rewrite Ep in *.
    cbn [app length] in *. injection E as <- ->. injection Hl as <-. rewrite clean_copy.
    change (valid_utf8 ((a :: p) ++ clean_from 0 t)). rewrite <- Ep. constructor; [exact Hr|].
    apply (IH (length t)); [rewrite app_length; lia|reflexivity].
Qed.
Lemma ascii_valid : forall s, Forall (fun c => b2n c < 128) s -> valid_utf8 s.
Proof.
  induction 1 as [|c s Hc _ IH]; [constructor|]. change (c :: s) with ([c] ++ s).
  replace [c] with (utf8 (b2n c)); [constructor; [left; lia|exact IH]|].
  unfold utf8. destruct (N.ltb_spec (b2n c) 128); [|lia]. unfold bs. cbn [map]. now rewrite n2b_b2n.
Qed.
Lemma repaired_inj : forall s t t', repaired s t -> repaired s t' -> t = t'.
Proof.
  intros s t t' H. revert t'. induction H as [|r s t Hr _ IH|b s t Hb _ IH]; intros t' H'.
  - inversion H' as [|r s0 t0 Hr _ E|]; subst; [reflexivity|]. destruct (utf8_cons r) as (a & p & Ep). rewrite Ep in E. discriminate E.
  - inversion H' as [E|r' s' u Hr' Hu E|b s' u Hb Hu E]; subst.
    + destruct (utf8_cons r) as (a & p & Ep). rewrite Ep in E. discriminate E.
    + assert (EL : length (utf8 r') = length (utf8 r)) by (rewrite <- (rune_utf8 r' s' Hr'), E; now apply rune_utf8).
      destruct (app_split _ _ _ _ _ E EL) as [Er ->]. rewrite Er. f_equal. now apply IH.
    + now elim (Hb r s).
  - inversion H' as [|r' s' u Hr' Hu E|b' s' u Hb' Hu E]; subst.
    + elim (Hb r' s' Hr'). now symmetry.
    + f_equal. now apply IH.
Qed.
Theorem clean_repaired : forall s, repaired s (clean s).
Proof.
  unfold clean. intro s. remember (length s) as n eqn:En. revert s En.
  induction n as [n IH] using lt_wf_ind. intros s ->. destruct s as [|a s]; [constructor|].
  cbn [clean_from]. destruct (rune_size (a :: s)) as [|m] eqn:Er.
  - apply R_wrong; [|apply (IH (length s)); [cbn [length]; lia|reflexivity]].
    intros r q Hr E. rewrite E, rune_utf8 in Er by exact Hr. destruct (utf8_cons r) as (b & p & Ep). rewrite Ep in Er. discriminate Er.
  - destruct (rune_scalar _ _ Er) as (r & t & Hr & E & EL). destruct (utf8_cons r) as (b & p & Ep). rewrite Ep in E, EL.
    injection E as -> ->. injection EL as <-. rewrite clean_copy. change (b :: p ++ t) with ((b :: p) ++ t).
    change (b :: p ++ clean_from 0 t) with ((b :: p) ++ clean_from 0 t). rewrite <- Ep. constructor; [exact Hr|].
    apply (IH (length t)); [cbn [length]; rewrite app_length; lia|reflexivity].
Qed.
