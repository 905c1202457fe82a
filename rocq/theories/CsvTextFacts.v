(** The CSV reader accepts exactly the texts that say a table. *)
From Coq Require Import Lia.
From Verif Require Import Base BaseFacts Metadata Csv CsvText SpecCsvText.
Local Open Scope nat_scope.

Lemma eqb_refl : forall a, Byte.eqb a a = true.
Proof. intro a. now apply Byte.byte_dec_lb. Qed.
Lemma eqb_ok : forall a b, Byte.eqb a b = true -> a = b.
Proof. intros. now apply Byte.byte_dec_bl. Qed.
Lemma eqb_no : forall a b, a <> b -> Byte.eqb a b = false.
Proof. intros a b H. destruct (Byte.eqb a b) eqn:E; [|reflexivity]. now apply eqb_ok in E. Qed.

(** ** Line endings *)
Lemma unix_ok : forall t u, ends_lf t u -> unix_lines t = u.
Proof.
  induction 1 as [| | t u _ IH | b t u _ IH Hb]; [reflexivity | reflexivity | cbn [unix_lines]; now rewrite !eqb_refl, IH |].
  cbn [unix_lines]. destruct (Byte.eqb b CR) eqn:E; [|now rewrite IH].
  apply eqb_ok in E. destruct (Hb E) as [H1 H2]. destruct t as [|c t]; [congruence|].
  rewrite eqb_no; [now rewrite IH|]. intros ->. now apply (H2 t).
Qed.
Lemma unix_says : forall n t, length t <= n -> ends_lf t (unix_lines t).
Proof.
  induction n as [|n IH]; intros t Hn; (destruct t as [|b t]; [constructor|]); cbn [length] in Hn; [lia|].
  cbn [unix_lines]. destruct (Byte.eqb b CR) eqn:E.
  - apply eqb_ok in E as ->. destruct t as [|c t]; [constructor|]. cbn [length] in Hn. destruct (Byte.eqb c LF) eqn:Ec.
    + apply eqb_ok in Ec as ->. apply E_crlf. apply IH. lia.
    + apply E_char; [apply IH; cbn [length]; lia|]. intros _. split; [discriminate|]. intros t' H. injection H as -> ->.
      rewrite eqb_refl in Ec. discriminate.
  - apply E_char; [apply IH; lia|]. intros ->. change cr with CR in E. rewrite eqb_refl in E. discriminate.
Qed.

(** ** From a table to the reader *)
(** What follows a field *)
Definition close (t : bytes) (row : list str) (w : nat) : csv_input :=
  match t with
  | [] => end_record row w (fun _ => ([], None))
  | b :: t' => if Byte.eqb b comma then records None t' AtField [] row w
               else if Byte.eqb b LF then end_record row w (records None t' AtRecord [] [])
               else ([], Some ECsvQuote)
  end.
Definition delim (t : bytes) : Prop := t = [] \/ exists b t', t = b :: t' /\ (b = comma \/ b = LF).
Lemma close_plain : forall t field row w, delim t -> records None t InPlain field row w = close t (row ++ [field]) w.
Proof. intros t field row w [-> | (b & t' & -> & [-> | ->])]; reflexivity. Qed.
Lemma close_quoted : forall t field row w, delim t -> records None t AfterQuote field row w = close t (row ++ [field]) w.
Proof. intros t field row w [-> | (b & t' & -> & [-> | ->])]; reflexivity. Qed.
Lemma close_field : forall t row w, delim t -> records None t AtField [] row w = close t (row ++ [[]]) w.
Proof. intros t row w [-> | (b & t' & -> & [-> | ->])]; reflexivity. Qed.
Lemma run_plain : forall v t field row w, (forall b, In b v -> b <> q /\ b <> cm /\ b <> lf) ->
  records None (v ++ t) InPlain field row w = records None t InPlain (field ++ v) row w.
Proof.
  induction v as [|b v IH]; intros t field row w H; [cbn [app]; now rewrite app_nil_r|].
  destruct (H b (or_introl eq_refl)) as (H1 & H2 & H3). cbn [app records].
  rewrite (eqb_no b comma H2), (eqb_no b LF H3), (eqb_no b quote H1), IH by (intros; apply H; now right).
  now rewrite <- app_assoc.
Qed.
Lemma run_quoted : forall v t field row w,
  records None (doubled v ++ t) InQuotes field row w = records None t InQuotes (field ++ v) row w.
Proof.
  induction v as [|b v IH]; intros t field row w; [cbn [doubled flat_map app]; now rewrite app_nil_r|].
  unfold doubled. cbn [flat_map]. fold (doubled v). destruct (Byte.eqb b q) eqn:E.
  - apply eqb_ok in E as ->. cbn [app records]. rewrite !(eqb_refl quote : Byte.eqb q quote = true), IH. now rewrite <- app_assoc.
  - cbn [app records]. change quote with q. rewrite E, IH. now rewrite <- app_assoc.
Qed.
Lemma run_field : forall v u t row w, field_text v u -> delim t ->
  records None (u ++ t) AtField [] row w = close t (row ++ [v]) w.
Proof.
  intros v u t row w [v' Hv|v'] Ht.
  - destruct v' as [|b v']; [now apply close_field|]. destruct (Hv b (or_introl eq_refl)) as (H1 & H2 & H3).
    cbn [app records]. rewrite (eqb_no b comma H2), (eqb_no b LF H3), (eqb_no b quote H1). cbn [app].
    rewrite run_plain by (intros; apply Hv; now right). now apply close_plain.
  - cbn [app records]. rewrite (eqb_refl quote : Byte.eqb q quote = true), <- app_assoc, run_quoted. cbn [app records].
    rewrite (eqb_refl quote : Byte.eqb q quote = true). now apply close_quoted.
Qed.
(** What follows a record *)
Definition line_end (t : bytes) : Prop := t = [] \/ exists t', t = LF :: t'.
Lemma run_row : forall r u t row w, row_text r u -> line_end t ->
  records None (u ++ t) AtField [] row w = close t (row ++ r) w.
Proof.
  intros r u t row w H. revert row t. induction H as [v u Hv | v u r u' Hv _ IH]; intros row t Ht.
  - apply run_field; [exact Hv|]. destruct Ht as [-> | (t' & ->)]; [now left | right; eauto].
  - rewrite <- app_assoc. rewrite (run_field _ _ _ _ _ Hv) by (right; exists comma, (u' ++ t); auto).
    cbn [app close]. rewrite (eqb_refl comma : Byte.eqb cm comma = true), (IH _ _ Ht). now rewrite <- app_assoc.
Qed.
Lemma row_first : forall r u, row_text r u -> forall b u', u = b :: u' -> b <> LF.
Proof.
  assert (F : forall v t, field_text v t -> forall b u', t = b :: u' -> b <> LF).
  { intros v t [v' Hv|v'] b u' E; [subst; apply Hv; now left | injection E as <- _; discriminate]. }
  intros r u H b u' E. destruct H as [v t H|v t r u H _]; [now apply (F v t H b u')|].
  destruct t as [|c t]; [injection E as <- _; discriminate|]. injection E as <- _. now apply (F v (c :: t) H c t).
Qed.
Lemma at_record : forall b t w, b <> LF -> records None (b :: t) AtRecord [] [] w = records None (b :: t) AtField [] [] w.
Proof. intros b t w H. cbn [records]. now rewrite (eqb_no b LF H). Qed.
Lemma run_record : forall r u t w, row_text r u -> u <> [] -> line_end t ->
  records None (u ++ t) AtRecord [] [] w = close t r w.
Proof.
  intros r u t w H Hu Ht. rewrite <- (app_nil_l r), <- (run_row r u t [] w H Ht).
  destruct u as [|b u]; [congruence|]. cbn [app]. apply at_record. now apply (row_first _ _ H b u).
Qed.
Lemma row_length : forall r u, row_text r u -> length r <> 0.
Proof. intros r u []; discriminate. Qed.
(** Every row has the width [w], if that is set *)
Definition fits (w : nat) (rows : list (list str)) : Prop :=
  same_width rows /\ (w <> 0 -> forall r, In r rows -> length r = w).
Lemma fits_tail : forall w r rows, fits w (r :: rows) -> fits (length r) rows.
Proof. intros w r rows [H1 H2]. split; [intros a b Ha Hb; apply H1; now right|]. intros _ a Ha. apply H1; [now right | now left]. Qed.
Lemma end_ok : forall w r rows (k : nat -> csv_input), length r <> 0 -> fits w (r :: rows) -> k (length r) = (rows, None) ->
  end_record r w k = (r :: rows, None).
Proof.
  intros w r rows k Hr [H1 H2] Hk. unfold end_record. destruct (Nat.eqb_spec w 0) as [-> | Hw]; [now rewrite Hk|].
  rewrite (H2 Hw r (or_introl eq_refl)) in *. now rewrite Nat.eqb_refl, Hk.
Qed.
Lemma run_table : forall rows u, table_text rows u -> forall w, fits w rows ->
  records None u AtRecord [] [] w = (rows, None).
Proof.
  induction 1 as [| rows u _ IH | r t rows u Hr Ht _ IH | r t Hr Ht]; intros w Hw.
  - reflexivity.
  - cbn [records]. rewrite (eqb_refl LF : Byte.eqb lf LF = true). now apply IH.
  - rewrite (run_record r t _ w Hr Ht) by (right; eauto). cbn [close].
    change (Byte.eqb lf comma) with false. rewrite (eqb_refl LF : Byte.eqb lf LF = true).
    apply end_ok; [now apply (row_length r t) | exact Hw |]. apply IH. now apply fits_tail with w.
  - rewrite <- (app_nil_r t), (run_record r t [] w Hr Ht) by now left. cbn [close].
    apply end_ok; [now apply (row_length r t) | exact Hw | reflexivity].
Qed.

(** ** From the reader to a table *)
Lemma end_inv : forall row w k rows, end_record row w k = (rows, None) ->
  (w = 0 \/ length row = w) /\ exists rows', rows = row :: rows' /\ k (length row) = (rows', None).
Proof.
  intros row w k rows H. unfold end_record in H. destruct (Nat.eqb_spec w 0) as [-> | Hw].
  - split; [now left|]. destruct (k (length row)) as [rows' e]. injection H as <- ->. eauto.
  - destruct (Nat.eqb_spec (length row) w) as [<- | _]; [|discriminate]. split; [now right|].
    destruct (k (length row)) as [rows' e]. injection H as <- ->. eauto.
Qed.
(** What follows a record, and what follows a field *)
Definition next_lines (rows : list (list str)) (t : bytes) : Prop :=
  (t = [] /\ rows = []) \/ exists t', t = LF :: t' /\ table_text rows t'.
Definition next_fields (r : list str) (rows : list (list str)) (t : bytes) : Prop :=
  (r = [] /\ next_lines rows t) \/ exists u t', t = comma :: u ++ t' /\ row_text r u /\ next_lines rows t'.
(** What the reader has ahead of it in each place *)
Definition ahead (at_ : place) (field : str) (row : list str) (t : bytes) (rows : list (list str)) : Prop :=
  match at_ with
  | AtRecord => table_text rows t
  | AtField => exists r u t' rows', rows = (row ++ r) :: rows' /\ t = u ++ t' /\ row_text r u /\ next_lines rows' t'
  | InPlain => exists v t' r rows', rows = (row ++ (field ++ v) :: r) :: rows' /\ t = v ++ t' /\
      (forall b, In b v -> b <> q /\ b <> cm /\ b <> lf) /\ next_fields r rows' t'
  | InQuotes => exists v t' r rows', rows = (row ++ (field ++ v) :: r) :: rows' /\ t = doubled v ++ q :: t' /\ next_fields r rows' t'
  | AfterQuote => exists r rows', (rows = (row ++ field :: r) :: rows' /\ next_fields r rows' t) \/
      exists v t', rows = (row ++ (field ++ q :: v) :: r) :: rows' /\ t = q :: doubled v ++ q :: t' /\ next_fields r rows' t'
  end.
Definition neat (at_ : place) (field : str) (row : list str) : Prop :=
  match at_ with AtRecord => field = [] /\ row = [] | AtField => field = [] | _ => True end.
Lemma next_row : forall v u r rows t, field_text v u -> next_fields r rows t ->
  exists u' t', u ++ t = u' ++ t' /\ row_text (v :: r) u' /\ next_lines rows t' /\ (u' = [] -> u = [] /\ t = t').
Proof.
  intros v u r rows t Hv [[-> Ht] | (u' & t' & -> & Hr & Ht)].
  - exists u, t. split; [reflexivity|]. split; [now constructor|]. split; [exact Ht|]. auto.
  - exists (u ++ comma :: u'), t'. split; [now rewrite <- app_assoc|]. split; [now apply R_more|]. split; [exact Ht|].
    intro E. destruct u; discriminate.
Qed.
Lemma to_table : forall r u rows t, row_text r u -> u <> [] -> next_lines rows t -> table_text (r :: rows) (u ++ t).
Proof.
  intros r u rows t Hr Hu [[-> ->] | (t' & -> & Ht)]; [rewrite app_nil_r; now apply T_last | now apply T_row].
Qed.
Lemma reader_says : forall t at_ field row w rows, neat at_ field row ->
  records None t at_ field row w = (rows, None) -> ahead at_ field row t rows.
Proof.
  induction t as [|b t IH]; intros at_ field row w rows Hn H.
  { assert (N : next_lines [] []) by now left.
    assert (N' : next_fields [] [] []) by now left.
    destruct at_; cbn [records ahead neat] in *.
    - injection H as <-. constructor.
    - subst field. apply end_inv in H as (_ & rows' & -> & E). injection E as <-.
      exists [[]], [], [], []. repeat split; auto. constructor. constructor. intros b [].
    - apply end_inv in H as (_ & rows' & -> & E). injection E as <-. exists [], [], [], [].
      rewrite app_nil_r. repeat split; auto; destruct H.
    - discriminate.
    - apply end_inv in H as (_ & rows' & -> & E). injection E as <-. exists [], []. now left. }
  assert (Plain : forall field row w rows,
    (if Byte.eqb b comma then records None t AtField [] (row ++ [field]) w
     else if Byte.eqb b LF then end_record (row ++ [field]) w (records None t AtRecord [] [])
     else if Byte.eqb b quote then ([], Some ECsvBareQuote)
     else records None t InPlain (field ++ [b]) row w) = (rows, None) -> ahead InPlain field row (b :: t) rows).
  { clear -IH. intros field row w rows H. cbn [ahead].
    destruct (Byte.eqb b comma) eqn:E1.
    { apply eqb_ok in E1 as ->. apply IH in H; [|reflexivity]. destruct H as (r & u & t' & rows' & -> & -> & Hr & Ht).
      exists [], (comma :: u ++ t'), r, rows'. rewrite <- app_assoc, app_nil_r. repeat split; try (now destruct H). right. eauto. }
    destruct (Byte.eqb b LF) eqn:E2.
    { apply eqb_ok in E2 as ->. apply end_inv in H as (_ & rows' & -> & H). apply IH in H; [|now split].
      exists [], (LF :: t), [], rows'. rewrite app_nil_r. repeat split; try (now destruct H0). left. split; [reflexivity|]. right. eauto. }
    destruct (Byte.eqb b quote) eqn:E3; [discriminate|].
    apply IH in H; [|exact I]. destruct H as (v & t' & r & rows' & -> & -> & Hv & Ht).
    exists (b :: v), t', r, rows'. rewrite <- app_assoc. split; [reflexivity|]. split; [reflexivity|]. split; [|exact Ht].
    intros c [<-|Hc]; [|auto]. repeat split; intros ->; [now rewrite eqb_refl in E3 | now rewrite eqb_refl in E1 | now rewrite eqb_refl in E2]. }
  assert (Field : forall row rows, ahead InPlain [] row (b :: t) rows -> ahead AtField [] row (b :: t) rows).
  { clear. intros row rows (v & t' & r & rows' & -> & E & Hv & Ht). cbn [ahead app].
    destruct (next_row v v r rows' t' (F_plain v Hv) Ht) as (u' & t'' & Eu & Hr & Hl & _).
    exists (v :: r), u', t'', rows'. rewrite E, Eu. auto. }
  assert (Quoted : forall row rows, b = q -> ahead InQuotes [] row t rows -> ahead AtField [] row (b :: t) rows).
  { clear. intros row rows -> (v & t' & r & rows' & -> & -> & Ht). cbn [ahead app].
    destruct (next_row v _ r rows' t' (F_quoted v) Ht) as (u' & t'' & Eu & Hr & Hl & _).
    exists (v :: r), u', t'', rows'. split; [reflexivity|]. split; [|auto].
    rewrite <- Eu. cbn [app]. now rewrite <- app_assoc. }
  assert (Record : forall rows, b <> LF -> ahead AtField [] [] (b :: t) rows -> ahead AtRecord [] [] (b :: t) rows).
  { clear. intros rows Hb (r & u & t' & rows' & -> & E & Hr & Ht). cbn [ahead app]. rewrite E. apply to_table; auto.
    intros ->. cbn [app] in E. subst t'. destruct Ht as [[? _] | (t'' & E & _)]; [discriminate|]. now injection E as -> _. }
  destruct at_; cbn [records neat] in *.
  - destruct Hn as [-> ->]. destruct (Byte.eqb b LF) eqn:E2.
    { apply eqb_ok in E2 as ->. apply IH in H; [|now split]. now apply T_blank. }
    assert (Hb : b <> LF) by (intros ->; now rewrite eqb_refl in E2).
    apply Record; [exact Hb|]. destruct (Byte.eqb b quote) eqn:E3.
    + apply eqb_ok in E3. apply Quoted; [exact E3|]. now apply IH in H.
    + apply Field. apply (Plain [] [] w). exact H.
  - subst field. destruct (Byte.eqb b quote) eqn:E3.
    + apply eqb_ok in E3. apply Quoted; [exact E3|]. now apply IH in H.
    + apply Field. apply (Plain [] row w). exact H.
  - now apply (Plain field row w).
  - destruct (Byte.eqb b quote) eqn:E3.
    + apply eqb_ok in E3 as ->. apply IH in H; [|exact I]. destruct H as (r & rows' & [[-> Ht] | (v & t' & -> & -> & Ht)]); cbn [ahead].
      * exists [], t, r, rows'. now rewrite app_nil_r.
      * exists (q :: v), t', r, rows'. auto.
    + apply IH in H; [|exact I]. destruct H as (v & t' & r & rows' & -> & -> & Ht). cbn [ahead].
      exists (b :: v), t', r, rows'. rewrite <- app_assoc. split; [reflexivity|]. split; [|exact Ht].
      unfold doubled. cbn [flat_map]. change q with quote. now rewrite E3.
  - cbn [ahead]. destruct (Byte.eqb b quote) eqn:E3.
    { apply eqb_ok in E3 as ->. apply IH in H; [|exact I]. destruct H as (v & t' & r & rows' & -> & -> & Ht).
      exists r, rows'. right. exists v, t'. rewrite <- app_assoc. auto. }
    destruct (Byte.eqb b comma) eqn:E1.
    { apply eqb_ok in E1 as ->. apply IH in H; [|reflexivity]. destruct H as (r & u & t' & rows' & -> & -> & Hr & Ht).
      exists r, rows'. left. rewrite <- app_assoc. split; [reflexivity|]. right. eauto. }
    destruct (Byte.eqb b LF) eqn:E2; [|discriminate].
    apply eqb_ok in E2 as ->. apply end_inv in H as (_ & rows' & -> & H). apply IH in H; [|now split].
    exists [], rows'. left. split; [reflexivity|]. left. split; [reflexivity|]. right. eauto.
Qed.
Lemma reader_width : forall t at_ field row w rows, records None t at_ field row w = (rows, None) -> fits w rows.
Proof.
  assert (Nil : forall w, fits w []) by (intro w; split; [intros ? ? [] | intros _ ? []]).
  assert (End : forall row field w k rows, (forall w' rows, k w' = (rows, None) -> fits w' rows) ->
    end_record (row ++ [field]) w k = (rows, None) -> fits w rows).
  { intros row field w k rows Hk H. apply end_inv in H as (Hw & rows' & -> & E). apply Hk in E as [H1 H2].
    assert (Hl : length (row ++ [field]) <> 0) by (rewrite app_length; cbn; lia). specialize (H2 Hl). split.
    - intros a b [<-|Ha] [<-|Hb]; [reflexivity | symmetry; auto | auto | auto].
    - intros Hw' a [<-|Ha]; [destruct Hw; congruence|]. rewrite (H2 a Ha). destruct Hw; congruence. }
  induction t as [|b t IH]; intros at_ field row w rows H.
  { destruct at_; cbn [records] in H; try discriminate; try (injection H as <-; apply Nil);
      (eapply End; [|exact H]; intros w' r E; injection E as <-; apply Nil). }
  assert (Lf : end_record (row ++ [field]) w (records None t AtRecord [] []) = (rows, None) -> fits w rows).
  { intro E. eapply End; [|exact E]. intros w' r. apply IH. }
  destruct at_; cbn [records] in H;
    repeat match type of H with (if ?c then _ else _) = _ => destruct c end; try discriminate; eauto.
Qed.
Theorem csv_read_iff : forall t rows, csv_read t None = (rows, None) <-> says_table t rows.
Proof.
  intros t rows. unfold csv_read. split.
  - intro H. exists (unix_lines t). split; [now apply (unix_says (length t))|].
    split; [apply (reader_says _ AtRecord [] [] 0 rows); [now split | exact H]|]. apply reader_width in H. apply H.
  - intros (u & Hu & Ht & Hw). rewrite (unix_ok _ _ Hu). apply run_table; [exact Ht|]. split; [exact Hw | congruence].
Qed.
(** An error of the source is reported. *)
Lemma read_stop : forall t e at_ field row w, snd (records (Some e) t at_ field row w) <> None.
Proof.
  assert (End : forall row w k, (forall w', snd (k w') <> None) -> snd (end_record row w k) <> None).
  { intros row w k Hk. unfold end_record. destruct (w =? 0).
    - specialize (Hk (length row)). destruct (k (length row)). exact Hk.
    - destruct (length row =? w); [|discriminate]. specialize (Hk w). destruct (k w). exact Hk. }
  induction t as [|b t IH]; intros e at_ field row w; [discriminate|].
  destruct at_; cbn [records]; repeat match goal with |- context [if ?c then _ else _] => destruct c end; try discriminate; auto.
Qed.
