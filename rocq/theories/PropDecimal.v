(** Property C63: what becomes of numbers written as text. *)
From Coq Require Import Strings.String Permutation Reals Lia Lra.
From Flocq Require Import Core IEEE754.Binary IEEE754.Bits.
From Verif Require Import Base BaseFacts IO Spec Floats Metadata Recording SpecFile Encoding Writer Reader Tools.
From Verif Require Import Text Csv CsvText SpecCsv SpecCsvText CsvFacts PropCsv PropCsvText.
From Verif Require Import Json SpecJson SpecToJson SpecJsonText JsonTextFacts SpecV1.
From Verif Require Import ParseFloat SpecDecimal DecimalFacts.
Local Open Scope R_scope.

(** C63: a decimal or hexadecimal number, however long, is read as the float
    nearest to it; if it is out of range it is an error.  (Exponents from 100000
    on are cut off.) *)
Theorem C63_nearest : forall s neg x e, literal s neg x e -> (Z.abs e < 100000)%Z ->
  (Rabs x < limit 53 1024 -> exists f, parse_float64 s = Some f /\ nearest 53 1024 x neg f) /\
  (limit 53 1024 <= Rabs x -> parse_float64 s = None) /\
  (Rabs x < limit 24 128 -> exists f, parse_float32 s = Some f /\ nearest 24 128 x neg f) /\
  (limit 24 128 <= Rabs x -> parse_float32 s = None).
Proof.
  intros s neg x e H He. unfold parse_float64, parse_float32. rewrite !(parse_literal _ _ _ _ _ _ _ H).
  pose proof (read_literal 53 1024 ltac:(lia) ltac:(lia) s neg x e H He) as A.
  pose proof (read_literal 24 128 ltac:(lia) ltac:(lia) s neg x e H He) as B. cbv beta in A, B.
  destruct (Rlt_dec (Rabs x) (limit 53 1024)); destruct (Rlt_dec (Rabs x) (limit 24 128));
    (split; [|split; [|split]]); intro; first [assumption|exfalso; lra].
Qed.
Print Assumptions C63_nearest.
(** The nearest float: none is closer. *)
Theorem C63_closest : forall x neg f, nearest 53 1024 x neg f ->
  forall g : f64, is_finite 53 1024 g = true -> Rabs (B2R 53 1024 f - x) <= Rabs (B2R 53 1024 g - x).
Proof.
  intros x neg f (_ & _ & E) g _. rewrite E.
  assert (V : Valid_exp (FLT_exp (3 - 1024 - 53) 53)) by now apply FLT_exp_valid.
  destruct (round_N_pt radix2 (FLT_exp (3 - 1024 - 53) 53) (fun z => negb (Z.even z)) x) as [_ H].
  apply H. exact (generic_format_B2R 53 1024 g).
Qed.
Print Assumptions C63_closest.
(** Beyond the limit there is no finite float that rounding could yield, below
    it the result is finite, so the two cases of C63_nearest are the right ones. *)
Theorem C63_limit : forall x, Rabs x < limit 53 1024 <->
  Rabs (round radix2 (FLT_exp (3 - 1024 - 53) 53) ZnearestE x) < bpow radix2 1024.
Proof.
  intro x. split; [apply in_range; lia|]. intro H. destruct (Rlt_le_dec (Rabs x) (limit 53 1024)) as [|K]; [assumption|].
  apply (out_of_range 53 1024) in K; [lra|lia|lia].
Qed.
Print Assumptions C63_limit.

(** C63: the words for infinity and not a number are read too. *)
Theorem C63_words :
  (forall s, word "nan" s -> exists f, parse_float64 s = Some f /\ is_nan 53 1024 f = true) /\
  (forall p neg s, sign p neg -> word "inf" s \/ word "infinity" s ->
     parse_float64 (p ++ s) = Some (B754_infinity 53 1024 neg)).
Proof.
  split.
  - intros s H. eexists. split; [now apply parse_nan|]. vm_compute. reflexivity.
  - intros p neg s Hp Hs. now apply parse_inf.
Qed.
Print Assumptions C63_words.
(** C63: nothing else is. *)
Theorem C63_nothing_else : forall s f, ~ In "_"%byte s -> parse_float64 s = Some f ->
  (exists neg x e, literal s neg x e) \/ word "nan" s \/
  exists p neg t, s = p ++ t /\ sign p neg /\ (word "inf" t \/ word "infinity" t).
Proof.
  intros s f Hu H. assert (Hu' : existsb is_underscore s = false).
  { destruct (existsb is_underscore s) eqn:E; [|reflexivity]. apply existsb_exists in E as (c & Hc & E).
    apply beqb_eq in E. subst c. contradiction. }
  destruct (parse_inv _ _ _ _ _ H Hu') as [K|[[K _]|(p & neg & t & K1 & K2 & K3 & _)]]; auto.
  right. right. now exists p, neg, t.
Qed.
Print Assumptions C63_nothing_else.
(** C63: underscores between digits do not matter; a text with underscores is
    never read as anything but the text without them, and only if every
    underscore stands between two digits (of a hexadecimal number, or behind its
    0x). *)
Definition stripped (s : str) : str := filter (fun c => negb (beqb c "_")) s.
Definition between_digits (s : str) : Prop :=
  forall p q, s = p ++ "_"%byte :: q -> exists p' a b q' v w, p = p' ++ [a] /\ q = b :: q' /\ dec a v /\ dec b w.
Definition hexadecimal (s : str) : Prop :=
  exists p neg x u, sign p neg /\ (x = lit "0x" \/ x = lit "0X") /\ s = p ++ x ++ u.
Definition among_digits (s : str) : Prop :=
  forall p q, s = p ++ "_"%byte :: q -> exists p' a b q' w, p = p' ++ [a] /\ q = b :: q' /\
    ((exists v, dec a v) /\ dec b w \/
     hexadecimal s /\ ((exists v, hex a v) \/ a = "x"%byte \/ a = "X"%byte) /\ hex b w).
Theorem C63_underscores : forall s f,
  (In "_"%byte s -> parse_float64 s = Some f -> parse_float64 (stripped s) = Some f /\ among_digits s) /\
  (between_digits s -> (exists neg x e, literal (stripped s) neg x e) ->
     parse_float64 (stripped s) = Some f -> parse_float64 s = Some f).
Proof.
  intros s f. split.
  - intros Hu H. assert (Hu' : existsb is_underscore s = true) by (apply existsb_exists; eexists; split; [exact Hu|reflexivity]).
    split; [now apply parse_stripped|]. unfold parse_float64, parse_number in H.
    rewrite special_underscore, Hu' in H by exact Hu'. destruct (underscores_ok s) eqn:Ho; [|discriminate].
    intros p q E. destruct (accepted_underscores 53 1024 s f Ho H p q E) as (p' & a & b & q' & Ep & Eq & K).
    exists p', a, b, q', (digit_value b). split; [exact Ep|]. split; [exact Eq|].
    destruct K as [[Ha Hb]|((g & neg & x & u & Hg & Hx & Es) & Ha & Hb)]; [left|right].
    + split; [exists (digit_value a)|]; now apply dec_digit.
    + split; [exists g, neg, [x30; x], u; split; [exact Hg|]; split; [|exact Es]|].
      * apply letter_two in Hx; [|lia]. destruct Hx as [-> | ->]; [left|right]; reflexivity.
      * split; [|now apply hex_digit]. destruct Ha as [Ha|Ha]; [left; exists (digit_value a); now apply hex_digit|].
        right. apply letter_two in Ha; [|lia]. destruct Ha as [-> | ->]; [left|right]; reflexivity.
  - intros Hs Hl H. apply parse_separated; [|exact H|exact Hl]. intros p q E.
    destruct (Hs p q E) as (p' & a & b & q' & v & w & Ep & Eq & Ha & Hb). apply dec_digit in Ha, Hb.
    exists p', a, b, q'. tauto.
Qed.
Print Assumptions C63_underscores.

(** A text that is no number. *)
Definition no_number (s : str) : Prop :=
  ~ In "_"%byte s /\ (forall neg x e, ~ literal s neg x e) /\ ~ word "nan" s /\
  forall p neg t, s = p ++ t -> sign p neg -> ~ word "inf" t /\ ~ word "infinity" t.
Lemma no_number_fails : forall s, no_number s -> parse_float64 s = None.
Proof.
  intros s (H1 & H2 & H3 & H4). destruct (parse_float64 s) as [f|] eqn:E; [|reflexivity]. exfalso.
  destruct (C63_nothing_else s f H1 E) as [(neg & x & e & K)|[K|(p & neg & t & K1 & K2 & K3)]].
  - exact (H2 _ _ _ K).
  - exact (H3 K).
  - destruct (H4 p neg t K1 K2). tauto.
Qed.

(** ** Tables *)
(** A cell that holds a number in range. *)
Definition number_cell (row : list str) (i : nat) : Prop :=
  exists s neg x e, nth_error row i = Some s /\ literal (trim_space s) neg x e /\ (Z.abs e < 100000)%Z /\ Rabs x < limit 53 1024.
(** [f] is the float nearest to the number in the cell. *)
Definition nearest_cell (row : list str) (i : nat) (f : f64) : Prop :=
  exists s neg x e, nth_error row i = Some s /\ literal (trim_space s) neg x e /\ nearest 53 1024 x neg f.
Definition number_row (k : columns) (row : list str) : Prop :=
  (exists id, nth_error row (in_id k) = Some id) /\ (exists name, nth_error row (in_name k) = Some name) /\
  number_cell row (in_time k) /\ number_cell row (in_x k) /\ number_cell row (in_y k) /\ number_cell row (in_z k).
Definition nearest_row (k : columns) (row : list str) (e : SpecCsv.entry) : Prop :=
  let '(id, name, (t, v)) := e in
  nth_error row (in_id k) = Some id /\ nth_error row (in_name k) = Some name /\
  nearest_cell row (in_time k) t /\
  nearest_cell row (in_x k) (vx v) /\ nearest_cell row (in_y k) (vy v) /\ nearest_cell row (in_z k) (vz v).
Lemma cell_read : forall row i, number_cell row i -> exists f, number_at parse_float64 row i f /\ nearest_cell row i f.
Proof.
  intros row i (s & neg & x & e & Hn & Hl & He & Hx). destruct (C63_nearest _ _ _ _ Hl He) as [H _].
  destruct (H Hx) as (f & Hf & Hq). exists f. split; [now exists s|]. now exists s, neg, x, e.
Qed.
Lemma rows_read : forall k rows, Forall (number_row k) rows -> exists l,
  Forall2 (row_says parse_float64 k) rows l /\ Forall2 (nearest_row k) rows l.
Proof.
  intros k rows H. induction H as [|row rows ((id & Hid) & (name & Hname) & Ht & Hx & Hy & Hz) _ (l & IH1 & IH2)].
  - exists []. split; constructor.
  - apply cell_read in Ht as (t & Ht & Ht'), Hx as (x & Hx & Hx'), Hy as (y & Hy & Hy'), Hz as (z & Hz & Hz').
    exists ((id, name, (t, mkVec x y z)) :: l). split; constructor; try assumption; unfold row_says, nearest_row;
      cbn [vx vy vz]; tauto.
Qed.

(** C63: a table of numbers in range becomes, through the from-csv command and
    Load, the recording whose times and coordinates are the floats nearest to the
    written ones. *)
Theorem C63_table : forall outer inner t header rows k Z IZ v1,
  (forall d, Permutation (outer d) d) -> (forall i m, Permutation (inner i m) m) ->
  says_table t (header :: rows) -> six_columns header k -> Forall (number_row k) rows -> codec_ok Z IZ ->
  exists l subs n file,
    let r := mkRec [] [] [] (map Some subs) [] [] [] in
    Forall2 (nearest_row k) rows l /\
    NoDup (map (fun r => (rec_id r, rec_name r)) subs) /\
    (forall r, In r subs <-> exists p, In p (map SpecCsv.key l) /\ r = group p l) /\
    recording_from_csv parse_float64 outer inner (csv_read t None) = Ok (inl r) /\
    write_views from_csv_writer Z buffer r r r [] = Ok (n, None, file) /\
    ((n <= 2 ^ 40)%N ->
     forall S (R : Reader S) eager I, delivers R eager I -> forall s rest, I s (file ++ rest) ->
     exists s', read load_encoders v1 IZ R s = Ok (Some r, n, None, s')).
Proof.
  intros outer inner t header rows k Z IZ v1 Ho Hi Ht Hk Hr HZ. destruct (rows_read k rows Hr) as (l & H1 & H2).
  destruct (C49_from_csv parse_float64 outer inner t header rows k l Z IZ v1 Ho Hi Ht Hk H1 HZ) as (subs & n & file & H).
  exists l, subs, n, file. split; [exact H2|exact H].
Qed.
Print Assumptions C63_table.
(** C63: with a text that is no number in one of the four columns, or a number
    out of range, nothing is imported. *)
Definition bad_cell (row : list str) (i : nat) : Prop :=
  exists s, nth_error row i = Some s /\
    (no_number (trim_space s) \/
     exists neg x e, literal (trim_space s) neg x e /\ (Z.abs e < 100000)%Z /\ limit 53 1024 <= Rabs x).
Theorem C63_table_rejects : forall outer inner t header rows k,
  says_table t (header :: rows) -> six_columns header k ->
  (exists row i, In row rows /\ In i [in_time k; in_x k; in_y k; in_z k] /\ bad_cell row i) ->
  exists e, recording_from_csv parse_float64 outer inner (csv_read t None) = Ok (inr e).
Proof.
  intros outer inner t header rows k Ht Hk (row & i & Hrow & Hi & s & Hs & Hb).
  assert (Hlen : Forall (fun row => length row = length header) rows) by (destruct Ht as (u & _ & _ & Hw); apply Forall_forall; intros r Hr; apply Hw; [now right|now left]).
  apply C49_reads in Ht. rewrite Ht. apply C33_bad_number with k; [exact Hk|exact Hlen|]. left. exists row. split; [exact Hrow|].
  assert (K : not_number_at parse_float64 row i).
  { exists s. split; [exact Hs|]. destruct Hb as [Hb|(neg & x & e & Hl & He & Hx)]; [now apply no_number_fails|].
    now apply (C63_nearest _ _ _ _ Hl He). }
  unfold bad_row. destruct Hi as [<- | [<- | [<- | [<- | []]]]]; tauto.
Qed.
Print Assumptions C63_table_rejects.

(** ** Metadata of version 1 files *)
(** C63: a text in the metadata that is a number becomes the nearest float32; a
    number out of range stays a text. *)
Theorem C63_v1 : forall s neg x e, literal s neg x e -> (Z.abs e < 100000)%Z ->
  (Rabs x < limit 24 128 -> exists f, md_value parse_float32 s = PFloat f /\ nearest 24 128 x neg f) /\
  (limit 24 128 <= Rabs x -> md_value parse_float32 s = PString s).
Proof.
  intros s neg x e H He. destruct (C63_nearest s neg x e H He) as (_ & _ & H1 & H2). unfold md_value. split; intro K.
  - destruct (H1 K) as (f & -> & Hf). now exists f.
  - now rewrite (H2 K).
Qed.
Print Assumptions C63_v1.

(** ** JSON *)
Lemma json_digits : forall d, SpecToJson.digits d -> d <> [] /\ numeral dec 10 d (digits_value 10 d).
Proof.
  intros d [H1 H2]. split; [exact H1|]. apply numeral_dec. split; [now apply digits_forall|reflexivity].
Qed.
(** C63: every JSON number is such a number, and its value is the float nearest
    to it. *)
Theorem C63_json : forall t, number t -> exists neg x e, literal t neg x e /\
  ((Z.abs e < 100000)%Z -> Rabs x < limit 53 1024 ->
   exists f, means parse_float64 (TNum t) (JNum f) /\ nearest 53 1024 x neg f) /\
  ((Z.abs e < 100000)%Z -> limit 53 1024 <= Rabs x -> forall j, ~ means parse_float64 (TNum t) j).
Proof.
  intros t H. assert (L : exists neg x e, literal t neg x e).
  { destruct H as [sg int frac exp Hs Hi _ Hf He]. apply json_digits in Hi as [Hi1 Hi2].
    assert (Hs' : exists neg, sign sg neg) by (destruct Hs as [-> | ->]; eexists; constructor). destruct Hs' as (neg & Hs').
    assert (Hp : exists n k, with_point dec 10 (int ++ frac) n k).
    { destruct Hf as [-> | (d & -> & Hd)].
      - rewrite app_nil_r. do 2 eexists. constructor; eassumption.
      - apply json_digits in Hd as [Hd1 Hd2]. exists (digits_value 10 (int ++ d)), (length d). constructor.
        + now destruct int.
        + apply numeral_dec. apply numeral_dec in Hi2 as [Hi2 _], Hd2 as [Hd2 _]. split; [now apply Forall_app|reflexivity]. }
    destruct Hp as (n & k & Hp). rewrite (app_assoc int).
    destruct He as [-> | (l & s & d & -> & Hl & Hsg & Hd)].
    - rewrite app_nil_r. do 3 eexists. apply L_decimal; eassumption.
    - apply json_digits in Hd as [Hd1 Hd2].
      assert (Hs2 : exists neg, sign s neg) by (destruct Hsg as [-> | [-> | ->]]; eexists; constructor). destruct Hs2 as (neg2 & Hs2).
      do 3 eexists. eapply L_exponent; [exact Hs'|exact Hp|]. eapply E_written; eassumption. }
  destruct L as (neg & x & e & L). exists neg, x, e. split; [exact L|]. split; intros He Hx.
  - destruct (C63_nearest _ _ _ _ L He) as [K _]. destruct (K Hx) as (f & Hf & Hn). exists f. split; [now constructor|exact Hn].
  - intros j Hm. inversion Hm as [| |? f Hf| | |]; subst. destruct (C63_nearest _ _ _ _ L He) as (_ & K & _). rewrite (K Hx) in Hf. discriminate.
Qed.
Print Assumptions C63_json.

(** ** Examples *)
Definition bits (o : option f64) : option Z := match o with Some f => Some (bits_of_b64 f) | None => None end.
Lemma numeral_of : forall s, forallb JsonText.is_digit s = true -> numeral dec 10 s (digits_value 10 s).
Proof. intros s H. apply numeral_dec. split; [now apply Forall_forall, forallb_forall|reflexivity]. Qed.
(** "-12.50e-1" is a number with the value -1.25, within the bounds of C63_nearest. *)
Example C63_example_literal : literal (lit "-12.50e-1") true (signed true (1250 / 10 ^ 2 * powerRZ 10 (-1))) (-1) /\
  (Z.abs (-1) < 100000)%Z /\ Rabs (signed true (1250 / 10 ^ 2 * powerRZ 10 (-1))) < limit 53 1024 /\
  bits (parse_float64 (lit "-12.50e-1")) = Some (Z.lor (2 ^ 63) (1023 * 2 ^ 52 + 2 ^ 50))%Z.
Proof.
  split; [|split; [reflexivity|split; [|vm_compute; reflexivity]]].
  - change (lit "-12.50e-1") with (lit "-" ++ (lit "12" ++ lit "." ++ lit "50") ++ (lit "e" ++ lit "-" ++ lit "1")).
    apply (L_exponent _ true _ 1250 (length (lit "50")) _ (-1)%Z); [constructor| |].
    + apply (P_with dec 10 (lit "12") (lit "50") 1250); [discriminate|]. exact (numeral_of (lit "1250") eq_refl).
    + apply (E_written "e" "E" (lit "e") (lit "-") true (lit "1") 1); [now left|constructor|discriminate|].
      exact (numeral_of (lit "1") eq_refl).
  - unfold signed, limit. rewrite Rabs_Ropp.
    replace (1250 / 10 ^ 2 * powerRZ 10 (-1)) with (5 / 4) by (change (powerRZ 10 (-1)) with (/ (10 ^ 1)); field). rewrite Rabs_pos_eq by lra.
    assert (bpow radix2 970 <= bpow radix2 1023) by (apply bpow_le; lia).
    assert (bpow radix2 1 <= bpow radix2 1023) by (apply bpow_le; lia).
    assert (bpow radix2 1024 = 2 * bpow radix2 1023) by exact (bpow_plus radix2 1 1023).
    change (bpow radix2 1) with 2 in *. change (1024 - 53 - 1)%Z with 970%Z. lra.
Qed.
(** A tenth, a tie between two floats, the smallest positive float, half of it, the
    largest float, a hexadecimal number, one with underscores. *)
Example C63_example_values : map (fun s => bits (parse_float64 (lit s)))
  ["0.1"; "9007199254740993"; "4.9e-324"; "2.4e-324"; "1.7976931348623158e308"; "1e309"; "0x1.8p1"; "1_000.5"; "1__0"; "1e"; "-0"; "Infinity"; "12abc"]%string
  = [Some 4591870180066957722; Some 4845873199050653696; Some 1; Some 0; Some 9218868437227405311; None;
     Some 4613937818241073152; Some 4652011706887700480; None; None; Some 9223372036854775808; Some 9218868437227405312; None]%Z.
Proof. vm_compute. reflexivity. Qed.
(** A table of numbers. *)
Example C63_example_table :
  let text := lit "id,name,time,x,y,z" ++ [lf] ++ lit "1,Bob,0.1, 2e0 ,-.5,7" ++ [lf] in
  let header := map lit ["id"; "name"; "time"; "x"; "y"; "z"]%string in
  let row := map lit ["1"; "Bob"; "0.1"; " 2e0 "; "-.5"; "7"]%string in
  let k := mkColumns 2 0 1 3 4 5 in
  csv_read text None = ([header; row], None) /\ six_columns header k /\
  number_cell row (in_z k) /\ bad_cell (map lit ["1"; "Bob"; "0.1"; "2"; "?"; "7"]%string) (in_y k).
Proof.
  cbv zeta. split; [vm_compute; reflexivity|]. split; [|split].
  - assert (T : forall i title, (i < 6)%nat -> nth_error ["id"; "name"; "time"; "x"; "y"; "z"]%string i = Some title ->
      titled (map lit ["id"; "name"; "time"; "x"; "y"; "z"]%string) title i).
    { intros i title Hi Et. do 6 (destruct i as [|i]; [cbn in Et; injection Et as <-; split;
        [eexists; split; [reflexivity|vm_compute; reflexivity]|
         intros j s Hj Hs; do 6 (destruct j as [|j]; [cbn in Hj; injection Hj as <-; try lia; vm_compute in Hs; discriminate Hs|]);
         destruct j; discriminate Hj]|]). lia. }
    repeat split; apply T; try reflexivity; cbn; lia.
  - exists (lit "7"), false, (signed false (IZR 7 / 10 ^ 0)), 0%Z. split; [reflexivity|]. split; [|split; [reflexivity|]].
    + change (trim_space (lit "7")) with ([] ++ lit "7"). apply L_decimal; [constructor|].
      constructor; [discriminate|]. exact (numeral_of (lit "7") eq_refl).
    + unfold signed, limit. cbn [pow]. rewrite Rabs_pos_eq by lra.
      assert (bpow radix2 970 <= bpow radix2 1023) by (apply bpow_le; lia).
      assert (bpow radix2 3 <= bpow radix2 1023) by (apply bpow_le; lia).
      assert (bpow radix2 1024 = 2 * bpow radix2 1023) by exact (bpow_plus radix2 1 1023).
      change (bpow radix2 3) with 8 in *. change (1024 - 53 - 1)%Z with 970%Z. lra.
  - exists (lit "?"). split; [reflexivity|]. left. change (trim_space (lit "?")) with (lit "?").
    split; [intros [E|[]]; discriminate E|]. split; [|split].
    + intros neg x e H. apply literal_plain in H. discriminate H.
    + intro H. apply is_word_iff in H. discriminate H.
    + intros p neg t E Hp. destruct Hp; [|discriminate E|discriminate E]. cbn in E. subst t.
      split; intro H; apply is_word_iff in H; discriminate H.
Qed.
(** Metadata: a number, and a number that float32 cannot hold. *)
Example C63_example_v1 : map (fun s => match md_value parse_float32 (lit s) with PFloat f => Some (bits_of_b32 f) | _ => None end)
  ["0.1"; "1e39"; "12 m"; "nan"]%string = [Some 1036831949; None; None; Some 2143289344]%Z.
Proof. vm_compute. reflexivity. Qed.
Example C63_example_json : number (lit "-1.5E3").
Proof.
  change (lit "-1.5E3") with (lit "-" ++ lit "1" ++ lit ".5" ++ lit "E3").
  assert (D : forall s, s <> [] -> forallb JsonText.is_digit s = true -> SpecToJson.digits s).
  { intros s Hs H. split; [exact Hs|]. apply digits_forall, Forall_forall, forallb_forall, H. }
  constructor; [now right|now apply D|discriminate| |]; right.
  - exists (lit "5"). split; [reflexivity|now apply D].
  - exists (lit "E"), [], (lit "3"). split; [reflexivity|]. split; [now right|]. split; [now left|now apply D].
Qed.
