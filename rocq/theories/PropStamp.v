(** C65: timestamps as text. *)
From Coq Require Import ZArith Lia Strings.String.
From Flocq Require Import IEEE754.Binary IEEE754.Bits.
From Verif Require Import Base BaseFacts Floats Metadata SpecMeta Recording SpecText SpecToJson Quote JsonText SpecJson SpecJsonText Json ToJson MarshalFacts.
From Verif Require Import QuoteFacts Unmarshal SpecUnmarshal PropUnmarshal JsonFacts PropJson SpecStamp Stamp StampFacts.
Local Open Scope Z_scope.

(** A time that fits into nanoseconds is written as the date and time of that instant in
    the local time zone, with the offset of the zone.  Zones are less than a day ahead or
    behind, by whole minutes. *)
Theorem C65_written : forall zone us off, - 2 ^ 63 <= us * 1000 < 2 ^ 63 ->
  zone (us * 1000) = off -> off mod 60 = 0 -> - 86400 < off < 86400 ->
  stamp (us * 1000) off (time_text zone us).
Proof.
  intros zone us off Hu <- H0 Ho. unfold time_text. cbv zeta.
  assert (wrap_i64 (us * 1000) = us * 1000) as -> by (unfold wrap_i64; rewrite Z.mod_small by lia; lia).
  pose proof (format_ok (us * 1000) (zone (us * 1000)) Hu Ho) as F.
  assert (Z.rem (zone (us * 1000)) 60 = 0) as E by (generalize dependent (zone (us * 1000)); intros; Z.to_euclidean_division_equations; lia).
  rewrite E in F. now rewrite Z.mul_0_l, Z.add_0_r, Z.sub_0_r in F.
Qed.
Print Assumptions C65_written.
Lemma stamp_loose : forall nanos off t, stamp nanos off t -> loose_stamp nanos t.
Proof.
  intros nanos off t (y & m & d & h & mi & s & ns & Hc & ty & tm & td & th & tmi & ts & tf & tz & -> & Py & Pm & Pd & Ph & Pmi & Ps & Hf & Hz).
  exists y, m, d, h, mi, s, ns, off, ty, tm, td, th, tmi, ts, tf, tz. split; [exact Hc|]. split; [reflexivity|].
  split; [exact Py|]. split; [exact Pm|]. split; [exact Pd|]. split; [now left|]. split; [exact Pmi|]. split; [exact Ps|]. split.
  - destruct Hf as [Hf|(ds & k & -> & Hn & D & L & V & _)]; [now left|]. right. exists (lit "."), ds. split; [reflexivity|].
    split; [now left|]. split; [exact Hn|]. split; [exact D|]. rewrite <- V.
    replace (10 ^ 9) with (10 ^ Z.of_nat k * 10 ^ Z.of_nat (List.length ds)) by (rewrite <- Z.pow_add_r by lia; f_equal; lia).
    rewrite Z.mul_assoc, Z.div_mul by (apply Z.pow_nonzero; lia). reflexivity.
  - destruct Hz as [Hz|(sign & h' & mi' & a & b & E & Pa & Pb & B1 & B2 & Hs)]; [now left|]. right. exists sign, h', mi', a, b.
    split; [exact E|]. split; [exact Pa|]. split; [exact Pb|]. split; [lia|]. split; [lia|exact Hs].
Qed.

(** The reader accepts exactly the texts that denote a time, and gives that time in
    microseconds. *)
Theorem C65_reads : forall t us, parse_time t = Some us <-> exists nanos, loose_stamp nanos t /\ us = nanos / 1000.
Proof.
  intros t us. split; [apply parse_inv|]. intros (nanos & H & ->). now apply parse_loose.
Qed.
Print Assumptions C65_reads.

(** What is written is read back, in every time zone. *)
Theorem C65_round_trip : forall zone us off, - 2 ^ 63 <= us * 1000 < 2 ^ 63 ->
  zone (us * 1000) = off -> off mod 60 = 0 -> - 86400 < off < 86400 ->
  parse_time (time_text zone us) = Some us.
Proof.
  intros zone us off Hu Hz H0 Ho. apply C65_reads. exists (us * 1000). split.
  - eapply stamp_loose, C65_written; eauto.
  - symmetry. apply Z.div_mul. lia.
Qed.
Print Assumptions C65_round_trip.

(** A time outside that range (before 1677 or after 2262) is written as another time,
    without an error. *)
Theorem C65_range_refuted : forall zone us, - 2 ^ 63 <= us < 2 ^ 63 -> ~ (- 2 ^ 63 <= us * 1000 < 2 ^ 63) ->
  (forall n, zone n mod 60 = 0 /\ - 86400 < zone n < 86400) ->
  exists us', parse_time (time_text zone us) = Some us' /\ us' <> us.
Proof.
  intros zone us Hu Hout Hz. unfold time_text. cbv zeta. set (w := wrap_i64 (us * 1000)).
  assert (Hw : - 2 ^ 63 <= w < 2 ^ 63) by (unfold w, wrap_i64; pose proof (Z.mod_pos_bound (us * 1000 + 2 ^ 63) (2 ^ 64) ltac:(lia)); lia).
  destruct (Hz w) as [H0 Ho]. pose proof (format_ok w (zone w) Hw Ho) as F.
  assert (Z.rem (zone w) 60 = 0) as E by (generalize dependent (zone w); intros; Z.to_euclidean_division_equations; lia).
  rewrite E, Z.mul_0_l, Z.add_0_r in F. apply stamp_loose, parse_loose in F. exists (w / 1000). split; [exact F|].
  assert (exists k, w - us * 1000 = k * 2 ^ 64) as [k Hk].
  { exists (- ((us * 1000 + 2 ^ 63) / 2 ^ 64)). unfold w, wrap_i64. pose proof (Z.div_mod (us * 1000 + 2 ^ 63) (2 ^ 64) ltac:(lia)). lia. }
  assert (k <> 0) by (intros ->; lia). intro Eu. pose proof (Z.div_mod w 1000 ltac:(lia)). pose proof (Z.mod_pos_bound w 1000 ltac:(lia)). lia.
Qed.
Print Assumptions C65_range_refuted.

(** In a zone whose offset is not a whole number of minutes (local mean time, before
    standard time came) the odd seconds are lost. *)
Theorem C65_odd_offset_refuted : forall zone us off, - 2 ^ 63 <= us * 1000 < 2 ^ 63 ->
  zone (us * 1000) = off -> - 86400 < off < 86400 ->
  parse_time (time_text zone us) = Some (us + Z.rem off 60 * 10 ^ 6).
Proof.
  intros zone us off Hu <- Ho. unfold time_text. cbv zeta.
  assert (wrap_i64 (us * 1000) = us * 1000) as -> by (unfold wrap_i64; rewrite Z.mod_small by lia; lia).
  pose proof (format_ok (us * 1000) (zone (us * 1000)) Hu Ho) as F. apply stamp_loose, parse_loose in F. rewrite F. f_equal.
  replace (us * 1000 + Z.rem (zone (us * 1000)) 60 * 10 ^ 9) with ((us + Z.rem (zone (us * 1000)) 60 * 10 ^ 6) * 1000) by lia. apply Z.div_mul. lia.
Qed.
Print Assumptions C65_odd_offset_refuted.

Definition stamp_char (c : byte) : Prop := digit c \/ In c (lit "-T:.Z+").
Lemma stamp_chars : forall nanos off t, stamp nanos off t -> Forall stamp_char t /\ exists a b r, t = a :: b :: r /\ digit b.
Proof.
  intros nanos off t (y & m & d & h & mi & s & ns & Hc & ty & tm & td & th & tmi & ts & tf & tz & -> & Py & Pm & Pd & Ph & Pmi & Ps & Hf & Hz).
  assert (D : forall l, Forall digit l -> Forall stamp_char l) by (intros l H; eapply Forall_impl; [|exact H]; intros c Hd; now left).
  assert (L : forall k, (forall c, In c (lit k) -> In c (lit "-T:.Z+")) -> Forall stamp_char (lit k)) by (intros k H; apply Forall_forall; intros c Hi; right; auto).
  assert (L1 : Forall stamp_char (lit "-")) by (apply L; cbn; tauto). assert (L2 : Forall stamp_char (lit "T")) by (apply L; cbn; tauto).
  assert (L3 : Forall stamp_char (lit ":")) by (apply L; cbn; tauto). assert (L4 : Forall stamp_char (lit ".")) by (apply L; cbn; tauto).
  assert (L5 : Forall stamp_char (lit "Z")) by (apply L; cbn; tauto). assert (L6 : Forall stamp_char (lit "+")) by (apply L; cbn; tauto).
  split.
  - destruct Py as (_ & Py & _), Pm as (_ & Pm & _), Pd as (_ & Pd & _), Ph as (_ & Ph & _), Pmi as (_ & Pmi & _), Ps as (_ & Ps & _).
    repeat (apply Forall_app; split); auto.
    + destruct Hf as [[_ ->]|(ds & k & -> & _ & Hd & _)]; [constructor|]. apply Forall_app; auto.
    + destruct Hz as [[_ ->]|(sign & h' & mi' & a & b & -> & (_ & Pa & _) & (_ & Pb & _) & _ & _ & Hs)]; [exact L5|].
      apply Forall_app; split; [destruct Hs as [[-> _]|[-> _]]; assumption|]. repeat (apply Forall_app; split); auto.
  - destruct Py as (Ly & Dy & _). destruct ty as [|a [|b ty]]; try discriminate. exists a, b. eexists. split; [reflexivity|].
    inversion Dy as [|? ? _ D2]; subst. now inversion D2.
Qed.
Lemma stamp_text_ok : forall nanos off t, stamp nanos off t -> text_ok t.
Proof.
  intros nanos off t H. destruct (stamp_chars _ _ _ H) as [Hc (a & b & r & -> & Hb)]. split; [|split].
  - apply ascii_valid. eapply Forall_impl; [|exact Hc]. intros c [Hd|Hi]; [unfold digit in Hd; lia|]. cbn in Hi. repeat destruct Hi as [<-|Hi]; try reflexivity. destruct Hi.
  - eapply Forall_impl; [|exact Hc]. intros c [Hd|Hi].
    + unfold digit in Hd. split; [lia|]. split; intros ->; vm_compute in Hd; destruct Hd as [H1 H2]; congruence.
    + cbn in Hi. repeat destruct Hi as [<-|Hi]; try (split; [vm_compute; discriminate|split; discriminate]). destruct Hi.
  - intros [r' E]. injection E as _ -> _. destruct Hb as [_ Hb]. vm_compute in Hb. congruence.
Qed.
(** A timestamp in the metadata of an exported recording comes back (C45, C47), whatever
    stands beside it. *)
Theorem C65_property : forall parse64 parse32 reparse32 num64 num32 zone us off,
  number_text parse64 reparse32 num64 num32 ->
  (forall f, is_finite 24 128 f = true -> parse32 (num32 f) = Some f) ->
  - 2 ^ 63 <= us * 1000 < 2 ^ 63 -> zone (us * 1000) = off -> off mod 60 = 0 -> - 86400 < off < 86400 ->
  faithful (time_text zone) parse_time (PTime us) /\
  exists text, marshal json_quote num64 num32 (time_text zone) (PTime us) = Some text /\
    unmarshal_as parse64 parse32 parse_time reparse32 KTime text = Ok (Some (PTime us)).
Proof.
  intros p6 p3 r n6 n3 zone us off HN H3 Hu Hz H0 Ho.
  pose proof (C65_written zone us off Hu Hz H0 Ho) as W. pose proof (C65_round_trip zone us off Hu Hz H0 Ho) as RT. apply stamp_text_ok in W.
  split; [now constructor|].
  destruct (C47_round_trip p6 p3 r n6 n3 (time_text zone) parse_time HN H3 KTime (PTime us)) as (text & p' & E & Eu & He).
  - constructor; [apply W|exact RT].
  - cbn. lia.
  - exists text. split; [exact E|]. rewrite Eu. now inversion He.
Qed.
Print Assumptions C65_property.

(** In metadata that is imported (C36) a text that denotes a time becomes that time, and
    every other plain text stays a text. *)
Theorem C65_import : forall reparse32 big_atoi j r m r' o k s,
  from_json parse_time reparse32 big_atoi (Some j) = Ok (Some r) -> comes_from j r (JObj m) r' ->
  SpecJson.field m "metadata"%string (JObj o) -> SpecJson.plain parse_time reparse32 11 (JObj o) ->
  In (k, JStr s) o -> plain_text s -> ~ starts_0x s ->
  exists p, In (k, p) (rec_md r') /\
    ((exists nanos, loose_stamp nanos s /\ p = PTime (nanos / 1000)) \/ ((forall nanos, ~ loose_stamp nanos s) /\ p = PString s)).
Proof.
  intros r32 at_ j r m r' o k s Hj Hc Ho Hp Hin Hs Hx.
  destruct (C36_plain_kept _ _ _ _ _ _ _ _ Hj Hc Ho Hp) as (_ & Hk & Hf).
  assert (exists p, In (k, p) (rec_md r') /\ says parse_time r32 (JStr s) p) as (p & Hi & Hsay).
  { clear -Hf Hk Hin. revert Hk Hin. induction Hf as [|[k1 j1] [k2 p2] l l' H _ IH]; intros Hk Hin; [destruct Hin|].
    cbn [map fst] in Hk. injection Hk as -> Hk. destruct Hin as [[= -> ->]|Hin]; [exists p2; split; [now left|exact H]|].
    destruct (IH Hk Hin) as (p & A & B). exists p. split; [now right|exact B]. }
  exists p. split; [exact Hi|]. pose proof (plain_unquote s Hs) as Hu. inversion Hsay; subst; try (exfalso; apply Hx; eexists; reflexivity).
  - left. assert (t = s) by congruence. subst t. match goal with H : parse_time s = Some _ |- _ => apply C65_reads in H as (nanos & A & ->) end. eauto.
  - right. assert (t = s) by congruence. subst t. split; [|reflexivity]. intros nanos A. apply parse_loose in A. congruence.
Qed.
Print Assumptions C65_import.
Example C65_example_import :
  match from_json parse_time toy_32 toy_atoi (Some (obj [("id", jt "r"); ("name", jt "n"); ("metadata", obj [("t", jt "2000-02-29T10:00:00Z"); ("s", jt "2000-02-30T10:00:00Z")])]%string)) with
  | Ok (Some r) => rec_md r = [(lit "t", PTime 951818400000000); (lit "s", PString (lit "2000-02-30T10:00:00Z"))] | _ => False end.
Proof. vm_compute. reflexivity. Qed.

(** One hour ahead; before 1970; a leap day; the limits; other spellings; and refusals. *)
Example C65_example : - 2 ^ 63 <= 1700000000123450 * 1000 < 2 ^ 63 /\ 3600 mod 60 = 0 /\
  time_text (fun _ => 3600) 1700000000123450 = lit "2023-11-14T23:13:20.12345+01:00" /\
  time_text (fun _ => -19800) (-5) = lit "1969-12-31T18:29:59.999995-05:30" /\
  time_text (fun _ => 0) 951782400000000 = lit "2000-02-29T00:00:00Z" /\
  time_text (fun _ => 0) 9223372036854775 = lit "2262-04-11T23:47:16.854775Z" /\
  time_text (fun _ => 0) 9223372036854776 = lit "1677-09-21T00:12:43.145224384Z".
Proof. split; [split; vm_compute; congruence|]. split; [reflexivity|]. vm_compute. auto 10. Qed.
Example C65_example_reads :
  parse_time (lit "2000-02-29T1:02:03,0000019999+24:60") = Some 951696123000001 /\
  parse_time (lit "0000-01-01T00:00:00Z") = Some (-62167219200000000) /\
  parse_time (lit "1900-02-29T00:00:00Z") = None /\ parse_time (lit "2000-02-29T24:00:00Z") = None /\
  parse_time (lit "2000-02-29 10:00:00Z") = None /\ parse_time (lit "2000-02-29T10:00:00") = None /\
  parse_time (lit "2000-02-29T10:00:00.Z") = None /\ parse_time (lit "2000-2-29T10:00:00Z") = None /\
  parse_time (lit "2000-02-29T10:00:00Z ") = None.
Proof. vm_compute. auto 10. Qed.
Example C65_example_odd : parse_time (time_text (fun _ => 1172) 0) = Some 32000000 /\
  time_text (fun _ => 1172) 0 = lit "1970-01-01T00:19:32+00:19".
Proof. vm_compute. auto. Qed.
