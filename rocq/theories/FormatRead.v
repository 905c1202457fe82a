(** Reading a file in the documented format. *)
From Coq Require Import ZArith Lia.
From Verif Require Import Base BaseFacts IO Spec IOFacts Floats ByteFacts BinaryIO BinaryIOFacts.
From Verif Require Import Metadata SpecMeta MetadataFacts Recording SpecRec RecordingFacts Encoding SpecEnc.
From Verif Require Import EncTableFacts EncEvent EncEventFacts EncEnum EncPosition EncEuler EncFloat EncNumFacts StreamFacts TimeIO TimeFacts.
From Verif Require Import Writer Reader SpecFile WriterFacts KeyFacts PlanFacts ReaderFacts FileFacts BuiltinFacts SpecFormat FormatFacts DenseFacts.
Local Open Scope N_scope.
Local Open Scope format_scope.

Lemma each_parts : forall A (P : A -> bytes -> Prop) l b, each P l b ->
  exists es, concat es = b /\ Forall2 (fun e x => P x e) es l.
Proof.
  intros A P l b H. induction H as [|x l b c Hx H (es & <- & IH)]; [exists []; split; constructor|].
  exists (b :: es). split; [reflexivity|]. now constructor.
Qed.
Lemma parts_size : forall A (P : A -> bytes -> Prop) es l, Forall2 (fun e x => P x e) es l ->
  (forall x e, P x e -> 1 <= lenN e) -> lenN l <= lenN (concat es) /\
  Forall2 (fun e x => P x e /\ lenN e <= lenN (concat es) /\ (length e <= length (concat es))%nat /\ In x l) es l.
Proof.
  intros A P es l H HP. induction H as [|e x es l Hx H [IH1 IH2]]; [split; [discriminate|constructor]|].
  cbn [concat]. rewrite lenN_cons, lenN_app. specialize (HP x e Hx). split; [lia|]. constructor.
  - rewrite app_length. split; [auto|]. split; [lia|]. split; [lia|now left].
  - eapply Forall2_weaken; [|exact IH2]. cbv beta. intros e' x' (? & ? & ? & ?). rewrite app_length. split; [auto|]. split; [lia|]. split; [lia|now right].
Qed.
Lemma text_nonempty : forall s b, text s b -> 1 <= lenN b.
Proof. intros s b H. apply text_iff in H as [_ ->]. unfold string_to_bytes. rewrite lenN_app. pose proof (put_uvarint_len (lenN s)). lia. Qed.
Lemma then_nonempty : forall P Q b, (P ;; Q) b -> (forall p, P p -> 1 <= lenN p) -> 1 <= lenN b.
Proof. intros P Q b (p & q & -> & Hp & _) H. rewrite lenN_app. specialize (H p Hp). lia. Qed.

Section Parsing.
Context {S : Type} (R : Reader S) (I : S -> bytes -> Prop).
Hypothesis HR : serves R false I.
Hypothesis HX : exact R I.
Context (keys : list str) (kinds : list kind) (encs : list encoder) (headers : list bytes) (tp te tf : N).
Hypothesis Hencs : Forall2 (fun k e => builtin tp te tf e /\ e_sig e = signature k) kinds encs.
Hypothesis Hheads : Forall2 (fun k h => header k h /\ lenN h <= big) kinds headers.

Lemma entries_parse : forall is m acc d, selects keys is m -> entries_data m = Ok d ->
  Forall (fun kv => built (snd kv)) m -> NoDup (map fst acc ++ map fst m) -> lenN d <= 2 ^ 44 ->
  parses I false (read_md_entries R keys is acc) d (acc ++ m, None).
Proof.
  intros is m acc d H. revert acc d. induction H as [|i [k v] is m Hi Hs IH]; intros acc d Ed Hb Hn Hl s rest HI Hm;
    cbn [read_md_entries entries_data map fst] in *.
  - apply ok_inj in Ed. subst d. rewrite app_nil_r. exists s. auto.
  - apply bind_ok in Ed as (c & Hc & Ed). apply bind_ok in Ed as (x & Hd & Ed). apply bind_ok in Ed as (t & Ht & Ed). apply ok_inj in Ed. subst d.
    inversion Hb as [|? ? Hv Hb']; subst. cbn [snd] in Hv. rewrite lenN_cons, lenN_app in Hl.
    assert (HI0 : I s ((n2b c :: x) ++ (t ++ rest))) by (cbn [app] in *; now rewrite <- app_assoc in HI).
    rewrite Hi. destruct (read_property_ok HR v (n2b c :: x) Hv) with (s := s) (rest := t ++ rest) as (s1 & -> & HI1); auto with more.
    { unfold write_property. rewrite Hc, Hd. reflexivity. }
    { rewrite lenN_cons. lia. }
    cbn [bind]. rewrite map_set_fresh.
    2:{ apply NoDup_remove_2 in Hn. intro H. apply Hn, in_or_app. now left. }
    replace (acc ++ (k, v) :: m) with ((acc ++ [(k, v)]) ++ m) by (now rewrite <- app_assoc).
    eapply IH; eauto; [|lia]. rewrite map_app. cbn [map fst]. now rewrite <- app_assoc.
Qed.
Lemma metadata_parse : forall m b, metadata keys m b -> lenN b <= big -> parses I false (read_md R keys) b (m, None).
Proof.
  intros m b H Hs s rest HI Hm. apply metadata_written in H as (is & d & Hsel & _ & Hlt & Hb & Ed & ->).
  unfold read_md. rewrite lenN_app in Hs. rewrite <- app_assoc in HI. pose proof (uvarint_array_len is) as Hlen.
  destruct (read_uvarint_array_ok HR is) with (s := s) (rest := d ++ rest) as (s1 & -> & HI1); auto with more.
  { eapply N.le_trans with big; [lia | discriminate]. }
  cbn [bind]. apply built_block_iff in Hb as [Hn Hb].
  apply (entries_parse is m [] d Hsel Ed Hb Hn); auto. eapply N.le_trans with big; [lia | discriminate].
Qed.
Lemma reference_parse : forall f b, reference keys f b -> lenN b <= big -> parses I false (read_ref R keys) b (Some f).
Proof.
  intros [name uri size md] b (b1 & r1 & -> & H1 & b2 & r2 & -> & H2 & b3 & r3 & -> & H3 & H4) Hs s rest HI Hm. cbn [r_name r_uri r_size r_md] in *.
  apply text_iff in H1 as [_ ->], H2 as [_ ->]. apply varint_iff in H3 as [Hsz ->]. rewrite !lenN_app in Hs. rewrite <- !app_assoc in HI.
  pose proof (string_to_bytes_len name). pose proof (string_to_bytes_len uri). unfold read_ref.
  destruct (read_string_ok HR name ltac:(small) _ _ HI) as (s1 & -> & HI1); [apply more_false|]. cbn [bind].
  destruct (read_string_ok HR uri ltac:(small) _ _ HI1) as (s2 & -> & HI2); [apply more_false|]. cbn [bind].
  destruct (read_uvarint_ok HR size Hsz _ _ HI2) as (s3 & -> & HI3); [apply more_false|]. cbn [bind].
  destruct (metadata_parse md r3 H4 ltac:(lia) _ _ HI3) as (s4 & -> & HI4); [apply more_false|]. cbn [bind]. exists s4. auto.
Qed.
Lemma attachment_parse : forall f b, attachment keys f b -> lenN b <= big -> parses I false (read_bin R keys) b (Some f).
Proof.
  intros [name data size md] b (Hsz & b1 & r1 & -> & H1 & b2 & r2 & -> & H2 & b3 & r3 & -> & H3 & H4) Hs s rest HI Hm. cbn [b_name b_data b_size b_md] in *.
  apply text_iff in H1 as [_ ->]. apply varint_iff in H2 as [_ ->]. subst r3 size. rewrite !lenN_app in Hs. rewrite <- !app_assoc in HI.
  pose proof (string_to_bytes_len name). unfold read_bin.
  destruct (read_string_ok HR name ltac:(small) _ _ HI) as (s1 & -> & HI1); [apply more_false|]. cbn [bind].
  destruct (read_uvarint_ok HR (lenN data) ltac:(small) _ _ HI1) as (s3 & -> & HI3); [apply more_false|]. cbn [bind].
  destruct (metadata_parse md b3 H3 ltac:(lia) _ _ HI3) as (s4 & -> & HI4); [apply more_false|]. cbn [bind].
  rewrite go_make_ok by (rewrite N.mul_1_l; apply N.lt_le_incl; small).
  destruct (read_full_ok R false I HR _ _ _ _ HI4 eq_refl) as (s5 & -> & HI5). cbn [bind fst].
  assert (fill (repeat x00 (N.to_nat (lenN data))) data = data) as ->.
  { unfold fill. rewrite dropN_all; [apply app_nil_r|]. rewrite lenN_repeat. lia. }
  exists s5. auto.
Qed.
Lemma Forall2_nth : forall A B (P : A -> B -> Prop) l l' i x, Forall2 P l l' -> nth_error l i = Some x -> exists y, nth_error l' i = Some y /\ P x y.
Proof.
  intros A B P l l' i x H. revert i. induction H as [|a b l l' Hab H IH]; intros [|i] Hi; try discriminate; cbn [nth_error] in *.
  - injection Hi as ->. eauto.
  - auto.
Qed.
Lemma stream_parse : forall c b, stream kinds c b -> lenN b <= big -> parses I false (read_stream R encs headers) b (Some c).
Proof.
  intros [name c] b (i & k & Hi & b1 & r1 & -> & H1 & b2 & r2 & -> & H2 & b3 & r3 & -> & H3 & d & Hd & H4) Hs s rest HI Hm. cbn [c_name c_body] in *.
  apply varint_iff in H1 as [Hsz ->]. apply text_iff in H2 as [_ ->], H4 as [_ ->].
  rewrite !lenN_app in Hs. rewrite <- !app_assoc in HI.
  pose proof (string_to_bytes_len name). pose proof (string_to_bytes_len d). unfold read_stream.
  destruct (read_uvarint_ok HR i Hsz _ _ HI) as (s1 & -> & HI1); [apply more_false|]. cbn [bind].
  destruct (read_string_ok HR name ltac:(small) _ _ HI1) as (s2 & -> & HI2); [apply more_false|]. cbn [bind].
  destruct (times_parse R I HR HX _ b3 H3 ltac:(apply N.lt_le_incl; small) _ _ HI2) as (s3 & -> & HI3); [apply more_false|]. cbn [bind].
  destruct (read_bytes_array_ok HR d ltac:(small) _ _ HI3) as (s4 & -> & HI4); [apply more_false|]. cbn [bind].
  rewrite !nthN_nth_error. destruct (Forall2_nth _ _ _ _ _ _ _ Hencs Hi) as (e & -> & He & Hsig). destruct (Forall2_nth _ _ _ _ _ _ _ Hheads Hi) as (h & -> & Hh & Lh).
  change (c_times (mkColl name c)) with (times_of c).
  rewrite (body_decodes k c h d name e tp te tf He Hsig Hh Hd).
  - cbn [bind fst]. exists s4. auto.
  - eapply N.le_trans; [exact Lh|discriminate].
  - eapply N.le_trans with big; [lia|discriminate].
Qed.
End Parsing.

Lemma recorded_nonempty : forall keys kinds r b, recorded keys kinds r b -> 1 <= lenN b.
Proof. intros keys kinds r b H. inversion H; subst. eapply then_nonempty; [eassumption|]. apply text_nonempty. Qed.
Section Build.
Context (keys : list str) (kinds : list kind) (encs : list encoder) (headers : list bytes) (tp te tf : N).
Hypothesis Hencs : Forall2 (fun k e => builtin tp te tf e /\ e_sig e = signature k) kinds encs.
Hypothesis Hheads : Forall2 (fun k h => header k h /\ lenN h <= big) kinds headers.

Lemma counted_parts : forall A (P : A -> bytes -> Prop) l b, counted (present P) l b -> (forall x e, P x e -> 1 <= lenN e) ->
  exists es, b = put_uvarint (lenN l) ++ concat es /\ lenN l <= lenN (concat es) /\
    Forall2 (fun e o => exists x, o = Some x /\ P x e /\ lenN e <= lenN (concat es) /\ (length e <= length (concat es))%nat /\ In (Some x) l) es l.
Proof.
  intros A P l b (p & q & -> & Hp & Hq) HP. apply varint_iff in Hp as [_ ->]. apply each_parts in Hq as (es & <- & Hq).
  exists es. split; [reflexivity|]. apply parts_size in Hq as [Hl Hq]; [|intros o e (x & -> & Hx); eauto]. split; [exact Hl|].
  eapply Forall2_weaken; [|exact Hq]. cbv beta. intros e o ((x & -> & Hx) & H1 & H2 & H3). exists x. auto.
Qed.
Theorem recorded_builds : forall r b, recorded keys kinds r b -> lenN b <= big ->
  forall fuel S (R : Reader S) eager I, serves R eager I -> (length b <= fuel)%nat -> forall s rest, I s (b ++ rest) ->
  exists s', build fuel keys encs headers R s = Ok (Some r, lenN b, None, s') /\ I s' rest.
Proof.
  intro r. induction r as [id name colls recs md bins refs IH] using recording_ind'.
  intros b Hrec Hs fuel S R eager I HR Hf s rest HI. inversion Hrec as [? ? ? ? ? ? ? ? H]; subst. clear Hrec.
  destruct H as (b1 & r1 & -> & H1 & b2 & r2 & -> & H2 & b3 & r3 & -> & H3 & b4 & r4 & -> & H4 & b5 & r5 & -> & H5 & b6 & b7 & -> & H6 & H7).
  apply text_iff in H1 as [_ ->], H2 as [_ ->].
  apply counted_parts in H4 as (e4 & -> & L4 & H4). 2:{ intros c x (i & k & _ & Hx). eapply then_nonempty; [exact Hx|]. intros p Hp. apply varint_iff in Hp as [_ ->]. apply put_uvarint_len. }
  apply counted_parts in H5 as (e5 & -> & L5 & H5). 2:{ intros c x Hx. eapply then_nonempty; [exact Hx|]. apply text_nonempty. }
  apply counted_parts in H6 as (e6 & -> & L6 & H6). 2:{ intros c x [_ Hx]. eapply then_nonempty; [exact Hx|]. apply text_nonempty. }
  apply counted_parts in H7 as (e7 & -> & L7 & H7). 2:{ intros c x. apply recorded_nonempty. }
  match goal with |- context [Ok (_, lenN ?l, _, _)] => set (total := lenN l) end.
  set (E := err_reader R).
  assert (HE : serves E false (er_inv I (total + lenN rest))) by (eapply er_serves; eauto).
  assert (HX : exact E (er_inv I (total + lenN rest))) by (eapply er_exact; eauto).
  apply new_er_inv in HI. rewrite lenN_app in HI. fold total in HI. rewrite <- !app_assoc in HI.
  assert (Hf1 : exists f, fuel = Datatypes.S f /\ (length (concat e7) <= f)%nat).
  { rewrite !app_length in Hf. unfold string_to_bytes at 1 in Hf. rewrite app_length in Hf.
    pose proof (put_uvarint_len (lenN id)) as H. unfold lenN at 1 in H. destruct fuel as [|f]; [lia|]. exists f. split; [reflexivity|]. lia. }
  destruct Hf1 as (f & -> & Hf1). cbn [build]. fold E. rewrite !lenN_app in Hs.
  pose proof (string_to_bytes_len id). pose proof (string_to_bytes_len name).
  destruct (read_string_ok HE id ltac:(small) _ _ HI) as (s1 & -> & HI1); [apply more_false|]. cbn [bind].
  destruct (read_string_ok HE name ltac:(small) _ _ HI1) as (s2 & -> & HI2); [apply more_false|]. cbn [bind].
  destruct (metadata_parse E _ HE keys md b3 H3 ltac:(lia) _ _ HI2) as (s3 & -> & HI3); [apply more_false|]. cbn [bind].
  destruct (read_uvarint_ok HE (lenN colls) ltac:(small) _ _ HI3) as (s4 & -> & HI4); [apply more_false|].
  cbn [bind]. rewrite go_make_ok by (assert (lenN colls <= big) by lia; unfold big in *; lia).
  assert (Q4 : Forall2 (fun enc v => parses (er_inv I (total + lenN rest)) false (read_stream E encs headers) enc v) e4 colls).
  { eapply Forall2_weaken; [|exact H4]. cbv beta. intros e o (x & -> & Hx & Hl & _). eapply stream_parse; eauto. lia. }
  destruct (loop_okN _ _ _ (lenN colls) Q4 ltac:(unfold lenN; apply Nat2N.id) _ _ HI4) as (s5 & -> & HI5); [apply more_false|]. cbn [bind].
  destruct (read_uvarint_ok HE (lenN refs) ltac:(small) _ _ HI5) as (s6 & -> & HI6); [apply more_false|].
  cbn [bind]. rewrite go_make_ok by (assert (lenN refs <= big) by lia; unfold big in *; lia).
  assert (Q5 : Forall2 (fun enc v => parses (er_inv I (total + lenN rest)) false (read_ref E keys) enc v) e5 refs).
  { eapply Forall2_weaken; [|exact H5]. cbv beta. intros e o (x & -> & Hx & Hl & _). eapply reference_parse; eauto. lia. }
  destruct (loop_okN _ _ _ (lenN refs) Q5 ltac:(unfold lenN; apply Nat2N.id) _ _ HI6) as (s7 & -> & HI7); [apply more_false|]. cbn [bind].
  destruct (read_uvarint_ok HE (lenN bins) ltac:(small) _ _ HI7) as (s8 & -> & HI8); [apply more_false|].
  cbn [bind]. rewrite go_make_ok by (assert (lenN bins <= big) by lia; unfold big in *; lia).
  assert (Q6 : Forall2 (fun enc v => parses (er_inv I (total + lenN rest)) false (read_bin E keys) enc v) e6 bins).
  { eapply Forall2_weaken; [|exact H6]. cbv beta. intros e o (x & -> & Hx & Hl & _). eapply attachment_parse; eauto. lia. }
  destruct (loop_okN _ _ _ (lenN bins) Q6 ltac:(unfold lenN; apply Nat2N.id) _ _ HI8) as (s9 & -> & HI9); [apply more_false|]. cbn [bind].
  destruct (read_uvarint_ok HE (lenN recs) ltac:(small) _ _ HI9) as (s10 & -> & HI10); [apply more_false|].
  cbn [bind]. rewrite go_make_ok by (assert (lenN recs <= big) by lia; unfold big in *; lia).
  set (body := fun s : er S => do (r0, s11) <- build f keys encs headers E s;
              (let '(c, _, e) := r0 in
               match e with Some e0 => Ok (inr e0, s11) | None => Ok (inl c, s11) end)).
  assert (Q7 : Forall2 (fun enc v => parses (er_inv I (total + lenN rest)) false body enc (inl v)) e7 recs).
  { eapply Forall2_weaken; [|exact H7]. cbv beta. intros e o (x & -> & Hx & Hl & Hl' & Hin) st rst Hst _.
    destruct (IH x Hin e Hx ltac:(lia) f _ E false _ HE ltac:(lia) st rst Hst) as (st' & Eb & Hst'). exists st'. unfold body. rewrite Eb. auto. }
  pose proof (loop_err_ok body e7 recs Q7 s10 rest HI10 (more_false _)) as (s11 & El & HI11).
  assert (Hlen : N.to_nat (lenN recs) = length recs) by (unfold lenN; apply Nat2N.id).
  rewrite Hlen. rewrite El. cbn [bind].
  destruct HI11 as (He & HIr & Hn). exists (er_in s11). split; [|exact HIr].
  rewrite He. do 4 f_equal. lia.
Qed.
End Build.

(** ** The file *)
Lemma find_registered : forall tp te tf reg sig found, Forall (builtin tp te tf) reg ->
  (exists e, In e reg /\ e_sig e = sig) \/ (exists e, found = Some e /\ builtin tp te tf e /\ e_sig e = sig) ->
  exists e, find_encoder reg sig 0 found = inl e /\ builtin tp te tf e /\ e_sig e = sig.
Proof.
  intros tp te tf reg. induction reg as [|x reg IH]; intros sig found Hr H; cbn [find_encoder].
  - destruct H as [(e & [] & _)|(e & -> & He)]. eauto.
  - inversion Hr; subst. destruct (str_eqb (e_sig x) sig) eqn:Es.
    + apply str_eqb_eq in Es. destruct (N.leb_spec 0 (e_version x)); [|lia]. apply IH; auto. right. eauto.
    + apply IH; auto. destruct H as [(e & [->|Hi] & He)|H]; auto; [|left; eauto].
      subst sig. assert (str_eqb (e_sig e) (e_sig e) = true) by (now apply str_eqb_eq). congruence.
Qed.
Lemma find_all_registered : forall tp te tf reg kinds, Forall (builtin tp te tf) reg ->
  Forall (fun k => exists e, In e reg /\ e_sig e = signature k) kinds ->
  exists encs, find_encoders reg (combine (map signature kinds) (repeat 0 (length kinds))) = inl encs /\
    Forall2 (fun k e => builtin tp te tf e /\ e_sig e = signature k) kinds encs.
Proof.
  intros tp te tf reg kinds Hr H. induction H as [|k kinds Hk H (encs & E & IH)]; [exists []; split; [reflexivity|constructor]|].
  cbn [map length repeat combine find_encoders]. destruct (find_registered tp te tf reg (signature k) None Hr (or_introl Hk)) as (e & -> & He).
  rewrite E. exists (e :: encs). split; [reflexivity|]. now constructor.
Qed.
Lemma headers_parts : forall kinds b, each (fun k => blob (header k)) kinds b ->
  exists hs, b = concat (map bytes_array_to_bytes hs) /\ Forall2 (fun k h => header k h /\ lenN h <= lenN b) kinds hs.
Proof.
  intros kinds b H. induction H as [|k l b c (d & Hd & Ht) H (hs & -> & IH)]; [exists []; split; [reflexivity|constructor]|].
  apply text_iff in Ht as [_ ->]. exists (d :: hs). cbn [map concat]. change (bytes_array_to_bytes d) with (string_to_bytes d).
  pose proof (string_to_bytes_len d). rewrite lenN_app. split; [reflexivity|]. constructor; [split; [exact Hd|lia]|].
  eapply Forall2_weaken; [|exact IH]. cbv beta. intros k' h (? & ?). split; [assumption|lia].
Qed.
Lemma zero_versions : forall (kinds : list kind) b, each (fun _ => varint 0) kinds b -> b = concat (map put_uvarint (repeat 0 (length kinds))).
Proof.
  intros kinds b H. induction H as [|k l b c Hk H ->]; [reflexivity|]. apply varint_iff in Hk as [_ ->]. reflexivity.
Qed.
Definition registered (reg : list encoder) (kinds : list kind) : Prop :=
  Forall (fun k => exists e, In e reg /\ e_sig e = signature k) kinds.
Lemma opening_reads : forall tp te tf reg kinds z o, Forall (builtin tp te tf) reg -> registered reg kinds ->
  opening kinds z o -> lenN o <= big ->
  exists es, Forall2 (fun k e => builtin tp te tf e /\ e_sig e = signature k) kinds es /\
  forall S (R : Reader S) eager I, serves R eager I -> forall s T, I s (o ++ T) -> T <> [] ->
  exists m s1 s2 s3, get_version R s = Ok (2, 1, None, s1) /\ read_encoders R reg s1 = Ok (es, m, None, s2) /\
    rread R 1 s2 = Ok ([z], None, s3) /\ I s3 T /\ 1 + m + 1 = lenN o.
Proof.
  intros tp te tf reg kinds z o Hreg Hk (b0 & r0 & -> & <- & b1 & r1 & -> & H1 & b2 & r2 & -> & H2 & <-) Hbig.
  apply texts_iff in H1 as (_ & _ & ->). apply zero_versions in H2. subst b2.
  rewrite !lenN_app in Hbig. set (sigs := map signature kinds) in *. set (versions := repeat 0 (length kinds)) in *.
  assert (Hv : Forall (fun v => v < 2 ^ 64) versions). { apply Forall_forall. intros v Hv. apply repeat_spec in Hv. subst. reflexivity. }
  destruct (string_array_len sigs) as [Ls1 Ls2].
  destruct (find_all_registered tp te tf reg kinds Hreg Hk) as (es & Ee & Hes). fold sigs versions in Ee.
  exists es. split; [exact Hes|]. intros S R eager I HR s T HI HT. unfold get_version. rewrite <- !app_assoc in HI. cbn [app] in HI.
  destruct (read_byte_raw _ _ _ HR _ _ _ HI) as (s1 & E1 & HI1); [right; destruct (string_array_to_bytes sigs); [|discriminate]; destruct (concat (map put_uvarint versions)); discriminate|].
  unfold read_encoders.
  destruct (read_string_array_ok HR sigs) with (s := s1) (rest := concat (map put_uvarint versions) ++ z :: T) as (s2 & E2 & HI2); [eapply N.le_trans with big; [blia|discriminate]| |exact HI1| |].
  { rewrite Forall_forall in *. intros x Hx. specialize (Ls2 x Hx). cbv beta in Ls2. apply big_lt; [blia|reflexivity]. }
  { right. destruct (concat (map put_uvarint versions)); discriminate. }
  destruct (read_versions_ok R eager I HR versions (lenN (string_array_to_bytes sigs)) Hv _ _ HI2) as (s3 & E3 & HI3); [right; discriminate|].
  assert (L1 : length versions = length sigs) by (unfold versions, sigs; now rewrite repeat_length, map_length).
  destruct (read_byte_raw _ _ _ HR _ _ _ HI3) as (s4 & E4' & HI4); [now right|].
  eexists. exists s1, s3, s4. split; [rewrite E1; cbn [bind hd]; reflexivity|]. split.
  { rewrite E2. cbn [bind]. rewrite L1 in E3. unfold str, bytes in *. rewrite E3. cbn [bind]. rewrite Ee. reflexivity. }
  split; [exact E4'|]. split; [exact HI4|]. rewrite !lenN_app. change (lenN [x02]) with 1. change (lenN [z]) with 1. blia.
Qed.
Lemma contents_reads : forall tp te tf kinds es r d, Forall2 (fun k e => builtin tp te tf e /\ e_sig e = signature k) kinds es ->
  contents kinds r d -> lenN d <= big ->
  forall S (R : Reader S) eager I, serves R eager I -> forall s n rest, I s (d ++ rest) ->
  exists s', read_payload R es n s = Ok (Some r, n + lenN d, None, s') /\ I s' rest.
Proof.
  intros tp te tf kinds es r d Hes (b4 & r4 & -> & H4 & keys & b5 & X & -> & H5 & HX) Hbig S R eager I HR s4 n rest HI4.
  apply texts_iff in H5 as (_ & _ & ->). destruct (headers_parts _ _ H4) as (headers & E4 & Hh).
  assert (HXne : X <> []). { pose proof (recorded_nonempty _ _ _ _ HX) as H. destruct X; [rewrite lenN_nil in H; lia|discriminate]. }
  rewrite !lenN_app in Hbig. destruct (string_array_len keys) as [Lk1 Lk2].
  assert (HXr : X ++ rest <> []) by (intro E0; apply app_eq_nil in E0 as [E0 _]; auto).
  assert (Les : length headers = length es) by (rewrite <- (Forall2_len Hh); apply (Forall2_len Hes)).
  rewrite <- !app_assoc in HI4. unfold read_payload.
  assert (Lb4 : lenN b4 <= big) by lia.
  assert (Hhs : Forall (fun h => lenN h < 2 ^ 48) headers).
  { clear -Hh Lb4. induction Hh as [|k h kinds hs [_ Hl] H IH]; constructor; auto. apply big_lt; [|reflexivity]. blia. }
  subst b4.
  destruct (read_headers_ok R eager I HR headers n Hhs _ _ HI4) as (s5 & E5 & HI5).
  { right. intro E0. apply app_eq_nil in E0 as [_ E0]. auto. }
  unfold str, bytes in *. rewrite Les in E5. rewrite E5. cbn [bind].
  destruct (read_string_array_ok HR keys ltac:(eapply N.le_trans with big; [blia | discriminate])
    ltac:(rewrite Forall_forall in *; intros x Hx; specialize (Lk2 x Hx); cbv beta in Lk2; apply big_lt; [blia | reflexivity])
    _ _ HI5) as (s6 & E6 & HI6); [right; exact HXr|].
  rewrite E6. cbn [bind].
  assert (Hh' : Forall2 (fun k h => header k h /\ lenN h <= big) kinds headers).
  { eapply Forall2_weaken; [|exact Hh]. cbv beta. intros k h [? ?]. split; [assumption|]. blia. }
  destruct (recorded_builds keys kinds es headers tp te tf Hes Hh' r X HX ltac:(blia) (build_fuel R s6) S R eager I HR) with (s := s6) (rest := rest) as (s7 & -> & HI7); auto.
  { unfold build_fuel. pose proof (s_left _ _ _ HR _ _ HI6) as Hleft. rewrite app_length in Hleft. lia. }
  cbn [bind]. exists s7. split; [|exact HI7]. do 4 f_equal. rewrite !lenN_app. blia.
Qed.
Lemma contents_nonempty : forall kinds r d, contents kinds r d -> d <> [].
Proof.
  intros kinds r d (b4 & r4 & -> & H4 & keys & b5 & X & -> & H5 & HX) E.
  pose proof (recorded_nonempty _ _ _ _ HX) as H. apply app_eq_nil in E as [_ E]. apply app_eq_nil in E as [_ ->]. rewrite lenN_nil in H. lia.
Qed.
Theorem file_reads : forall tp te tf reg v1 IZ S (R : Reader S) eager I s kinds r file rest,
  delivers R eager I -> Forall (builtin tp te tf) reg ->
  rap_file kinds r file -> registered reg kinds ->
  lenN file <= 2 ^ 40 -> I s (file ++ rest) ->
  exists s', read reg v1 IZ R s = Ok (Some r, lenN file, None, inl s') /\ I s' rest.
Proof.
  intros tp te tf reg v1 IZ S R eager I s kinds r file rest HR Hreg (o & d & -> & Ho & Hd) Hk Hbig HI.
  change (2 ^ 40) with big in Hbig. rewrite lenN_app in Hbig. apply delivers_serves in HR. rewrite <- app_assoc in HI.
  destruct (opening_reads tp te tf reg kinds x00 o Hreg Hk Ho ltac:(lia)) as (es & Hes & Hread).
  destruct (Hread S R eager I HR s (d ++ rest) HI) as (m & s1 & s2 & s3 & E1 & E2 & E3 & HI3 & Hm).
  { intro E0. apply app_eq_nil in E0 as [E0 _]. revert E0. now apply contents_nonempty with kinds r. }
  unfold read. rewrite E1. cbn [bind]. change (2 =? 1) with false. change (negb (2 =? 2)) with false. cbv iota.
  rewrite E2. cbn [bind]. rewrite E3. cbn [bind hd]. change (b2n x00 =? 1) with false. cbv iota.
  destruct (contents_reads tp te tf kinds es r d Hes Hd ltac:(lia) S R eager I HR s3 (1 + m + lenN [x00]) rest HI3) as (s4 & -> & HI4).
  cbn [bind]. exists s4. split; [|exact HI4]. do 4 f_equal. rewrite lenN_app, <- Hm. reflexivity.
Qed.
(** what a compressor makes of [d], given to it in any pieces *)
Definition packs_to (Z : compressor) (d z : bytes) : Prop := exists cs, concat cs = d /\ squeeze Z cs = z.
Theorem packed_reads : forall tp te tf reg v1 Z IZ S (R : Reader S) eager I s kinds r n file rest,
  codec_ok Z IZ -> delivers R eager I -> Forall (builtin tp te tf) reg ->
  packed_file (packs_to Z) kinds r n file -> registered reg kinds ->
  n <= 2 ^ 40 -> I s (file ++ rest) ->
  exists s', read reg v1 IZ R s = Ok (Some r, n, None, s').
Proof.
  intros tp te tf reg v1 Z IZ S R eager I s kinds r n file rest [Hne Hz] HR Hreg (d & Hd & o & z & -> & (Ho & ->) & cs & <- & <-) Hk Hbig HI.
  change (2 ^ 40) with big in Hbig. rewrite <- app_assoc in HI.
  destruct (opening_reads tp te tf reg kinds x01 o Hreg Hk Ho ltac:(lia)) as (es & Hes & Hread).
  destruct (Hread S R eager I (delivers_serves _ _ _ HR) s (squeeze Z cs ++ rest) HI) as (m & s1 & s2 & s3 & E1 & E2 & E3 & HI3 & Hm).
  { intro E0. apply app_eq_nil in E0 as [E0 _]. now apply (Hne cs). }
  unfold read. rewrite E1. cbn [bind]. change (2 =? 1) with false. change (negb (2 =? 2)) with false. cbv iota.
  rewrite E2. cbn [bind]. rewrite E3. cbn [bind hd]. change (b2n x01 =? 1) with true. cbv iota.
  destruct (Hz S R eager I HR) as (J & HJ & Hnew). specialize (Hnew _ _ _ HI3). rewrite <- (app_nil_r (concat cs)) in Hnew.
  destruct (contents_reads tp te tf kinds es r (concat cs) Hes Hd ltac:(lia) _ _ _ _ (delivers_serves _ _ _ HJ) _ (1 + m + lenN [x01]) _ Hnew) as (s4 & -> & HI4).
  cbn [bind]. eexists. do 4 f_equal. rewrite <- Hm. reflexivity.
Qed.
