(** Properties C35, C36 and C44: building recordings from JSON. *)
From Coq Require Import Strings.String ZArith Lia.
From Flocq Require Import IEEE754.Binary.
From Verif Require Import Base BaseFacts IO Spec IOFacts Floats BinaryIO Metadata SpecMeta MetadataFacts.
From Verif Require Import Recording SpecRec RecordingFacts Encoding SpecEnc Writer Reader SpecFile.
From Verif Require Import EncEvent EncEnum EncPosition EncEuler EncFloat Tools BuiltinFacts FileFacts Toy Demo.
From Verif Require Import PropFile PropV1 Text Json SpecJson JsonFacts.
Local Open Scope N_scope.

Lemma comes_described : forall pt r32 at_ j r j' r', comes_from j r j' r' ->
  describes pt r32 at_ j r -> describes pt r32 at_ j' r'.
Proof.
  intros pt r32 at_ j r j' r' H. induction H as [|m r l i x y j' r' Hl Hx Hy _ IH]; [auto|].
  intro D. apply IH. inversion D as [m' id name cs colls rs subs fs refs md Hid Hn Hcs Hcolls Hrs Hsubs Hfs Hrefs Hmd]. subst.
  destruct Hrs as [Hrs|[Hrs _]]; unfold field, no_field in Hrs; rewrite Hl in Hrs; [|discriminate Hrs]. injection Hrs as <-.
  cbn [rec_recs] in Hy. clear -Hsubs Hx Hy. revert i Hx Hy.
  induction Hsubs as [|a o l subs (s & -> & Ha) Hs IHs]; intros [|i] Hx Hy; try discriminate Hx; cbn in Hx, Hy; [|eauto].
  injection Hx as ->. injection Hy as ->. exact Ha.
Qed.
Lemma built_describes : forall pt r32 at_ j r, from_json pt r32 at_ (Some j) = Ok (Some r) -> describes pt r32 at_ j r.
Proof. intros pt r32 at_ j r H. now apply (record_good pt r32 at_ j). Qed.

(** ** C44 *)
(** FromJSON builds what the document describes and reports an error if it
    describes nothing; it panics only on documents whose metadata hold an
    empty array, an array that begins with null, or a vector of something else
    than numbers. *)
Theorem C44_from_json : forall parse_time reparse32 big_atoi,
  (forall j r, from_json parse_time reparse32 big_atoi (Some j) = Ok (Some r) -> describes parse_time reparse32 big_atoi j r) /\
  (forall j, (forall t, ~ risk t j) ->
     (forall r, describes parse_time reparse32 big_atoi j r -> from_json parse_time reparse32 big_atoi (Some j) = Ok (Some r)) /\
     ((forall r, ~ describes parse_time reparse32 big_atoi j r) -> from_json parse_time reparse32 big_atoi (Some j) = Ok None)) /\
  (forall j, from_json parse_time reparse32 big_atoi (Some j) = Panic -> exists t, risk t j) /\
  (forall doc, from_json parse_time reparse32 big_atoi doc <> Stuck) /\
  from_json parse_time reparse32 big_atoi None = Ok None.
Proof.
  intros pt r32 at_. unfold from_json. repeat split.
  - intros j r. apply (record_good pt r32 at_ j).
  - intros r. apply (record_good pt r32 at_ j). intros (t & Ht). now apply (H t).
  - intros Hn. destruct (record_good pt r32 at_ j) as [Hs Hc Hp He].
    destruct (parse_recording pt r32 at_ j) as [[r|]| |] eqn:E.
    + elim (Hn r). now apply Hs.
    + reflexivity.
    + destruct (Hp eq_refl) as (t & Ht). now elim (H t Ht).
    + now elim He.
  - intros j. apply (record_good pt r32 at_ j).
  - intros [j|]; [apply (record_good pt r32 at_ j)|discriminate].
Qed.
Print Assumptions C44_from_json.

(** The from-json command: what it writes reads back as the described
    recording, up to the numbers the encodings store. *)
Theorem C44_end_to_end : forall parse_time reparse32 big_atoi v1 IZ Z j r rA rE,
  (forall x z, big_atoi x = Some z -> (z < 2 ^ 63)%Z) -> codec_ok Z IZ ->
  plain_document parse_time reparse32 j ->
  from_json parse_time reparse32 big_atoi (Some j) = Ok (Some r) -> rec_equiv r rA -> rec_equiv r rE ->
  exists n file, write_views upgrade_writer Z buffer rA rE r [] = Ok (n, None, file) /\
    (n <= 2 ^ 40 ->
     exists r',
       rec_rel block_equiv (fun c d =>
         same_but_numbers c d /\
         exists cE e ts, coll_equiv c cE /\ In e (w_encs upgrade_writer) /\ e_accepts e cE = true /\
           stored_times 2 (c_times c) ts /\ c_times d = ts /\ stored_by e ts cE d) r r' /\
       forall S (R : Reader S) eager I, delivers R eager I -> forall s rest, I s (file ++ rest) ->
       exists s', read load_encoders v1 IZ R s = Ok (Some r', n, None, s')).
Proof.
  intros pt r32 at_ v1 IZ Z j r rA rE Hat HZ Hp Hj HA HE. apply built_describes in Hj.
  destruct (C19_only_numbers 3 2 0 upgrade_writer Z IZ load_encoders v1 r rA rE) as (n & file & Hw & Hr);
    auto using upgrade_valid, upgrade_load.
  - now apply document_wf with pt r32 at_ j.
  - apply accepted_by. intros c Hc. destruct (described_accepted pt r32 at_ r j Hj c Hc) as (s & Hs & Es).
    unfold In in Hs. destruct Hs as [<-|[<-|[<-|[<-|[]]]]];
      cbn [existsb upgrade_writer w_encs e_accepts event_encoder position_encoder euler_encoder enum_encoder]; rewrite Es; reflexivity.
  - exists n, file. auto.
Qed.
Print Assumptions C44_end_to_end.

(** ** C35 *)
(** What an enum collection of the document becomes. *)
Lemma enum_became : forall pt r32 at_ j r m r' cs i o l,
  from_json pt r32 at_ (Some j) = Ok (Some r) -> comes_from j r (JObj m) r' ->
  field m "collections" (JArr cs) -> nth_error cs i = Some (JObj o) ->
  field o "type" (JStr (lit "recolude.enum")) -> field o "captures" (JArr l) ->
  exists name c, field o "name" (JStr name) /\ Forall2 enum_capture_of l c /\
    nth_error (rec_colls r') i = Some (Some (mkColl name (BEnum (map snd c) (map (fun x => (fst x, 0%Z)) c)))).
Proof.
  intros pt r32 at_ j r m r' cs i o l Hj Hf Hcs Hi Hty Hl. apply built_describes in Hj.
  pose proof (comes_described _ _ _ _ _ _ _ Hf Hj) as D.
  inversion D as [m' id name cs' colls rs subs fs refs md Hid Hn Hcs' Hcolls Hrs Hsubs Hfs Hrefs Hmd]. subst.
  assert (Ecs : cs' = cs).
  { destruct Hcs' as [H|[H _]]; unfold field, no_field in *; congruence. } subst cs'.
  assert (exists k, nth_error colls i = Some k /\ collection_of pt r32 (JObj o) k) as (k & Hk & Hc).
  { clear -Hcolls Hi. revert i Hi. induction Hcolls as [|a b l l' H _ IH]; intros [|i] Hi; try discriminate Hi; [|now apply IH].
    injection Hi as ->. now exists b. }
  inversion Hc as [m' nm ty l' b Hnm Hty' Hl' Hb]. subst. unfold field in *.
  rewrite Hl in Hl'. injection Hl' as <-. rewrite Hty in Hty'. injection Hty' as Ety.
  exists nm. destruct Hb as [l c H|l c H|l c H|l c H]; try discriminate Ety. exists c. cbn [rec_colls]. auto.
Qed.
Lemma same_caps : forall x v w, enum_capture_of x v -> enum_capture_of x w -> v = w.
Proof. intros x v w H H'. destruct H as [m t s Ht Hs]. inversion H' as [m' t' s' Ht' Hs']; subst. unfold field in *. congruence. Qed.

(** Every capture keeps its time, and its own name if all names are equal. *)
Theorem C35_one_value : forall parse_time reparse32 big_atoi j r m r' cs i o l,
  from_json parse_time reparse32 big_atoi (Some j) = Ok (Some r) -> comes_from j r (JObj m) r' ->
  field m "collections" (JArr cs) -> nth_error cs i = Some (JObj o) ->
  field o "type" (JStr (lit "recolude.enum")) -> field o "captures" (JArr l) ->
  exists name members captures,
    field o "name" (JStr name) /\
    nth_error (rec_colls r') i = Some (Some (mkColl name (BEnum members captures))) /\
    Forall2 (fun x cap => exists s, enum_capture_of x (fst cap, s)) l captures /\
    ((forall x y v w, In x l -> In y l -> enum_capture_of x v -> enum_capture_of y w -> snd v = snd w) ->
     Forall2 (fun x cap => exists s, enum_capture_of x (fst cap, s) /\ selects members (snd cap) = Some s) l captures).
Proof.
  intros pt r32 at_ j r m r' cs i o l Hj Hf Hcs Hi Hty Hl.
  destruct (enum_became pt r32 at_ j r m r' cs i o l Hj Hf Hcs Hi Hty Hl) as (name & c & Hn & Hc & E).
  exists name. do 2 eexists. split; [exact Hn|]. split; [exact E|]. split.
  - clear -Hc. induction Hc as [|x [t s] l c H _ IH]; constructor; eauto.
  - intro Hall. destruct c as [|[t0 s0] c]; [inversion Hc; constructor|].
    assert (H0 : forall x v, In x l -> enum_capture_of x v -> snd v = s0).
    { inversion Hc as [|x0 ? l0 ? H0 Hc']; subst. intros x v Hin Hv. apply (Hall x x0 v (t0, s0)); auto. now left. }
    change (map snd ((t0, s0) :: c)) with (s0 :: map snd c).
    remember ((t0, s0) :: c) as c' eqn:Ec. clear Ec Hall E Hl. revert H0. generalize (map snd c) as rest.
    induction Hc as [|x [t s] l c' Hx _ IH]; intros rest H0; [constructor|]. cbn [map fst]. constructor.
    + exists s. split; [exact Hx|]. assert (snd (t, s) = s0) as <- by (apply (H0 x); [now left|exact Hx]). reflexivity.
    + apply IH. intros x' v Hin. apply H0. now right.
Qed.
Print Assumptions C35_one_value.
(** As soon as two captures have different names, one of them gets another name
    than its own. *)
Theorem C35_two_values_refuted : forall parse_time reparse32 big_atoi j r m r' cs i o l x y v w,
  from_json parse_time reparse32 big_atoi (Some j) = Ok (Some r) -> comes_from j r (JObj m) r' ->
  field m "collections" (JArr cs) -> nth_error cs i = Some (JObj o) ->
  field o "type" (JStr (lit "recolude.enum")) -> field o "captures" (JArr l) ->
  In x l -> In y l -> enum_capture_of x v -> enum_capture_of y w -> snd v <> snd w ->
  forall name members captures,
    nth_error (rec_colls r') i = Some (Some (mkColl name (BEnum members captures))) ->
    ~ Forall2 (fun x cap => exists s, enum_capture_of x (fst cap, s) /\ selects members (snd cap) = Some s) l captures.
Proof.
  intros pt r32 at_ j r m r' cs i o l x y v w Hj Hf Hcs Hi Hty Hl Hx Hy Hv Hw Hd name ms caps E H.
  destruct (enum_became pt r32 at_ j r m r' cs i o l Hj Hf Hcs Hi Hty Hl) as (name' & c & _ & Hc & E').
  rewrite E in E'. injection E' as _ -> ->.
  assert (HA : forall z u, In z l -> enum_capture_of z u -> selects (map snd c) 0 = Some (snd u)).
  { intros z u Hz Hu. clear -H Hz Hu. remember (map (fun x => (fst x, 0%Z)) c) as caps eqn:Ec.
    assert (H0 : Forall (fun cap => snd cap = 0%Z) caps) by (subst caps; apply Forall_forall; intros q Hq; apply in_map_iff in Hq as (? & <- & _); reflexivity).
    clear Ec. induction H as [|a cap l caps (s & Ha & Hs) _ IH]; [destruct Hz|]. inversion H0 as [|? ? E H0']; subst.
    destruct Hz as [->|Hz]; [|auto]. pose proof (same_caps _ _ _ Ha Hu) as <-. rewrite E in Hs. exact Hs. }
  pose proof (HA x v Hx Hv) as H1. pose proof (HA y w Hy Hw) as H2. congruence.
Qed.
Print Assumptions C35_two_values_refuted.

(** ** C36 *)
(** The metadata of a recording of the document is converted key by key, or
    there is none. *)
Theorem C36_all_or_nothing : forall parse_time reparse32 big_atoi j r m r',
  from_json parse_time reparse32 big_atoi (Some j) = Ok (Some r) -> comes_from j r (JObj m) r' ->
  (no_field m "metadata" -> rec_md r' = []) /\
  forall o, field m "metadata" (JObj o) ->
    (forall b, says parse_time reparse32 (JObj o) (PBlock b) ->
       rec_md r' = b /\
       Forall2 (fun kj kp => fst kj = fst kp /\ says parse_time reparse32 (snd kj) (snd kp)) o (rec_md r')) /\
    ((forall b, ~ says parse_time reparse32 (JObj o) (PBlock b)) -> rec_md r' = []).
Proof.
  intros pt r32 at_ j r m r' Hj Hf. apply built_describes in Hj. pose proof (comes_described _ _ _ _ _ _ _ Hf Hj) as D.
  inversion D as [m' id name cs' colls rs subs fs refs md Hid Hn Hcs' Hcolls Hrs Hsubs Hfs Hrefs Hmd]. subst. cbn [rec_md].
  unfold metadata_of, field, no_field in *. destruct Hmd as [(Hno & ->)|(o & Ho & Hmd)].
  - split; [reflexivity|]. intros o Ho. congruence.
  - split; [congruence|]. intros o' Ho'. assert (o' = o) by congruence. subst o'. split.
    + intros b Hb. destruct Hmd as [H|[_ H]]; [|now elim (H b)].
      pose proof (says_inj pt r32 _ _ _ H Hb) as E. injection E as ->. split; [reflexivity|]. inversion H; subst. assumption.
    + intro Hno'. destruct Hmd as [H|[-> _]]; [now elim (Hno' md)|reflexivity].
Qed.
Print Assumptions C36_all_or_nothing.
(** Metadata all of whose values are plain is there, key by key, and storable. *)
Theorem C36_plain_kept : forall parse_time reparse32 big_atoi j r m r' o,
  from_json parse_time reparse32 big_atoi (Some j) = Ok (Some r) -> comes_from j r (JObj m) r' ->
  field m "metadata" (JObj o) -> plain parse_time reparse32 11 (JObj o) ->
  built_block (rec_md r') /\ map fst (rec_md r') = map fst o /\
  Forall2 (fun kj kp => says parse_time reparse32 (snd kj) (snd kp)) o (rec_md r').
Proof.
  intros pt r32 at_ j r m r' o Hj Hf Ho Hp. destruct (C36_all_or_nothing pt r32 at_ j r m r' Hj Hf) as [_ H].
  destruct (plain_says pt r32 _ _ Hp) as (p & Hs & Hb & Hc).
  assert (exists b, p = PBlock b) as (b & ->).
  { inversion Hs; subst; try discriminate Hc. eauto. }
  destruct (H o Ho) as [H1 _]. destruct (H1 b Hs) as [E HF]. rewrite E in *. split; [exact Hb|].
  clear -HF. split; induction HF as [|x y l l' [E Hx] _ IH]; cbn [map]; auto; now rewrite IH, E.
Qed.
Print Assumptions C36_plain_kept.
(** One value that cannot be converted and the whole block is lost: here a string
    with a quote, or an integer of seven digits. *)
Definition unreadable (v : json) : Prop :=
  (exists s t, v = JStr (s ++ """"%byte :: t) /\ plain_text s /\ ~ starts_0x (s ++ """"%byte :: t)) \/
  (exists x z, v = JNum x /\ integral x z /\ (10 ^ 6 <= Z.abs z)%Z).
Lemma quote_stops : forall s t, plain_text s -> unquote (s ++ """"%byte :: t) = None.
Proof.
  intros s t H. unfold unquote. induction H as [|c s (Hc & Hq & Hb) _ IH]; [reflexivity|].
  cbn [app unquote_from].
  replace (beqb c """") with false by (symmetry; apply not_true_iff_false; intro E; apply beqb_eq in E; contradiction).
  replace (b2n c <? 32) with false by (symmetry; apply N.ltb_ge; exact Hc).
  replace (beqb c "\") with false by (symmetry; apply not_true_iff_false; intro E; apply beqb_eq in E; contradiction).
  cbn [negb]. now rewrite IH.
Qed.
Theorem C36_lost_refuted : forall parse_time reparse32 big_atoi j r m r' o k v,
  from_json parse_time reparse32 big_atoi (Some j) = Ok (Some r) -> comes_from j r (JObj m) r' ->
  field m "metadata" (JObj o) -> In (k, v) o -> unreadable v -> rec_md r' = [].
Proof.
  intros pt r32 at_ j r m r' o k v Hj Hf Ho Hin Hv. destruct (C36_all_or_nothing pt r32 at_ j r m r' Hj Hf) as [_ H].
  destruct (H o Ho) as [_ H2]. apply H2. intros b Hb. inversion Hb as [| | | | | | | | | |m' b' Hvec HF| |]; subst.
  assert (exists p, says pt r32 v p) as (p & Hp).
  { clear -HF Hin. induction HF as [|[a x] y o b [_ Hx] _ IH]; [destruct Hin|]. destruct Hin as [E|Hin]; [|auto].
    injection E as -> ->. eauto. }
  destruct Hv as [(s & t & -> & Hs & Hn)|(x & z & -> & Hz & Hr)].
  - pose proof (quote_stops s t Hs) as Hu. remember (JStr (s ++ """"%byte :: t)) as q eqn:Eq.
    destruct Hp as [| | | |? ? ? ?|? ? ? ?|s' t' us' Hn' _ Hu' _|s' t' Hn' _ Hu'| | | | |]; try discriminate Eq;
      apply (f_equal (fun j => match j with JStr s => s | _ => [] end)) in Eq; cbv beta iota in Eq.
    + apply Hn. rewrite <- Eq. eexists. reflexivity.
    + apply Hn. rewrite <- Eq. eexists. reflexivity.
    + subst s'. congruence.
    + subst s'. congruence.
  - inversion Hp as [| |? z' Hz' Hr'|? f Hno _| | | | | | | | |]; subst.
    + pose proof (integral_inj _ _ _ Hz Hz') as ->. change (10 ^ 6)%Z with 1000000%Z in *. lia.
    + now elim (Hno z).
Qed.
Print Assumptions C36_lost_refuted.

(** ** Examples *)
Definition toy_time (s : str) : option Z := if str_eqb s (lit "noon") then Some 43200000000%Z else None.
Definition toy_32 (x : f64) : option f32 := Some (B754_zero 24 128 false).
Definition toy_atoi (x : f64) : option Z := None.
Definition d_half : f64 := B754_finite 53 1024 false 4503599627370496 (-53) eq_refl.
Definition d_million : f64 := B754_finite 53 1024 false 8589934592000000 (-33) eq_refl.
Definition obj (l : list (string * json)) : json := JObj (map (fun kv => (lit (fst kv), snd kv)) l).
Definition jt (s : string) : json := JStr (lit s).
Definition enum_cap (t : f64) (s : string) : json := obj [("time", JNum t); ("data", jt s)]%string.
Definition sub_doc : json := obj
  [("id", jt "s"); ("name", jt "sub");
   ("metadata", obj [("note", JStr (lit "say " ++ """"%byte :: lit "hi")%list); ("n", JNum d_one)])]%string.
Definition demo_doc : json := obj
  [("id", jt "r"); ("name", jt "demo");
   ("metadata", obj [("n", JNum d_three); ("f", JNum d_half); ("at", jt "noon"); ("raw", jt "0x00ff01"); ("b", jt "0xff");
                     ("l", JArr [jt "one"; jt "two"]);
                     ("flags", JArr [JBool true; JBool false]); ("v", obj [("y", JNum d_one); ("x", JNum d_half)])]);
   ("collections", JArr
      [obj [("name", jt "state"); ("type", jt "recolude.enum");
            ("captures", JArr [enum_cap d_one "up"; enum_cap d_three "down"])];
       obj [("name", jt "lamp"); ("type", jt "recolude.enum");
            ("captures", JArr [enum_cap d_one "on"; enum_cap d_three "on"])];
       obj [("name", jt "events"); ("type", jt "recolude.event");
            ("captures", JArr [obj [("time", JNum d_one);
               ("data", obj [("name", jt "hit"); ("metadata", obj [("who", jt "me")])])]])]]);
   ("references", JArr [obj [("name", jt "f"); ("uri", jt "u"); ("size", JNum d_three)]]);
   ("recordings", JArr [sub_doc])]%string.
Definition demo_built : recording :=
  mkRec (lit "r") (lit "demo")
    [Some (mkColl (lit "state") (BEnum [lit "up"; lit "down"] [(d_one, 0%Z); (d_three, 0%Z)]));
     Some (mkColl (lit "lamp") (BEnum [lit "on"; lit "on"] [(d_one, 0%Z); (d_three, 0%Z)]));
     Some (mkColl (lit "events") (BEvent [(d_one, (lit "hit", [(lit "who", PString (lit "me"))]))]))]
    [Some (mkRec (lit "s") (lit "sub") [] [] [] [] [])]
    [(lit "n", PInt 3); (lit "f", PFloat (B754_zero 24 128 false)); (lit "at", PTime 43200000000);
     (lit "raw", new_binary_array (bs [0; 255; 1])); (lit "b", PByte xff);
     (lit "l", PArray 0 [PString (lit "one"); PString (lit "two")]);
     (lit "flags", new_bool_array [true; false]); (lit "v", PVec2 d_half d_one)]
    [] [Some (mkRef (lit "f") (lit "u") 3 [])].
Example C44_example : from_json toy_time toy_32 toy_atoi (Some demo_doc) = Ok (Some demo_built).
Proof. vm_compute. reflexivity. Qed.
(** An empty array outside of metadata is no risk. *)
Example C44_no_risk_example : forall t, ~ risk t (obj [("collections", JArr []); ("metadata", obj [("k", JBool true)])]%string).
Proof.
  intros t (m & o & Hm & Ho & Ht & T). unfold obj in Hm. cbn [map fst snd] in Hm.
  assert (E : o = [(lit "k", JBool true)]).
  { inversion Hm as [j|? ? ? ? ?|? k x l Hin Hx]; subst.
    - destruct Ho as [E|[E|[]]]; [discriminate E|]. now injection E as <-.
    - destruct Hin as [E|[E|[]]]; injection E as <- <-.
      + inversion Hx as [|? ? ? Hy|]; subst. destruct Hy.
      + unfold obj in Hx. cbn [map fst snd] in Hx. inversion Hx as [j|? ? ? ? ?|? k' x' l' Hin' Hx']; subst.
        * destruct Ho as [E|[]]. discriminate E.
        * destruct Hin' as [E|[]]. injection E as <- <-. inversion Hx'. }
  subst o. inversion Ht as [j|? ? ? ? ?|? k x l Hin Hx]; subst.
  - inversion T as [| |? ? ? Hv _ _]; subst. destruct Hv as [[L _]|[L _]]; discriminate L.
  - destruct Hin as [E|[]]. injection E as <- <-. inversion Hx; subst. inversion T.
Qed.
(** The three kinds of panic, and a document without name. *)
Example C44_panics_example : let bad v := obj [("id", jt "r"); ("name", jt "n"); ("metadata", obj [("a", v)])]%string in
  Forall (fun v => from_json toy_time toy_32 toy_atoi (Some (bad v)) = Panic)
    [JArr []; JArr [JNull]; obj [("x", jt "1"); ("y", JNum d_one)]%string] /\
  from_json toy_time toy_32 toy_atoi (Some (obj [("id", jt "r")]%string)) = Ok None.
Proof. split; [|vm_compute; reflexivity]. repeat (apply Forall_cons; [vm_compute; reflexivity|]). apply Forall_nil. Qed.
(** The members of "lamp" are right, those of "state" are not. *)
Example C35_example : exists ms caps ms' caps',
  nth_error (rec_colls demo_built) 1 = Some (Some (mkColl (lit "lamp") (BEnum ms caps))) /\
  map (fun c => selects ms (snd c)) caps = [Some (lit "on"); Some (lit "on")] /\
  nth_error (rec_colls demo_built) 0 = Some (Some (mkColl (lit "state") (BEnum ms' caps'))) /\
  map (fun c => selects ms' (snd c)) caps' = [Some (lit "up"); Some (lit "up")].
Proof. do 4 eexists. repeat split; reflexivity. Qed.
(** The note of the sub-recording has quotes: its whole metadata is gone.  So it
    is with the integer 1000000. *)
Example C36_example :
  comes_from demo_doc demo_built sub_doc (mkRec (lit "s") (lit "sub") [] [] [] [] []) /\
  (exists s t, JStr (lit "say " ++ """"%byte :: lit "hi") = JStr (s ++ """"%byte :: t) /\ plain_text s) /\
  from_json toy_time toy_32 toy_atoi
    (Some (obj [("id", jt "r"); ("name", jt "n"); ("metadata", obj [("a", JNum d_million)])]%string))
  = Ok (Some (mkRec (lit "r") (lit "n") [] [] [] [] [])).
Proof.
  split.
  - eapply F_sub with (i := 0%nat); [reflexivity|reflexivity|reflexivity|]. apply F_self.
  - split; [|vm_compute; reflexivity]. exists (lit "say "), (lit "hi"). split; [reflexivity|].
    cbn. repeat (apply Forall_cons; [repeat split; [cbn; lia|discriminate|discriminate]|]). apply Forall_nil.
Qed.
(** A plain document, written and read again. *)
Definition neat_doc : json := obj
  [("id", jt "r"); ("name", jt "demo");
   ("metadata", obj [("l", JArr [jt "one"; jt "two"]); ("flags", JArr [JBool true; JBool false]);
                     ("v", obj [("y", JNum d_one); ("x", JNum d_half)]); ("at", jt "noon"); ("n", JNum d_three)]);
   ("collections", JArr
      [obj [("name", jt "events"); ("type", jt "recolude.event");
            ("captures", JArr [obj [("time", JNum d_one);
               ("data", obj [("name", jt "hit"); ("metadata", obj [("who", jt "me")])])]])]]);
   ("recordings", JArr [obj [("id", jt "s"); ("name", jt "sub")]])]%string.
Ltac plain_txt := unfold plain_text; cbn; repeat (apply Forall_cons; [repeat split; [cbn; lia|discriminate|discriminate]|]); apply Forall_nil.
Lemma plain_jt : forall s, plain_text (lit s) -> strip (lit "0x") (lit s) = None -> toy_time (lit s) = None -> plain toy_time toy_32 0 (jt s).
Proof.
  intros s H H0 Ht. apply P_text; [exact H| |exact Ht]. intros (r & E).
  assert (strip (lit "0x") (lit s) = Some r) by now apply strip_iff. congruence.
Qed.
Lemma neat_plain : plain_document toy_time toy_32 neat_doc.
Proof.
  unfold neat_doc, obj. cbn [map fst snd]. apply P_document.
  - intros v H. unfold field in H. cbn in H. injection H as <-. exists 11. apply P_object.
    + cbn. repeat constructor; cbn; intuition discriminate.
    + intros [[H _]|[H _]]; discriminate H.
    + intros k v H. cbn in H. destruct H as [H|[H|[H|[H|[H|[]]]]]]; injection H as _ <-.
      * exists (13 + 0). apply P_array; [cbn; tauto|discriminate|].
        repeat (apply Forall_cons; [apply plain_jt; [plain_txt|reflexivity|reflexivity]|]). apply Forall_nil.
      * exists 16. apply P_bools; [discriminate|]. intros v [<-|[<-|[]]]; eauto.
      * exists 6. apply P_vec2; [cbn; repeat constructor; cbn; intuition discriminate| |].
        -- split; [reflexivity|]. intros k0 [<-|[<-|[]]]; cbn; auto.
        -- intros k0 v [H|[H|[]]]; injection H as _ <-; eauto.
      * exists 12. apply P_time with 43200000000%Z; [plain_txt| |reflexivity|lia].
        intros (r & E). discriminate E.
      * exists 1. apply P_int with 3%Z; [apply int_of_iff; vm_compute; reflexivity|]. change (10 ^ 6)%Z with 1000000%Z. lia.
  - intros l x H Hx. unfold field in H. cbn in H. injection H as <-. destruct Hx as [<-|[]].
    apply P_document; unfold plain_metadata, field; cbn; intros; discriminate.
  - intros l o H. unfold field in H. cbn in H. discriminate H.
  - intros l o cs c d H Ho Hcs Hc Hd. unfold field in *. cbn in H. injection H as <-. destruct Ho as [E|[]]. injection E as <-.
    cbn in Hcs. injection Hcs as <-. destruct Hc as [E|[]]. injection E as <-. cbn in Hd. injection Hd as <-.
    intros v H. unfold field in H. cbn in H. injection H as <-. exists 11. apply P_object.
    + repeat constructor; cbn; tauto.
    + intros [[H _]|[H _]]; discriminate H.
    + intros k v [H|[]]. injection H as _ <-. exists 0. apply plain_jt; [plain_txt|reflexivity|reflexivity].
Qed.
Example C44_end_to_end_example : exists r n file r' s',
  from_json toy_time toy_32 toy_atoi (Some neat_doc) = Ok (Some r) /\
  write_views upgrade_writer toy_z buffer r r r [] = Ok (n, None, file) /\
  rec_rel block_equiv same_but_numbers r r' /\
  read load_encoders toy_v1 toy_iz flat file = Ok (Some r', n, None, s').
Proof.
  destruct (from_json toy_time toy_32 toy_atoi (Some neat_doc)) as [[r|]| |] eqn:Er;
    [|exfalso; vm_compute in Er; discriminate Er|exfalso; vm_compute in Er; discriminate Er|exfalso; vm_compute in Er; discriminate Er].
  exists r.
  assert (Hw : wf_rec r) by (apply document_wf with toy_time toy_32 toy_atoi neat_doc;
    [discriminate|apply neat_plain|now apply built_describes]).
  destruct (C44_end_to_end toy_time toy_32 toy_atoi toy_v1 toy_iz toy_z neat_doc r r r) as (n & file & Hwr & Hread);
    auto using toy_ok, neat_plain, rec_equiv_refl; [discriminate|].
  assert (En : n <= 2 ^ 40).
  { assert (Ec : match from_json toy_time toy_32 toy_atoi (Some neat_doc) with
                 | Ok (Some r) => match write_views upgrade_writer toy_z buffer r r r [] with Ok (n, _, _) => n <=? 2 ^ 40 | _ => true end
                 | _ => true end = true) by (vm_compute; reflexivity).
    rewrite Er, Hwr in Ec. now apply N.leb_le. }
  destruct (Hread En) as (r' & Hrel & Hl). destruct (Hl _ flat false _ (flat_delivers false) file []) as (s' & Es); [now rewrite app_nil_r|].
  exists n, file, r', s'. split; [reflexivity|]. split; [exact Hwr|]. split; [|exact Es].
  eapply rec_rel_mono; [| |exact Hrel]; [auto|]. intros c d0 _ H. apply H.
Qed.
