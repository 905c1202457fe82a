(** C37: what the to-json command writes. *)
From Coq Require Import Strings.String Permutation Reals Lia.
From Flocq Require Import IEEE754.Binary.
From Verif Require Import Base BaseFacts Floats Metadata Recording Text SpecText Json SpecJson ToJson SpecToJson ToJsonFacts.
Local Open Scope N_scope.

(** With ids, names and signatures that stand for themselves between quotes,
    finite event times, printable metadata and no nil collection, the command
    reports no error and writes one JSON document, and that document shows the
    recording: every id, name, count, event (with its time to six places) and
    property, with the nesting of the tree. *)
Theorem C37_valid : forall quote clean num64 num32 time_text,
  json_writer quote clean num64 num32 -> forall r, exportable r ->
  exists text t,
    to_json quote num64 num32 time_text 0 r = Ok (text, false) /\
    document text t /\ exported clean num64 num32 time_text r t.
Proof.
  intros quote clean num64 num32 time_text HW r Hr.
  destruct (export_reads quote clean num64 num32 time_text HW r 0 Hr) as (text & t & E & Hd & Hx).
  exists text, t. split; [exact E|]. split; [|exact Hx]. exists [], text, []. rewrite app_nil_r. repeat split; auto; constructor.
Qed.
Print Assumptions C37_valid.

(** A quote in the name of a recording makes the document invalid, whatever
    else the recording holds, and no error is needed for that. *)
Theorem C37_quote_refuted : forall quote num64 num32 time_text r a b text e,
  plain_text (rec_id r) -> rec_name r = a ++ lit """" ++ b -> plain_text a -> plain_text b ->
  to_json quote num64 num32 time_text 0 r = Ok (text, e) -> ~ valid_json text.
Proof. intros quote num64 num32 time_text r a b text e. apply quote_invalid. Qed.
Print Assumptions C37_quote_refuted.

(** So does an event whose time is NaN or infinite. *)
Theorem C37_bad_time_refuted : forall quote clean num64 num32 time_text,
  json_writer quote clean num64 num32 -> forall r pre name l1 t en md l2 post text e,
  plain_text (rec_id r) -> plain_text (rec_name r) -> printable (PBlock (rec_md r)) ->
  rec_colls r = pre ++ Some (mkColl name (BEvent (l1 ++ (t, (en, md)) :: l2))) :: post ->
  (forall o, In o pre -> exists c, o = Some c /\ plain_coll c) -> plain_text name -> Forall plain_event l1 ->
  is_finite 53 1024 t = false -> printable (PBlock md) ->
  to_json quote num64 num32 time_text 0 r = Ok (text, e) -> ~ valid_json text.
Proof. intros quote clean num64 num32 time_text HW. apply bad_time_invalid with (clean := clean), HW. Qed.
Print Assumptions C37_bad_time_refuted.

(** A NaN or an infinity in the metadata of a sub-recording makes the document
    invalid, and the command reports no error. *)
Theorem C37_lost_error_refuted : forall quote clean num64 num32 time_text,
  json_writer quote clean num64 num32 -> forall r pre b k f post,
  plain_text (rec_id r) -> plain_text (rec_name r) -> printable (PBlock (rec_md r)) ->
  (forall o, In o (rec_colls r) -> exists c, o = Some c /\ plain_coll c) ->
  rec_recs r = pre ++ Some b :: post ->
  (forall x, In (Some x) (pre ++ post) -> exportable x) ->
  plain_text (rec_id b) -> plain_text (rec_name b) -> In (k, PFloat f) (rec_md b) -> is_finite 24 128 f = false ->
  exists text, to_json quote num64 num32 time_text 0 r = Ok (text, false) /\ ~ valid_json text.
Proof.
  intros quote clean num64 num32 time_text HW r pre b k f post H1 H2 H3 H4 H5 H6 H7 H8 H9 H10.
  apply lost_error_invalid with (clean := clean) (pre := pre) (b := b) (k := k) (f := f) (post := post); auto.
  - intros [x|] Hx; [|exact I]. apply H6, in_or_app. now left.
  - intros [x|] Hx; [|exact I]. apply H6, in_or_app. now right.
Qed.
Print Assumptions C37_lost_error_refuted.

(** ** The hypotheses can be met *)
Fixpoint toy_body (s : str) : str :=
  match s with
  | [] => []
  | c :: s' =>
      if (beqb c """" || beqb c "\")%bool then "\"%byte :: c :: toy_body s'
      else if ((32 <=? b2n c) && (b2n c <? 127))%bool then c :: toy_body s'
      else toy_body s'
  end.
Definition toy_quote (s : str) : str := lit """" ++ toy_body s ++ lit """".
Definition toy_clean (s : str) : str := filter (fun c => ((32 <=? b2n c) && (b2n c <? 127))%bool) s.
Definition toy_num64 (x : f64) : str := fixed6 x.
Definition toy_num32 (x : f32) : str := lit "0.5".
Definition toy_time (us : Z) : str := lit "2020".
Example toy_writer : json_writer toy_quote toy_clean toy_num64 toy_num32.
Proof.
  split.
  - intro s. exists (toy_body s). split; [reflexivity|]. unfold unquote, toy_clean.
    induction s as [|c s IH]; [reflexivity|]. cbn [toy_body filter].
    destruct (beqb c """" || beqb c "\")%bool eqn:E1.
    + replace ((32 <=? b2n c) && (b2n c <? 127))%bool with true by (destruct c; try discriminate E1; reflexivity).
      cbn [unquote_from]. rewrite IH. destruct c; try discriminate E1; reflexivity.
    + destruct ((32 <=? b2n c) && (b2n c <? 127))%bool eqn:E2; [|exact IH].
      cbn [unquote_from]. rewrite IH. destruct c; try discriminate E1; try discriminate E2; reflexivity.
  - intros s H. unfold toy_clean. induction H as [|c s Hc _ IH]; [reflexivity|]. cbn [filter]. rewrite IH.
    destruct (N.leb_spec 32 (b2n c)); [|lia]. destruct (N.ltb_spec (b2n c) 127); [reflexivity|lia].
  - intros x Hx. apply decimal6_number with (x := x), fixed6_decimal, Hx.
  - intros f _. apply (Number [] (lit "0") (lit ".5") []); auto.
    + split; [discriminate|]. repeat constructor; cbv; discriminate.
    + right. exists (lit "5"). split; [reflexivity|]. split; [discriminate|]. repeat constructor; cbv; discriminate.
Qed.
Definition half : f64 := B754_finite 53 1024 true 4503599627370497 (-53) eq_refl.
Definition demo : recording :=
  mkRec (lit "root") (lit "a b")
    [Some (mkColl (lit "ev") (BEvent [(half, (lit "jump", [(lit "z", PNil); (lit "b", PArray 13 [PString (lit "q""")])]))]));
     Some (mkColl (lit "p") (BPos []))]
    [None; Some (mkRec (lit "s") (lit "") [] [] [(lit "raw", new_binary_array (bs [171; 0]))] [] [])]
    [(lit "v", PVec2 half half)] [] [].
Ltac plain_tac := repeat (apply Forall_cons; [split; [intro; discriminate|split; discriminate]|]); apply Forall_nil.
Example demo_exportable : exportable demo.
Proof.
  constructor; [plain_tac|plain_tac|repeat constructor| |].
  - intros o [<-|[<-|[]]]; eexists; (split; [reflexivity|]); (split; [plain_tac|split; [plain_tac|]]); [|exact I].
    constructor; [|constructor]. split; [reflexivity|]. split; [plain_tac|]. repeat constructor.
  - intros r [E|[E|[]]]; [discriminate E|]. injection E as <-.
    constructor; [plain_tac|plain_tac| |intros o []|intros r []]. constructor. constructor; [|constructor]. constructor. reflexivity.
Qed.
Example C37_text : to_json toy_quote toy_num64 toy_num32 toy_time 0 demo = Ok (
  lit "{" ++ nl ++
  tab ++ lit """id"": ""root""," ++ nl ++
  tab ++ lit """name"": ""a b""," ++ nl ++
  tab ++ lit """metadata"": {""v"":{""x"":-0.500000,""y"":-0.500000}}," ++ nl ++
  tab ++ lit """collections"": [" ++ nl ++
  tabs 2 ++ lit "{" ++ nl ++
  tabs 3 ++ lit """name"": ""ev""," ++ nl ++
  tabs 3 ++ lit """signature"" : ""recolude.event""," ++ nl ++
  tabs 3 ++ lit """count"" : 1," ++ nl ++
  tabs 3 ++ lit """captures"": [" ++ nl ++
  tabs 4 ++ lit "{" ++ nl ++
  tabs 5 ++ lit """time"": -0.500000," ++ nl ++
  tabs 5 ++ lit """name"": ""jump""," ++ nl ++
  tabs 5 ++ lit """data"": {""b"":[""q\""""],""z"":null}" ++ nl ++
  tabs 4 ++ lit "}" ++ nl ++
  tabs 3 ++ lit "]" ++ nl ++
  tabs 2 ++ lit "}," ++ nl ++
  tabs 2 ++ lit "{" ++ nl ++
  tabs 3 ++ lit """name"": ""p""," ++ nl ++
  tabs 3 ++ lit """signature"" : ""recolude.position""," ++ nl ++
  tabs 3 ++ lit """count"" : 0" ++ nl ++
  tabs 2 ++ lit "}" ++ nl ++
  tab ++ lit "]," ++ nl ++
  tab ++ lit """recordings"": [" ++ nl ++
  lit "null," ++ nl ++
  tabs 2 ++ lit "{" ++ nl ++
  tabs 3 ++ lit """id"": ""s""," ++ nl ++
  tabs 3 ++ lit """name"": """"," ++ nl ++
  tabs 3 ++ lit """metadata"": {""raw"":""0xab00""}," ++ nl ++
  tabs 3 ++ lit """collections"": []," ++ nl ++
  tabs 3 ++ lit """recordings"": []" ++ nl ++
  tabs 2 ++ lit "}" ++ nl ++
  tab ++ lit "]" ++ nl ++
  lit "}", false).
Proof. vm_compute. reflexivity. Qed.
Example C37_valid_example : exists text t,
  to_json toy_quote toy_num64 toy_num32 toy_time 0 demo = Ok (text, false) /\
  document text t /\ exported toy_clean toy_num64 toy_num32 toy_time demo t.
Proof. apply C37_valid; [exact toy_writer|exact demo_exportable]. Qed.
Definition quoter : recording := mkRec (lit "i") (lit "he said ""hi") [] [] [] [] [].
Example C37_quote_example : exists text,
  to_json toy_quote toy_num64 toy_num32 toy_time 0 quoter = Ok (text, false) /\ ~ valid_json text.
Proof.
  eexists. split; [vm_compute; reflexivity|].
  apply C37_quote_refuted with (quote := toy_quote) (num64 := toy_num64) (num32 := toy_num32) (time_text := toy_time)
    (r := quoter) (a := lit "he said ") (b := lit "hi") (e := false); [plain_tac|reflexivity|plain_tac|plain_tac|vm_compute; reflexivity].
Qed.
Definition timeless : recording :=
  mkRec (lit "i") (lit "n") [Some (mkColl (lit "ev") (BEvent [(B754_infinity 53 1024 false, (lit "jump", []))]))] [] [] [] [].
Example C37_bad_time_example : exists text,
  to_json toy_quote toy_num64 toy_num32 toy_time 0 timeless = Ok (text, false) /\ ~ valid_json text.
Proof.
  eexists. split; [vm_compute; reflexivity|].
  apply C37_bad_time_refuted with (quote := toy_quote) (clean := toy_clean) (num64 := toy_num64) (num32 := toy_num32) (time_text := toy_time)
    (r := timeless) (pre := []) (name := lit "ev") (l1 := []) (t := B754_infinity 53 1024 false) (en := lit "jump") (md := []) (l2 := []) (post := []) (e := false);
    [exact toy_writer|plain_tac|plain_tac| |reflexivity|intros o []|plain_tac|constructor|reflexivity| |vm_compute; reflexivity];
    apply Q_block; apply Forall_nil.
Qed.
Definition loser : recording :=
  mkRec (lit "i") (lit "n") [] [Some (mkRec (lit "s") (lit "t") [] [] [(lit "bad", PFloat (B754_infinity 24 128 true))] [] [])] [] [] [].
Example C37_lost_error_example : exists text,
  to_json toy_quote toy_num64 toy_num32 toy_time 0 loser = Ok (text, false) /\ ~ valid_json text.
Proof.
  apply C37_lost_error_refuted with (clean := toy_clean) (pre := []) (k := lit "bad") (f := B754_infinity 24 128 true) (post := [])
    (b := mkRec (lit "s") (lit "t") [] [] [(lit "bad", PFloat (B754_infinity 24 128 true))] [] []);
    [exact toy_writer|plain_tac|plain_tac|apply Q_block; apply Forall_nil|intros o []|reflexivity|intros x []|plain_tac|plain_tac|now left|reflexivity].
Qed.
