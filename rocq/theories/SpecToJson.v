(** Specification vocabulary for JSON texts (RFC 8259) and for what to-json is
    to write. *)
From Coq Require Import Strings.String Permutation Reals.
From Flocq Require Import IEEE754.Binary.
From Verif Require Import Base Floats Metadata Recording SpecText Json SpecJson.
Local Open Scope N_scope.

(** ** JSON texts *)
Definition blank (b : byte) : Prop := In (b2n b) [32; 9; 10; 13].
Definition ws (w : str) : Prop := Forall blank w.
(** -? int frac? exp? *)
Definition digits (t : str) : Prop := t <> [] /\ Forall digit t.
Inductive number : str -> Prop :=
| Number : forall sign int frac exp,
    sign = [] \/ sign = lit "-" ->
    digits int -> (hd x00 int = "0"%byte -> int = lit "0") ->
    frac = [] \/ (exists d, frac = lit "." ++ d /\ digits d) ->
    exp = [] \/ (exists e s d, exp = e ++ s ++ d /\ (e = lit "e" \/ e = lit "E") /\
                   (s = [] \/ s = lit "+" \/ s = lit "-") /\ digits d) ->
    number (sign ++ int ++ frac ++ exp).
(** [string_text t s]: a text in quotes that stands for [s]. *)
Definition string_text (t s : str) : Prop := exists u, t = lit """" ++ u ++ lit """" /\ unquote u = Some s.

(** [reads v t]: the text [v] is a JSON value with the content [t]. *)
Inductive reads : str -> tree -> Prop :=
| R_null : reads (lit "null") TNull
| R_true : reads (lit "true") (TBool true)
| R_false : reads (lit "false") (TBool false)
| R_num : forall t, number t -> reads t (TNum t)
| R_str : forall t s, string_text t s -> reads t (TStr s)
| R_arr0 : forall w, ws w -> reads (lit "[" ++ w ++ lit "]") (TArr [])
| R_arr : forall e l, elements e l -> reads (lit "[" ++ e ++ lit "]") (TArr l)
| R_obj0 : forall w, ws w -> reads (lit "{" ++ w ++ lit "}") (TObj [])
| R_obj : forall e l, members e l -> reads (lit "{" ++ e ++ lit "}") (TObj l)
with elements : str -> list tree -> Prop :=
| E_one : forall a v t b, ws a -> reads v t -> ws b -> elements (a ++ v ++ b) [t]
| E_more : forall a v t b e l, ws a -> reads v t -> ws b -> elements e l ->
    elements (a ++ v ++ b ++ lit "," ++ e) (t :: l)
with members : str -> list (str * tree) -> Prop :=
| M_one : forall a k s b c v t d, ws a -> string_text k s -> ws b -> ws c -> reads v t -> ws d ->
    members (a ++ k ++ b ++ lit ":" ++ c ++ v ++ d) [(s, t)]
| M_more : forall a k s b c v t d e l, ws a -> string_text k s -> ws b -> ws c -> reads v t -> ws d -> members e l ->
    members (a ++ k ++ b ++ lit ":" ++ c ++ v ++ d ++ lit "," ++ e) ((s, t) :: l).
(** A document is a value, with white space around it. *)
Definition document (d : str) (t : tree) : Prop :=
  exists a v b, d = a ++ v ++ b /\ ws a /\ reads v t /\ ws b.
Definition valid_json (d : str) : Prop := exists t, document d t.

(** ** What the export is to say *)
(** The text of a byte array: 0x and two lower-case digits per byte. *)
Definition hex_of (d : bytes) (s : str) : Prop :=
  hex_text s d /\ Forall (fun c => ~ (65 <= b2n c <= 70)) s.
(** [decimal6 t x]: the text [t] is a decimal number with six places, off from
    [x] by half a unit of the last place at most. *)
Definition decimal6 (t : str) (x : f64) : Prop :=
  is_finite 53 1024 x = true /\
  exists (neg : bool) i f n,
    t = (if neg then lit "-" else []) ++ i ++ lit "." ++ f /\
    spells i n /\ length f = 6%nat /\ Forall digit f /\
    (Rabs ((if neg then -1 else 1) * IZR (Z.of_N (text_val 0 (i ++ f))) / 1000000 - B2R 53 1024 x) <= / 2000000)%R.
Section Export.
(** What is left of a text when it is written as JSON: bytes that are no UTF-8
    are replaced. *)
Context (clean : str -> str) (num64 : f64 -> str) (num32 : f32 -> str) (time_text : Z -> str).
(** [tells t z]: the usual notation of an integer. *)
Definition tells (t : str) (z : Z) : Prop :=
  (exists n, z = Z.of_N n /\ spells t n) \/ (exists n d, z = (- Z.of_N n)%Z /\ n <> 0 /\ t = lit "-" ++ d /\ spells d n).

(** [shown p t]: the content that stands for the property [p]. *)
Inductive shown : prop -> tree -> Prop :=
| H_string : forall s, shown (PString s) (TStr (clean s))
| H_int : forall z t, tells t z -> shown (PInt z) (TNum t)
| H_float : forall f, is_finite 24 128 f = true -> shown (PFloat f) (TNum (num32 f))
| H_bool : forall b, shown (PBool b) (TBool b)
| H_byte : forall b s, hex_of [b] s -> shown (PByte b) (TStr (lit "0x" ++ s))
| H_vec2 : forall x y, is_finite 53 1024 x = true -> is_finite 53 1024 y = true ->
    shown (PVec2 x y) (TObj [(lit "x", TNum (num64 x)); (lit "y", TNum (num64 y))])
| H_vec3 : forall x y z, is_finite 53 1024 x = true -> is_finite 53 1024 y = true -> is_finite 53 1024 z = true ->
    shown (PVec3 x y z) (TObj [(lit "x", TNum (num64 x)); (lit "y", TNum (num64 y)); (lit "z", TNum (num64 z))])
| H_block : forall m m' l, Permutation m m' ->
    Forall2 (fun kp kt => fst kt = clean (fst kp) /\ shown (snd kp) (snd kt)) m' l -> shown (PBlock m) (TObj l)
| H_time : forall us, shown (PTime us) (TStr (clean (time_text us)))
| H_array : forall c ps l, Forall2 shown ps l -> shown (PArray c ps) (TArr l)
| H_bytes : forall d s, hex_of d s -> shown (new_binary_array d) (TStr (lit "0x" ++ s))
| H_bools : forall l, shown (new_bool_array l) (TArr (map TBool l))
| H_nil : shown PNil TNull.

Definition key (k : string) (t : tree) : str * tree := (lit k, t).
Inductive event_shown : f64 * (str * block) -> tree -> Prop :=
| H_event : forall t name md tt mt, decimal6 tt t -> shown (PBlock md) mt ->
    event_shown (t, (name, md)) (TObj [key "time" (TNum tt); key "name" (TStr name); key "data" mt]).
Inductive coll_shown : option coll -> tree -> Prop :=
| H_events : forall name l n lt, spells n (N.of_nat (length l)) -> Forall2 event_shown l lt ->
    coll_shown (Some (mkColl name (BEvent l)))
      (TObj [key "name" (TStr name); key "signature" (TStr sig_event); key "count" (TNum n); key "captures" (TArr lt)])
| H_foreign : forall name l n, spells n (N.of_nat (length l)) ->
    coll_shown (Some (mkColl name (BOther sig_event l)))
      (TObj [key "name" (TStr name); key "signature" (TStr sig_event); key "count" (TNum n); key "captures" (TArr [])])
| H_coll : forall c n, c_sig c <> sig_event -> spells n (N.of_nat (length (c_times c))) ->
    coll_shown (Some c) (TObj [key "name" (TStr (c_name c)); key "signature" (TStr (c_sig c)); key "count" (TNum n)]).
Inductive exported : recording -> tree -> Prop :=
| H_rec : forall id name colls recs md bins refs mt cts rts,
    shown (PBlock md) mt -> Forall2 coll_shown colls cts ->
    Forall2 (fun o t => (o = None /\ t = TNull) \/ (exists r, o = Some r /\ exported r t)) recs rts ->
    exported (mkRec id name colls recs md bins refs)
      (TObj [key "id" (TStr id); key "name" (TStr name); key "metadata" mt;
             key "collections" (TArr cts); key "recordings" (TArr rts)]).
End Export.

(** ** The recordings that can be exported *)
(** Metadata without NaN and infinities, whose raw arrays come from the
    constructors. *)
Inductive printable : prop -> Prop :=
| Q_string : forall s, printable (PString s)
| Q_int : forall z, printable (PInt z)
| Q_float : forall f, is_finite 24 128 f = true -> printable (PFloat f)
| Q_bool : forall b, printable (PBool b)
| Q_byte : forall b, printable (PByte b)
| Q_vec2 : forall x y, is_finite 53 1024 x = true -> is_finite 53 1024 y = true -> printable (PVec2 x y)
| Q_vec3 : forall x y z, is_finite 53 1024 x = true -> is_finite 53 1024 y = true -> is_finite 53 1024 z = true ->
    printable (PVec3 x y z)
| Q_block : forall m, Forall (fun kv => printable (snd kv)) m -> printable (PBlock m)
| Q_time : forall us, printable (PTime us)
| Q_array : forall c ps, Forall printable ps -> printable (PArray c ps)
| Q_bytes : forall d, lenN d < 2 ^ 48 -> printable (new_binary_array d)
| Q_bools : forall l, lenN l < 2 ^ 48 -> printable (new_bool_array l)
| Q_nil : printable PNil.
(** No collection is nil, ids, names and signatures stand for themselves between
    quotes, event times are finite, and all metadata is printable. *)
Definition plain_event (c : f64 * (str * block)) : Prop :=
  is_finite 53 1024 (fst c) = true /\ plain_text (fst (snd c)) /\ printable (PBlock (snd (snd c))).
Definition plain_coll (c : coll) : Prop :=
  plain_text (c_name c) /\ plain_text (c_sig c) /\
  match c_body c with
  | BEvent l => Forall plain_event l
  | _ => True
  end.
Inductive exportable : recording -> Prop :=
| Q_rec : forall id name colls recs md bins refs,
    plain_text id -> plain_text name -> printable (PBlock md) ->
    (forall o, In o colls -> exists c, o = Some c /\ plain_coll c) ->
    (forall r, In (Some r) recs -> exportable r) ->
    exportable (mkRec id name colls recs md bins refs).

(** ** What is assumed of encoding/json *)
(** It writes strings as JSON strings, finite numbers as JSON numbers, and
    printable ASCII text unchanged. *)
Record json_writer (quote clean : str -> str) (num64 : f64 -> str) (num32 : f32 -> str) : Prop := {
  quote_ok : forall s, string_text (quote s) (clean s);
  clean_ok : forall s, Forall (fun c => 32 <= b2n c < 127) s -> clean s = s;
  num64_ok : forall x, is_finite 53 1024 x = true -> number (num64 x);
  num32_ok : forall f, is_finite 24 128 f = true -> number (num32 f)
}.
