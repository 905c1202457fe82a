(** Specification vocabulary for whole files: well-formed recordings, equality
    of recordings, destinations, and what is assumed of compress/flate. *)
From Verif Require Import Base IO Spec Floats BinaryIO Metadata SpecMeta Recording SpecRec Encoding Writer Reader.
From Verif Require Import EncEvent EncEnum EncPosition EncEuler EncFloat TimeIO.
Local Open Scope N_scope.

(** ** Well-formed recordings: what a program can build with the library's
    constructors.  Nothing is nil, metadata is built with the metadata
    constructors, a binary reports the size of its data (format/io/binary.go),
    and the size of a reference is a uint64. *)
Definition wf_bin (b : binary) : Prop := built_block (b_md b) /\ b_size b = lenN (b_data b).
Definition wf_ref (f : binref) : Prop := built_block (r_md f) /\ r_size f < 2 ^ 64.
Definition given {A} (P : A -> Prop) (o : option A) : Prop := exists x, o = Some x /\ P x.
Inductive wf_rec : recording -> Prop :=
| WfRec : forall id name colls recs md bins refs,
    Forall (given wf_coll) colls -> Forall (given wf_rec) recs -> built_block md ->
    Forall (given wf_bin) bins -> Forall (given wf_ref) refs ->
    wf_rec (mkRec id name colls recs md bins refs).

(** ** Two recordings with the same tree, ids, names, binaries and references,
    whose metadata blocks are related by [EB] and collections by [RC]. *)
Definition both {A} (P : A -> A -> Prop) (o o' : option A) : Prop :=
  exists x x', o = Some x /\ o' = Some x' /\ P x x'.
Definition bin_rel (EB : block -> block -> Prop) (b b' : binary) : Prop :=
  b_name b = b_name b' /\ b_data b = b_data b' /\ b_size b = b_size b' /\ EB (b_md b) (b_md b').
Definition ref_rel (EB : block -> block -> Prop) (f f' : binref) : Prop :=
  r_name f = r_name f' /\ r_uri f = r_uri f' /\ r_size f = r_size f' /\ EB (r_md f) (r_md f').
Inductive rec_rel (EB : block -> block -> Prop) (RC : coll -> coll -> Prop)
  : recording -> recording -> Prop :=
| RecRel : forall id name colls colls' recs recs' md md' bins bins' refs refs',
    Forall2 (both RC) colls colls' -> Forall2 (both (rec_rel EB RC)) recs recs' ->
    EB md md' -> Forall2 (both (bin_rel EB)) bins bins' -> Forall2 (both (ref_rel EB)) refs refs' ->
    rec_rel EB RC (mkRec id name colls recs md bins refs)
                  (mkRec id name colls' recs' md' bins' refs').
(** Equality of recordings as Go values: metadata blocks are maps. *)
Definition rec_equiv : recording -> recording -> Prop := rec_rel block_equiv coll_equiv.

(** ** Trees with something missing *)
Inductive inside : recording -> recording -> Prop :=
| InsideSelf : forall r, inside r r
| InsideSub : forall r c d, In (Some d) (rec_recs r) -> inside c d -> inside c r.
Definition has_nil (r : recording) : Prop :=
  exists c, inside c r /\
    (In None (rec_recs c) \/ In None (rec_bins c) \/ In None (rec_refs c) \/ In None (rec_colls c)).
Definition unaccepted (es : list encoder) (r : recording) : Prop :=
  exists c x, inside c r /\ In (Some x) (rec_colls c) /\
    forall e, In e es -> e_accepts e x = false.

(** ** Destinations *)

(** The io.Writer contract: a short write comes with an error. *)
Definition honest {S} (W : Writer S) : Prop :=
  forall p s n e s', wwrite W p s = (n, e, s') -> n <= lenN p /\ (e = None -> n = lenN p).
(** [W], with a record of the bytes it accepted and of its first error. *)
Definition tee {S} (W : Writer S) : Writer (S * bytes * option err) :=
  {| wwrite := fun p s =>
       let '(s0, got, first) := s in
       let '(n, e, s1) := wwrite W p s0 in
       (n, e, (s1, got ++ takeN n p, match first with Some x => Some x | None => e end)) |}.
Definition prefix (p q : bytes) : Prop := exists r, q = p ++ r.

(** ** compress/flate *)

(** Everything the compressor hands out for a sequence of writes and Close. *)
Fixpoint squeeze_from (Z : compressor) (cs : list bytes) (t : cz_st Z) : list bytes :=
  match cs with
  | [] => cz_close Z t
  | c :: cs' => let (o, t1) := cz_write Z c t in o ++ squeeze_from Z cs' t1
  end.
Definition squeeze (Z : compressor) (cs : list bytes) : bytes :=
  concat (squeeze_from Z cs (cz_new Z)).

(** What is assumed of compress/flate: an inflater on top of a reader that
    delivers what the compressor made of some writes (whatever follows)
    delivers the bytes written, and then stops.  A compressed stream is never
    empty. *)
Definition codec_ok (Z : compressor) (IZ : inflater) : Prop :=
  (forall cs, squeeze Z cs <> []) /\
  forall S (R : Reader S) eager (I : S -> bytes -> Prop), delivers R eager I ->
  exists J : iz_st IZ S -> bytes -> Prop,
    delivers (iz_read IZ S R) true J /\
    forall s cs rest, I s (squeeze Z cs ++ rest) -> J (iz_new IZ S s) (concat cs).

(** Inflating finite data, damaged or not, comes to an end. *)
Definition inflation_ends (IZ : inflater) : Prop :=
  forall S (R : Reader S) eager (I : S -> bytes -> Prop), delivers R eager I ->
  exists V : iz_st IZ S -> nat -> Prop, finite (iz_read IZ S R) V /\
    forall s d, I s d -> exists k, V (iz_new IZ S s) k.
(** What an inflater hands out does not depend on how its input arrives. *)
Definition inflation_uniform (IZ : inflater) : Prop :=
  forall S1 S2 (R1 : Reader S1) (R2 : Reader S2) I1 I2, delivers R1 false I1 -> delivers R2 false I2 ->
  exists Q : iz_st IZ S1 -> iz_st IZ S2 -> Prop,
    (forall s1 s2 d, I1 s1 d -> I2 s2 d -> Q (iz_new IZ S1 s1) (iz_new IZ S2 s2)) /\
    forall t1 t2 n, Q t1 t2 ->
      exists p e t1' t2', rread (iz_read IZ S1 R1) n t1 = Ok (p, e, t1') /\
        rread (iz_read IZ S2 R2) n t2 = Ok (p, e, t2') /\ Q t1' t2'.
(** [breaks R I]: whenever [I s d] holds, the reader [R] in state [s] hands out no
    other bytes than [d], in order and in pieces of its own choosing, and fails
    whenever it likes, at the latest after them. *)
Definition breaks {S} (R : Reader S) (I : S -> bytes -> Prop) : Prop :=
  forall s d n, I s d -> n <> 0 ->
  exists p q e s', rread R n s = Ok (p, e, s') /\ d = p ++ q /\ lenN p <= n /\ I s' q /\ (e = None -> p <> []).
(** From a part of a compressed stream an inflater gets only bytes that were
    written. *)
Definition inflation_cut (Z : compressor) (IZ : inflater) : Prop :=
  forall S (R : Reader S) eager (I : S -> bytes -> Prop), delivers R eager I ->
  exists J : iz_st IZ S -> bytes -> Prop, breaks (iz_read IZ S R) J /\
    forall s cs part missing, I s part -> squeeze Z cs = part ++ missing -> J (iz_new IZ S s) (concat cs).
(** An encoder whose Decode comes to an end. *)
Definition ends (e : encoder) : Prop := forall name h b ts, e_decode e name h b ts <> Stuck.

(** All top-level metadata keys used in a tree. *)
Definition md_keys (m : block) : list str := map fst m.
Fixpoint tree_keys (r : recording) : list str :=
  match r with
  | mkRec _ _ _ recs md bins refs =>
      md_keys md
      ++ flat_map (fun o => match o with Some f => md_keys (r_md f) | None => [] end) refs
      ++ flat_map (fun o => match o with Some b => md_keys (b_md b) | None => [] end) bins
      ++ flat_map (fun o => match o with Some c => tree_keys c | None => [] end) recs
  end.

(** The registered encoders [reg] can read what [e] wrote: one of them has its
    signature, and every one that has is recent enough and decodes alike. *)
Definition can_read (reg : list encoder) (e : encoder) : Prop :=
  (exists x, In x reg /\ e_sig x = e_sig e) /\
  forall x, In x reg -> e_sig x = e_sig e ->
    e_version e <= e_version x /\
    forall name h b ts, e_decode x name h b ts = e_decode e name h b ts.

(** The registered encoders [reg] serve what a file asks for: some encoder with
    this signature is registered, and none with this signature is older than
    the version asked for. *)
Definition serves_version (reg : list encoder) (wanted : str * N) : Prop :=
  (exists x, In x reg /\ e_sig x = fst wanted) /\
  forall x, In x reg -> e_sig x = fst wanted -> snd wanted <= e_version x.

(** ** Settings *)

(** The library's encoders, for given storage techniques. *)
Definition builtin (tp te tf : N) (e : encoder) : Prop :=
  e = event_encoder \/ e = enum_encoder \/ e = position_encoder tp \/
  e = euler_encoder te \/ e = float_encoder tf.

(** Same name, kind and number of captures; the same event names and metadata,
    enum members and values.  Times and numeric values may differ. *)
Definition same_but_numbers (c d : coll) : Prop :=
  c_name c = c_name d /\ length (c_times c) = length (c_times d) /\
  match c_body c, c_body d with
  | BPos _, BPos _ | BEuler _, BEuler _ | BFloat _, BFloat _ => True
  | BEvent l, BEvent l' =>
      Forall2 (fun x y => fst (snd x) = fst (snd y) /\ block_equiv (snd (snd x)) (snd (snd y))) l l'
  | BEnum ms l, BEnum ms' l' => ms = ms' /\ map snd l = map snd l'
  | _, _ => False
  end.

(** [ts'] is what decoding gives for the encoded times [ts]. *)
Definition stored_times (tt : N) (ts ts' : list f64) : Prop :=
  lenN ts <= 2 ^ 45 ->
  exists s, decode_time (err_reader flat) (new_er (encode_time tt ts)) = Ok (ts', None, s).

(** [d] is what [e] decodes, for the times [ts], from its own encoding of the
    collection [c] alone. *)
Definition stored_by (e : encoder) (ts : list f64) (c d : coll) : Prop :=
  exists h s, e_encode e [c] = Ok (h, [s], None) /\
    (lenN h <= 2 ^ 44 -> lenN s <= 2 ^ 44 -> e_decode e (c_name c) h s ts = Ok (Some d, None)).

(** A writer with the library's encoders, at most one of each kind, and valid
    storage techniques. *)
Definition valid_config (tp te tf : N) (cfg : wconfig) : Prop :=
  tp < 4 /\ te < 3 /\ tf < 3 /\ w_time cfg < 3 /\
  Forall (builtin tp te tf) (w_encs cfg) /\ NoDup (map e_sig (w_encs cfg)).
(** The same recording as seen by another iteration over its maps; unlike
    [rec_equiv] it allows for nil parts. *)
Definition nil_or {A} (P : A -> A -> Prop) (o o' : option A) : Prop :=
  (o = None /\ o' = None) \/ both P o o'.
Inductive rec_view : recording -> recording -> Prop :=
| RecView : forall id name colls colls' recs recs' md md' bins bins' refs refs',
    Forall2 (nil_or coll_equiv) colls colls' -> Forall2 (nil_or rec_view) recs recs' ->
    block_equiv md md' -> Forall2 (nil_or (bin_rel block_equiv)) bins bins' ->
    Forall2 (nil_or (ref_rel block_equiv)) refs refs' ->
    rec_view (mkRec id name colls recs md bins refs) (mkRec id name colls' recs' md' bins' refs').

(** [e] is the first encoder of the list that accepts [c]. *)
Definition first_accepting (es : list encoder) (c : coll) (e : encoder) : Prop :=
  exists a b, es = a ++ e :: b /\ e_accepts e c = true /\ Forall (fun x => e_accepts x c = false) a.

(** How an uncompressed file is laid out: version, names and versions of the
    encoders, flag, one header per encoder, the table of metadata keys, and
    the recordings. *)
Definition layout (sigs : list str) (versions : list N) (headers : list bytes) (keys : list str)
  (body file : bytes) : Prop :=
  length versions = length sigs /\ length headers = length sigs /\
  file = [x02] ++ string_array_to_bytes sigs ++ concat (map put_uvarint versions) ++ [x00]
         ++ concat (map bytes_array_to_bytes headers) ++ string_array_to_bytes keys ++ body.

(** The metadata of every recording, binary and reference of a tree. *)
Fixpoint tree_blocks (r : recording) : list block :=
  match r with
  | mkRec _ _ _ recs md bins refs =>
      md :: flat_map (fun o => match o with Some f => [r_md f] | None => [] end) refs
      ++ flat_map (fun o => match o with Some b => [b_md b] | None => [] end) bins
      ++ flat_map (fun o => match o with Some c => tree_blocks c | None => [] end) recs
  end.

(** Some binary attached somewhere in the tree has data. *)
Definition attached_data (r : recording) : Prop :=
  exists c b, inside c r /\ In (Some b) (rec_bins c) /\ b_data b <> [].
