(** Model of format/encoding/event/event.go. *)
From Verif Require Import Base IO Floats BinaryIO Metadata Recording Encoding.
Local Open Scope N_scope.

(** event.go:56-64: the loop over one capture's metadata, in the order the
    map iteration visits it.  Result: key indices, value bytes, key table. *)
Fixpoint enc_block (m : block) (keys : tbl) : res (list N * bytes * tbl) :=
  match m with
  | [] => Ok ([], [], keys)
  | (k, v) :: m' =>
      let keys1 := tbl_intern k keys in
      do vb <- write_property v;
      do r <- enc_block m' keys1;
      let '(is, vs, keys2) := r in
      Ok (tbl_get k keys1 :: is, vb ++ vs, keys2)
  end.

(** event.go:39-68: one stream *)
Fixpoint enc_events (l : list (f64 * (str * block))) (names keys : tbl)
  : res (bytes * tbl * tbl) :=
  match l with
  | [] => Ok ([], names, keys)
  | (_, (n, m)) :: l' =>
      let names1 := tbl_intern n names in
      do r <- enc_block m keys;
      let '(is, vs, keys1) := r in
      do r2 <- enc_events l' names1 keys1;
      let '(rest, names2, keys2) := r2 in
      Ok (put_uvarint (tbl_get n names1) ++ uvarint_array_to_bytes is ++ vs ++ rest,
          names2, keys2)
  end.

(** event.go:38-69: all streams.  A capture that is not an event.Capture
    yields an error. *)
Fixpoint enc_event_streams (cs : list coll) (names keys : tbl)
  : res (list bytes * tbl * tbl * option err) :=
  match cs with
  | [] => Ok ([], names, keys, None)
  | c :: cs' =>
      match c_body c, c_times c with
      | BEvent l, _ =>
          do r <- enc_events l names keys;
          let '(b, names1, keys1) := r in
          do r2 <- enc_event_streams cs' names1 keys1;
          let '(bs', names2, keys2, e) := r2 in
          Ok (b :: bs', names2, keys2, e)
      | _, [] =>
          do r2 <- enc_event_streams cs' names keys;
          let '(bs', names2, keys2, e) := r2 in
          Ok ([] :: bs', names2, keys2, e)
      | _, _ :: _ => Ok ([], names, keys, Some ENotCapture)
      end
  end.

(** event.go:33-91  Encode *)
Definition event_encode (cs : list coll) : res (bytes * list bytes * option err) :=
  do r <- enc_event_streams cs [] [];
  let '(bs', names, keys, e) := r in
  match e with
  | Some e => Ok ([], [], Some e)
  | None =>
      do an <- tbl_array names;
      do ak <- tbl_array keys;
      Ok (string_array_to_bytes an ++ string_array_to_bytes ak, bs', None)
  end.

(** event.go:93-98  readHeader: only the second error is looked at *)
Definition event_header (h : bytes) : res (list str * list str * option err) :=
  do (r, s1) <- read_string_array flat h;
  let '(names, _, _) := r in
  do (r2, _) <- read_string_array flat s1;
  let '(keys, _, e) := r2 in
  Ok (names, keys, e).

(** event.go:121-127: the properties of one capture *)
Fixpoint dec_block (keys : list str) (is : list N) (acc : block)
  (s : bytes * bytes) : res (block * option err * (bytes * bytes)) :=
  match is with
  | [] => Ok (acc, None, s)
  | i :: is' =>
      do (r, s1) <- read_property bufio s;
      match r with
      | (_, Some e) => Ok ([], Some e, s1)
      | (p, None) =>
          match nthN keys i with
          | None => Panic
          | Some k =>
              dec_block keys is'
                (map_set k (match p with Some p => p | None => PNil end) acc) s1
          end
      end
  end.

(** event.go:109-129: one capture per time.  Integer indices are int(x): a
    value of 2^63 or more is negative; both ways the slice access panics. *)
Fixpoint dec_events (names keys : list str) (times : list f64)
  (s : bytes * bytes)
  : res (list (f64 * (str * block)) * option err) :=
  match times with
  | [] => Ok ([], None)
  | t :: ts =>
      do (r, s1) <- read_uvarint bufio s;
      let '(ni, _, e) := r in
      match e with
      | Some e => Ok ([], Some e)
      | None =>
          do (r2, s2) <- read_uvarint_array bufio s1;
          let '(is, _, e2) := r2 in
          match e2 with
          | Some e2 => Ok ([], Some e2)
          | None =>
              do (r3, s3) <- dec_block keys is [] s2;
              match r3 with
              | (_, Some e3) => Ok ([], Some e3)
              | (m, None) =>
                  match nthN names ni with
                  | None => Panic
                  | Some n =>
                      do r4 <- dec_events names keys ts s3;
                      match r4 with
                      | (l, None) => Ok ((t, (n, m)) :: l, None)
                      | (_, Some e4) => Ok ([], Some e4)
                      end
                  end
              end
          end
      end
  end.

(** event.go:100-132  Decode *)
Definition event_decode (name : str) (header data : bytes) (times : list f64)
  : res (option coll * option err) :=
  do r <- event_header header;
  let '(names, keys, e) := r in
  match e with
  | Some e => Ok (None, Some e)
  | None =>
      do r2 <- dec_events names keys times (new_bufio data);
      match r2 with
      | (l, None) => Ok (Some (mkColl name (BEvent l)), None)
      | (_, Some e) => Ok (None, Some e)
      end
  end.

(** event.go:15-31 *)
Definition event_encoder : encoder :=
  {| e_sig := sig_event;
     e_version := 0;
     e_accepts := fun c => str_eqb (c_sig c) sig_event;
     e_encode := event_encode;
     e_decode := event_decode |}.
