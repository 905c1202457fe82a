(** Model of format/io/writer.go. *)
From Verif Require Import Base IO Floats BinaryIO Metadata Recording Encoding TimeIO.
From Verif Require Import EncPosition EncEuler EncEnum EncEvent.
Local Open Scope N_scope.

(** compress/flate (standard library) is not modelled: a compressor is an
    arbitrary transducer that may hand any chunks to the destination during a
    Write and flushes the rest at Close; an inflater is an arbitrary reader
    built on top of another one.  What the theorems need of the pair is an
    explicit hypothesis ([codec_ok] in Spec.v). *)
Record compressor := mkCompressor {
  cz_st : Type;
  cz_new : cz_st;
  cz_write : bytes -> cz_st -> list bytes * cz_st;
  cz_close : cz_st -> list bytes
}.

(** State of a flate.Writer: the compressor's own state, the destination and
    the sticky error (compress/flate/deflate.go: compressor.err). *)
Record fl (T S : Type) := mkFl { fl_t : T; fl_out : S; fl_err : option err }.
Arguments mkFl {T S}.
Arguments fl_t {T S} f.
Arguments fl_out {T S} f.
Arguments fl_err {T S} f.

(** huffmanBitWriter.write (compress/flate/huffman_bit_writer.go): the chunks
    are written in turn; the first error stops the output for good. *)
Fixpoint emit {S} (W : Writer S) (l : list bytes) (s : S) : option err * S :=
  match l with
  | [] => (None, s)
  | p :: l' =>
      let '(_, e, s1) := wwrite W p s in
      match e with
      | Some e => (Some e, s1)
      | None => emit W l' s1
      end
  end.
(** flate.Writer.Write: (len(p), nil), or (0, err) once an error occurred *)
Definition flate_writer (Z : compressor) {S} (W : Writer S) : Writer (fl (cz_st Z) S) :=
  {| wwrite := fun p f =>
       match fl_err f with
       | Some x => (0, Some x, f)
       | None =>
           let (cs, t1) := cz_write Z p (fl_t f) in
           let (e, s1) := emit W cs (fl_out f) in
           ((match e with Some _ => 0 | None => lenN p end), e, mkFl t1 s1 e)
       end |}.
(** flate.Writer.Close *)
Definition flate_close (Z : compressor) {S} (W : Writer S) (f : fl (cz_st Z) S)
  : option err * S :=
  match fl_err f with
  | Some x => (Some x, fl_out f)
  | None => emit W (cz_close Z (fl_t f)) (fl_out f)
  end.

(** writer.go:47-51  type encoderCollectionMapping *)
Record mapping := mkMapping { m_enc : encoder; m_colls : list coll; m_order : list N }.

(** writer.go:53-58  type Writer, without [out] *)
Record wconfig := mkWConfig { w_encs : list encoder; w_time : N; w_compress : bool }.

(** writer.go:62-74  NewRecoludeWriter: events, Oct48 positions, Raw32
    rotations and enums; BST16 times; compressed *)
Definition recolude_writer : wconfig :=
  mkWConfig [event_encoder; position_encoder 2; euler_encoder 1; enum_encoder] 2 true.

(** writer.go:86-92  calcNumStreams (called after the nil check: a nil child
    would panic) *)
Fixpoint num_streams (r : recording) : N :=
  match r with
  | mkRec _ _ colls recs _ _ _ =>
      lenN colls
      + fold_right (fun c n => match c with None => 0 | Some c => num_streams c end + n) 0 recs
  end.

(** writer.go:99-104: number the keys of one block *)
Fixpoint intern_keys (m : block) (t : tbl) : tbl :=
  match m with
  | [] => t
  | (k, _) :: m' => intern_keys m' (tbl_intern k t)
  end.
(** writer.go:96-127  accumulateMetdataKeys *)
Fixpoint accumulate_keys (r : recording) (t : tbl) : tbl :=
  match r with
  | mkRec _ _ _ recs md bins refs =>
      let t1 := intern_keys md t in
      let t2 := fold_left (fun t x => match x with
                                      | None => t
                                      | Some x => intern_keys (r_md x) t
                                      end) refs t1 in
      let t3 := fold_left (fun t x => match x with
                                      | None => t
                                      | Some x => intern_keys (b_md x) t
                                      end) bins t2 in
      (fix go (l : list (option recording)) (t : tbl) : tbl :=
         match l with
         | [] => t
         | None :: l' => go l' t
         | Some c :: l' => go l' (accumulate_keys c t)
         end) recs t3
  end.

(** writer.go:132-137: all collections, or [None] if one of them is nil *)
Fixpoint all_some {A} (l : list (option A)) : option (list A) :=
  match l with
  | [] => Some []
  | None :: _ => None
  | Some x :: l' =>
      match all_some l' with
      | None => None
      | Some r => Some (x :: r)
      end
  end.

(** writer.go:141-148: the unsatisfied streams this encoder accepts, with
    their global indices; the streams (with their "satisfied" flags) after *)
Fixpoint claim (e : encoder) (ix : N) (l : list (coll * bool))
  : list coll * list N * list (coll * bool) :=
  match l with
  | [] => ([], [], [])
  | (c, sat) :: l' =>
      let '(cs, os, l2) := claim e (ix + 1) l' in
      if negb sat && e_accepts e c
      then (c :: cs, ix :: os, (c, true) :: l2)
      else (cs, os, (c, sat) :: l2)
  end.
(** writer.go:139-153 *)
Fixpoint claim_all (es : list encoder) (off : N) (l : list (coll * bool))
  : list mapping * list (coll * bool) :=
  match es with
  | [] => ([], l)
  | e :: es' =>
      let '(cs, os, l1) := claim e off l in
      let (ms, l2) := claim_all es' off l1 in
      (match cs with [] => ms | _ => mkMapping e cs os :: ms end, l2)
  end.
(** writer.go:155-159 *)
Fixpoint unclaimed (l : list (coll * bool)) : option coll :=
  match l with
  | [] => None
  | (c, sat) :: l' => if sat then unclaimed l' else Some c
  end.

(** writer.go:170-180: fold one mapping of a child into the parent's *)
Definition same_enc (a b : mapping) : bool := str_eqb (e_sig (m_enc a)) (e_sig (m_enc b)).
Definition merge1 (ms : list mapping) (c : mapping) : list mapping :=
  if existsb (fun m => same_enc m c) ms
  then map (fun m => if same_enc m c
                     then mkMapping (m_enc m) (m_colls m ++ m_colls c) (m_order m ++ m_order c)
                     else m) ms
  else ms ++ [c].

(** writer.go:129-185  evaluateCollections *)
Fixpoint evaluate (es : list encoder) (r : recording) (off : N)
  : list mapping * N + err :=
  match r with
  | mkRec _ _ colls recs _ _ _ =>
      match all_some colls with
      | None => inr ENilCollection
      | Some cs =>
          let (ms, l) := claim_all es off (map (fun c => (c, false)) cs) in
          match unclaimed l with
          | Some c => inr (ENoEncoder (c_sig c))
          | None =>
              (fix go (l : list (option recording)) (ms : list mapping) (off : N)
                 : list mapping * N + err :=
                 match l with
                 | [] => inl (ms, off)
                 | None :: _ => inr ENilRecording   (* excluded by the nil check *)
                 | Some c :: l' =>
                     match evaluate es c off with
                     | inr e => inr e
                     | inl (cms, off') => go l' (fold_left merge1 cms ms) off'
                     end
                 end) recs ms (off + lenN colls)
          end
      end
  end.

(** writer.go:331-356  checkForNilInterfaces *)
Fixpoint check_nil (r : recording) : option err :=
  match r with
  | mkRec _ _ _ recs _ bins refs =>
      if existsb (fun x : option binref => match x with None => true | _ => false end) refs
      then Some ENilReference
      else if existsb (fun x : option binary => match x with None => true | _ => false end) bins
      then Some ENilBinary
      else (fix go (l : list (option recording)) : option err :=
              match l with
              | [] => None
              | None :: _ => Some ENilRecording
              | Some c :: l' =>
                  match check_nil c with
                  | Some e => Some e
                  | None => go l'
                  end
              end) recs
  end.

(** writer.go:187-214  writeMetadata.  The values are buffered first, so a nil
    property panics before anything of the block is written.  Its results are
    ignored by all callers, whose writer is sticky. *)
Fixpoint block_values (m : block) : res bytes :=
  match m with
  | [] => Ok []
  | (_, v) :: m' =>
      do b <- write_property v;
      do t <- block_values m';
      Ok (b ++ t)
  end.
Definition write_metadata {S} (W : Writer S) (keys : tbl) (m : block) (s : S) : res S :=
  do vals <- block_values m;
  Ok (put W vals (put W (uvarint_array_to_bytes (map (fun kv => tbl_get (fst kv) keys) m)) s)).

(** writer.go:216-242  writeEncoders *)
Fixpoint write_versions {S} (W : Writer S) (ms : list mapping) (n : N) (s : S)
  : N * option err * S :=
  match ms with
  | [] => (n, None, s)
  | m :: ms' =>
      let '(k, e, s1) := wwrite W (put_uvarint (e_version (m_enc m))) s in
      match e with
      | Some e => (n + k, Some e, s1)
      | None => write_versions W ms' (n + k) s1
      end
  end.
Definition write_encoders {S} (W : Writer S) (ms : list mapping) (s : S)
  : N * option err * S :=
  let '(n, e, s1) :=
    wwrite W (string_array_to_bytes (map (fun m => e_sig (m_enc m)) ms)) s in
  match e with
  | Some e => (n, Some e, s1)
  | None => write_versions W ms n s1
  end.

(** writer.go:262-273: the streams of one recording.  [blocks] and [used] are
    encodingBlocks and streamIndexToEncoderUsedIndex. *)
Fixpoint write_streams {S} (W : Writer S) (tech : N) (blocks : list bytes)
  (used : list N) (ix : N) (cs : list (option coll)) (s : S) : res S :=
  match cs with
  | [] => Ok s
  | None :: _ => Panic
  | Some c :: cs' =>
      match nthN used ix, nthN blocks ix with
      | Some u, Some b =>
          let s1 := put W (put_uvarint u) s in
          let s2 := put W (string_to_bytes (c_name c)) s1 in
          let s3 := put W (encode_time tech (c_times c)) s2 in
          let s4 := put W (bytes_array_to_bytes b) s3 in
          write_streams W tech blocks used (ix + 1) cs' s4
      | _, _ => Panic
      end
  end.

(** writer.go:281-290 *)
Fixpoint write_refs {S} (W : Writer S) (keys : tbl) (l : list (option binref)) (s : S)
  : res S :=
  match l with
  | [] => Ok s
  | None :: _ => Panic
  | Some f :: l' =>
      let s1 := put W (string_to_bytes (r_name f)) s in
      let s2 := put W (string_to_bytes (r_uri f)) s1 in
      let s3 := put W (put_uvarint (r_size f)) s2 in
      do s4 <- write_metadata W keys (r_md f) s3;
      write_refs W keys l' s4
  end.

(** io.Copy(ew, bin.Data()) where Data() is a bytes.Reader: bytes.Reader.WriteTo
    issues one Write with everything, or none if there is nothing.  (A foreign
    Binary may be copied in several pieces.) *)
Definition copy {S} (W : Writer S) (d : bytes) (s : S) : N * S :=
  match d with
  | [] => (0, s)
  | _ => let '(n, _, s1) := wwrite W d s in (n, s1)
  end.

(** writer.go:298-311 *)
Fixpoint write_bins {S} (W : Writer S) (keys : tbl) (l : list (option binary)) (s : S)
  : res S :=
  match l with
  | [] => Ok s
  | None :: _ => Panic
  | Some b :: l' =>
      let s1 := put W (string_to_bytes (b_name b)) s in
      let s2 := put W (put_uvarint (b_size b)) s1 in
      do s3 <- write_metadata W keys (b_md b) s2;
      let (n, s4) := copy W (b_data b) s3 in
      if n =? b_size b then write_bins W keys l' s4 else Panic
  end.

(** writer.go:244-329  recurseRecordingToBytes: total, new offset, error and
    the outer writer's state.  The offset is irrelevant when an error is
    returned (-1 in the code, 0 here). *)
Fixpoint write_rec (r : recording) (tech : N) (keys : tbl) (blocks : list bytes)
  (used : list N) : forall {S} (W : Writer S) (off : N) (out : S),
  res (N * N * option err * S) :=
  match r with
  | mkRec id name colls recs md bins refs => fun S W off out =>
      let W' := err_writer W in
      let s := new_ew out in
      let s := put W' (string_to_bytes id) s in
      let s := put W' (string_to_bytes name) s in
      do s <- write_metadata W' keys md s;
      let s := put W' (put_uvarint (lenN colls)) s in
      do s <- write_streams W' tech blocks used off colls s;
      let s := put W' (put_uvarint (lenN refs)) s in
      do s <- write_refs W' keys refs s;
      let s := put W' (put_uvarint (lenN bins)) s in
      do s <- write_bins W' keys bins s;
      let s := put W' (put_uvarint (lenN recs)) s in
      (fix go (l : list (option recording)) (off : N) (s : ew S)
         : res (N * N * option err * S) :=
         match l with
         | [] => Ok (ew_n s, off, ew_err s, ew_out s)
         | None :: _ => Panic
         | Some c :: l' =>
             do (r, s1) <- write_rec c tech keys blocks used W' off s;
             let '(_, off1, e) := r in
             match e with
             | Some e => Ok (ew_n s1, 0, Some e, ew_out s1)
             | None => go l' off1 s1
             end
         end) recs (off + lenN colls) s
  end.

(** writer.go:422-425 *)
Fixpoint scatter (orders : list N) (datas : list bytes) (ix : N)
  (blocks : list bytes) (used : list N) : res (list bytes * list N) :=
  match orders with
  | [] => Ok (blocks, used)
  | o :: orders' =>
      match datas with
      | [] => Panic                                (* streamsEncoded[i] *)
      | d :: datas' =>
          match set_nth blocks o d, set_nth used o ix with
          | Some b, Some u => scatter orders' datas' ix b u
          | _, _ => Panic
          end
      end
  end.

(** writer.go:416-433: encode, scatter and write the header of every mapping.
    Result: the running total, blocks, indices, state; or the early return. *)
Fixpoint write_headers {P} (PW : Writer P) (ms : list mapping) (ix : N)
  (blocks : list bytes) (used : list N) (n : N) (p : P)
  : res ((list bytes * list N + err) * N * P) :=
  match ms with
  | [] => Ok (inl (blocks, used), n, p)
  | m :: ms' =>
      do r <- e_encode (m_enc m) (m_colls m);
      let '(h, ds, e) := r in
      match e with
      | Some e => Ok (inr e, n, p)
      | None =>
          do bu <- scatter (m_order m) ds ix blocks used;
          let '(k, e, p1) := wwrite PW (bytes_array_to_bytes h) p in
          match e with
          | Some e => Ok (inr e, n + k, p1)
          | None => write_headers PW ms' (ix + 1) (fst bu) (snd bu) (n + k) p1
          end
      end
  end.

(** writer.go:412-453: everything behind the compression flag.  [rA] and [rB]
    are the recording as iterated by accumulateMetdataKeys and by
    recurseRecordingToBytes (see [write_views]). *)
Definition write_payload {P} (PW : Writer P) (tech : N) (ms : list mapping)
  (rA rB : recording) (n : N) (p : P) : res (N * option err * P) :=
  let k := N.to_nat (num_streams rB) in
  do (r, p1) <- write_headers PW ms 0 (repeat [] k) (repeat 0 k) n p;
  let (bu, n1) := r in
  match bu with
  | inr e => Ok (n1, Some e, p1)
  | inl (blocks, used) =>
      let keys := accumulate_keys rA [] in
      do all <- tbl_array keys;
      let '(w, e, p2) := wwrite PW (string_array_to_bytes all) p1 in
      match e with
      | Some e => Ok (n1 + w, Some e, p2)
      | None =>
          do (r2, p3) <- write_rec rB tech keys blocks used PW 0 p2;
          let '(w2, _, e2) := r2 in
          Ok (n1 + w + w2, e2, p3)
      end
  end.

(** writer.go:360-461  Write.  Go's maps are iterated in an unspecified order
    that may differ between two iterations over the same map; Write iterates
    over each metadata map when it collects the keys ([rA]), when the event
    encoder runs ([rE]) and when the recordings are written ([rB]).  These are
    three views of one recording that differ at most in the order of map
    entries.  (A nil recording panics: not representable here.) *)
Definition write_views (cfg : wconfig) (Z : compressor) {S} (W : Writer S)
  (rA rE rB : recording) (out : S) : res (N * option err * S) :=
  match check_nil rB with
  | Some e => Ok (0, Some e, out)
  | None =>
      match evaluate (w_encs cfg) rE 0 with
      | inr e => Ok (0, Some e, out)
      | inl (ms, _) =>
          let '(n1, e1, s1) := wwrite W [x02] out in
          match e1 with
          | Some e => Ok (n1, Some e, s1)
          | None =>
              let '(n2, e2, s2) := write_encoders W ms s1 in
              match e2 with
              | Some e => Ok (n1 + n2, Some e, s2)
              | None =>
                  let '(n3, e3, s3) := wwrite W [if w_compress cfg then x01 else x00] s2 in
                  let n := n1 + n2 + n3 in
                  match e3 with
                  | Some e => Ok (n, Some e, s3)
                  | None =>
                      if w_compress cfg then
                        do (r, f) <- write_payload (flate_writer Z W) (w_time cfg) ms rA rB n
                                                   (mkFl (cz_new Z) s3 None);
                        let (n4, e4) := r in
                        match e4 with
                        | Some e => Ok (n4, Some e, fl_out f)
                        | None =>
                            let (e5, s5) := flate_close Z W f in
                            Ok (n4, e5, s5)
                        end
                      else
                        do (r, f) <- write_payload (err_writer W) (w_time cfg) ms rA rB n
                                                   (new_ew s3);
                        let (n4, e4) := r in
                        match e4 with
                        | Some e => Ok (n4, Some e, ew_out f)
                        | None => Ok (n4, ew_err f, ew_out f)   (* errWriter.Close *)
                        end
                  end
              end
          end
      end
  end.
