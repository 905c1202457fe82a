(** Model of internal/io/rapv1: reading version 1 files. *)
From Coq Require Import Strings.String.
From Verif Require Import Base IO Floats Metadata Recording Text Reader.
Local Open Scope N_scope.

(** The decoded messages, internal/io/rapv1/recording.pb.go:57-62, 124-132,
    215-220, 282-285, 333-337.  Repeated messages are slices of pointers; the
    decoder never stores a nil one.  Maps are association lists with distinct
    keys, in the order in which an iteration visits them.  An [int32] is kept
    as a [Z]. *)
Record v1_vec := mkV1Vec { vv_time : f32; vv_x : f32; vv_y : f32; vv_z : f32 }.
Record v1_life := mkV1Life { vl_time : f32; vl_type : Z }.
Record v1_event := mkV1Event { ve_time : f32; ve_name : str; ve_contents : str;
                               ve_data : list (str * str) }.
Record v1_subject := mkV1Subject {
  vs_id : Z; vs_name : str; vs_md : list (str * str); vs_events : list v1_event;
  vs_life : list v1_life; vs_pos : list v1_vec; vs_rot : list v1_vec }.
Record v1_rec := mkV1Rec {
  vr_name : str; vr_md : list (str * str); vr_subjects : list v1_subject; vr_events : list v1_event }.

Section V1.
(** strconv.ParseFloat(v, 32) followed by float32(...); [None] is an error *)
Context (parse_f32 : str -> option f32).
(** ioutil.ReadAll(flate.NewReader(bytes.NewReader(b))); [None] is an error *)
Context (inflate : bytes -> option bytes).
(** proto.Unmarshal; [None] is an error *)
Context (unmarshal : bytes -> option v1_rec).

(** util.go:47-55: a loop over the map of an event.  The float property of
    line 50 is overwritten by the string property of line 54. *)
Fixpoint event_dict (d : list (str * str)) (m : block) : block :=
  match d with
  | [] => m
  | (k, v) :: d' =>
      let m := match parse_f32 v with
               | Some f => map_set k (PFloat f) m
               | None => map_set k (PString v) m
               end in
      event_dict d' (map_set k (PString v) m)
  end.
(** util.go:37-65  oldToNewEvents *)
Definition old_event (e : v1_event) : f64 * (str * block) :=
  let m := match ve_data e with
           | [] => [(lit "value", PString (ve_contents e))]
           | d => event_dict d []
           end in
  (f64_of_f32 (ve_time e), (ve_name e, m)).
Definition old_events (l : list v1_event) : coll :=
  mkColl (lit "Custom Event") (BEvent (map old_event l)).

(** util.go:67-80  convertMetadata *)
Fixpoint convert_md (d : list (str * str)) (m : block) : block :=
  match d with
  | [] => m
  | (k, v) :: d' =>
      convert_md d' (map_set k match parse_f32 v with Some f => PFloat f | None => PString v end m)
  end.

(** util.go:90-106 *)
Definition old_vec (c : v1_vec) : f64 * vec :=
  (f64_of_f32 (vv_time c),
   mkVec (f64_of_f32 (vv_x c)) (f64_of_f32 (vv_y c)) (f64_of_f32 (vv_z c))).
(** util.go:84 *)
Definition life_members : list str := map lit ["START"; "ENABLE"; "DISABLE"; "DESTROY"]%string.
(** util.go:85-130: one subject *)
Definition old_subject (s : v1_subject) : recording :=
  mkRec (show_Z (vs_id s)) (vs_name s)
    [Some (mkColl (lit "Position") (BPos (map old_vec (vs_pos s))));
     Some (mkColl (lit "Rotation") (BEuler (map old_vec (vs_rot s))));
     Some (old_events (vs_events s));
     Some (mkColl (lit "Life Cycle")
       (BEnum life_members (map (fun l => (f64_of_f32 (vl_time l), vl_type l)) (vs_life s))))]
    [] (convert_md (vs_md s) []) [] [].
(** util.go:82-139  protobufToStd, and recording.go:8-42 *)
Definition v1_to_std (m : v1_rec) : recording :=
  mkRec (vr_name m) (vr_name m) [Some (old_events (vr_events m))]
    (map (fun s => Some (old_subject s)) (vr_subjects m)) (convert_md (vr_md m) []) [] [].

(** util.go:141-193  ReadRecording (with getNumberOfRecordings, 22-35).  The
    number of bytes read is returned along with every error. *)
Definition read_v1 : v1_reader := fun S R s =>
  do (pe, s1) <- rread R 4 s;
  let (p, e) := pe in
  match e with
  | Some e => Ok (None, lenN p, Some e, s1)
  | None =>
      if negb (lenN p =? 4) then Ok (None, lenN p, Some EV1Short, s1)
      else
        let count := Z.to_N (le_val p) in
        if negb (count =? 1) then Ok (None, lenN p, Some (EV1Count count), s1)
        else
          do (qe, s2) <- rread R 8 s1;
          let (q, e) := qe in
          let n := lenN p + lenN q in
          match e with
          | Some e => Ok (None, n, Some e, s2)
          | None =>
              if negb (lenN q =? 8) then Ok (None, n, Some EV1Short, s2)
              else
                let size := signed 64 (le_val q) in
                if (size <? 0)%Z then Panic
                else
                  let size := Z.to_N size in
                  go_make 1 size
                    (do (ce, s3) <- rread R size s2;
                     let (c, e) := ce in
                     let n := n + lenN c in
                     match e with
                     | Some e => Ok (None, n, Some e, s3)
                     | None =>
                         if negb (lenN c =? size) then Ok (None, n, Some EV1Short, s3)
                         else match inflate c with
                              | None => Ok (None, n, Some EV1Data, s3)
                              | Some d =>
                                  match unmarshal d with
                                  | None => Ok (None, n, Some EV1Data, s3)
                                  | Some m => Ok (Some (v1_to_std m), n, None, s3)
                                  end
                              end
                     end)
          end
  end.
End V1.

(** util.go:199-201 and the like: one step of the search for the least time *)
Definition lower (mn : f64) (t : f32) : f64 := if flt (f64_of_f32 t) mn then f64_of_f32 t else mn.
(** util.go:237-239 and the like *)
Definition raise (mx : f64) (t : f32) : f64 := if fgt (f64_of_f32 t) mx then f64_of_f32 t else mx.
(** util.go:195-231  GetStartOfRecording: five loops, the last four nested in the
    one over the subjects *)
Definition v1_start (m : v1_rec) : f64 :=
  fold_left (fun mn s =>
      let mn := fold_left lower (map ve_time (vs_events s)) mn in
      let mn := fold_left lower (map vv_time (vs_pos s)) mn in
      let mn := fold_left lower (map vv_time (vs_rot s)) mn in
      fold_left lower (map vl_time (vs_life s)) mn)
    (vr_subjects m) (fold_left lower (map ve_time (vr_events m)) fpinf).
(** util.go:233-269  GetEndOfRecording *)
Definition v1_end (m : v1_rec) : f64 :=
  fold_left (fun mx s =>
      let mx := fold_left raise (map ve_time (vs_events s)) mx in
      let mx := fold_left raise (map vv_time (vs_pos s)) mx in
      let mx := fold_left raise (map vv_time (vs_rot s)) mx in
      fold_left raise (map vl_time (vs_life s)) mx)
    (vr_subjects m) (fold_left raise (map ve_time (vr_events m)) fminf).
(** util.go:271-273  GetRecordingDuration *)
Definition v1_duration (m : v1_rec) : f64 := fsub (v1_end m) (v1_start m).
(** util.go:275-281  CountRecordingCustomEvenets *)
Definition v1_event_count (m : v1_rec) : N :=
  fold_left (fun n s => n + lenN (vs_events s)) (vr_subjects m) (lenN (vr_events m)).
