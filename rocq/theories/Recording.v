(** Model of package format: recordings, Slice, Validate, RecordingStart/End/
    Duration, and of the collection types of format/collection. *)
From Coq Require Import Strings.String.
From Verif Require Import Base IO Floats BinaryIO Metadata.
Local Open Scope N_scope.

(** vector3.Float64 *)
Record vec := mkVec { vx : f64; vy : f64; vz : f64 }.

(** The built-in capture collections, and [BOther]: any collection type
    implemented outside the library, of which only the signature and the
    capture times are visible.
    - format/collection/position/capture.go:9-12, collection.go:7-10
    - format/collection/euler/capture.go:9-12, collection.go:7-10
    - format/collection/float/capture.go:5-8, collection.go:7-10
    - format/collection/event/capture.go:9-13, collection.go:7-10
    - format/collection/enum/capture.go:7-10, collection.go:7-11 (value is a
      64-bit int, kept as a [Z]) *)
Inductive cbody : Type :=
| BPos (caps : list (f64 * vec))
| BEuler (caps : list (f64 * vec))
| BFloat (caps : list (f64 * f64))
| BEvent (caps : list (f64 * (str * block)))
| BEnum (members : list str) (caps : list (f64 * Z))
| BOther (sig : str) (times : list f64).
Record coll := mkColl { c_name : str; c_body : cbody }.

Definition lit (s : string) : str := list_byte_of_string s.
Definition sig_position : str := lit "recolude.position".
Definition sig_euler : str := lit "recolude.euler".
Definition sig_float : str := lit "recolude.float".
Definition sig_event : str := lit "recolude.event".
Definition sig_enum : str := lit "recolude.enum".

(** The Signature methods: format/collection/{position/collection.go:23,
    euler/collection.go:31, float/collection.go:31, event/collection.go:31,
    enum/collection.go:37} *)
Definition c_sig (c : coll) : str :=
  match c_body c with
  | BPos _ => sig_position
  | BEuler _ => sig_euler
  | BFloat _ => sig_float
  | BEvent _ => sig_event
  | BEnum _ _ => sig_enum
  | BOther s _ => s
  end.

(** Captures()[i].Time() for all i *)
Definition c_times (c : coll) : list f64 :=
  match c_body c with
  | BPos l => map fst l
  | BEuler l => map fst l
  | BFloat l => map fst l
  | BEvent l => map fst l
  | BEnum _ l => map fst l
  | BOther _ ts => ts
  end.
(** The Length methods *)
Definition c_length (c : coll) : nat := length (c_times c).

(** format/recording.go:19-24 (interface Binary).  [b_size] is what Size()
    returns and [b_data] what reading Data() to the end yields; the library's
    own Binary (format/io/binary.go:10-38) keeps them consistent, a foreign
    implementation need not. *)
Record binary := mkBin { b_name : str; b_data : bytes; b_size : N; b_md : block }.
(** format/recording.go:26-31, format/io/binary_reference.go:7-37 *)
Record binref := mkRef { r_name : str; r_uri : str; r_size : N; r_md : block }.

(** format/recording.go:44-72.  Elements of the slices are interfaces, hence
    possibly nil ([None]). *)
Inductive recording : Type :=
| mkRec (id name : str) (colls : list (option coll))
        (recs : list (option recording)) (md : block)
        (bins : list (option binary)) (refs : list (option binref)).
Definition rec_id (r : recording) := let 'mkRec i _ _ _ _ _ _ := r in i.
Definition rec_name (r : recording) := let 'mkRec _ n _ _ _ _ _ := r in n.
Definition rec_colls (r : recording) := let 'mkRec _ _ c _ _ _ _ := r in c.
Definition rec_recs (r : recording) := let 'mkRec _ _ _ l _ _ _ := r in l.
Definition rec_md (r : recording) := let 'mkRec _ _ _ _ m _ _ := r in m.
Definition rec_bins (r : recording) := let 'mkRec _ _ _ _ _ b _ := r in b.
Definition rec_refs (r : recording) := let 'mkRec _ _ _ _ _ _ f := r in f.

(** format/slice.go:5-29: the options, and the loop of lines 40-43 *)
Inductive slice_opt :=
| BeginningOfSlice (t : f64)
| EndOfSlice (t : f64)
| KeepBinariesInSlice (b : bool).
Record slice_opts := mkSO { so_begin : f64; so_end : f64; so_keep : bool }.
Definition apply_slice_opt (o : slice_opts) (x : slice_opt) : slice_opts :=
  match x with
  | BeginningOfSlice t => mkSO t (so_end o) (so_keep o)
  | EndOfSlice t => mkSO (so_begin o) t (so_keep o)
  | KeepBinariesInSlice b => mkSO (so_begin o) (so_end o) b
  end.
Definition slice_opts_of (l : list slice_opt) : slice_opts :=
  fold_left apply_slice_opt l (mkSO fminf fpinf true).

(** format/slice.go:73-75  CaptureFallsWithin *)
Definition falls_within (t b e : f64) : bool := fge t b && flt t e.

(** The loops of the Slice methods: for each capture in order,
    [if CaptureFallsWithin(c, beginning, end) { append }]. *)
Fixpoint slice_caps {A} (b e : f64) (l : list (f64 * A)) : list (f64 * A) :=
  match l with
  | [] => []
  | c :: l' =>
      if falls_within (fst c) b e then c :: slice_caps b e l'
      else slice_caps b e l'
  end.
Fixpoint slice_times (b e : f64) (l : list f64) : list f64 :=
  match l with
  | [] => []
  | t :: l' =>
      if falls_within t b e then t :: slice_times b e l' else slice_times b e l'
  end.
(** format/collection/{position/collection.go:35-43, euler/collection.go:35-43,
    float/collection.go:35-43, event/collection.go:35-43,
    enum/collection.go:41-49}.  A foreign collection is assumed to implement
    Slice the way the interface documents it. *)
Definition c_slice (b e : f64) (c : coll) : coll :=
  mkColl (c_name c)
    match c_body c with
    | BPos l => BPos (slice_caps b e l)
    | BEuler l => BEuler (slice_caps b e l)
    | BFloat l => BFloat (slice_caps b e l)
    | BEvent l => BEvent (slice_caps b e l)
    | BEnum ms l => BEnum ms (slice_caps b e l)
    | BOther s ts => BOther s (slice_times b e ts)
    end.

(** A nil collection or recording makes the method calls panic. *)
Section MapRes.
  Context {A B : Type} (f : A -> res B).
  Fixpoint map_res (l : list A) : res (list B) :=
    match l with
    | [] => Ok []
    | x :: l' => do y <- f x; do ys <- map_res l'; Ok (y :: ys)
    end.
End MapRes.

(** format/slice.go:33-69  Slice *)
Fixpoint slice (opts : list slice_opt) (r : recording) : res recording :=
  match r with
  | mkRec id name colls recs md bins refs =>
      let o := slice_opts_of opts in
      do recs' <- map_res (fun c => match c with
                                    | None => Panic
                                    | Some c => do c' <- slice opts c; Ok (Some c')
                                    end) recs;
      do colls' <- map_res (fun c => match c with
                                     | None => Panic
                                     | Some c => Ok (Some (c_slice (so_begin o) (so_end o) c))
                                     end) colls;
      Ok (mkRec id name colls' recs' md (if so_keep o then bins else []) refs)
  end.

(** format/validate.go:7-17 *)
Definition validate_opts_of (l : list bool) : bool := fold_left (fun _ b => b) l true.

(** format/validate.go:43-47: the scan over consecutive captures *)
Fixpoint chrono_scan (prev : f64) (l : list f64) : bool :=
  match l with
  | [] => true
  | t :: l' => if flt t prev then false else chrono_scan t l'
  end.
Definition c_chrono (c : coll) : bool :=
  match c_times c with
  | [] => true
  | t :: l => chrono_scan t l
  end.

(** format/validate.go:20-52  Validate: [Ok true] = nil error, [Ok false] =
    an error, [Panic] = a nil recording or collection was dereferenced. *)
Fixpoint validate (opts : list bool) (r : recording) : res bool :=
  match r with
  | mkRec id name colls recs md bins refs =>
      let require := validate_opts_of opts in
      do ok <- (fix go (l : list (option recording)) : res bool :=
                  match l with
                  | [] => Ok true
                  | None :: _ => Panic
                  | Some c :: l' =>
                      do b <- validate opts c;
                      if b then go l' else Ok false
                  end) recs;
      if ok then
        if require then
          (fix gc (l : list (option coll)) : res bool :=
             match l with
             | [] => Ok true
             | None :: _ => Panic
             | Some c :: l' => if c_chrono c then gc l' else Ok false
             end) colls
        else Ok true
      else Ok false
  end.

(** format/util.go:5-25  RecordingStart (min starts at math.Inf(0), which is
    +Inf) *)
Fixpoint rec_start (r : recording) : res f64 :=
  match r with
  | mkRec id name colls recs md bins refs =>
      do m <- (fix go (l : list (option recording)) (m : f64) : res f64 :=
                 match l with
                 | [] => Ok m
                 | None :: _ => Panic
                 | Some c :: l' =>
                     do x <- rec_start c;
                     go l' (if flt x m then x else m)
                 end) recs fpinf;
      (fix gc (l : list (option coll)) (m : f64) : res f64 :=
         match l with
         | [] => Ok m
         | None :: _ => Panic
         | Some c :: l' =>
             gc l' match c_times c with
                   | [] => m
                   | t :: _ => if flt t m then t else m
                   end
         end) colls m
  end.

(** format/util.go:27-47  RecordingEnd *)
Fixpoint rec_end (r : recording) : res f64 :=
  match r with
  | mkRec id name colls recs md bins refs =>
      do m <- (fix go (l : list (option recording)) (m : f64) : res f64 :=
                 match l with
                 | [] => Ok m
                 | None :: _ => Panic
                 | Some c :: l' =>
                     do x <- rec_end c;
                     go l' (if fgt x m then x else m)
                 end) recs fminf;
      (fix gc (l : list (option coll)) (m : f64) : res f64 :=
         match l with
         | [] => Ok m
         | None :: _ => Panic
         | Some c :: l' =>
             gc l' match c_times c with
                   | [] => m
                   | t :: ts => let x := last ts t in if fgt x m then x else m
                   end
         end) colls m
  end.

(** format/util.go:49-53  RecordingDuration *)
Definition rec_duration (r : recording) : res f64 :=
  do mn <- rec_start r;
  do mx <- rec_end r;
  Ok (fsub mx mn).

(** Structural induction on recordings, through the list of children. *)
Section RecInd.
  Variable P : recording -> Prop.
  Hypothesis H : forall id name colls recs md bins refs,
      (forall c, In (Some c) recs -> P c) ->
      P (mkRec id name colls recs md bins refs).
  Fixpoint recording_ind' (r : recording) : P r :=
    match r with
    | mkRec id name colls recs md bins refs =>
        H id name colls recs md bins refs
          ((fix go (l : list (option recording)) : forall c, In (Some c) l -> P c :=
              match l with
              | [] => fun c (h : In (Some c) []) => match h with end
              | x :: l' => fun c h =>
                  match h with
                  | or_introl e =>
                      match x as x0 return x0 = Some c -> P c with
                      | Some y => fun e0 =>
                          match e0 in _ = z return
                                match z with Some w => P w | None => True end with
                          | eq_refl => recording_ind' y
                          end
                      | None => fun e0 => match e0 in _ = z return
                                match z with Some w => P w | None => True end with
                          | eq_refl => I
                          end
                      end e
                  | or_intror h' => go l' c h'
                  end
              end) recs)
    end.
End RecInd.
