(** Specification vocabulary for recordings. *)
From Coq Require Import Sorted.
From Verif Require Import Base Floats Metadata SpecMeta Recording SpecFloat.

(** No nil collection and no nil sub-recording anywhere in the tree. *)
Inductive no_nil : recording -> Prop :=
| NoNil : forall id name colls recs md bins refs,
    (forall o, In o colls -> o <> None) ->
    (forall o, In o recs -> exists c, o = Some c /\ no_nil c) ->
    no_nil (mkRec id name colls recs md bins refs).

(** All collections of a tree, at every depth. *)
Fixpoint tree_colls (r : recording) : list coll :=
  match r with
  | mkRec _ _ colls recs _ _ _ =>
      flat_map (fun o => match o with Some c => [c] | None => [] end) colls ++
      flat_map (fun o => match o with Some c => tree_colls c | None => [] end) recs
  end.
(** All capture times of a tree. *)
Definition tree_times (r : recording) : list f64 := flat_map c_times (tree_colls r).

Definition is_nan (t : f64) : bool := Binary.is_nan 53 1024 t.
Definition nan_free (r : recording) : Prop := forall t, In t (tree_times r) -> is_nan t = false.

(** ** Slicing *)

(** begin <= t < end, IEEE comparisons *)
Definition within (b e t : f64) : bool := fle b t && flt t e.

(** [c'] is [c] with exactly the captures in [b,e), in the same order. *)
Definition kept {A} (b e : f64) (l : list (f64 * A)) : list (f64 * A) :=
  filter (fun c => within b e (fst c)) l.
Definition coll_sliced (b e : f64) (c c' : coll) : Prop :=
  c_name c' = c_name c /\
  match c_body c, c_body c' with
  | BPos l, BPos l' => l' = kept b e l
  | BEuler l, BEuler l' => l' = kept b e l
  | BFloat l, BFloat l' => l' = kept b e l
  | BEvent l, BEvent l' => l' = kept b e l
  | BEnum ms l, BEnum ms' l' => ms' = ms /\ l' = kept b e l
  | BOther s l, BOther s' l' => s' = s /\ l' = filter (within b e) l
  | _, _ => False
  end.

(** The same tree, with every collection sliced and binaries kept or dropped. *)
Inductive sliced (b e : f64) (keep : bool) : recording -> recording -> Prop :=
| Sliced : forall id name colls colls' recs recs' md bins refs,
    Forall2 (fun o o' => exists c c', o = Some c /\ o' = Some c' /\ coll_sliced b e c c')
            colls colls' ->
    Forall2 (fun o o' => exists c c', o = Some c /\ o' = Some c' /\ sliced b e keep c c')
            recs recs' ->
    sliced b e keep
      (mkRec id name colls recs md bins refs)
      (mkRec id name colls' recs' md (if keep then bins else []) refs).

(** The last option of each kind decides; without one the default holds. *)
Fixpoint begin_opt (d : f64) (l : list slice_opt) : f64 :=
  match l with
  | [] => d
  | BeginningOfSlice t :: l' => begin_opt t l'
  | _ :: l' => begin_opt d l'
  end.
Fixpoint end_opt (d : f64) (l : list slice_opt) : f64 :=
  match l with
  | [] => d
  | EndOfSlice t :: l' => end_opt t l'
  | _ :: l' => end_opt d l'
  end.
Fixpoint keep_opt (d : bool) (l : list slice_opt) : bool :=
  match l with
  | [] => d
  | KeepBinariesInSlice b :: l' => keep_opt b l'
  | _ :: l' => keep_opt d l'
  end.

(** ** Chronology *)

(** No capture is earlier than its predecessor. *)
Definition chronological (c : coll) : Prop :=
  forall i t u, nth_error (c_times c) i = Some t -> nth_error (c_times c) (S i) = Some u ->
    flt u t = false.
(** Every capture is no earlier than every capture before it. *)
Definition time_sorted (c : coll) : Prop :=
  StronglySorted (fun t u => fle t u = true) (c_times c).

(** [m] is a least (greatest) element of [l]. *)
Definition least (m : f64) (l : list f64) : Prop := In m l /\ forall t, In t l -> fle m t = true.
Definition greatest (m : f64) (l : list f64) : Prop := In m l /\ forall t, In t l -> fle t m = true.

(** The captures of a collection of any kind: times with their values. *)
Inductive capval := VVec (v : vec) | VFloat (f : f64) | VEvent (n : str) (m : block)
                  | VEnum (z : Z) | VNone.
Definition captures (c : coll) : list (f64 * capval) :=
  match c_body c with
  | BPos l => map (fun x => (fst x, VVec (snd x))) l
  | BEuler l => map (fun x => (fst x, VVec (snd x))) l
  | BFloat l => map (fun x => (fst x, VFloat (snd x))) l
  | BEvent l => map (fun x => (fst x, VEvent (fst (snd x)) (snd (snd x)))) l
  | BEnum _ l => map (fun x => (fst x, VEnum (snd x))) l
  | BOther _ l => map (fun x => (x, VNone)) l
  end.

(** ** Well-formed collections: what a program can build with the library's
    constructors.  A foreign collection type must not pretend to be one of
    the built-in kinds. *)
Definition builtin_sigs : list str := [sig_position; sig_euler; sig_float; sig_event; sig_enum].
Definition wf_coll (c : coll) : Prop :=
  match c_body c with
  | BEvent l => Forall (fun x => built_block (snd (snd x))) l
  | BEnum _ l => Forall (fun x => (- 2 ^ 63 <= snd x < 2 ^ 63)%Z) l
  | BOther s _ => ~ In s builtin_sigs
  | _ => True
  end.

(** The same collection with other capture times. *)
Definition retime (ts : list f64) (c : coll) : coll :=
  mkColl (c_name c)
    match c_body c with
    | BPos l => BPos (combine ts (map snd l))
    | BEuler l => BEuler (combine ts (map snd l))
    | BFloat l => BFloat (combine ts (map snd l))
    | BEvent l => BEvent (combine ts (map snd l))
    | BEnum ms l => BEnum ms (combine ts (map snd l))
    | BOther s _ => BOther s ts
    end.

(** Equality of collections as Go values: blocks are maps. *)
Definition coll_equiv (c c' : coll) : Prop :=
  match c_body c, c_body c' with
  | BEvent l, BEvent l' =>
      c_name c = c_name c' /\
      Forall2 (fun x y => fst x = fst y /\ fst (snd x) = fst (snd y) /\
                          block_equiv (snd (snd x)) (snd (snd y))) l l'
  | _, _ => c = c'
  end.
