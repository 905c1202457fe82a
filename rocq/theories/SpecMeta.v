(** Specification vocabulary for metadata: which properties a program can
    build with the package's constructors, and equality up to the order in
    which Go happens to iterate over maps. *)
From Coq Require Import Permutation.
From Verif Require Import Base BinaryIO Floats Metadata.
Local Open Scope N_scope.

(** [built p]: [p] is the value of some composition of
    format/metadata/property.go's constructors (lines 35, 75, 128, 181, 242,
    302, 377, 457, 545, 662-713, 806, 814).  Keys of a map are distinct; an
    array holds elements of the kind its constructor names.  (The bytes of a
    bool array read from a file may be others than 0 and 1.) *)
Fixpoint built (p : prop) : Prop :=
  match p with
  | PString _ | PFloat _ | PBool _ | PByte _ | PVec2 _ _ | PVec3 _ _ _ => True
  | PInt z => (- 2 ^ 31 <= z < 2 ^ 31)%Z
  | PTime us => (- 2 ^ 63 <= us < 2 ^ 63)%Z
  | PBlock m =>
      NoDup (map fst m) /\
      (fix all (l : block) : Prop :=
         match l with
         | [] => True
         | kv :: l' => built (snd kv) /\ all l'
         end) m
  | PArray base ps =>
      In base [0; 1; 2; 6; 7; 11; 12] /\
      (fix all (l : list prop) : Prop :=
         match l with
         | [] => True
         | v :: l' => (prop_code v = Ok base /\ built v) /\ all l'
         end) ps
  | PRaw base d =>
      (exists x, p = new_binary_array x) \/ (exists x, p = PRaw 3 (bytes_array_to_bytes x))
  | PNil => False
  end.
Definition built_block (m : block) : Prop := built (PBlock m).

(** Equality of properties as Go values: blocks are maps, so the order of
    their entries is irrelevant, at every depth. *)
Inductive prop_equiv : prop -> prop -> Prop :=
| PE_same : forall p, prop_equiv p p
| PE_block : forall m1 m2, block_equiv m1 m2 -> prop_equiv (PBlock m1) (PBlock m2)
| PE_array : forall base ps qs, props_equiv ps qs -> prop_equiv (PArray base ps) (PArray base qs)
with block_equiv : block -> block -> Prop :=
| BE : forall m1 m m2, Permutation m1 m -> entries_equiv m m2 -> block_equiv m1 m2
with entries_equiv : block -> block -> Prop :=
| EE_nil : entries_equiv [] []
| EE_cons : forall k v w m n, prop_equiv v w -> entries_equiv m n ->
    entries_equiv ((k, v) :: m) ((k, w) :: n)
with props_equiv : list prop -> list prop -> Prop :=
| PSE_nil : props_equiv [] []
| PSE_cons : forall v w ps qs, prop_equiv v w -> props_equiv ps qs ->
    props_equiv (v :: ps) (w :: qs).

(** Looking a key up in a map. *)
Fixpoint lookup (k : str) (m : block) : option prop :=
  match m with
  | [] => None
  | (k', v) :: m' => if str_eqb k k' then Some v else lookup k m'
  end.
Definition opt_equiv (a b : option prop) : Prop :=
  match a, b with
  | None, None => True
  | Some v, Some w => prop_equiv v w
  | _, _ => False
  end.
