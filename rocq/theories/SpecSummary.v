(** What the summary counts are supposed to be. *)
From Coq Require Import Strings.String.
From Verif Require Import Base Floats Metadata Recording SpecRec SpecText.

Inductive kind := KPosition | KEuler | KEvent | KEnum | KOther.
(** The kind of a collection: its Go type.  Float collections have no count
    of their own. *)
Definition kind_of (c : coll) : kind :=
  match c_body c with
  | BPos _ => KPosition
  | BEuler _ => KEuler
  | BEvent _ => KEvent
  | BEnum _ _ => KEnum
  | _ => KOther
  end.
Definition kind_eqb (a b : kind) : bool :=
  match a, b with
  | KPosition, KPosition | KEuler, KEuler | KEvent, KEvent | KEnum, KEnum | KOther, KOther => true
  | _, _ => false
  end.
(** All captures of a kind in a tree. *)
Definition captures_of (k : kind) (r : recording) : list (f64 * capval) :=
  flat_map captures (filter (fun c => kind_eqb k (kind_of c)) (tree_colls r)).
(** A line of text that ends in a decimal number. *)
Definition line_with (label : string) (n : nat) (l : str) : Prop :=
  exists t, spells t (N.of_nat n) /\ l = lit label ++ t ++ bs [10]%N.
