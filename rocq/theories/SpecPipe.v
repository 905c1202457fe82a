(** Specification vocabulary for the to-json command followed by the from-json
    command. *)
From Coq Require Import Strings.String.
From Verif Require Import Base Floats Metadata Recording Json SpecJson SpecToJson SpecJsonText.
Local Open Scope N_scope.

(** All ids, names and signatures are UTF-8. *)
Definition utf8_coll (c : coll) : Prop :=
  valid_utf8 (c_name c) /\ valid_utf8 (c_sig c) /\
  match c_body c with
  | BEvent l => Forall (fun e => valid_utf8 (fst (snd e))) l
  | _ => True
  end.
Inductive utf8_rec : recording -> Prop :=
| U_rec : forall id name colls recs md bins refs,
    valid_utf8 id -> valid_utf8 name ->
    (forall c, In (Some c) colls -> utf8_coll c) -> (forall r, In (Some r) recs -> utf8_rec r) ->
    utf8_rec (mkRec id name colls recs md bins refs).

(** A tree without collections and without nil sub-recordings. *)
Inductive bare : recording -> Prop :=
| Bare : forall id name recs md bins refs,
    Forall (fun o => exists r, o = Some r /\ bare r) recs -> bare (mkRec id name [] recs md bins refs).

(** The same tree without binaries and binary references. *)
Fixpoint without_binaries (r : recording) : recording :=
  let 'mkRec id name colls recs md _ _ := r in
  mkRec id name colls (map (fun o => match o with Some x => Some (without_binaries x) | None => None end) recs) md [] [].

(** The metadata of every recording of the tree is faithful. *)
Inductive faithful_rec (time_text : Z -> str) (parse_time : str -> option Z) : recording -> Prop :=
| A_rec : forall id name colls recs md bins refs,
    faithful time_text parse_time (PBlock md) ->
    (forall r, In (Some r) recs -> faithful_rec time_text parse_time r) ->
    faithful_rec time_text parse_time (mkRec id name colls recs md bins refs).

(** [depth_at_most n r]: the tree and its metadata, written as JSON, are nested
    at most [n] levels deep; a sub-recording is two levels below. *)
Inductive depth_at_most : nat -> recording -> Prop :=
| L_rec : forall n id name colls recs md bins refs,
    (levels (PBlock md) <= S n)%nat -> (forall r, In (Some r) recs -> depth_at_most n r) ->
    depth_at_most (S (S n)) (mkRec id name colls recs md bins refs).
