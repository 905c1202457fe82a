(** Specification vocabulary for what Read may return. *)
From Verif Require Import Base Recording SpecRec SpecFile.

(** Well formed, except that collections may be missing. *)
Inductive wf_but_colls : recording -> Prop :=
| WfBut : forall id name colls recs md bins refs,
    Forall (fun o => o = None \/ given wf_coll o) colls -> Forall (given wf_but_colls) recs ->
    SpecMeta.built_block md -> Forall (given wf_bin) bins -> Forall (given wf_ref) refs ->
    wf_but_colls (mkRec id name colls recs md bins refs).
(** Somewhere in the tree a collection is missing. *)
Definition coll_missing (r : recording) : Prop := exists c, inside c r /\ In None (rec_colls c).
(** Every collection that is there, at any depth, is [P]. *)
Definition kinds (P : coll -> Prop) (r : recording) : Prop :=
  forall c x, inside c r -> In (Some x) (rec_colls c) -> P x.
(** Some encoder of the list accepts the collection. *)
Definition taken (es : list Encoding.encoder) (x : coll) : Prop := exists e, In e es /\ Encoding.e_accepts e x = true.
(** The kinds of collections that version 1 files hold. *)
Definition old_kind (x : coll) : Prop := In (c_sig x) [sig_position; sig_euler; sig_event; sig_enum].
(** One of the library's encoders, whatever its technique. *)
Definition library (e : Encoding.encoder) : Prop := exists tp te tf, builtin tp te tf e.

(** [opened reg v1 IZ d r]: over some transport that delivered the bytes [d],
    Read returned [r] and no error. *)
Definition opened (reg : list Encoding.encoder) (v1 : Reader.v1_reader) (IZ : Reader.inflater) (d : bytes) (r : recording) : Prop :=
  exists S (R : IO.Reader S) eager I s n s', Spec.delivers R eager I /\ I s d /\
    Reader.read reg v1 IZ R s = Ok (Some r, n, None, s').
