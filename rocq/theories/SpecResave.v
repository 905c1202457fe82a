(** Specification vocabulary for saving a recording again and again. *)
From Verif Require Import Base IO Spec Floats Metadata SpecMeta Recording SpecRec Encoding SpecEnc Writer Reader SpecFile.
Local Open Scope N_scope.

Section History.
(** The compressor and inflater, the registered encoders and the reader of
    version 1. *)
Context (Z : compressor) (IZ : inflater) (reg : list encoder) (v1 : v1_reader).

(** [saved r h a]: [a] is what is in memory after saving [r] and loading it
    back, once with each of the settings [h] (the last one first), whatever
    Write and Read reported.  Files are at most 2^40 bytes long. *)
Inductive saved (r : recording) : list wconfig -> recording -> Prop :=
| S_none : saved r [] r
| S_again : forall h a cfg aA aE n ew file b m er s,
    saved r h a -> rec_equiv a aA -> rec_equiv a aE ->
    write_views cfg Z buffer aA aE a [] = Ok (n, ew, file) -> n <= 2 ^ 40 ->
    read reg v1 IZ flat file = Ok (Some b, m, er, s) ->
    saved r (cfg :: h) b.

(** Settings with which [r] can be saved: valid techniques, an encoder for
    every collection, and a reader that knows them. *)
Definition usable (r : recording) (cfg : wconfig) : Prop :=
  (exists tp te tf, valid_config tp te tf cfg) /\ (w_compress cfg = true -> codec_ok Z IZ) /\
  (forall e, In e (w_encs cfg) -> can_read reg e) /\ ~ unaccepted (w_encs cfg) r.
(** Settings that store every number in 32 or 64 bits. *)
Definition raw (cfg : wconfig) : Prop :=
  w_time cfg < 2 /\ exists tp te tf, tp < 2 /\ te < 2 /\ tf < 2 /\ valid_config tp te tf cfg.
End History.

(** ** Numbers rounded at most once *)
Definition kept (x y : f64) : Prop := y = x \/ y = near32 x.
Definition vec_kept (v w : vec) : Prop := kept (vx v) (vx w) /\ kept (vy v) (vy w) /\ kept (vz v) (vz w).
Definition rounded_once (c d : coll) : Prop :=
  same_but_numbers c d /\ Forall2 kept (c_times c) (c_times d) /\
  match c_body c, c_body d with
  | BPos l, BPos l' | BEuler l, BEuler l' => Forall2 vec_kept (map snd l) (map snd l')
  | BFloat l, BFloat l' => Forall2 kept (map snd l) (map snd l')
  | _, _ => True
  end.
