(** Specification vocabulary for the command line tool. *)
From Verif Require Import Base IO Floats Recording SpecRec Writer Reader SpecFile RapV1 SpecV1 Cli.
Local Open Scope N_scope.

(** A collection is what its signature says. *)
Definition genuine (c : coll) : Prop :=
  match c_body c with BOther s _ => ~ In s builtin_sigs | _ => True end.
(** A destination that takes whatever it is given. *)
Definition takes_all {S} (W : Writer S) : Prop := forall p s, exists s', wwrite W p s = (lenN p, None, s').

(** The bytes that a command reads: a file that may be opened, or standard input. *)
Definition input (sys : system) (w : world) (from : option str) (d : bytes) : Prop :=
  match from with
  | Some p => may_open sys p = true /\ files w p = Some d
  | None => stdin w = d
  end.
(** The file at [p] is not what it was, or was being written. *)
Definition changed (w : world) (o : outcome) (p : str) : Prop :=
  match o with
  | Exit _ w' => files w' p <> files w p
  | Crashed f unfinished => f p <> files w p \/ unfinished = Some p
  | Hung => False
  end.
(** [w'] is [w] with more on standard output. *)
Definition printed (w : world) (t : bytes) (w' : world) : Prop :=
  files w' = files w /\ stdin w' = stdin w /\ stdout w' = stdout w ++ t.
(** [w'] is [w] except that the file [p] now has the contents [d]. *)
Definition written (w : world) (p : str) (d : option bytes) (w' : world) : Prop :=
  files w' p = d /\ (forall q, q <> p -> files w' q = files w q) /\ stdin w' = stdin w /\ stdout w' = stdout w.
(** Loading is what C26, C27, C53 and C55 are about: the version 1 reader with some
    decoder of messages, an inflater that ends, and maps in any order. *)
Record usual (rt : runtime) (parse_f32 : str -> option f32) (inflate : bytes -> option bytes) (unmarshal : bytes -> option v1_rec) : Prop := {
  usual_v1 : rt_v1 rt = read_v1 parse_f32 inflate unmarshal;
  usual_messages : forall x m, unmarshal x = Some m -> v1_wf m;
  usual_ends : inflation_ends (rt_iz rt);
  usual_orders : forall r, rec_view r (fst (rt_orders rt r)) /\ rec_view r (snd (rt_orders rt r)) }.
(** Load returns [r] for the bytes [d]. *)
Definition loads (rt : runtime) (d : bytes) (r : recording) : Prop :=
  exists n s, read load_encoders (rt_v1 rt) (rt_iz rt) flat d = Ok (Some r, n, None, s).
