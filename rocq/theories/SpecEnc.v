(** Specification vocabulary for encoders. *)
From Verif Require Import Base Floats Recording SpecRec Encoding.
Local Open Scope N_scope.

(** [lawful E post]: the encoder [E] encodes every list of well-formed
    collections it accepts, and decoding a stream with the shared header and
    any list of capture times of the right length yields [post times c], no
    error.  Sizes are bounded by what Go can allocate. *)
Definition lawful (E : encoder) (post : list f64 -> coll -> coll) : Prop :=
  forall cs, Forall (fun c => wf_coll c /\ e_accepts E c = true) cs ->
  exists h ss, e_encode E cs = Ok (h, ss, None) /\ length ss = length cs /\
    (lenN h <= 2 ^ 44 ->
     forall i c s, nth_error cs i = Some c -> nth_error ss i = Some s -> lenN s <= 2 ^ 44 ->
     forall times, length times = c_length c ->
       e_decode E (c_name c) h s times = Ok (Some (post times c), None)).

(** ** What the numeric encoders return for given values *)

(** the nearest 32-bit float, as Go's [float64(float32(x))] *)
Definition near32 (x : f64) : f64 := f64_of_f32 (f32_of_f64 x).
Definition vmap (f : f64 -> f64) (v : vec) : vec := mkVec (f (vx v)) (f (vy v)) (f (vz v)).
