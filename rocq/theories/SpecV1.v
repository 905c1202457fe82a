(** Specification vocabulary for version 1 files. *)
From Coq Require Import Strings.String Reals.
From Flocq Require Import IEEE754.Binary.
From Verif Require Import Base Floats SpecFloat Metadata SpecMeta Recording Text SpecText RapV1.
Local Open Scope N_scope.

(** [y] is exactly the number [x]. *)
Definition widened (x : f32) (y : f64) : Prop :=
  match x with
  | B754_nan _ _ _ _ _ => is_nan 53 1024 y = true
  | B754_infinity _ _ s => y = B754_infinity 53 1024 s
  | _ => is_finite 53 1024 y = true /\ B2R 53 1024 y = B2R 24 128 x /\ Bsign 53 1024 y = Bsign 24 128 x
  end.

(** A decimal integer, with a minus sign when negative. *)
Definition spells_int (t : str) (z : Z) : Prop :=
  if (z <? 0)%Z then exists u, t = "-"%byte :: u /\ spells u (Z.to_N (- z)) else spells t (Z.to_N z).

(** The value of a key in a map of strings. *)
Fixpoint assoc (k : str) (m : list (str * str)) : option str :=
  match m with
  | [] => None
  | (k', v) :: m' => if str_eqb k k' then Some v else assoc k m'
  end.
(** [out] has exactly the keys of [m], with the values [f] makes of them. *)
Definition same_keys (f : str -> prop) (m : list (str * str)) (out : block) : Prop :=
  NoDup (map fst out) /\
  forall k, lookup k out = match assoc k m with Some v => Some (f v) | None => None end.

Definition vec_kept (c : v1_vec) (d : f64 * vec) : Prop :=
  widened (vv_time c) (fst d) /\ widened (vv_x c) (vx (snd d)) /\
  widened (vv_y c) (vy (snd d)) /\ widened (vv_z c) (vz (snd d)).
Definition life_kept (c : v1_life) (d : f64 * Z) : Prop :=
  widened (vl_time c) (fst d) /\ vl_type c = snd d.
(** The data of an event, or its contents under the key "value" if it has no
    data; all as strings. *)
Definition event_kept (c : v1_event) (d : f64 * (str * block)) : Prop :=
  widened (ve_time c) (fst d) /\ ve_name c = fst (snd d) /\
  same_keys PString match ve_data c with [] => [(lit "value", ve_contents c)] | l => l end (snd (snd d)).
Definition events_kept (l : list v1_event) (o : option coll) : Prop :=
  exists l', o = Some (mkColl (lit "Custom Event") (BEvent l')) /\ Forall2 event_kept l l'.

Section Subjects.
Context (parse_f32 : str -> option f32).
(** Metadata values that are numbers become floats, the others stay strings. *)
Definition md_value (v : str) : prop := match parse_f32 v with Some f => PFloat f | None => PString v end.
Definition subject_kept (s : v1_subject) (o : option recording) : Prop :=
  exists id pos rot life events md,
    o = Some (mkRec id (vs_name s)
          [Some (mkColl (lit "Position") (BPos pos)); Some (mkColl (lit "Rotation") (BEuler rot)); events;
           Some (mkColl (lit "Life Cycle")
                   (BEnum [lit "START"; lit "ENABLE"; lit "DISABLE"; lit "DESTROY"] life))]
          [] md [] []) /\
    spells_int id (vs_id s) /\ Forall2 vec_kept (vs_pos s) pos /\ Forall2 vec_kept (vs_rot s) rot /\
    events_kept (vs_events s) events /\ Forall2 life_kept (vs_life s) life /\
    same_keys md_value (vs_md s) md.
Definition recording_kept (m : v1_rec) (r : recording) : Prop :=
  exists events subs md,
    r = mkRec (vr_name m) (vr_name m) [events] subs md [] [] /\
    events_kept (vr_events m) events /\ Forall2 subject_kept (vr_subjects m) subs /\
    same_keys md_value (vr_md m) md.
End Subjects.

(** What the protobuf decoder can produce: int32 fields, and maps, whose keys are
    distinct. *)
Definition int32 (z : Z) : Prop := (- 2 ^ 31 <= z < 2 ^ 31)%Z.
Definition event_wf (e : v1_event) : Prop := NoDup (map fst (ve_data e)).
Definition subject_wf (s : v1_subject) : Prop :=
  int32 (vs_id s) /\ Forall (fun l => int32 (vl_type l)) (vs_life s) /\
  NoDup (map fst (vs_md s)) /\ Forall event_wf (vs_events s).
Definition v1_wf (m : v1_rec) : Prop :=
  NoDup (map fst (vr_md m)) /\ Forall event_wf (vr_events m) /\ Forall subject_wf (vr_subjects m).

(** The bytes that follow the version byte of a version 1 file: a count of 1, the size
    of the payload as a 64-bit integer, the payload. *)
Definition v1_frame (payload : bytes) : bytes :=
  bs [1; 0; 0; 0] ++ le_bytes 8 (Z.of_N (lenN payload)) ++ payload.

(** The times of all captures of a message, and those of them that are numbers. *)
Definition subject_times (s : v1_subject) : list f64 :=
  map f64_of_f32 (map vv_time (vs_pos s) ++ map vv_time (vs_rot s) ++ map ve_time (vs_events s) ++ map vl_time (vs_life s)).
Definition v1_times (m : v1_rec) : list f64 :=
  map (fun e => f64_of_f32 (ve_time e)) (vr_events m) ++ flat_map subject_times (vr_subjects m).
Definition numbers (l : list f64) : list f64 := filter (fun t => negb (Binary.is_nan 53 1024 t)) l.
(** The event captures of a collection. *)
Definition coll_events (c : coll) : list (f64 * (str * block)) := match c_body c with BEvent l => l | _ => [] end.
