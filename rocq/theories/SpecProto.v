(** Specification vocabulary for version 1 messages: the protobuf wire format
    (developers.google.com/protocol-buffers/docs/encoding) and what the fields
    of a message say. *)
From Coq Require Import ZArith.
From Verif Require Import Base IO Spec Floats BinaryIO SpecJsonText RapV1 SpecV1 Proto.
Local Open Scope N_scope.

(** ** The wire format *)
(** Base-128 digits, at most ten of them, for a number of 64 bits. *)
Definition varint (b : bytes) (n : N) : Prop :=
  digits b /\ digits_value b = n /\ (length b <= 10)%nat /\ n < 2 ^ 64.
(** The key of a field: its number and the wire type. *)
Definition tag (b : bytes) (num typ : N) : Prop := 1 <= num /\ typ < 8 /\ varint b (8 * num + typ).
(** Values by wire type, with groups nested at most [depth] deep. *)
Inductive value : N -> N -> N -> wire -> bytes -> Prop :=
| V_varint : forall depth num b n, varint b n -> value depth num 0 (WVar n) b
| V_fixed64 : forall depth num b, lenN b = 8 -> value depth num 1 (WFix64 b) b
| V_len : forall depth num l b, varint l (lenN b) -> value depth num 2 (WLen b) (l ++ b)
| V_group : forall depth num c e, contents depth c -> tag e num 4 -> value (depth + 1) num 3 WGroup (c ++ e)
| V_fixed32 : forall depth num b, lenN b = 4 -> value depth num 5 (WFix32 b) b
with contents : N -> bytes -> Prop :=
| C_end : forall depth, contents depth []
| C_field : forall depth t num typ v b c, tag t num typ -> num < 2 ^ 31 -> value depth num typ v b -> contents depth c ->
    contents depth (t ++ b ++ c).
(** A message: fields with numbers below 2^29. *)
Inductive wire_message : list (N * wire) -> bytes -> Prop :=
| M_end : wire_message [] []
| M_field : forall t num typ v b fs c, tag t num typ -> num < 2 ^ 29 -> value 10001 num typ v b -> wire_message fs c ->
    wire_message ((num, v) :: fs) (t ++ b ++ c).

(** ** What the fields say *)
(** The values of the fields with a given number and wire type; other fields do
    not count. *)
Definition floats (n : N) (fs : list (N * wire)) : list f32 :=
  flat_map (fun f => match snd f with WFix32 b => if fst f =? n then [f32_of_bytes b] else [] | _ => [] end) fs.
Definition varints (n : N) (fs : list (N * wire)) : list N :=
  flat_map (fun f => match snd f with WVar v => if fst f =? n then [v] else [] | _ => [] end) fs.
Definition lens (n : N) (fs : list (N * wire)) : list bytes :=
  flat_map (fun f => match snd f with WLen b => if fst f =? n then [b] else [] | _ => [] end) fs.

(** Single fields: the last one counts, the default is zero.  Texts are UTF-8. *)
Definition float_is n fs (x : f32) : Prop := x = last (floats n fs) f32_0.
Definition text_is n fs (s : str) : Prop := Forall valid_utf8 (lens n fs) /\ s = last (lens n fs) [].
Definition int_is n fs (z : Z) : Prop :=
  int32 z /\ exists k, (Z.of_N (last (varints n fs) 0%N) = z + k * 2 ^ 32)%Z.
(** Repeated messages, in order. *)
Definition all_are {A} (P : list (N * wire) -> A -> Prop) n fs (l : list A) : Prop :=
  Forall2 (fun b x => exists gs, wire_message gs b /\ P gs x) (lens n fs) l.
(** Maps: entries of a key and a value, the last of equal keys counts. *)
Definition map_is n fs (m : list (str * str)) : Prop :=
  exists es, all_are (fun gs e => text_is 1 gs (fst e) /\ text_is 2 gs (snd e)) n fs es /\
    NoDup (map fst m) /\ forall k, assoc k m = assoc k (rev es).

Definition vec_says fs (m : v1_vec) : Prop :=
  float_is 1 fs (vv_time m) /\ float_is 2 fs (vv_x m) /\ float_is 3 fs (vv_y m) /\ float_is 4 fs (vv_z m).
Definition life_says fs (m : v1_life) : Prop := float_is 1 fs (vl_time m) /\ int_is 2 fs (vl_type m).
Definition event_says fs (m : v1_event) : Prop :=
  float_is 1 fs (ve_time m) /\ text_is 2 fs (ve_name m) /\ text_is 3 fs (ve_contents m) /\ map_is 4 fs (ve_data m).
Definition subject_says fs (m : v1_subject) : Prop :=
  int_is 1 fs (vs_id m) /\ text_is 2 fs (vs_name m) /\ map_is 3 fs (vs_md m) /\ all_are event_says 4 fs (vs_events m) /\
  all_are life_says 5 fs (vs_life m) /\ all_are vec_says 6 fs (vs_pos m) /\ all_are vec_says 7 fs (vs_rot m).
Definition recording_says fs (m : v1_rec) : Prop :=
  text_is 1 fs (vr_name m) /\ map_is 2 fs (vr_md m) /\ all_are subject_says 3 fs (vr_subjects m) /\
  all_are event_says 4 fs (vr_events m).
(** [b] is an encoding of the message [m]. *)
Definition encodes (b : bytes) (m : v1_rec) : Prop := exists fs, wire_message fs b /\ recording_says fs m.

(** ** Messages as Go values: maps have no order *)
Definition same_map (a b : list (str * str)) : Prop :=
  NoDup (map fst a) /\ NoDup (map fst b) /\ forall k, assoc k a = assoc k b.
Definition same_event (a b : v1_event) : Prop :=
  ve_time a = ve_time b /\ ve_name a = ve_name b /\ ve_contents a = ve_contents b /\ same_map (ve_data a) (ve_data b).
Definition same_subject (a b : v1_subject) : Prop :=
  vs_id a = vs_id b /\ vs_name a = vs_name b /\ same_map (vs_md a) (vs_md b) /\ Forall2 same_event (vs_events a) (vs_events b) /\
  vs_life a = vs_life b /\ vs_pos a = vs_pos b /\ vs_rot a = vs_rot b.
Definition same_message (a b : v1_rec) : Prop :=
  vr_name a = vr_name b /\ same_map (vr_md a) (vr_md b) /\ Forall2 same_subject (vr_subjects a) (vr_subjects b) /\
  Forall2 same_event (vr_events a) (vr_events b).

(** ** The usual encoding: the fields in the order of their numbers *)
Definition put_tag (num typ : N) : bytes := put_uvarint (8 * num + typ).
Definition put_len (num : N) (b : bytes) : bytes := put_tag num 2 ++ put_uvarint (lenN b) ++ b.
Definition put_float (num : N) (x : f32) : bytes := put_tag num 5 ++ f32_bytes x.
(** Negative numbers are written with 64 bits. *)
Definition put_int (num : N) (z : Z) : bytes := put_tag num 0 ++ put_uvarint (Z.to_N (z mod 2 ^ 64)).
Definition put_map (num : N) (m : list (str * str)) : bytes :=
  concat (map (fun e => put_len num (put_len 1 (fst e) ++ put_len 2 (snd e))) m).
Definition put_all {A} (put : A -> bytes) (num : N) (l : list A) : bytes := concat (map (fun x => put_len num (put x)) l).
Definition put_vec (m : v1_vec) : bytes :=
  put_float 1 (vv_time m) ++ put_float 2 (vv_x m) ++ put_float 3 (vv_y m) ++ put_float 4 (vv_z m).
Definition put_life (m : v1_life) : bytes := put_float 1 (vl_time m) ++ put_int 2 (vl_type m).
Definition put_event (m : v1_event) : bytes :=
  put_float 1 (ve_time m) ++ put_len 2 (ve_name m) ++ put_len 3 (ve_contents m) ++ put_map 4 (ve_data m).
Definition put_subject (m : v1_subject) : bytes :=
  put_int 1 (vs_id m) ++ put_len 2 (vs_name m) ++ put_map 3 (vs_md m) ++ put_all put_event 4 (vs_events m) ++
  put_all put_life 5 (vs_life m) ++ put_all put_vec 6 (vs_pos m) ++ put_all put_vec 7 (vs_rot m).
Definition put_recording (m : v1_rec) : bytes :=
  put_len 1 (vr_name m) ++ put_map 2 (vr_md m) ++ put_all put_subject 3 (vr_subjects m) ++ put_all put_event 4 (vr_events m).
(** All texts of a message are UTF-8. *)
Definition utf8_map (m : list (str * str)) : Prop := Forall (fun e => valid_utf8 (fst e) /\ valid_utf8 (snd e)) m.
Definition utf8_event (e : v1_event) : Prop := valid_utf8 (ve_name e) /\ valid_utf8 (ve_contents e) /\ utf8_map (ve_data e).
Definition utf8_subject (s : v1_subject) : Prop :=
  valid_utf8 (vs_name s) /\ utf8_map (vs_md s) /\ Forall utf8_event (vs_events s).
Definition utf8_message (m : v1_rec) : Prop :=
  valid_utf8 (vr_name m) /\ utf8_map (vr_md m) /\ Forall utf8_subject (vr_subjects m) /\ Forall utf8_event (vr_events m).
