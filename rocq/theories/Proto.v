(** Model of proto.Unmarshal (github.com/golang/protobuf v1.5.3 on
    google.golang.org/protobuf v1.30.0, go.mod:9,21) for the messages of
    internal/io/rapv1/recording.pb.go, from what is known of that
    library's source (it is not in /repo).  It
    decodes field by field; here the fields are separated first and interpreted
    afterwards, which gives the same message or an error in the same cases. *)
From Verif Require Import Base IO Floats BinaryIO Metadata Recording Text Quote RapV1.
Local Open Scope N_scope.

(** protowire/wire.go ConsumeVarint: at most ten bytes, the tenth at most 1 *)
Fixpoint consume_varint (i : nat) (b : bytes) : option (N * bytes) :=
  match i, b with
  | S i', c :: b' =>
      let v := b2n c in
      match i' with
      | O => if v <? 2 then Some (v, b') else None
      | S _ =>
          if v <? 128 then Some (v, b')
          else match consume_varint i' b' with
               | Some (w, r) => Some (v - 128 + 128 * w, r)
               | None => None
               end
      end
  | _, _ => None
  end.
(** wire.go ConsumeTag, DecodeTag: the number of the field and its wire type *)
Definition consume_tag (b : bytes) : option (N * N * bytes) :=
  match consume_varint 10 b with
  | Some (x, r) =>
      let num := x / 8 in
      if (1 <=? num) && (num <=? 2147483647) then Some (num, x mod 8, r) else None
  | None => None
  end.
(** wire.go ConsumeFixed32, ConsumeFixed64, ConsumeBytes *)
Definition consume (n : N) (b : bytes) : option (bytes * bytes) :=
  if n <=? lenN b then Some (firstn (N.to_nat n) b, skipn (N.to_nat n) b) else None.
Definition consume_bytes (b : bytes) : option (bytes * bytes) :=
  match consume_varint 10 b with Some (n, r) => consume n r | None => None end.

(** The value of a field by its wire type; what is in a group is skipped. *)
Inductive wire := WVar (n : N) | WFix64 (b : bytes) | WLen (b : bytes) | WGroup | WFix32 (b : bytes).
Definition only {A B C} (f : A -> C) (o : option (A * B)) : option (C * B) :=
  match o with Some (a, b) => Some (f a, b) | None => None end.
(** wire.go consumeFieldValueD: [depth] groups may still be opened *)
Fixpoint consume_value (fuel : nat) (depth num typ : N) (b : bytes) : option (wire * bytes) :=
  match fuel with
  | O => None
  | S fuel' =>
      if typ =? 0 then only WVar (consume_varint 10 b)
      else if typ =? 1 then only WFix64 (consume 8 b)
      else if typ =? 2 then only WLen (consume_bytes b)
      else if typ =? 3 then
        if depth =? 0 then None
        else match consume_group fuel' (depth - 1) num b with Some r => Some (WGroup, r) | None => None end
      else if typ =? 5 then only WFix32 (consume 4 b)
      else None
  end
with consume_group (fuel : nat) (depth num : N) (b : bytes) : option bytes :=
  match fuel with
  | O => None
  | S fuel' =>
      match consume_tag b with
      | None => None
      | Some (num2, typ2, b1) =>
          if typ2 =? 4 then if num2 =? num then Some b1 else None
          else match consume_value fuel' depth num2 typ2 b1 with
               | Some (_, b2) => consume_group fuel' depth num b2
               | None => None
               end
      end
  end.
(** impl/decode.go unmarshalPointer: the loop over the fields.  The fuel is what
    [consume_value] can use up, two for each byte. *)
Definition max_groups : N := 10001.
Fixpoint fields (fuel : nat) (b : bytes) : option (list (N * wire)) :=
  match b with
  | [] => Some []
  | _ :: _ =>
      match fuel with
      | O => None
      | S fuel' =>
          match consume_tag b with
          | None => None
          | Some (num, typ, b1) =>
              if 536870911 <? num then None
              else match consume_value (2 * length b1 + 2) max_groups num typ b1 with
                   | None => None
                   | Some (v, b2) =>
                       match fields fuel' b2 with Some fs => Some ((num, v) :: fs) | None => None end
                   end
          end
      end
  end.
Fixpoint fold_fields {A} (step : A -> N * wire -> option A) (m : A) (fs : list (N * wire)) : option A :=
  match fs with
  | [] => Some m
  | f :: fs' => match step m f with Some m' => fold_fields step m' fs' | None => None end
  end.
Definition decode_message {A} (step : A -> N * wire -> option A) (zero : A) (b : bytes) : option A :=
  match fields (length b) b with Some fs => fold_fields step zero fs | None => None end.

(** utf8.Valid (standard library); [k] bytes of a code point are still to come *)
Fixpoint utf8_from (k : nat) (s : str) : bool :=
  match s with
  | [] => true
  | _ :: s' =>
      match k with
      | S k' => utf8_from k' s'
      | O => match rune_size s with O => false | S n => utf8_from n s' end
      end
  end.
Definition utf8_check (s : str) : option str := if utf8_from 0 s then Some s else None.
Definition omap {A B} (o : option A) (f : A -> B) : option B :=
  match o with Some a => Some (f a) | None => None end.
(** int32(v) *)
Definition int32_of (v : N) : Z := signed 32 (Z.of_N v mod 2 ^ 32)%Z.

(** impl/codec_map.go consumeMap: one entry, then an assignment to the map *)
Definition entry_field (e : str * str) (f : N * wire) : option (str * str) :=
  match f with
  | (1, WLen b) => omap (utf8_check b) (fun s => (s, snd e))
  | (2, WLen b) => omap (utf8_check b) (fun s => (fst e, s))
  | _ => Some e
  end.
Fixpoint put_entry (k v : str) (m : list (str * str)) : list (str * str) :=
  match m with
  | [] => [(k, v)]
  | (k', v') :: m' => if str_eqb k k' then (k, v) :: m' else (k', v') :: put_entry k v m'
  end.
Definition add_entry (b : bytes) (m : list (str * str)) : option (list (str * str)) :=
  omap (decode_message entry_field ([], []) b) (fun e => put_entry (fst e) (snd e) m).

(** impl/codec_gen.go consumeFloat, consumeInt32, consumeEnum,
    consumeStringValidateUTF8, impl/codec_field.go consumeMessageSliceInfo, for
    the fields of the five messages: internal/io/rapv1/recording.pb.go:334-337 *)
Definition vec_field (m : v1_vec) (f : N * wire) : option v1_vec :=
  match f with
  | (1, WFix32 b) => Some (mkV1Vec (f32_of_bytes b) (vv_x m) (vv_y m) (vv_z m))
  | (2, WFix32 b) => Some (mkV1Vec (vv_time m) (f32_of_bytes b) (vv_y m) (vv_z m))
  | (3, WFix32 b) => Some (mkV1Vec (vv_time m) (vv_x m) (f32_of_bytes b) (vv_z m))
  | (4, WFix32 b) => Some (mkV1Vec (vv_time m) (vv_x m) (vv_y m) (f32_of_bytes b))
  | _ => Some m
  end.
Definition decode_vec : bytes -> option v1_vec := decode_message vec_field (mkV1Vec f32_0 f32_0 f32_0 f32_0).
(** internal/io/rapv1/recording.pb.go:283-284 *)
Definition life_field (m : v1_life) (f : N * wire) : option v1_life :=
  match f with
  | (1, WFix32 b) => Some (mkV1Life (f32_of_bytes b) (vl_type m))
  | (2, WVar v) => Some (mkV1Life (vl_time m) (int32_of v))
  | _ => Some m
  end.
Definition decode_life : bytes -> option v1_life := decode_message life_field (mkV1Life f32_0 0).
(** internal/io/rapv1/recording.pb.go:216-219 *)
Definition event_field (m : v1_event) (f : N * wire) : option v1_event :=
  match f with
  | (1, WFix32 b) => Some (mkV1Event (f32_of_bytes b) (ve_name m) (ve_contents m) (ve_data m))
  | (2, WLen b) => omap (utf8_check b) (fun s => mkV1Event (ve_time m) s (ve_contents m) (ve_data m))
  | (3, WLen b) => omap (utf8_check b) (fun s => mkV1Event (ve_time m) (ve_name m) s (ve_data m))
  | (4, WLen b) => omap (add_entry b (ve_data m)) (mkV1Event (ve_time m) (ve_name m) (ve_contents m))
  | _ => Some m
  end.
Definition decode_event : bytes -> option v1_event := decode_message event_field (mkV1Event f32_0 [] [] []).
(** internal/io/rapv1/recording.pb.go:125-131 *)
Definition subject_field (m : v1_subject) (f : N * wire) : option v1_subject :=
  let (id, name, md, events, life, pos, rot) := m in
  match f with
  | (1, WVar v) => Some (mkV1Subject (int32_of v) name md events life pos rot)
  | (2, WLen b) => omap (utf8_check b) (fun s => mkV1Subject id s md events life pos rot)
  | (3, WLen b) => omap (add_entry b md) (fun md => mkV1Subject id name md events life pos rot)
  | (4, WLen b) => omap (decode_event b) (fun x => mkV1Subject id name md (events ++ [x]) life pos rot)
  | (5, WLen b) => omap (decode_life b) (fun x => mkV1Subject id name md events (life ++ [x]) pos rot)
  | (6, WLen b) => omap (decode_vec b) (fun x => mkV1Subject id name md events life (pos ++ [x]) rot)
  | (7, WLen b) => omap (decode_vec b) (fun x => mkV1Subject id name md events life pos (rot ++ [x]))
  | _ => Some m
  end.
Definition decode_subject : bytes -> option v1_subject := decode_message subject_field (mkV1Subject 0 [] [] [] [] [] []).
(** internal/io/rapv1/recording.pb.go:58-61 *)
Definition recording_field (m : v1_rec) (f : N * wire) : option v1_rec :=
  let (name, md, subjects, events) := m in
  match f with
  | (1, WLen b) => omap (utf8_check b) (fun s => mkV1Rec s md subjects events)
  | (2, WLen b) => omap (add_entry b md) (fun md => mkV1Rec name md subjects events)
  | (3, WLen b) => omap (decode_subject b) (fun x => mkV1Rec name md (subjects ++ [x]) events)
  | (4, WLen b) => omap (decode_event b) (fun x => mkV1Rec name md subjects (events ++ [x]))
  | _ => Some m
  end.
(** proto.Unmarshal(data, &Recording{}), util.go:184-186 *)
Definition proto_unmarshal : bytes -> option v1_rec := decode_message recording_field (mkV1Rec [] [] [] []).
