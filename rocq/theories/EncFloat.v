(** Model of format/encoding/float/float.go. *)
From Verif Require Import Base IO Floats BinaryIO Metadata Recording Encoding.
From Verif Require Import EncPosition.
Local Open Scope N_scope.

(** float.go:71-85: range of the values *)
Fixpoint val_range (l : list f64) (mn mx : f64) : f64 * f64 :=
  match l with
  | [] => (mn, mx)
  | v :: l' => val_range l' (fmin_upd mn v) (fmax_upd mx v)
  end.

(** float.go:70-99  encodeBST16 *)
Definition encode_bst16 (l : list f64) : bytes :=
  let (mn, mx) := val_range l fpinf fminf in
  wr32 mn ++ wr32 mx ++ flat_map (fun v => bst_enc 2 v mn (fsub mx mn)) l.

(** float.go:103-130: one stream.  [None] = "capture is not of type float";
    an unknown technique never looks at the captures. *)
Definition float_encode1 (tech : N) (c : coll) : option bytes :=
  match c_body c with
  | BFloat l =>
      let vs := map snd l in
      Some (n2b tech
            :: match tech with
               | 0 => flat_map f64_bytes vs
               | 1 => flat_map wr32 vs
               | 2 => encode_bst16 vs
               | _ => []
               end)
  | _ =>
      match c_times c, (tech <? 3) with
      | _ :: _, true => None
      | _, _ => Some (n2b tech :: (if tech =? 2 then encode_bst16 [] else []))
      end
  end.
Fixpoint float_streams (tech : N) (cs : list coll) : option (list bytes) :=
  match cs with
  | [] => Some []
  | c :: cs' =>
      match float_encode1 tech c with
      | None => None
      | Some b =>
          match float_streams tech cs' with
          | None => None
          | Some l => Some (b :: l)
          end
      end
  end.
(** float.go:101-138  Encode *)
Definition float_encode (tech : N) (cs : list coll) : res (bytes * list bytes * option err) :=
  match float_streams tech cs with
  | None => Ok ([], [], Some ENotCapture)
  | Some l => Ok ([], l, None)
  end.

(** float.go:158-166  decodeRaw64: the variable keeps its value on error *)
Fixpoint float_decode64 (times : list f64) (v : f64) (s : er bytes)
  : res (list (f64 * f64) * er bytes) :=
  match times with
  | [] => Ok ([], s)
  | t :: ts =>
      do (r, s1) <- rd64 (err_reader flat) v s;
      let (v1, _) := r in
      do (l, s2) <- float_decode64 ts v1 s1;
      Ok ((t, v1) :: l, s2)
  end.
(** float.go:168-176  decodeRaw32 *)
Fixpoint float_decode32 (times : list f64) (v : f32) (s : er bytes)
  : res (list (f64 * f64) * er bytes) :=
  match times with
  | [] => Ok ([], s)
  | t :: ts =>
      do (r, s1) <- rd32 (err_reader flat) v s;
      let (v1, _) := r in
      do (l, s2) <- float_decode32 ts v1 s1;
      Ok ((t, f64_of_f32 v1) :: l, s2)
  end.
(** float.go:140-156  decodeBST16: note the float32 subtraction max-min *)
Fixpoint float_decode16 (times : list f64) (start dur : f64) (buf : bytes)
  (s : er bytes) : res (list (f64 * f64) * er bytes) :=
  match times with
  | [] => Ok ([], s)
  | t :: ts =>
      do (pe, s1) <- rread (err_reader flat) 2 s;
      let (p, _) := pe in
      let b1 := fill buf p in
      do (l, s2) <- float_decode16 ts start dur b1 s1;
      Ok ((t, bst_dec start dur b1) :: l, s2)
  end.
Definition float_decode_bst (times : list f64) (s : er bytes)
  : res (list (f64 * f64) * er bytes) :=
  do (r1, s1) <- rd32 (err_reader flat) f32_0 s;
  do (r2, s2) <- rd32 (err_reader flat) f32_0 s1;
  float_decode16 times (f64_of_f32 (fst r1)) (f64_of_f32 (fsub32 (fst r2) (fst r1)))
                 (zeros 2) s2.

(** float.go:178-205  Decode: an unknown technique gives an empty collection
    and no error *)
Definition float_decode (name : str) (header data : bytes) (times : list f64)
  : res (option coll * option err) :=
  match data with
  | [] => Ok (None, Some EEOF)
  | tb :: d =>
      let s := new_er d in
      do (l, s1) <- match b2n tb with
                    | 0 => float_decode64 times f0 s
                    | 1 => float_decode32 times f32_0 s
                    | 2 => float_decode_bst times s
                    | _ => Ok ([], s)
                    end;
      Ok (Some (mkColl name (BFloat l)), er_err s1)
  end.

(** float.go:28-46 *)
Definition float_encoder (tech : N) : encoder :=
  {| e_sig := sig_float;
     e_version := 0;
     e_accepts := fun c => str_eqb (c_sig c) sig_float;
     e_encode := float_encode tech;
     e_decode := float_decode |}.
