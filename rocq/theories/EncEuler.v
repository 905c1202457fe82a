(** Model of format/encoding/euler. *)
From Verif Require Import Base IO Floats BinaryIO Metadata Recording Encoding.
From Verif Require Import EncPosition.
Local Open Scope N_scope.

(** raw16.go:12-14  wrapEulerAngle *)
Definition wrap_angle (a : f64) : f64 := fsub a (fmul f360 (ffloor (fdiv a f360))).

(** raw16.go:16-42  encodeRaw16 *)
Definition enc16 (a : f64) : bytes := bst_enc 2 (wrap_angle a) f0 f360.
Definition enc16v (v : vec) : bytes := enc16 (vx v) ++ enc16 (vy v) ++ enc16 (vz v).
Definition encode_raw16 (l : list vec) : bytes :=
  match l with
  | [] => []
  | [v] => wr32 (wrap_angle (vx v)) ++ wr32 (wrap_angle (vy v)) ++ wr32 (wrap_angle (vz v))
  | _ => flat_map enc16v l
  end.

(** raw64.go:11-25  encodeRaw64: the buffer has binary.MaxVarintLen64 = 10
    bytes, of which PutUint64 sets the first eight *)
Definition wr80 (x : f64) : bytes := f64_bytes x ++ [x00; x00].
Definition euler_raw64 (l : list vec) : bytes :=
  flat_map (fun v => wr80 (vx v) ++ wr80 (vy v) ++ wr80 (vz v)) l.

(** euler.go:38-41 *)
Definition euler_caps (c : coll) : option (list (f64 * vec)) :=
  match c_body c with
  | BEuler l => Some l
  | _ => match c_times c with [] => Some [] | _ => None end
  end.

(** euler.go:35-58  encode (raw32.go:10-18 is [encode_raw32]) *)
Definition euler_encode1 (tech : N) (c : coll) : res bytes :=
  match euler_caps c with
  | None => Panic
  | Some l =>
      let ps := map snd l in
      Ok (n2b tech
          :: match tech with
             | 0 => euler_raw64 ps
             | 1 => encode_raw32 ps
             | 2 => encode_raw16 ps
             | _ => []
             end)
  end.
(** euler.go:60-72  Encode *)
Definition euler_encode (tech : N) (cs : list coll) : res (bytes * list bytes * option err) :=
  do l <- map_res (euler_encode1 tech) cs;
  Ok ([], l, None).

(** raw64.go:27-55  decodeRaw64: Float64frombits looks at the first 8 bytes *)
Definition f64_front (b : bytes) : f64 := f64_of_bytes (takeN 8 b).
Fixpoint euler_decode64 (times : list f64) (buf d : bytes)
  : option (list (f64 * vec)) :=
  match times with
  | [] => Some []
  | t :: ts =>
      match flat_read buf d with
      | None => None
      | Some (b1, d1) =>
          match flat_read b1 d1 with
          | None => None
          | Some (b2, d2) =>
              match flat_read b2 d2 with
              | None => None
              | Some (b3, d3) =>
                  match euler_decode64 ts b3 d3 with
                  | None => None
                  | Some l =>
                      Some ((t, mkVec (f64_front b1) (f64_front b2) (f64_front b3)) :: l)
                  end
              end
          end
      end
  end.

(** raw32.go:20-34  decodeRaw32: the variables live outside the loop, so a
    failed read repeats the previous value *)
Fixpoint euler_decode32 (times : list f64) (x y z : f32) (d : bytes)
  : res (list (f64 * vec)) :=
  match times with
  | [] => Ok []
  | t :: ts =>
      do (r, d1) <- rd32v flat x y z d;
      let '(x1, y1, z1, _) := r in
      do l <- euler_decode32 ts x1 y1 z1 d1;
      Ok ((t, vec_of32 x1 y1 z1) :: l)
  end.

(** raw16.go:57-68 *)
Definition dec16 (b : bytes) : f64 := bst_dec f0 f360 b.
Fixpoint euler_decode16 (times : list f64) (buf d : bytes) : list (f64 * vec) :=
  match times with
  | [] => []
  | t :: ts =>
      let (b1, d1) := flat_read_ buf d in
      let (b2, d2) := flat_read_ b1 d1 in
      let (b3, d3) := flat_read_ b2 d2 in
      (t, mkVec (dec16 b1) (dec16 b2) (dec16 b3)) :: euler_decode16 ts b3 d3
  end.
(** raw16.go:44-71  decodeRaw16 *)
Definition decode_raw16 (times : list f64) (d : bytes)
  : res (list (f64 * vec) * option err) :=
  match times with
  | [t] =>
      do (r, _) <- rd32v flat f32_0 f32_0 f32_0 d;
      let '(x, y, z, e) := r in
      Ok ([(t, vec_of32 x y z)], e)
  | _ => Ok (euler_decode16 times (zeros 2) d, None)
  end.

(** euler.go:74-112  decode, Decode *)
Definition euler_decode (name : str) (header data : bytes) (times : list f64)
  : res (option coll * option err) :=
  match data with
  | [] => Ok (None, Some EEOF)
  | tb :: d =>
      match b2n tb with
      | 0 =>
          match euler_decode64 times (zeros 10) d with
          | None => Ok (None, Some EEOF)
          | Some l => Ok (Some (mkColl name (BEuler l)), None)
          end
      | 1 =>
          do l <- euler_decode32 times f32_0 f32_0 f32_0 d;
          Ok (Some (mkColl name (BEuler l)), None)
      | 2 =>
          do r <- decode_raw16 times d;
          match r with
          | (_, Some e) => Ok (None, Some e)
          | (l, None) => Ok (Some (mkColl name (BEuler l)), None)
          end
      | t => Ok (None, Some (EBadTechnique t))
      end
  end.

(** euler.go:27-33, 114-124 *)
Definition euler_encoder (tech : N) : encoder :=
  {| e_sig := sig_euler;
     e_version := 0;
     e_accepts := fun c => str_eqb (c_sig c) sig_euler;
     e_encode := euler_encode tech;
     e_decode := euler_decode |}.
