(** Model of format/encoding/position. *)
From Verif Require Import Base IO Floats BinaryIO Metadata Recording Encoding.
Local Open Scope N_scope.

(** github.com/EliCDavis/vector: componentwise Add, Sub, DivByConstant *)
Definition vadd (a b : vec) := mkVec (fadd (vx a) (vx b)) (fadd (vy a) (vy b)) (fadd (vz a) (vz b)).
Definition vsub (a b : vec) := mkVec (fsub (vx a) (vx b)) (fsub (vy a) (vy b)) (fsub (vz a) (vz b)).
Definition vhalf (a : vec) := mkVec (fdiv (vx a) f2) (fdiv (vy a) f2) (fdiv (vz a) f2).

(** oct.go:7-19: an OctCell is topBit<<2 | rightBit<<1 | forwardBit *)
Definition cell_of (top right fwd : bool) : N :=
  (if top then 4 else 0) + (if right then 2 else 0) + (if fwd then 1 else 0).

(** oct.go:21-55  Vec3ToOctCells: the loop *)
Fixpoint oct_enc_loop (k : nat) (v c : vec) (ix iy iz : f64) : list N :=
  match k with
  | O => []
  | S k' =>
      let top := flt (vy v) (vy c) in
      let newY := if top then fsub (vy c) iy else fadd (vy c) iy in
      let right := flt (vx v) (vx c) in
      let newX := if right then fsub (vx c) ix else fadd (vx c) ix in
      let fwd := flt (vz v) (vz c) in
      let newZ := if fwd then fsub (vz c) iz else fadd (vz c) iz in
      cell_of top right fwd
        :: oct_enc_loop k' v (mkVec newX newY newZ) (fdiv ix f2) (fdiv iy f2) (fdiv iz f2)
  end.
Definition oct_enc (k : nat) (v mn mx : vec) : list N :=
  let cs := vsub mx mn in
  oct_enc_loop k v (vhalf (vadd mn mx)) (fdiv (vx cs) f4) (fdiv (vy cs) f4) (fdiv (vz cs) f4).

(** oct.go:57-85  OctCellsToVec3 *)
Fixpoint oct_dec_loop (cells : list N) (c : vec) (ix iy iz : f64) : vec :=
  match cells with
  | [] => c
  | x :: xs =>
      let newY := if N.land x 4 =? 0 then fadd (vy c) iy else fsub (vy c) iy in
      let newX := if N.land x 2 =? 0 then fadd (vx c) ix else fsub (vx c) ix in
      let newZ := if N.land x 1 =? 0 then fadd (vz c) iz else fsub (vz c) iz in
      oct_dec_loop xs (mkVec newX newY newZ) (fdiv ix f2) (fdiv iy f2) (fdiv iz f2)
  end.
Definition oct_dec (mn mx : vec) (cells : list N) : vec :=
  let cs := vsub mx mn in
  oct_dec_loop cells (vhalf (vadd mn mx)) (fdiv (vx cs) f4) (fdiv (vy cs) f4) (fdiv (vz cs) f4).

(** oct24.go:12-22  octCellsToBytes24: bit i of byte j is bit j of cell i *)
Fixpoint pack_plane (j : N) (i : N) (cells : list N) : N :=
  match cells with
  | [] => 0
  | c :: cs =>
      N.lor (N.shiftl (N.shiftr (N.land c (N.shiftl 1 j)) j) i) (pack_plane j (i + 1) cs)
  end.
Definition cells_to_bytes24 (cells : list N) : bytes :=
  let l := firstn 8 cells in
  [n2b (pack_plane 0 0 l); n2b (pack_plane 1 0 l); n2b (pack_plane 2 0 l)].
(** oct48.go:12-31  octCellsToBytes48 *)
Definition cells_to_bytes48 (cells : list N) : bytes :=
  cells_to_bytes24 cells ++ cells_to_bytes24 (skipn 8 cells).

(** oct24.go:39-43  bytesToOctCells24 *)
Fixpoint unpack_cells (k : nat) (i b0 b1 b2 : N) : list N :=
  match k with
  | O => []
  | S k' =>
      N.lor (N.lor (N.land (N.shiftr b0 i) 1)
                   (N.shiftl (N.land (N.shiftr b1 i) 1) 1))
            (N.shiftl (N.land (N.shiftr b2 i) 1) 2)
        :: unpack_cells k' (i + 1) b0 b1 b2
  end.
Definition bytes_to_cells24 (l : bytes) : list N :=
  match l with
  | b0 :: b1 :: b2 :: _ => unpack_cells 8 0 (b2n b0) (b2n b1) (b2n b2)
  | _ => []
  end.
(** oct48.go:60-67  bytesToOctCells48 *)
Definition bytes_to_cells48 (l : bytes) : list N :=
  bytes_to_cells24 l ++ bytes_to_cells24 (skipn 3 l).

(** oct24.go:76-102, oct48.go:107-133: range of the steps between consecutive
    captures *)
Definition fmax_upd (m x : f64) : f64 := if fgt x m then x else m.
Definition fmin_upd (m x : f64) : f64 := if flt x m then x else m.
Definition vmax_upd (m d : vec) : vec :=
  mkVec (fmax_upd (vx m) (vx d)) (fmax_upd (vy m) (vy d)) (fmax_upd (vz m) (vz d)).
Definition vmin_upd (m d : vec) : vec :=
  mkVec (fmin_upd (vx m) (vx d)) (fmin_upd (vy m) (vy d)) (fmin_upd (vz m) (vz d)).
Fixpoint step_range (prev : vec) (l : list vec) (mn mx : vec) : vec * vec :=
  match l with
  | [] => (mn, mx)
  | p :: l' =>
      let d := vsub p prev in
      step_range p l' (vmin_upd mn d) (vmax_upd mx d)
  end.

(** oct24.go:117-135, oct48.go:148-166: cells for each step, following the
    quantised position *)
Fixpoint oct_steps (k : nat) (pack : list N -> bytes) (mn mx q : vec) (l : list vec)
  : bytes :=
  match l with
  | [] => []
  | p :: l' =>
      let cells := oct_enc k (vsub p q) mn mx in
      pack cells ++ oct_steps k pack mn mx (vadd q (oct_dec mn mx cells)) l'
  end.

Definition vec_pinf := mkVec fpinf fpinf fpinf.
Definition vec_minf := mkVec fminf fminf fminf.

(** oct24.go:56-138 ([k] = 8, [cells_to_bytes24]) and oct48.go:87-169 ([k] = 16,
    [cells_to_bytes48]): the two functions differ in nothing else. *)
Definition encode_oct (k : nat) (pack : list N -> bytes) (l : list vec) : bytes :=
  match l with
  | [] => []
  | [p] => wr32v p
  | p :: rest =>
      let (mn, mx) := step_range p rest vec_pinf vec_minf in
      wr32v mn ++ wr32v mx ++ wr32v p ++ oct_steps k pack mn mx p rest
  end.

(** raw64.go:11-25, raw32.go:10-20 *)
Definition encode_raw64 (l : list vec) : bytes := flat_map wr64v l.
Definition encode_raw32 (l : list vec) : bytes := flat_map wr32v l.

(** position.go:42-45: every capture must be a position.Capture *)
Definition pos_caps (c : coll) : option (list (f64 * vec)) :=
  match c_body c with
  | BPos l => Some l
  | _ => match c_times c with [] => Some [] | _ => None end
  end.

(** position.go:39-75  encode *)
Definition pos_encode1 (tech : N) (c : coll) : res bytes :=
  match pos_caps c with
  | None => Panic
  | Some l =>
      let ps := map snd l in
      Ok (n2b tech
          :: match tech with
             | 0 => encode_raw64 ps
             | 1 => encode_raw32 ps
             | 2 => encode_oct 16 cells_to_bytes48 ps
             | 3 => encode_oct 8 cells_to_bytes24 ps
             | _ => []
             end)
  end.
(** position.go:77-89  Encode *)
Definition pos_encode (tech : N) (cs : list coll) : res (bytes * list bytes * option err) :=
  do l <- map_res (pos_encode1 tech) cs;
  Ok ([], l, None).

(** raw64.go:27-53  decodeRaw64 *)
Fixpoint decode_raw64 (times : list f64) (buf d : bytes)
  : option (list (f64 * vec)) :=
  match times with
  | [] => Some []
  | t :: ts =>
      match flat_read buf d with
      | None => None
      | Some (b1, d1) =>
          match flat_read b1 d1 with
          | None => None
          | Some (b2, d2) =>
              match flat_read b2 d2 with
              | None => None
              | Some (b3, d3) =>
                  match decode_raw64 ts b3 d3 with
                  | None => None
                  | Some l =>
                      Some ((t, mkVec (f64_of_bytes b1) (f64_of_bytes b2) (f64_of_bytes b3)) :: l)
                  end
              end
          end
      end
  end.
Definition zeros (n : nat) : bytes := repeat x00 n.

(** three consecutive binary.Read calls into float32 variables; the error is
    that of the last call *)
Definition rd32v {S} (R : Reader S) (ox oy oz : f32) (s : S)
  : res (f32 * f32 * f32 * option err * S) :=
  do (x, s1) <- rd32 R ox s;
  do (y, s2) <- rd32 R oy s1;
  do (z, s3) <- rd32 R oz s2;
  Ok (fst x, fst y, fst z, snd z, s3).
Definition vec_of32 (x y z : f32) : vec :=
  mkVec (f64_of_f32 x) (f64_of_f32 y) (f64_of_f32 z).

(** raw32.go:22-36  decodeRaw32: the variables are fresh in each iteration and
    errors are ignored *)
Fixpoint decode_raw32 (times : list f64) (d : bytes) : res (list (f64 * vec)) :=
  match times with
  | [] => Ok []
  | t :: ts =>
      do (r, d1) <- rd32v flat f32_0 f32_0 f32_0 d;
      let '(x, y, z, _) := r in
      do l <- decode_raw32 ts d1;
      Ok ((t, vec_of32 x y z) :: l)
  end.

(** oct24.go:178-191, oct48.go:209-222 *)
Fixpoint oct_unsteps (unpack : bytes -> list N) (mn mx cur : vec) (ts : list f64)
  (buf d : bytes) : list (f64 * vec) :=
  match ts with
  | [] => []
  | t :: ts' =>
      let (b1, d1) := flat_read_ buf d in
      let cur1 := vadd cur (oct_dec mn mx (unpack b1)) in
      (t, cur1) :: oct_unsteps unpack mn mx cur1 ts' b1 d1
  end.

(** oct24.go:140-194 ([width] = 3) and oct48.go:171-225 ([width] = 6) *)
Definition decode_oct (width : nat) (unpack : bytes -> list N) (times : list f64)
  (d : bytes) : res (list (f64 * vec) * option err) :=
  match times with
  | [] => Ok ([], None)
  | [t] =>
      do (r, _) <- rd32v flat f32_0 f32_0 f32_0 d;
      let '(x, y, z, e) := r in
      Ok ([(t, vec_of32 x y z)], e)
  | t :: ts =>
      do (r1, d1) <- rd32v flat f32_0 f32_0 f32_0 d;
      let '(x1, y1, z1, _) := r1 in
      do (r2, d2) <- rd32v flat f32_0 f32_0 f32_0 d1;
      let '(x2, y2, z2, _) := r2 in
      do (r3, d3) <- rd32v flat f32_0 f32_0 f32_0 d2;
      let '(x3, y3, z3, e) := r3 in
      let mn := vec_of32 x1 y1 z1 in
      let mx := vec_of32 x2 y2 z2 in
      let st := vec_of32 x3 y3 z3 in
      Ok ((t, st) :: oct_unsteps unpack mn mx st ts (zeros width) d3, e)
  end.

(** position.go:91-136  decode, Decode *)
Definition pos_decode (name : str) (header data : bytes) (times : list f64)
  : res (option coll * option err) :=
  match data with
  | [] => Ok (None, Some EEOF)
  | tb :: d =>
      match b2n tb with
      | 0 =>
          match decode_raw64 times (zeros 8) d with
          | None => Ok (None, Some EEOF)
          | Some l => Ok (Some (mkColl name (BPos l)), None)
          end
      | 1 =>
          do l <- decode_raw32 times d;
          Ok (Some (mkColl name (BPos l)), None)
      | 2 =>
          do r <- decode_oct 6 bytes_to_cells48 times d;
          match r with
          | (_, Some e) => Ok (None, Some e)
          | (l, None) => Ok (Some (mkColl name (BPos l)), None)
          end
      | 3 =>
          do r <- decode_oct 3 bytes_to_cells24 times d;
          match r with
          | (_, Some e) => Ok (None, Some e)
          | (l, None) => Ok (Some (mkColl name (BPos l)), None)
          end
      | t => Ok (None, Some (EBadTechnique t))
      end
  end.

(** position.go:31-37, 138-148 *)
Definition position_encoder (tech : N) : encoder :=
  {| e_sig := sig_position;
     e_version := 0;
     e_accepts := fun c => str_eqb (c_sig c) sig_position;
     e_encode := pos_encode tech;
     e_decode := pos_decode |}.
