(** Model of format/io/time.go. *)
From Verif Require Import Base IO Floats BinaryIO Metadata Recording Encoding.
From Verif Require Import EncPosition.
Local Open Scope N_scope.

(** time.go:55-70: earliest time and largest step ([endingTime] is computed
    but never used) *)
Fixpoint time_range (prev : option f64) (l : list f64) (st mx : f64) : f64 * f64 :=
  match l with
  | [] => (st, mx)
  | t :: l' =>
      time_range (Some t) l' (fmin_upd st t)
        (match prev with
         | None => mx
         | Some p => fmax_upd mx (fsub t p)
         end)
  end.

(** time.go:79-89 *)
Fixpoint time_steps (l : list f64) (total mx : f64) : bytes :=
  match l with
  | [] => []
  | t :: l' =>
      let b := bst_enc 2 (fsub t total) f0 mx in
      b ++ time_steps l' (fadd total (bst_dec f0 mx b)) mx
  end.

(** time.go:46-91  encodeTimeBST16 *)
Definition encode_time16 (l : list f64) : bytes :=
  let (st, mx) := time_range None l fpinf fminf in
  match l with
  | [] => []
  | [_] => wr32 st
  | _ :: rest => wr32 st ++ wr32 mx ++ time_steps rest st mx
  end.

(** time.go:93-127  encodeTime: the bytes handed to the single out.Write.
    encodeTime64 (26-34) and encodeTime32 (36-44) are the two [flat_map]s.
    An unknown technique writes only its byte and the count. *)
Definition encode_time (tech : N) (l : list f64) : bytes :=
  n2b tech :: put_uvarint (lenN l)
    ++ match tech with
       | 0 => flat_map f64_bytes l
       | 1 => flat_map wr32 l
       | 2 => encode_time16 l
       | _ => []
       end.

Section WithReader.
Context {S : Type} (R : Reader S).

(** time.go:129-139  decodeTime64: errors ignored, a failed read gives 0 *)
Definition decode_time64 (n : N) (s : S) : res (list f64 * option err * S) :=
  go_make 8 n
    (do (l, s1) <- loop (N.to_nat n)
                        (fun s => do (r, s1) <- rd64 R f0 s; Ok (fst r, s1)) s;
     Ok (l, None, s1)).
(** time.go:141-152  decodeTime32 *)
Definition decode_time32 (n : N) (s : S) : res (list f64 * option err * S) :=
  go_make 8 n
    (do (l, s1) <- loop (N.to_nat n)
                        (fun s => do (r, s1) <- rd32 R f32_0 s;
                                  Ok (f64_of_f32 (fst r), s1)) s;
     Ok (l, None, s1)).

(** time.go:180-186 *)
Fixpoint time_unsteps (k : nat) (cur mx : f64) (buf : bytes) (s : S)
  : res (list f64 * S) :=
  match k with
  | O => Ok ([], s)
  | Datatypes.S k' =>
      do (pe, s1) <- rread R 2 s;
      let b1 := fill buf (fst pe) in
      let cur1 := fadd cur (bst_dec f0 mx b1) in
      do (l, s2) <- time_unsteps k' cur1 mx b1 s1;
      Ok (cur1 :: l, s2)
  end.

(** time.go:154-189  decodeTimeBST16 *)
Definition decode_time16 (n : N) (s : S) : res (list f64 * option err * S) :=
  if n =? 0 then Ok ([], None, s)
  else
    do (r, s1) <- rd32 R f32_0 s;
    match r with
    | (_, Some e) => Ok ([], Some e, s1)
    | (st, None) =>
        if n =? 1 then Ok ([f64_of_f32 st], None, s1)
        else
          do (r2, s2) <- rd32 R f32_0 s1;
          match r2 with
          | (_, Some e) => Ok ([], Some e, s2)
          | (mx, None) =>
              go_make 8 n
                (do (l, s3) <- time_unsteps (N.to_nat (N.pred n)) (f64_of_f32 st)
                                            (f64_of_f32 mx) (zeros 2) s2;
                 Ok (f64_of_f32 st :: l, None, s3))
          end
    end.

(** time.go:191-219  decodeTime *)
Definition decode_time (s : S) : res (list f64 * option err * S) :=
  do (pe, s1) <- rread R 1 s;
  let (p, e) := pe in
  match e with
  | Some e => Ok ([], Some e, s1)
  | None =>
      do (r, s2) <- read_uvarint R s1;
      let '(n, _, e2) := r in
      match e2 with
      | Some e2 => Ok ([], Some e2, s2)
      | None =>
          match b2n (hd x00 p) with
          | 0 => decode_time64 n s2
          | 1 => decode_time32 n s2
          | 2 => decode_time16 n s2
          | t => Ok ([], Some (EBadTime t), s2)
          end
      end
  end.

End WithReader.
