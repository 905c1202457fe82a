(** Model of format/encoding/enum/enum.go. *)
From Verif Require Import Base IO Floats BinaryIO Metadata Recording Encoding.
Local Open Scope N_scope.

(** enum.go:40-48: indices of one stream's members in the shared table *)
Fixpoint enc_members (ms : list str) (t : tbl) : list N * tbl :=
  match ms with
  | [] => ([], t)
  | m :: ms' =>
      let t1 := tbl_intern m t in
      let (is, t2) := enc_members ms' t1 in
      (tbl_get m t1 :: is, t2)
  end.

(** uint64(int) and int(uint64) *)
Definition u64_of_int (z : Z) : N := Z.to_N (z mod 2 ^ 64).
Definition int_of_u64 (n : N) : Z := signed 64 (Z.of_N n).

(** enum.go:36-63 *)
Fixpoint enc_enum_streams (cs : list coll) (t : tbl) : res (list bytes * tbl) :=
  match cs with
  | [] => Ok ([], t)
  | c :: cs' =>
      match c_body c with
      | BEnum ms caps =>
          let (is, t1) := enc_members ms t in
          do r <- enc_enum_streams cs' t1;
          let (bs', t2) := r in
          Ok ((uvarint_array_to_bytes is
               ++ flat_map (fun c : f64 * Z => put_uvarint (u64_of_int (snd c))) caps) :: bs', t2)
      | _ => Panic                         (* stream.(enum.Collection) *)
      end
  end.

(** enum.go:31-79  Encode *)
Definition enum_encode (cs : list coll) : res (bytes * list bytes * option err) :=
  do r <- enc_enum_streams cs [];
  let (bs', t) := r in
  do members <- tbl_array t;
  Ok (string_array_to_bytes members, bs', None).

(** enum.go:92-94 *)
Fixpoint pick (all : list str) (is : list N) : res (list str) :=
  match is with
  | [] => Ok []
  | i :: is' =>
      match nthN all i with
      | None => Panic
      | Some m => do ms <- pick all is'; Ok (m :: ms)
      end
  end.

(** enum.go:96-100: errors of ReadUvarint are ignored.  (binary.ReadUvarint of
    the standard library is the same loop as [read_uvarint], over ReadByte.) *)
Fixpoint dec_enums (times : list f64) (s : er bytes)
  : res (list (f64 * Z) * er bytes) :=
  match times with
  | [] => Ok ([], s)
  | t :: ts =>
      do (r, s1) <- read_uvarint (err_reader flat) s;
      let '(v, _, _) := r in
      do (l, s2) <- dec_enums ts s1;
      Ok ((t, int_of_u64 v) :: l, s2)
  end.

(** enum.go:81-103  Decode *)
Definition enum_decode (name : str) (header data : bytes) (times : list f64)
  : res (option coll * option err) :=
  do (r, _) <- read_string_array flat header;
  let '(all, _, e) := r in
  match e with
  | Some e => Ok (None, Some e)
  | None =>
      do (r2, s1) <- read_uvarint_array (err_reader flat) (new_er data);
      let '(is, _, _) := r2 in
      do ms <- pick all is;
      do (l, s2) <- dec_enums times s1;
      Ok (Some (mkColl name (BEnum ms l)), er_err s2)
  end.

(** enum.go:13-29 *)
Definition enum_encoder : encoder :=
  {| e_sig := sig_enum;
     e_version := 0;
     e_accepts := fun c => str_eqb (c_sig c) sig_enum;
     e_encode := enum_encode;
     e_decode := enum_decode |}.
