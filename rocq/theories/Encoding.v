(** Model of format/encoding/encoder.go and of helpers shared by the encoders. *)
From Verif Require Import Base IO Floats BinaryIO Metadata Recording.
Local Open Scope N_scope.

(** format/encoding/encoder.go:5-11  interface Encoder.  Encode returns the
    header, one byte slice per stream and an error; Decode a collection
    (possibly nil) and an error. *)
Record encoder := mkEncoder {
  e_sig : str;
  e_version : N;
  e_accepts : coll -> bool;
  e_encode : list coll -> res (bytes * list bytes * option err);
  e_decode : str -> bytes -> bytes -> list f64 -> res (option coll * option err)
}.

(** Go maps from strings to indices, used as "first come, first numbered"
    tables. *)
Definition tbl := list (str * N).
Fixpoint tbl_find (k : str) (t : tbl) : option N :=
  match t with
  | [] => None
  | (k', i) :: t' => if str_eqb k k' then Some i else tbl_find k t'
  end.
(** [if _, ok := t[k]; !ok { t[k] = len(t) }] *)
Definition tbl_intern (k : str) (t : tbl) : tbl :=
  match tbl_find k t with
  | Some _ => t
  | None => t ++ [(k, lenN t)]
  end.
(** [t[k]] (zero when absent) *)
Definition tbl_get (k : str) (t : tbl) : N :=
  match tbl_find k t with Some i => i | None => 0 end.

(** [l[i] = x]: [None] is the index-out-of-range panic. *)
Fixpoint set_nth {A} (l : list A) (i : N) (x : A) : option (list A) :=
  match l with
  | [] => None
  | y :: l' =>
      if i =? 0 then Some (x :: l')
      else match set_nth l' (N.pred i) x with
           | Some r => Some (y :: r)
           | None => None
           end
  end.

(** [a := make([]string, len(t)); for key, index := range t { a[index] = key }] *)
Fixpoint tbl_fill (t : tbl) (a : list str) : res (list str) :=
  match t with
  | [] => Ok a
  | (k, i) :: t' =>
      match set_nth a i k with
      | Some a' => tbl_fill t' a'
      | None => Panic
      end
  end.
Definition tbl_array (t : tbl) : res (list str) :=
  tbl_fill t (repeat [] (length t)).

(** [buf := ...; _, err := streamData.Read(buf)] on a bytes.Reader: one Read,
    which may be short and then leaves stale bytes in [buf]; [None] is io.EOF. *)
Definition flat_read (buf d : bytes) : option (bytes * bytes) :=
  match d with
  | [] => None
  | _ => Some (fill buf (takeN (lenN buf) d), dropN (lenN buf) d)
  end.
(** The same with the error ignored: at EOF the buffer is unchanged. *)
Definition flat_read_ (buf d : bytes) : bytes * bytes :=
  match flat_read buf d with
  | Some r => r
  | None => (buf, d)
  end.

(** [binary.Read(r, binary.LittleEndian, &x)] for a float32/float64 variable
    whose old value is kept on error. *)
Definition rd32 {S} (R : Reader S) (old : f32) (s : S) : res (f32 * option err * S) :=
  do (r, s1) <- binary_read R 4 s;
  match r with
  | (Some p, _) => Ok (f32_of_bytes p, None, s1)
  | (None, e) => Ok (old, e, s1)
  end.
Definition rd64 {S} (R : Reader S) (old : f64) (s : S) : res (f64 * option err * S) :=
  do (r, s1) <- binary_read R 8 s;
  match r with
  | (Some p, _) => Ok (f64_of_bytes p, None, s1)
  | (None, e) => Ok (old, e, s1)
  end.

(** [binary.Write(buf, LittleEndian, float32(x))] *)
Definition wr32 (x : f64) : bytes := f32_bytes (f32_of_f64 x).
Definition wr32v (v : vec) : bytes := wr32 (vx v) ++ wr32 (vy v) ++ wr32 (vz v).
Definition wr64v (v : vec) : bytes :=
  f64_bytes (vx v) ++ f64_bytes (vy v) ++ f64_bytes (vz v).
