(** Model of cmd/example/main.go. *)
From Coq Require Import Strings.String.
From Verif Require Import Base IO Floats Metadata Recording Encoding EncPosition Writer.
Local Open Scope N_scope.

Section Demo.
(** math.Sin, and the text of the measured duration (main.go:19,24,50) *)
Context (sin : f64 -> f64) (elapsed : str).

(** main.go:16 *)
Definition iterations : N := 1000.
(** main.go:21-22: the capture with number [i] *)
Definition sample (i : nat) : f64 * vec :=
  let t := fdiv (f64_of_Z (Z.of_nat i)) (f64_of_Z 100) in
  (t, mkVec f0 (sin (fmul t (f64_of_Z 10))) f0).
(** main.go:17,20-23 *)
Definition samples : list (f64 * vec) := map sample (seq 0 (N.to_nat iterations)).
(** main.go:26-53 *)
Definition sin_demo : recording :=
  mkRec [] (lit "Sin Wave Demo") [Some (mkColl (lit "Sin Wave") (BPos samples))]
    [Some (mkRec [] (lit "Sin Wave") [Some (mkColl (lit "Position") (BPos samples))] [] [] [] [])]
    [(lit "iterations", new_int (Z.of_N iterations)); (lit "benchmark", PString elapsed)] [] [].
End Demo.
(** main.go:56-63 *)
Definition demo_writer : wconfig := mkWConfig [position_encoder 1] 2 true.
