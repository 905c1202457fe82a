(** Model of the writers configured in cmd/rap-cli/main.go. *)
From Verif Require Import Base Encoding EncEvent EncEnum EncPosition EncEuler TimeIO Writer.
Local Open Scope N_scope.

(** main.go:239-243: from-csv writes Raw64 positions and Raw64 times *)
Definition from_csv_writer : wconfig := mkWConfig [position_encoder 0] 0 true.
(** main.go:169-176 and 204-211: from-json and upgrade write events, Oct24
    positions, Raw16 rotations and enums, with BST16 times *)
Definition upgrade_writer : wconfig :=
  mkWConfig [event_encoder; position_encoder 3; euler_encoder 2; enum_encoder] 2 true.
