(** Model of cmd/rap-benchmark/main.go. *)
From Coq Require Import Strings.String.
From Verif Require Import Base IO Floats Metadata Recording Text Encoding EncEvent EncEnum EncPosition EncEuler Writer Reader.
Local Open Scope N_scope.

(** main.go:22-24  kb *)
Definition kb (n : N) : str := show_N (n / 1024) ++ lit " kb".
(** main.go:27-34,60-92: a text and the line break that ends it *)
Definition line (t : str) : str := t ++ bs [10].
(** main.go:29-33: one collection; calling a method of a nil collection panics *)
Definition print_coll (o : option coll) : res str :=
  match o with
  | None => Panic
  | Some c =>
      Ok (line (lit "  Name: " ++ c_name c) ++
          line (lit "  Signature: " ++ c_sig c) ++
          line (lit "  Captures: " ++ show_nat (c_length c)))
  end.
(** main.go:26-35  printRecording: the text written (depth is not used) *)
Definition print_recording (r : recording) : res str :=
  do l <- map_res print_coll (rec_colls r);
  Ok (line (lit "Name: " ++ rec_name r) ++
      line (lit "Collections: " ++ show_nat (List.length (rec_colls r))) ++
      concat l ++
      line (lit "Sub Recordings: " ++ show_nat (List.length (rec_recs r)))).

(** main.go:70-79: the encoders and settings of the benchmark: those of
    NewRecoludeWriter *)
Definition benchmark_writer : wconfig :=
  mkWConfig [event_encoder; position_encoder 2; euler_encoder 1; enum_encoder] 2 true.

(** main.go:51-96  the run command on an opened file: what it prints.  Every
    error panics there; [took] is the text of the time that the loading took.
    [orders] gives the order in which the two passes of the writer visit the
    maps of a recording. *)
Definition run_benchmark (v1 : v1_reader) (IZ : inflater) (Z : compressor) (took : str)
  (orders : recording -> recording * recording) {S} (R : Reader S) (s : S) : res str :=
  do (x, _) <- read load_encoders v1 IZ R s;
  match x with
  | (Some r, n, None) =>
      do first <- print_recording r;
      let (rA, rE) := orders r in
      do (y, file) <- write_views benchmark_writer Z buffer rA rE r [];
      match y with
      | (_, None) =>
          do (z, _) <- read (w_encs benchmark_writer) v1 IZ flat file;
          match z with
          | (Some b, _, None) =>
              do second <- print_recording b;
              Ok (line (lit "Time to read in: " ++ took) ++ first ++
                  line (line (lit "Original Size: " ++ kb n)) ++ second ++
                  line (lit "New Size: " ++ kb (lenN file)))
          | _ => Panic
          end
      | _ => Panic
      end
  | _ => Panic
  end.
