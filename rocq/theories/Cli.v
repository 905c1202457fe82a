(** Model of cmd/rap-cli/main.go: the commands on a file system, standard input
    and standard output. *)
From Coq Require Import ZArith.
From Verif Require Import Base IO Floats BinaryIO Metadata Recording Writer Reader Tools Summarize Csv CsvText Json JsonText ToJson.
Local Open Scope N_scope.

(** What the commands work with.  A path names a file with its contents, or
    nothing.  Input is delivered in full reads, output is always accepted: other
    transports and failing destinations are the subject of C04, C24 and C55. *)
Record world := mkWorld { files : str -> option bytes; stdin : bytes; stdout : bytes }.
(** The answers of the operating system, besides that a missing file can not be
    opened: which files may be opened, removed and created. *)
Record system := mkSystem { may_open : str -> bool; may_remove : str -> bool; may_create : str -> bool }.
(** Everything that the other models leave open: the version 1 reader, the
    compression, the order of maps, and the texts of numbers and times. *)
Record runtime := mkRuntime {
  rt_v1 : v1_reader; rt_iz : inflater; rt_z : compressor;
  rt_orders : recording -> recording * recording;
  rt_fmt2 : f64 -> str;
  rt_quote : str -> str; rt_num64 : f64 -> str; rt_num32 : f32 -> str; rt_time : Z -> str;
  rt_parse64 : str -> option f64; rt_parse_time : str -> option Z;
  rt_reparse32 : f64 -> option f32; rt_atoi : f64 -> option Z;
  rt_outer : csv_data -> csv_data; rt_inner : str -> csv_names -> csv_names }.

(** main.go:40-249: the commands with their flags.  (Reading the command line is
    left to the cli library; a command without a required flag does not run.) *)
Inductive command :=
| Summarize (file : str)
| ToJson (file : option str)
| FromJson (inp out : option str)
| Upgrade (file : str)
| FromCsv (file : str).
(** Where an error that a command returns comes from. *)
Inductive failure := FSystem | FLoad (e : err) | FExport | FNil | FJson | FCsv (e : csv_err) | FWrite (e : err).
(** [Exit]: the command returned.  [Crashed]: it panicked with these files, the
    last of which may have been written in part; what went to standard output is
    then left open.  [Hung] does not occur, it stands for exhausted fuel. *)
Inductive outcome :=
| Exit (e : option failure) (w : world)
| Crashed (f : str -> option bytes) (unfinished : option str)
| Hung.

Definition set_file (p : str) (d : option bytes) (f : str -> option bytes) : str -> option bytes :=
  fun q => if str_eqb q p then d else f q.
(** os.Open *)
Definition open_file (sys : system) (w : world) (p : str) : option bytes :=
  if may_open sys p then files w p else None.
Definition print (w : world) (t : bytes) : world := mkWorld (files w) (stdin w) (stdout w ++ t).

Section Run.
Context (rt : runtime) (sys : system).

(** rapio.Load (format/io/load.go:25-32) and the handling of its error *)
Definition load (w : world) (d : bytes) (k : option recording -> outcome) : outcome :=
  match read load_encoders (rt_v1 rt) (rt_iz rt) flat d with
  | Ok (_, _, Some e, _) => Exit (Some (FLoad e)) w
  | Ok (r, _, None, _) => k r
  | Panic => Crashed (files w) None
  | Stuck => Hung
  end.
(** The Write at the end of from-json, upgrade and from-csv: what it hands to
    the destination.  Write panics on a nil recording. *)
Definition write_out (cfg : wconfig) (r : recording) : res (option err * bytes) :=
  let (rA, rE) := rt_orders rt r in
  do (x, file) <- write_views cfg (rt_z rt) buffer rA rE r [];
  Ok (snd x, file).
Definition print_rap (cfg : wconfig) (w : world) (r : option recording) : outcome :=
  match r with
  | None => Crashed (files w) None
  | Some r =>
      match write_out cfg r with
      | Ok (None, file) => Exit None (print w file)
      | Ok (Some e, file) => Exit (Some (FWrite e)) (print w file)
      | Panic => Crashed (files w) None
      | Stuck => Hung
      end
  end.

(** main.go:52-73  summarize *)
Definition run_summarize (w : world) (file : str) : outcome :=
  match files w file with                      (* os.Stat *)
  | None => Exit (Some FSystem) w
  | Some d =>
      let size := Z.of_N (lenN d) in
      match open_file sys w file with
      | None => Exit (Some FSystem) w
      | Some d =>
          load w d (fun r =>
            match r with
            | None => Crashed (files w) None
            | Some r =>
                match print_summary (rt_fmt2 rt) r size with
                | Ok t => Exit None (print w t)
                | Panic => Crashed (files w) None
                | Stuck => Hung
                end
            end)
      end
  end.
(** main.go:86-111  to-json *)
Definition run_to_json (w : world) (file : option str) : outcome :=
  let inp := match file with Some p => open_file sys w p | None => Some (stdin w) end in
  match inp with
  | None => Exit (Some FSystem) w
  | Some d =>
      load w d (fun r =>
        match r with
        | None => Exit (Some FNil) w
        | Some r =>
            match to_json (rt_quote rt) (rt_num64 rt) (rt_num32 rt) (rt_time rt) 0 r with
            | Ok (t, failed) => Exit (if failed then Some FExport else None) (print w t)
            | Panic => Crashed (files w) None
            | Stuck => Hung
            end
        end)
  end.
(** main.go:130-178  from-json.  The file to write is removed if it exists and
    then created, before anything is written. *)
Definition run_from_json (w : world) (inp out : option str) : outcome :=
  let d := match inp with Some p => open_file sys w p | None => Some (stdin w) end in
  match d with
  | None => Exit (Some FSystem) w
  | Some d =>
      match from_json_text (rt_parse64 rt) (rt_parse_time rt) (rt_reparse32 rt) (rt_atoi rt) d with
      | Panic => Crashed (files w) None
      | Stuck => Hung
      | Ok None => Exit (Some FJson) w
      | Ok (Some r) =>
          match out with
          | None => print_rap upgrade_writer w (Some r)
          | Some p =>
              match files w p, may_remove sys p with
              | Some _, false => Exit (Some FSystem) w
              | _, _ =>
                  let gone := set_file p None (files w) in
                  if may_create sys p then
                    match write_out upgrade_writer r with
                    | Ok (e, file) =>
                        Exit (match e with Some e => Some (FWrite e) | None => None end)
                             (mkWorld (set_file p (Some file) gone) (stdin w) (stdout w))
                    | Panic => Crashed (set_file p (Some []) gone) (Some p)
                    | Stuck => Hung
                    end
                  else Exit (Some FSystem) (mkWorld gone (stdin w) (stdout w))
              end
          end
      end
  end.
(** main.go:192-213  upgrade *)
Definition run_upgrade (w : world) (file : str) : outcome :=
  match open_file sys w file with
  | None => Exit (Some FSystem) w
  | Some d => load w d (print_rap upgrade_writer w)
  end.
(** main.go:227-246  from-csv *)
Definition run_from_csv (w : world) (file : str) : outcome :=
  match open_file sys w file with
  | None => Exit (Some FSystem) w
  | Some d =>
      match recording_from_csv (rt_parse64 rt) (rt_outer rt) (rt_inner rt) (csv_read d None) with
      | Ok (inr e) => Exit (Some (FCsv e)) w
      | Ok (inl r) => print_rap from_csv_writer w (Some r)
      | Panic => Crashed (files w) None
      | Stuck => Hung
      end
  end.
Definition run (c : command) (w : world) : outcome :=
  match c with
  | Summarize f => run_summarize w f
  | ToJson f => run_to_json w f
  | FromJson i o => run_from_json w i o
  | Upgrade f => run_upgrade w f
  | FromCsv f => run_from_csv w f
  end.
End Run.
