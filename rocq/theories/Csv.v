(** Model of cmd/rap-cli/csv.go. *)
From Coq Require Import Strings.String.
From Verif Require Import Base Floats Metadata Recording Text.
Local Open Scope nat_scope.

(** What csv.Reader.Read (standard library) hands out: the rows, in order, and
    then io.EOF ([None]) or an error.  With the default settings used here all
    rows have the length of the first one, a row of another length is an
    error. *)
Definition csv_input := (list (list str) * option err)%type.
(** The errors RecordingFromCSV returns *)
Inductive csv_err := CsvRead (e : err) | CsvTime | CsvX | CsvY | CsvZ.

(** csv.go:18-24: the column indices; [None] is -1 *)
Record csv_cols := mkCols { k_time : option nat; k_id : option nat; k_name : option nat;
                            k_x : option nat; k_y : option nat; k_z : option nat }.
(** csv.go:32-56: the switch on one column title *)
Definition set_col (i : nat) (title : str) (k : csv_cols) : csv_cols :=
  let t := trim_space title in
  if str_eqb t (lit "time") then mkCols (Some i) (k_id k) (k_name k) (k_x k) (k_y k) (k_z k)
  else if str_eqb t (lit "id") then mkCols (k_time k) (Some i) (k_name k) (k_x k) (k_y k) (k_z k)
  else if str_eqb t (lit "name") then mkCols (k_time k) (k_id k) (Some i) (k_x k) (k_y k) (k_z k)
  else if str_eqb t (lit "x") then mkCols (k_time k) (k_id k) (k_name k) (Some i) (k_y k) (k_z k)
  else if str_eqb t (lit "y") then mkCols (k_time k) (k_id k) (k_name k) (k_x k) (Some i) (k_z k)
  else if str_eqb t (lit "z") then mkCols (k_time k) (k_id k) (k_name k) (k_x k) (k_y k) (Some i)
  else k.
(** csv.go:31-57: the loop over the header *)
Fixpoint find_cols (i : nat) (header : list str) (k : csv_cols) : csv_cols :=
  match header with
  | [] => k
  | t :: h => find_cols (S i) h (set_col i t k)
  end.

(** row[index]: an index that is -1 or too large panics *)
Definition cell (row : list str) (i : option nat) : res str :=
  match i with
  | None => Panic
  | Some i => match nth_error row i with Some s => Ok s | None => Panic end
  end.

(** csv.go:59: map[string]map[string][]position.Capture, in the order of
    insertion *)
Definition csv_names := list (str * list (f64 * vec)).
Definition csv_data := list (str * csv_names).
(** csv.go:98 on the inner map *)
Fixpoint add_name (name : str) (c : f64 * vec) (m : csv_names) : csv_names :=
  match m with
  | [] => [(name, [c])]
  | (n, l) :: m' => if str_eqb name n then (n, l ++ [c]) :: m' else (n, l) :: add_name name c m'
  end.
(** csv.go:94-98 *)
Fixpoint add_row (id name : str) (c : f64 * vec) (d : csv_data) : csv_data :=
  match d with
  | [] => [(id, add_name name c [])]
  | (i, m) :: d' => if str_eqb id i then (i, add_name name c m) :: d' else (i, m) :: add_row id name c d'
  end.

Section Csv.
(** strconv.ParseFloat(s, 64); [None] is an error *)
Context (parse_float : str -> option f64).
(** The orders in which Go happens to iterate over the outer map and, for
    each id, over the inner map *)
Context (outer : csv_data -> csv_data) (inner : str -> csv_names -> csv_names).

(** csv.go:70-92: one row *)
Definition csv_row (k : csv_cols) (row : list str) : res ((str * str * (f64 * vec)) + csv_err) :=
  do t <- cell row (k_time k);
  match parse_float (trim_space t) with
  | None => Ok (inr CsvTime)
  | Some t =>
      do name <- cell row (k_name k);
      do id <- cell row (k_id k);
      do x <- cell row (k_x k);
      match parse_float (trim_space x) with
      | None => Ok (inr CsvX)
      | Some x =>
          do y <- cell row (k_y k);
          match parse_float (trim_space y) with
          | None => Ok (inr CsvY)
          | Some y =>
              do z <- cell row (k_z k);
              match parse_float (trim_space z) with
              | None => Ok (inr CsvZ)
              | Some z => Ok (inl (id, name, (t, mkVec x y z)))
              end
          end
      end
  end.

(** csv.go:61-99: the loop over the rows *)
Fixpoint csv_rows (k : csv_cols) (rows : list (list str)) (stop : option err) (d : csv_data)
  : res (csv_data + csv_err) :=
  match rows with
  | [] => match stop with None => Ok (inl d) | Some e => Ok (inr (CsvRead e)) end
  | row :: rows' =>
      do r <- csv_row k row;
      match r with
      | inr e => Ok (inr e)
      | inl (id, name, c) => csv_rows k rows' stop (add_row id name c d)
      end
  end.

(** csv.go:106-116: the sub-recording of one (id, name) *)
Definition csv_sub (id name : str) (caps : list (f64 * vec)) : recording :=
  mkRec id name [Some (mkColl (lit "Position") (BPos caps))] [] [] [] [].
(** csv.go:101-119 *)
Definition csv_subs (d : csv_data) : list recording :=
  flat_map (fun e => map (fun nc => csv_sub (fst e) (fst nc) (snd nc)) (inner (fst e) (snd e)))
           (outer d).

(** csv.go:15-122  RecordingFromCSV *)
Definition recording_from_csv (inp : csv_input) : res (recording + csv_err) :=
  match inp with
  | ([], None) => Ok (inr (CsvRead EEOF))
  | ([], Some e) => Ok (inr (CsvRead e))
  | (header :: rows, stop) =>
      let k := find_cols 0 header (mkCols None None None None None None) in
      do d <- csv_rows k rows stop [];
      match d with
      | inr e => Ok (inr e)
      | inl d => Ok (inl (mkRec [] [] [] (map Some (csv_subs d)) [] [] []))
      end
  end.
End Csv.
