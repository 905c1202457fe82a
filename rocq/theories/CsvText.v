(** Model of encoding/csv (standard library, go 1.18, reader.go) with the settings that
    cmd/rap-cli/csv.go:16 leaves at their defaults: Comma ',', no Comment, LazyQuotes and
    TrimLeadingSpace off, FieldsPerRecord 0. *)
From Verif Require Import Base Metadata Csv.
Local Open Scope nat_scope.

Definition quote : byte := "034"%byte.
Definition comma : byte := ","%byte.
Definition LF : byte := "010"%byte.
Definition CR : byte := "013"%byte.

(** reader.go readLine: "\r\n" at the end of a line becomes "\n", a "\r" before the end
    of the data is dropped.  The code does this line by line as it reads; it does not
    depend on what the line means, so here it is done for all lines at once. *)
Fixpoint unix_lines (t : bytes) : bytes :=
  match t with
  | [] => []
  | b :: t' =>
      if Byte.eqb b CR then
        match t' with
        | [] => []
        | c :: t'' => if Byte.eqb c LF then LF :: unix_lines t'' else b :: unix_lines t'
        end
      else b :: unix_lines t'
  end.

(** Where in a record readRecord is: before it, at the start of a field, inside a field
    without or with quotes, after a quote inside the latter. *)
Inductive place := AtRecord | AtField | InPlain | InQuotes | AfterQuote.

(** reader.go readRecord, called until it returns an error, as RecordingFromCSV does.
    The code looks for the next comma or quote with IndexByte and copies what lies
    before; here the characters are copied one by one.  [stop] is how the data ends: [None]
    is io.EOF.  [field] and [row] are what has been read of the current field and record,
    [width] is FieldsPerRecord, 0 before the first record. *)
Definition end_record (row : list str) (width : nat) (k : nat -> csv_input) : csv_input :=
  if width =? 0 then let (rows, e) := k (length row) in (row :: rows, e)
  else if length row =? width then let (rows, e) := k width in (row :: rows, e)
  else ([], Some ECsvFieldCount).
Fixpoint records (stop : option err) (t : bytes) (at_ : place) (field : str) (row : list str) (width : nat) : csv_input :=
  match t with
  | [] =>
      match stop, at_ with
      | Some e, _ => ([], Some e)
      | None, AtRecord => ([], None)
      | None, InQuotes => ([], Some ECsvQuote)
      | None, _ => end_record (row ++ [field]) width (fun _ => ([], None))
      end
  | b :: t' =>
      let plain :=
        if Byte.eqb b comma then records stop t' AtField [] (row ++ [field]) width
        else if Byte.eqb b LF then end_record (row ++ [field]) width (records stop t' AtRecord [] [])
        else if Byte.eqb b quote then ([], Some ECsvBareQuote)
        else records stop t' InPlain (field ++ [b]) row width in
      match at_ with
      | AtRecord =>
          if Byte.eqb b LF then records stop t' AtRecord [] [] width
          else if Byte.eqb b quote then records stop t' InQuotes [] [] width
          else plain
      | AtField => if Byte.eqb b quote then records stop t' InQuotes [] row width else plain
      | InPlain => plain
      | InQuotes =>
          if Byte.eqb b quote then records stop t' AfterQuote field row width
          else records stop t' InQuotes (field ++ [b]) row width
      | AfterQuote =>
          if Byte.eqb b quote then records stop t' InQuotes (field ++ [quote]) row width
          else if Byte.eqb b comma then records stop t' AtField [] (row ++ [field]) width
          else if Byte.eqb b LF then end_record (row ++ [field]) width (records stop t' AtRecord [] [])
          else ([], Some ECsvQuote)
      end
  end.
(** What a csv.Reader hands out when its source delivers [t] and then [stop] *)
Definition csv_read (t : bytes) (stop : option err) : csv_input :=
  records stop (unix_lines t) AtRecord [] [] 0.
