(** Model of cmd/rap-cli/summarize.go. *)
From Coq Require Import Strings.String.
From Verif Require Import Base Floats Metadata Recording Text.
Local Open Scope N_scope.

(** summarize.go:14-20  type summary (ints; a count of captures held in memory
    does not overflow) *)
Record summary := mkSum { s_pos : nat; s_event : nat; s_euler : nat; s_enum : nat; s_other : nat }.
(** summarize.go:33 *)
Definition sum0 : summary := mkSum 0 0 0 0 0.
(** summarize.go:22-30  Combine *)
Definition combine_sum (s o : summary) : summary :=
  mkSum (s_pos s + s_pos o) (s_event s + s_event o) (s_euler s + s_euler o)
        (s_enum s + s_enum o) (s_other s + s_other o).

(** summarize.go:34-47: the type switch on one collection *)
Definition count_coll (s : summary) (c : coll) : summary :=
  let n := c_length c in
  match c_body c with
  | BEvent _ => mkSum (s_pos s) (s_event s + n) (s_euler s) (s_enum s) (s_other s)
  | BPos _ => mkSum (s_pos s + n) (s_event s) (s_euler s) (s_enum s) (s_other s)
  | BEnum _ _ => mkSum (s_pos s) (s_event s) (s_euler s) (s_enum s + n) (s_other s)
  | BEuler _ => mkSum (s_pos s) (s_event s) (s_euler s + n) (s_enum s) (s_other s)
  | _ => mkSum (s_pos s) (s_event s) (s_euler s) (s_enum s) (s_other s + n)
  end.
(** A nil collection falls into the default case, whose method call panics. *)
Fixpoint count_colls (l : list (option coll)) (s : summary) : res summary :=
  match l with
  | [] => Ok s
  | None :: _ => Panic
  | Some c :: l' => count_colls l' (count_coll s c)
  end.

(** summarize.go:32-54  summarize *)
Fixpoint summarize (r : recording) : res summary :=
  match r with
  | mkRec _ _ colls recs _ _ _ =>
      do s <- count_colls colls sum0;
      (fix go (l : list (option recording)) (s : summary) : res summary :=
         match l with
         | [] => Ok s
         | None :: _ => Panic
         | Some c :: l' => do x <- summarize c; go l' (combine_sum s x)
         end) recs s
  end.

(** ASCII newline *)
Definition nl : str := bs [10].

Section Print.
(** fmt's %.2f *)
Context (fmt2 : f64 -> str).

(** summarize.go:56-68  printSize (the size of a file is an int64) *)
Definition print_size (size : Z) : str :=
  if (size <? 1024)%Z then show_Z size ++ lit "b"
  else
    let k := fdiv (f64_of_Z size) (f64_of_Z 1024) in
    if flt k (f64_of_Z 1024) then fmt2 k ++ lit "kb"
    else fmt2 (fdiv k (f64_of_Z 1024)) ++ lit "mb".

(** summarize.go:70-87  printSummary: the text written *)
Definition print_summary (r : recording) (size : Z) : res str :=
  let name := match rec_name r with [] => lit "[No Name]" | n => n end in
  do d <- rec_duration r;
  do s <- summarize r;
  Ok (lit "Name:                    " ++ name ++ nl ++
      lit "File Size:               " ++ print_size size ++ nl ++
      lit "Duration:                " ++ fmt2 d ++ lit "s" ++ nl ++
      lit "Sub Recordings:          " ++ show_nat (List.length (rec_recs r)) ++ nl ++
      lit "Total Position Captures: " ++ show_nat (s_pos s) ++ nl ++
      lit "Total Euler Captures:    " ++ show_nat (s_euler s) ++ nl ++
      lit "Total Event Captures:    " ++ show_nat (s_event s) ++ nl ++
      lit "Total Enum Captures:     " ++ show_nat (s_enum s) ++ nl ++
      lit "Total Other Captures:    " ++ show_nat (s_other s) ++ nl).
End Print.
