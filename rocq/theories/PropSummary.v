(** Property C32: the counts printed by the summarize command. *)
From Coq Require Import Strings.String Lia.
From Verif Require Import Base Floats Metadata Recording SpecRec RecordingFacts Text SpecText TextFacts.
From Verif Require Import Summarize SpecSummary SummarizeFacts.

(** C32: per kind, the count is the number of captures of that kind in the
    whole tree; together they count every capture exactly once. *)
Theorem C32_counts : forall r, no_nil r ->
  exists s, summarize r = Ok s /\
    s_pos s = length (captures_of KPosition r) /\
    s_euler s = length (captures_of KEuler r) /\
    s_event s = length (captures_of KEvent r) /\
    s_enum s = length (captures_of KEnum r) /\
    s_other s = length (captures_of KOther r) /\
    s_pos s + s_euler s + s_event s + s_enum s + s_other s
    = length (flat_map captures (tree_colls r)).
Proof.
  intros r Hr. exists (sum_of (tree_colls r)). split; [now apply summarize_ok|].
  repeat (split; [reflexivity|]). apply tot_total.
Qed.
Print Assumptions C32_counts.

(** C32: the printed text: nine lines, with the numbers in decimal. *)
Theorem C32_printed : forall fmt2 r size, no_nil r ->
  exists d sub pos eul evt enm oth,
    rec_duration r = Ok d /\
    line_with "Sub Recordings:          " (length (rec_recs r)) sub /\
    line_with "Total Position Captures: " (length (captures_of KPosition r)) pos /\
    line_with "Total Euler Captures:    " (length (captures_of KEuler r)) eul /\
    line_with "Total Event Captures:    " (length (captures_of KEvent r)) evt /\
    line_with "Total Enum Captures:     " (length (captures_of KEnum r)) enm /\
    line_with "Total Other Captures:    " (length (captures_of KOther r)) oth /\
    print_summary fmt2 r size = Ok (concat [
      lit "Name:                    " ++
        (if str_eqb (rec_name r) [] then lit "[No Name]" else rec_name r) ++ bs [10%N];
      lit "File Size:               " ++ print_size fmt2 size ++ bs [10%N];
      lit "Duration:                " ++ fmt2 d ++ lit "s" ++ bs [10%N];
      sub; pos; eul; evt; enm; oth]).
Proof.
  intros fmt2 r size Hr.
  destruct (start_end_exist r Hr) as (mn & mx & E1 & E2).
  exists (fsub mx mn).
  assert (L : forall label n, line_with label n (lit label ++ show_nat n ++ nl)).
  { intros. exists (show_nat n). split; [apply show_N_spells|reflexivity]. }
  do 6 eexists. split; [unfold rec_duration; rewrite E1; cbn [bind]; rewrite E2; reflexivity|].
  do 6 (split; [apply L|]).
  unfold print_summary, rec_duration. rewrite E1. cbn [bind]. rewrite E2. cbn [bind].
  rewrite (summarize_ok r Hr). cbn [bind]. f_equal.
  unfold concat. rewrite app_nil_r, <- !app_assoc. do 2 f_equal.
  - destruct (rec_name r); reflexivity.
Qed.
Print Assumptions C32_printed.

(** C32: the decimal notation determines the number. *)
Theorem C32_decimal : forall t n m, spells t n -> spells t m -> n = m.
Proof. exact spells_inj. Qed.
Print Assumptions C32_decimal.

(** C32: on a tree with a nil element the command does not return. *)
Theorem C32_needs_no_nil : forall r s, summarize r = Ok s -> no_nil r.
Proof. exact summarize_nil. Qed.
Print Assumptions C32_needs_no_nil.

Definition c32_child : recording :=
  mkRec (bs [7%N]) [] [Some (mkColl [] (BPos [(f0, mkVec f0 f0 f0); (fpinf, mkVec f0 f0 f0)]));
                       Some (mkColl [] (BFloat [(f0, f0)]))] [] [] [] [].
Definition c32_sample : recording :=
  mkRec [] (bs [65%N]) [Some (mkColl [] (BEnum [] [(f0, 1%Z)])); Some (mkColl [] (BEuler []));
                      Some (mkColl [] (BPos [(f0, mkVec f0 f0 f0)]))]
    [Some c32_child; Some c32_child] [] [] [].
Example C32_example :
  no_nil c32_sample /\ summarize c32_sample = Ok (mkSum 5 0 0 1 2) /\
  print_summary (fun _ => lit "?") c32_sample 1023 = Ok (lit
"Name:                    A
File Size:               1023b
Duration:                ?s
Sub Recordings:          2
Total Position Captures: 5
Total Euler Captures:    0
Total Event Captures:    0
Total Enum Captures:     1
Total Other Captures:    2
").
Proof.
  split; [|split; vm_compute; reflexivity].
  assert (H : no_nil c32_child).
  { constructor; [intros o [<-|[<-|[]]]; discriminate | intros o []]. }
  constructor; [intros o [<-|[<-|[<-|[]]]]; discriminate|].
  intros o [<-|[<-|[]]]; exists c32_child; auto.
Qed.
