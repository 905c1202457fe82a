(** Property C51: what the texts shown to a user say. *)
From Coq Require Import Strings.String Permutation Sorting.Sorted Reals Lia Lra.
From Flocq Require Import Core IEEE754.Binary.
From Verif Require Import Base BaseFacts Floats Metadata SpecMeta MetadataFacts Recording SpecRec RecordingFacts.
From Verif Require Import Text SpecText TextFacts ToJson SpecToJson Summarize SpecSummary Strings SpecStrings StringsFacts PropSummary.
Local Open Scope N_scope.

(** C51: whatever the property, its text shows it: numbers are rounded to six
    places, a block lists every entry once, in the order of the keys. *)
Theorem C51_property : forall p, proper p -> ~ shows_nil p -> ~ shows_raw p ->
  exists t, prop_string p = Ok t /\ displays p t.
Proof. exact string_displays. Qed.
Print Assumptions C51_property.

(** C51: the text does not depend on the order in which Go visits its maps. *)
Theorem C51_same : forall p q, prop_equiv p q -> proper p -> prop_string p = prop_string q.
Proof. exact string_same. Qed.
Print Assumptions C51_same.

(** C51: asking for the text panics exactly if a nil property is shown. *)
Theorem C51_panic : forall p, (prop_string p = Panic <-> shows_nil p) /\ prop_string p <> Stuck.
Proof. exact string_panic. Qed.
Print Assumptions C51_panic.

(** C51: the texts of byte and bool arrays are wrong, whatever the array: the
    count they state is not the number of elements. *)
Theorem C51_raw_refuted :
  (forall d t, prop_string (new_binary_array d) = Ok t -> ~ displays (new_binary_array d) t) /\
  (forall l t, prop_string (new_bool_array l) = Ok t -> ~ displays (new_bool_array l) t).
Proof.
  assert (P : forall base d t, prop_string (PRaw base d) = Ok t -> ~ displays (PRaw base d) t).
  { intros base d t H HD. inversion HD as [| | | | | | | | |d' b n Hb Hn E|l' b n Hb Hn E|]; subst.
    - refine (raw_miscounts _ _ _ _ _ _ Hn Hb H). apply raw_longer.
    - refine (raw_miscounts _ _ _ _ _ _ Hn Hb H). eapply Nat.le_lt_trans; [|apply raw_longer]. now rewrite map_length. }
  split; intros; now apply P.
Qed.
Print Assumptions C51_raw_refuted.

(** C51: the texts of captures show their time and value with two places. *)
Theorem C51_captures :
  (forall t v, exists s, vector s v /\ at_time (position_string (t, v)) t (lit "- " ++ s)) /\
  (forall t v, exists s, vector s v /\ at_time (euler_string (t, v)) t (lit "Rotation - " ++ s)) /\
  (forall t z, exists s, tells s z /\ at_time (enum_string (t, z)) t (lit "Enum - " ++ s)) /\
  (forall t name m, at_time (event_string (t, (name, m))) t name) /\
  (forall t x, exists s, decimals 2 s x /\ at_time (float_string (t, x)) t (lit "- " ++ s)).
Proof.
  assert (A : forall t rest, at_time (stamp t ++ rest) t rest).
  { intros t rest. exists (fixed 2 t). split; [apply fixed_decimals|]. unfold stamp. now rewrite <- !app_assoc. }
  assert (V : forall v, vector (three v) v).
  { intro v. exists (fixed 2 (vx v)), (fixed 2 (vy v)), (fixed 2 (vz v)). repeat split; apply fixed_decimals. }
  split; [intros t v; exists (three v); split; [apply V|apply A]|].
  split; [intros t v; exists (three v); split; [apply V|apply A]|].
  split; [intros t z; exists (show_Z z); split; [apply ToJsonFacts.show_Z_tells|apply A]|].
  split; [intros; apply A|].
  intros t x; exists (fixed 2 x); split; [apply fixed_decimals|apply A].
Qed.
Print Assumptions C51_captures.

(** C51: the size that summarize prints: in bytes below 1024, else in units
    of 1024 or 1024 * 1024 bytes, off by half a hundredth of the unit at
    most. *)
Theorem C51_size : forall size, (0 <= size <= 2 ^ 53)%Z ->
  exists t, print_size (fixed 2) size = t /\
  ((size < 1024)%Z -> exists d, spells d (Z.to_N size) /\ t = d ++ lit "b") /\
  ((1024 <= size < 1024 * 1024)%Z ->
     exists d x, B2R 53 1024 x = (IZR size / 1024)%R /\ decimal 2 d x /\ t = d ++ lit "kb") /\
  ((1024 * 1024 <= size)%Z ->
     exists d x, B2R 53 1024 x = (IZR size / (1024 * 1024))%R /\ decimal 2 d x /\ t = d ++ lit "mb").
Proof.
  intros size Hs. destruct (size_shown size Hs) as (E & [Fk Vk] & [Fm Vm]). rewrite E. eexists. split; [reflexivity|].
  split; [|split].
  - intro H. destruct (Z.ltb_spec size 1024) as [_|L]; [|lia]. exists (show_Z size). split; [|reflexivity].
    destruct size as [|q|q]; [apply show_N_spells|apply show_N_spells|lia].
  - intro H. destruct (Z.ltb_spec size 1024) as [L|_]; [lia|]. destruct (Z.ltb_spec size (1024 * 1024)) as [_|L]; [|lia].
    eexists _, _. split; [exact Vk|]. split; [now apply fixed_decimal|reflexivity].
  - intro H. destruct (Z.ltb_spec size 1024) as [L|_]; [lia|]. destruct (Z.ltb_spec size (1024 * 1024)) as [L|_]; [lia|].
    eexists _, _. split; [exact Vm|]. split; [now apply fixed_decimal|reflexivity].
Qed.
Print Assumptions C51_size.

(** The duration that summarize prints, with two places. *)
Theorem C51_duration : forall r size, no_nil r ->
  exists d t before after, rec_duration r = Ok d /\ decimals 2 t d /\
    print_summary (fixed 2) r size = Ok (before ++ lit "Duration:                " ++ t ++ lit "s" ++ bs [10] ++ after).
Proof.
  intros r size Hr. destruct (C32_printed (fixed 2) r size Hr) as (d & sub & pos & eul & evt & enm & oth & Hd & _ & _ & _ & _ & _ & _ & E).
  assert (G : forall (a b l x y z : str) rest, concat (a :: b :: (l ++ x ++ y ++ z) :: rest) = (a ++ b) ++ l ++ x ++ y ++ z ++ concat rest).
  { intros. cbn [concat]. now rewrite <- !app_assoc. }
  rewrite G in E. exists d, (fixed 2 d). eexists _, _. split; [exact Hd|]. split; [apply fixed_decimals|]. exact E.
Qed.
Print Assumptions C51_duration.

(** Two visits of the same map, and a float to round. *)
Definition third : f64 := B754_finite 53 1024 true 6004799503160661 (-54) eq_refl.
Definition c51_block (swap : bool) : prop :=
  let a := (lit "b", PVec2 third (B754_zero 53 1024 true)) in
  let b := (lit "a", PBlock [(lit "ab", PBool true); (lit "a", PArray 1 [PInt 1; PInt 2])]) in
  PBlock (if swap then [b; a] else [a; b]).
Example C51_example :
  proper (c51_block false) /\ ~ shows_nil (c51_block false) /\ ~ shows_raw (c51_block false) /\
  prop_equiv (c51_block false) (c51_block true) /\
  prop_string (c51_block false) = Ok (lit "{
	""a"": {
	""a"": Type 1 Array of 2 elements;
	""ab"": true;
};
	""b"": -0.333333, -0.000000;
}").
Proof.
  assert (ND : forall a b : str, a <> b -> NoDup [a; b]).
  { intros a b H. constructor; [intros [E|[]]; now apply H|]. constructor; [intros []|constructor]. }
  split; [|split; [|split; [|split]]].
  - apply P_block; [apply ND; discriminate|]. intros k v [E|[E|[]]]; injection E as <- <-.
    + now apply P_leaf.
    + apply P_block; [apply ND; discriminate|]. intros k v [E|[E|[]]]; injection E as <- <-; now apply P_leaf.
  - intro H. inversion H as [|? k v Hi Hv]; subst. destruct Hi as [E|[E|[]]]; injection E as <- <-; inversion Hv as [|? k' v' Hi' Hv']; subst.
    destruct Hi' as [E'|[E'|[]]]; injection E' as <- <-; inversion Hv'.
  - intro H. inversion H as [|? k v Hi Hv]; subst. destruct Hi as [E|[E|[]]]; injection E as <- <-; inversion Hv as [|? k' v' Hi' Hv']; subst.
    destruct Hi' as [E'|[E'|[]]]; injection E' as <- <-; inversion Hv'.
  - apply PE_block. eapply BE; [apply perm_swap|]. repeat (constructor; [constructor|]). constructor.
  - vm_compute. reflexivity.
Qed.
Example C51_size_example :
  print_size (fixed 2) 1023 = lit "1023b" /\
  prop_string (new_binary_array [x01; x02]) = Ok (lit "Type 5 Array of 3 elements").
Proof. vm_compute. auto. Qed.
