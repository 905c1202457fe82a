(** How close the numbers of a saved collection are to those that were stored, by
    the technique they are stored with.  [bounded e x]: finite and at most 2^e in
    absolute value; [nearest32 x y]: [y] is the 32-bit float nearest to [x];
    [steps_between L H l]: the differences of neighbours in [l] are in [L, H]. *)
From Coq Require Import ZArith Reals.
From Flocq Require Import Core IEEE754.Binary.
From Verif Require Import Base Floats SpecFloat Near32Facts Metadata SpecMeta Recording SpecRec PropStreams PropNumeric.
Local Open Scope R_scope.

(** Numbers in full (0), as 32-bit floats (1), or by a technique of their own. *)
Definition kept {A} (close : A -> A -> Prop) (other : list A -> list A -> Prop) (technique : N) (l l' : list A) : Prop :=
  length l' = length l /\
  match technique with
  | 0%N => l' = l
  | 1%N => Forall2 close l l'
  | _ => other l l'
  end.
(** Every [j]th number is at most [base + j * slope] off. *)
Definition drifts (base slope : R) (l l' : list f64) : Prop :=
  forall j x x', nth_error l j = Some x -> nth_error l' j = Some x' ->
    fin64 x' = true /\ Rabs (val64 x' - val64 x) <= base + INR j * slope.

(** Times in steps of 16 bits: if they do not decrease, by steps of at most [D], then
    neither do the stored ones, and the error grows by less than 2^-16 of the largest
    step with each. *)
Definition kept_times : N -> list f64 -> list f64 -> Prop :=
  kept nearest32 (fun l l' => forall e D, (-100 <= e <= 126)%Z ->
    Forall (bounded e) l -> steps_between 0 D l -> INR (length l) * D <= bpow radix2 e -> (lenN l <= 2 ^ 40)%N ->
    never_decreases l' /\
    drifts (bpow radix2 (e - 25)) (D / 2 ^ 17 + D / 2 ^ 24 + bpow radix2 (e - 44)) l l').

Definition nearest32_vec (v v' : vec) : Prop := forall a, In a axes -> nearest32 (a v) (a v').
(** Positions in octree steps of 48 bits (2) or 24 bits (3), along each axis. *)
Definition kept_positions (technique : N) : list vec -> list vec -> Prop :=
  kept nearest32_vec (fun l l' => forall a, In a axes -> forall e L H G, (-100 <= e <= 126)%Z ->
    Forall (bounded e) (map a l) -> steps_between L H (map a l) ->
    Rabs L <= G -> Rabs H <= G -> INR (length l) * G <= bpow radix2 e -> INR (length l) <= 2 ^ 40 ->
    drifts (bpow radix2 (e - 25))
      ((H - L) / 2 ^ (if (technique =? 2)%N then 17 else 9) + G / 2 ^ 24 + bpow radix2 (e - 44)) (map a l) (map a l')) technique.
(** Angles of at least two rotations in 16 bits. *)
Definition kept_angles : N -> list vec -> list vec -> Prop :=
  kept nearest32_vec (fun l l' => (2 <= length l)%nat -> forall a, In a axes ->
    Forall angle_ok (map a l) -> Forall2 angle_near (map a l) (map a l')).
(** Numbers between [lo] and [hi] in 16 bits. *)
Definition kept_numbers : N -> list f64 -> list f64 -> Prop :=
  kept nearest32 (fun l l' => forall e lo hi, (-125 <= e <= 126)%Z -> Forall (bounded e) l ->
    Forall (fun x => lo <= val64 x <= hi) l ->
    drifts ((hi - lo) / 2 ^ 17 + bpow radix2 (e - 22)) 0 l l').

(** What a collection comes back as: its name and its times, and the rest of its
    captures.  [tp], [te], [tf] and [tt] are the techniques for positions, rotations,
    numbers and times. *)
Definition as_stored (tp te tf tt : N) (c d : coll) : Prop :=
  c_name d = c_name c /\ kept_times tt (c_times c) (c_times d) /\
  match c_body c, c_body d with
  | BPos l, BPos l' => kept_positions tp (map snd l) (map snd l')
  | BEuler l, BEuler l' => kept_angles te (map snd l) (map snd l')
  | BFloat l, BFloat l' => kept_numbers tf (map snd l) (map snd l')
  | BEvent l, BEvent l' => Forall2 (fun x y => fst (snd x) = fst (snd y) /\ block_equiv (snd (snd x)) (snd (snd y))) l l'
  | BEnum ms l, BEnum ms' l' => ms = ms' /\ map snd l = map snd l'
  | _, _ => False
  end.
