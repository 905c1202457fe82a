(** The calendar and the notation of timestamps. *)
From Coq Require Import ZArith Lia Strings.String.
From Verif Require Import Base BaseFacts Recording SpecText SpecStamp Stamp.
Local Open Scope Z_scope.

Ltac dm := Z.div_mod_to_equations; lia.

(** the number of the first day of a year *)
Definition year_start (y : Z) : Z := 365 * y + (y + 3) / 4 - (y + 99) / 100 + (y + 399) / 400.
Lemma is_leap_spec : forall y, is_leap y = true <-> leap y.
Proof.
  intro y. unfold is_leap, leap. rewrite Bool.andb_true_iff, Bool.orb_true_iff, Bool.negb_true_iff, !Z.eqb_eq, Z.eqb_neq. split; [tauto|].
  intros [[H H']|H]; [tauto|]. split; [|tauto]. dm.
Qed.
Definition ylen (y : Z) : Z := if is_leap y then 366 else 365.
Lemma ylen_spec : forall y k, year_length y k <-> k = ylen y.
Proof.
  intros y k. unfold ylen. split.
  - intros [z H|z H]; rewrite <- is_leap_spec in H; destruct (is_leap z); congruence.
  - intros ->. destruct (is_leap y) eqn:E; constructor; rewrite <- is_leap_spec; congruence.
Qed.
Lemma year_start_next : forall y, year_start (y + 1) = year_start y + ylen y.
Proof.
  intro y. unfold year_start, ylen.
  assert (A : (y + 1 + 3) / 4 = (y + 3) / 4 + if y mod 4 =? 0 then 1 else 0) by (destruct (Z.eqb_spec (y mod 4) 0); dm).
  assert (B : (y + 1 + 99) / 100 = (y + 99) / 100 + if y mod 100 =? 0 then 1 else 0) by (destruct (Z.eqb_spec (y mod 100) 0); dm).
  assert (C : (y + 1 + 399) / 400 = (y + 399) / 400 + if y mod 400 =? 0 then 1 else 0) by (destruct (Z.eqb_spec (y mod 400) 0); dm).
  rewrite A, B, C. unfold is_leap.
  destruct (Z.eqb_spec (y mod 4) 0), (Z.eqb_spec (y mod 100) 0), (Z.eqb_spec (y mod 400) 0); cbn [andb orb negb]; try lia; exfalso; dm.
Qed.
(** the library's month table *)
Lemma mlen_spec : forall y m k, month_length y m k <-> 1 <= m <= 12 /\ k = days_in m y.
Proof.
  intros y m k. split.
  - intros [z n H|z n H|z H|z H]; unfold days_in.
    + cbn [In] in H. split; [lia|]. repeat destruct H as [<-|H]; try reflexivity. destruct H.
    + cbn [In] in H. split; [lia|]. repeat destruct H as [<-|H]; try reflexivity. destruct H.
    + rewrite <- is_leap_spec in H. destruct (is_leap z); [congruence|]. split; [lia|reflexivity].
    + rewrite <- is_leap_spec in H. rewrite H. split; [lia|reflexivity].
  - intros [Hm ->]. assert (m = 1 \/ m = 2 \/ m = 3 \/ m = 4 \/ m = 5 \/ m = 6 \/ m = 7 \/ m = 8 \/ m = 9 \/ m = 10 \/ m = 11 \/ m = 12) as H by lia.
    repeat destruct H as [->|H]; try (apply Long_month; cbn; tauto); try (apply Short_month; cbn; tauto).
    + unfold days_in. change (2 =? 2) with true. destruct (is_leap y) eqn:E; constructor; rewrite <- is_leap_spec; congruence.
    + subst m. apply Long_month; cbn; tauto.
Qed.
(** days of a year before a month *)
Definition before (y m : Z) : Z := days_before (m - 1) + if is_leap y && (3 <=? m) then 1 else 0.
Lemma before_next : forall y m, 1 <= m < 12 -> before y (m + 1) = before y m + days_in m y.
Proof.
  intros y m Hm. unfold before, days_in.
  assert (m = 1 \/ m = 2 \/ m = 3 \/ m = 4 \/ m = 5 \/ m = 6 \/ m = 7 \/ m = 8 \/ m = 9 \/ m = 10 \/ m = 11) as H by lia.
  destruct (is_leap y); repeat destruct H as [->|H]; try reflexivity; try (subst m; reflexivity).
Qed.
Lemma days_in_pos : forall y m, 1 <= m <= 12 -> 1 <= days_in m y.
Proof.
  intros y m Hm. unfold days_in.
  assert (m = 1 \/ m = 2 \/ m = 3 \/ m = 4 \/ m = 5 \/ m = 6 \/ m = 7 \/ m = 8 \/ m = 9 \/ m = 10 \/ m = 11 \/ m = 12) as H by lia.
  destruct (is_leap y); repeat destruct H as [->|H]; try (vm_compute; discriminate); subst m; vm_compute; discriminate.
Qed.
Lemma days_in_bound : forall y m, 1 <= m <= 12 -> days_in m y <= 31.
Proof.
  intros y m Hm. unfold days_in.
  assert (m = 1 \/ m = 2 \/ m = 3 \/ m = 4 \/ m = 5 \/ m = 6 \/ m = 7 \/ m = 8 \/ m = 9 \/ m = 10 \/ m = 11 \/ m = 12) as H by lia.
  destruct (is_leap y); repeat destruct H as [->|H]; try (vm_compute; discriminate); subst m; vm_compute; discriminate.
Qed.
Lemma day_number_is : forall y m d n, day_number y m d n ->
  0 <= y /\ 1 <= m <= 12 /\ 1 <= d <= days_in m y /\ n = year_start y + before y m + d - 1.
Proof.
  induction 1 as [|y k n H IH Hk|y m k n Hm H IH Hk|y m d k n H IH Hk Hd].
  - repeat split; try lia; vm_compute; congruence.
  - apply ylen_spec in Hk. subst k. destruct IH as (Hy & _ & _ & ->). rewrite year_start_next.
    assert (B : forall z, before z 1 = 0) by (intro z; unfold before; destruct (is_leap z); reflexivity).
    pose proof (days_in_pos (y + 1) 1 ltac:(lia)). rewrite !B. lia.
  - apply mlen_spec in Hk as [_ ->]. destruct IH as (Hy & _ & _ & ->). rewrite before_next by lia.
    pose proof (days_in_pos y (m + 1) ltac:(lia)). lia.
  - apply mlen_spec in Hk as [Hm ->]. destruct IH as (Hy & _ & _ & ->). lia.
Qed.
Lemma is_day_number : forall y m d, 0 <= y -> 1 <= m <= 12 -> 1 <= d <= days_in m y ->
  day_number y m d (year_start y + before y m + d - 1).
Proof.
  intros y m d Hy Hm Hd.
  assert (B : forall z, before z 1 = 0) by (intro z; unfold before; destruct (is_leap z); reflexivity).
  assert (A : forall k, day_number (Z.of_nat k) 1 1 (year_start (Z.of_nat k))).
  { induction k as [|k IH]; [exact First_day|]. rewrite Nat2Z.inj_succ. unfold Z.succ. rewrite year_start_next.
    apply Next_year; [exact IH|]. now apply ylen_spec. }
  specialize (A (Z.to_nat y)). rewrite Z2Nat.id in A by lia.
  assert (C : forall k, (k < 12)%nat -> day_number y (Z.of_nat k + 1) 1 (year_start y + before y (Z.of_nat k + 1))).
  { induction k as [|k IH]; intro Hk.
    - change (Z.of_nat 0 + 1) with 1. rewrite B, Z.add_0_r. exact A.
    - rewrite Nat2Z.inj_succ. unfold Z.succ. rewrite before_next by lia. rewrite Z.add_assoc. apply Next_month; [lia|apply IH; lia|].
      apply mlen_spec. split; [lia|reflexivity]. }
  specialize (C (Z.to_nat (m - 1)) ltac:(lia)). rewrite Z2Nat.id in C by lia. replace (m - 1 + 1) with m in C by lia.
  eapply Within_month; [exact C| |exact Hd]. apply mlen_spec. auto.
Qed.
Lemma days_since_is : forall y m d, days_since y m d = year_start y + before y m + d - 1 - 366.
Proof.
  intros y m d. unfold days_since, before, year_start.
  assert (E : 146097 * ((y - 1) / 400) + 36524 * ((y - 1 - 400 * ((y - 1) / 400)) / 100) +
    1461 * ((y - 1 - 400 * ((y - 1) / 400) - 100 * ((y - 1 - 400 * ((y - 1) / 400)) / 100)) / 4) +
    365 * (y - 1 - 400 * ((y - 1) / 400) - 100 * ((y - 1 - 400 * ((y - 1) / 400)) / 100) - 4 * ((y - 1 - 400 * ((y - 1) / 400) - 100 * ((y - 1 - 400 * ((y - 1) / 400)) / 100)) / 4))
    = 365 * y + (y + 3) / 4 - (y + 99) / 100 + (y + 399) / 400 - 366).
  { set (a := (y - 1) / 400). set (r := y - 1 - 400 * a). set (b := r / 100). set (r2 := r - 100 * b). set (c := r2 / 4). set (e := r2 - 4 * c).
    assert (0 <= r < 400) by (unfold r, a; dm). assert (0 <= b <= 3) by (unfold b; dm). assert (0 <= r2 < 100) by (unfold r2, b; dm).
    assert (0 <= c <= 24) by (unfold c; dm). assert (0 <= e <= 3) by (unfold e, c; dm).
    assert (Ey : y = 1 + 400 * a + 100 * b + 4 * c + e) by (unfold e, r2, r; lia). clearbody a b c e r r2.
    assert ((y + 3) / 4 = 1 + 100 * a + 25 * b + c) as -> by dm. assert ((y + 99) / 100 = 1 + 4 * a + b) as -> by dm. assert ((y + 399) / 400 = 1 + a) as -> by dm. lia. }
  destruct (is_leap y && (3 <=? m)); lia.
Qed.
Lemma year_of_is : forall d y yday, 0 <= d -> year_of d = (y, yday) ->
  1 <= y /\ 0 <= yday < ylen y /\ d = year_start y - 366 + yday.
Proof.
  intros d y yday Hd H. unfold year_of in H. cbv zeta in H. apply pair_equal_spec in H as [<- <-].
  set (a := d / 146097). set (r := d - 146097 * a). set (b0 := r / 36524). set (b := b0 - b0 / 4). set (r2 := r - 36524 * b).
  set (c := r2 / 1461). set (r3 := r2 - 1461 * c). set (e0 := r3 / 365). set (e := e0 - e0 / 4). set (r4 := r3 - 365 * e).
  assert (0 <= a) by (unfold a; dm). assert (0 <= r < 146097) by (unfold r, a; dm).
  assert (Hb : 0 <= b <= 3 /\ 0 <= r2 <= 36524 /\ (b < 3 -> r2 < 36524)).
  { assert (0 <= b0 <= 4 /\ 0 <= r - 36524 * b0 < 36524) as [B1 B2] by (unfold b0; dm).
    assert (b0 = 4 \/ b0 < 4) as [E|E] by lia.
    - unfold r2, b. rewrite E in *. change (4 - 4 / 4) with 3. lia.
    - assert (b0 / 4 = 0) as E' by dm. unfold r2, b. rewrite E'. lia. }
  assert (Hc : 0 <= c <= 24 /\ 0 <= r3 <= 1460 /\ (c = 24 -> b < 3 -> r3 < 1460)).
  { assert (0 <= r2 - 1461 * c < 1461) by (unfold c; dm). unfold r3. unfold c in *. dm. }
  assert (He : 0 <= e <= 3 /\ 0 <= r4 <= 365 /\ (e < 3 -> r4 < 365) /\ (r3 < 1460 -> r4 < 365)).
  { assert (0 <= e0 <= 4 /\ 0 <= r3 - 365 * e0 < 365) as [B1 B2] by (unfold e0; dm).
    assert (e0 = 4 \/ e0 < 4) as [E|E] by lia.
    - unfold r4, e. rewrite E in *. change (4 - 4 / 4) with 3. lia.
    - assert (e0 / 4 = 0) as E' by dm. unfold r4, e. rewrite E'. lia. }
  assert (Ed : d = 146097 * a + 36524 * b + 1461 * c + 365 * e + r4) by (unfold r4, r3, r2, r; lia).
  clearbody a r b0 b r2 c r3 e0 e r4. set (y := 400 * a + 100 * b + 4 * c + e + 1).
  split; [unfold y; lia|]. split.
  - split; [lia|]. unfold ylen. destruct (is_leap y) eqn:El; [lia|].
    assert (r4 <> 365); [|lia]. intro E. assert (e = 3 /\ r3 = 1460) as [-> ->] by lia.
    assert (is_leap y = true); [|congruence]. apply is_leap_spec. unfold leap, y.
    assert (c = 24 \/ c < 24) as [->|Hc'] by lia.
    + assert (b = 3) as -> by lia. right. dm.
    + left. split; dm.
  - unfold year_start, y.
    assert ((400 * a + 100 * b + 4 * c + e + 1 + 3) / 4 = 1 + 100 * a + 25 * b + c) as -> by dm.
    assert ((400 * a + 100 * b + 4 * c + e + 1 + 99) / 100 = 1 + 4 * a + b) as -> by dm.
    assert ((400 * a + 100 * b + 4 * c + e + 1 + 399) / 400 = 1 + a) as -> by dm. lia.
Qed.
(** a table of all days of a year *)
Definition month_right (l : bool) (yd : Z) : bool :=
  let (m, d) := month_of l yd in
  let len := if (m =? 2) && l then 29 else days_before m - days_before (m - 1) in
  (1 <=? m) && (m <=? 12) && (1 <=? d) && (d <=? len) && (yd =? days_before (m - 1) + (if l && (3 <=? m) then 1 else 0) + d - 1).
Lemma months_right : forall l, forallb (fun k => month_right l (Z.of_nat k)) (seq 0 (if l then 366 else 365)) = true.
Proof. intros [|]; vm_compute; reflexivity. Qed.
Lemma month_of_is : forall y yd m d, 0 <= yd < ylen y -> month_of (is_leap y) yd = (m, d) ->
  1 <= m <= 12 /\ 1 <= d <= days_in m y /\ yd = before y m + d - 1.
Proof.
  intros y yd m d Hy H. pose proof (months_right (is_leap y)) as T. rewrite forallb_forall in T. specialize (T (Z.to_nat yd)).
  rewrite Z2Nat.id in T by lia. unfold month_right in T. rewrite H in T. unfold days_in, before.
  assert (In (Z.to_nat yd) (seq 0 (if is_leap y then 366 else 365))) as Hin.
  { apply in_seq. unfold ylen in Hy. destruct (is_leap y); lia. }
  specialize (T Hin). repeat (apply andb_prop in T as [T ?]). lia.
Qed.

(** digits *)
Lemma dig_ok : forall n, 0 <= n <= 9 -> digit (dig n) /\ Z.of_N (digit_val (dig n)) = n.
Proof.
  intros n H. assert (n = 0 \/ n = 1 \/ n = 2 \/ n = 3 \/ n = 4 \/ n = 5 \/ n = 6 \/ n = 7 \/ n = 8 \/ n = 9) as E by lia.
  repeat destruct E as [->|E]; try (split; [split; vm_compute; discriminate|reflexivity]). subst n. split; [split; vm_compute; discriminate|reflexivity].
Qed.
Lemma two_ok : forall n, 0 <= n < 100 -> padded 2 n (two n).
Proof.
  intros n H. destruct (dig_ok (n / 10) ltac:(dm)) as [A1 A2], (dig_ok (n mod 10) ltac:(dm)) as [B1 B2].
  unfold two. split; [reflexivity|]. split; [repeat (apply Forall_cons; [assumption|]); apply Forall_nil|]. unfold value. cbn [fold_left]. rewrite A2, B2. dm.
Qed.
Lemma four_ok : forall n, 0 <= n < 10000 -> padded 4 n (four n).
Proof.
  intros n H. destruct (dig_ok (n / 1000) ltac:(dm)) as [A1 A2], (dig_ok (n / 100 mod 10) ltac:(dm)) as [B1 B2], (dig_ok (n / 10 mod 10) ltac:(dm)) as [C1 C2], (dig_ok (n mod 10) ltac:(dm)) as [D1 D2].
  unfold four. split; [reflexivity|]. split; [repeat (apply Forall_cons; [assumption|]); apply Forall_nil|]. unfold value. cbn [fold_left]. rewrite A2, B2, C2, D2. dm.
Qed.

Lemma value_app : forall a b, value (a ++ b) = value a * 10 ^ Z.of_nat (List.length b) + value b.
Proof.
  intros a b. unfold value. rewrite fold_left_app. generalize (fold_left (fun n b => n * 10 + Z.of_N (digit_val b)) a 0). intro n.
  assert (G : forall l n m, fold_left (fun n b => n * 10 + Z.of_N (digit_val b)) l (n + m) = n * 10 ^ Z.of_nat (List.length l) + fold_left (fun n b => n * 10 + Z.of_N (digit_val b)) l m).
  { induction l as [|c l IH]; intros x y; [cbn [fold_left List.length]; change (Z.of_nat 0) with 0; lia|].
    cbn [fold_left List.length]. replace ((x + y) * 10 + Z.of_N (digit_val c)) with (x * 10 + (y * 10 + Z.of_N (digit_val c))) by lia.
    rewrite IH, Nat2Z.inj_succ, Z.pow_succ_r by lia. lia. }
  rewrite <- (Z.add_0_r n) at 1. apply G.
Qed.
Lemma value_bound : forall a, Forall digit a -> 0 <= value a < 10 ^ Z.of_nat (List.length a).
Proof.
  induction a as [|c a IH] using rev_ind; intro H; [unfold value; cbn; lia|]. apply Forall_app in H as [H1 H2]. specialize (IH H1).
  inversion H2; subst. rewrite value_app, app_length. cbn [List.length]. rewrite Nat2Z.inj_add, Z.pow_add_r by lia. change (10 ^ Z.of_nat 1) with 10.
  assert (value [c] = Z.of_N (digit_val c)) as -> by (unfold value; cbn [fold_left]; lia). unfold digit, digit_val in *. nia.
Qed.
Lemma value_zeros : forall k, value (repeat x30 k) = 0.
Proof. intro k. unfold value. induction k as [|k IH]; [reflexivity|]. cbn [repeat fold_left]. exact IH. Qed.
Lemma trim_ok : forall l, exists k, l = trim l ++ repeat x30 k /\ ~ (exists d, trim l = d ++ [x30]).
Proof.
  induction l as [|c l (k & E & N)]; [exists 0%nat; split; [reflexivity|]; intros [[|] H]; discriminate|]. cbn [trim].
  destruct (trim l) as [|x t] eqn:Et.
  - destruct (Byte.eqb c x30) eqn:Ec.
    + apply Byte.byte_dec_bl in Ec. subst c. exists (S k). split; [cbn [repeat app] in *; now rewrite <- E|]. intros [[|] H]; discriminate.
    + exists k. split; [cbn [app] in *; now rewrite <- E|]. intros [[|y [|z d]] H]; try discriminate. injection H as ->. discriminate Ec.
  - exists k. split; [cbn [app]; f_equal; exact E|]. intros [[|y d] H]; [discriminate|]. injection H as _ H. apply N. exists d. exact H.
Qed.
Lemma nine_ok : forall n, 0 <= n < 10 ^ 9 -> padded 9 n (nine n).
Proof.
  intros n H. change (10 ^ 9) with 1000000000 in H.
  destruct (dig_ok (n / 100000000) ltac:(dm)) as [A1 A2], (dig_ok (n / 10000000 mod 10) ltac:(dm)) as [B1 B2], (dig_ok (n / 1000000 mod 10) ltac:(dm)) as [C1 C2],
    (dig_ok (n / 100000 mod 10) ltac:(dm)) as [D1 D2], (dig_ok (n / 10000 mod 10) ltac:(dm)) as [E1 E2], (dig_ok (n / 1000 mod 10) ltac:(dm)) as [F1 F2],
    (dig_ok (n / 100 mod 10) ltac:(dm)) as [G1 G2], (dig_ok (n / 10 mod 10) ltac:(dm)) as [I1 I2], (dig_ok (n mod 10) ltac:(dm)) as [J1 J2].
  unfold nine. split; [reflexivity|]. split; [repeat (apply Forall_cons; [assumption|]); apply Forall_nil|]. unfold value. cbn [fold_left].
  rewrite A2, B2, C2, D2, E2, F2, G2, I2, J2.
  assert (S : forall d, 0 < d -> n / (d * 10) * 10 + n / d mod 10 = n / d).
  { intros d Hd. rewrite <- Z.div_div by lia. rewrite (Z.mul_comm (_ / 10)). symmetry. apply Z.div_mod. lia. }
  change (0 * 10 + n / 100000000) with (n / (10000000 * 10)). rewrite S by lia. change 10000000 with (1000000 * 10) at 1. rewrite S by lia.
  change 1000000 with (100000 * 10) at 1. rewrite S by lia. change 100000 with (10000 * 10) at 1. rewrite S by lia. change 10000 with (1000 * 10) at 1. rewrite S by lia.
  change 1000 with (100 * 10) at 1. rewrite S by lia. change 100 with (10 * 10) at 1. rewrite S by lia. change 10 with (1 * 10) at 1. rewrite Z.mul_comm. rewrite (Z.div_mod n 10) at 3 by lia. reflexivity.
Qed.
Lemma fraction_ok : forall ns, 0 <= ns < 10 ^ 9 -> fraction_text ns (fraction ns).
Proof.
  intros ns H. destruct (nine_ok ns H) as (L & D & V). destruct (trim_ok (nine ns)) as (k & E & N). unfold fraction.
  rewrite E in L, D, V. rewrite app_length, repeat_length in L. apply Forall_app in D as [D _].
  rewrite value_app, value_zeros, repeat_length, Z.add_0_r in V.
  destruct (trim (nine ns)) as [|c t] eqn:Et; [left; split; [|reflexivity]; unfold value in V; cbn [fold_left] in V; lia|].
  right. exists (c :: t), k. repeat split; auto. discriminate.
Qed.
Lemma zone_ok : forall off, -86400 < off < 86400 -> offset_text (off - Z.rem off 60) (zone_text off).
Proof.
  intros off H. unfold zone_text. destruct (Z.eqb_spec off 0) as [->|Hn]; [left; split; reflexivity|]. right.
  pose proof (Z.quot_rem off 60 ltac:(lia)) as Q. assert (E : off - Z.rem off 60 = 60 * Z.quot off 60) by lia. rewrite E.
  assert (-1440 < Z.quot off 60 < 1440).
  { Z.to_euclidean_division_equations. lia. }
  clear E Q. set (z := Z.quot off 60) in *. clearbody z.
  destruct (Z.ltb_spec z 0).
  - exists (lit "-"), (- z / 60), (- z mod 60), (two (- z / 60)), (two (- z mod 60)). split; [reflexivity|].
    split; [apply two_ok; dm|]. split; [apply two_ok; dm|]. split; [dm|]. split; [dm|]. right. split; [reflexivity|dm].
  - exists (lit "+"), (z / 60), (z mod 60), (two (z / 60)), (two (z mod 60)). split; [reflexivity|].
    split; [apply two_ok; dm|]. split; [apply two_ok; dm|]. split; [dm|]. split; [dm|]. left. split; [reflexivity|dm].
Qed.

Lemma epoch_number : day_number 1970 1 1 719528.
Proof. exact (is_day_number 1970 1 1 ltac:(lia) ltac:(lia) ltac:(vm_compute; split; discriminate)). Qed.
Lemma year_mono : forall a b, a <= b -> year_start a <= year_start b.
Proof. intros a b H. unfold year_start. dm. Qed.
Lemma format_ok : forall nanos off, - 2 ^ 63 <= nanos < 2 ^ 63 -> -86400 < off < 86400 ->
  stamp (nanos + Z.rem off 60 * 10 ^ 9) (off - Z.rem off 60) (format_stamp nanos off).
Proof.
  intros nanos off Hn Ho. change (2 ^ 63) with 9223372036854775808 in Hn. unfold format_stamp. cbv zeta.
  set (sec := nanos / 1000000000 + off). assert (Hs : -10000000000 < sec < 10000000000) by (unfold sec; dm).
  destruct (year_of (sec / 86400 + unix_days)) as [y yday] eqn:Ey. unfold unix_days in *.
  apply year_of_is in Ey as (Hy & Hd & Ey); [|dm].
  destruct (month_of (is_leap y) yday) as [m d] eqn:Em. apply month_of_is in Em as (Hm & Hdd & Em); [|exact Hd].
  assert (Hy' : y < 10000).
  { destruct (Z.lt_ge_cases y 10000) as [Hl|Hl]; [exact Hl|exfalso]. apply year_mono in Hl. change (year_start 10000) with 3652425 in Hl. dm. }
  set (s := sec mod 86400). assert (0 <= s < 86400) by (unfold s; dm).
  exists y, m, d, (s / 3600), (s mod 3600 / 60), (s mod 60), (nanos mod 1000000000). split.
  - exists (year_start y + before y m + d - 1), 719528. split; [apply is_day_number; lia|]. split; [apply epoch_number|].
    split; [dm|]. split; [dm|]. split; [dm|]. change (10 ^ 9) with 1000000000. split; [dm|].
    replace (year_start y + before y m + d - 1 - 719528) with (sec / 86400) by lia.
    assert (sec / 86400 * 86400 + s = sec) by (unfold s; dm).
    assert (s / 3600 * 3600 + s mod 3600 / 60 * 60 + s mod 60 = s) by dm.
    replace (sec / 86400 * 86400 + s / 3600 * 3600 + s mod 3600 / 60 * 60 + s mod 60 - (off - Z.rem off 60)) with (nanos / 1000000000 + Z.rem off 60) by (unfold sec in *; lia).
    pose proof (Z.div_mod nanos 1000000000 ltac:(lia)). lia.
  - exists (four y), (two m), (two d), (two (s / 3600)), (two (s mod 3600 / 60)), (two (s mod 60)), (fraction (nanos mod 1000000000)), (zone_text off).
    split; [reflexivity|]. split; [apply four_ok; lia|]. split; [apply two_ok; lia|].
    split; [apply two_ok; pose proof (days_in_bound y m Hm); lia|].
    split; [apply two_ok; dm|]. split; [apply two_ok; dm|]. split; [apply two_ok; dm|]. split; [apply fraction_ok; change (10 ^ 9) with 1000000000; dm|].
    apply zone_ok. exact Ho.
Qed.

(** reading *)
Lemma is_dig_spec : forall c, is_dig c = true <-> digit c.
Proof. intro c. unfold is_dig, digit. rewrite Bool.andb_true_iff, !Z.leb_le. lia. Qed.
Lemma val_digit : forall c, digit c -> val c = Z.of_N (digit_val c).
Proof. intros c H. unfold digit in H. unfold val, digit_val. lia. Qed.
Lemma value_of_is : forall t, Forall digit t -> value_of t = value t.
Proof.
  intros t. unfold value_of, value. generalize 0. induction t as [|c t IH]; intros n H; [reflexivity|]. inversion H; subst. cbn [fold_left].
  rewrite val_digit by assumption. now apply IH.
Qed.
Lemma padded1 : forall n t, padded 1 n t <-> exists a, t = [a] /\ is_dig a = true /\ n = val a.
Proof.
  intros n t. split.
  - intros (L & D & V). destruct t as [|a [|]]; try discriminate. inversion D; subst. exists a. split; [reflexivity|].
    split; [now apply is_dig_spec|]. unfold value. cbn [fold_left]. rewrite val_digit by assumption. lia.
  - intros (a & -> & Da & ->). apply is_dig_spec in Da. split; [reflexivity|]. split; [repeat (apply Forall_cons; [assumption|]); apply Forall_nil|].
    unfold value. cbn [fold_left]. rewrite val_digit by assumption. lia.
Qed.
Lemma padded2 : forall n t, padded 2 n t <-> exists a b, t = [a; b] /\ is_dig a = true /\ is_dig b = true /\ n = val a * 10 + val b.
Proof.
  intros n t. split.
  - intros (L & D & V). destruct t as [|a [|b [|]]]; try discriminate. inversion D as [|? ? D1 D']; subst. inversion D'; subst. exists a, b. split; [reflexivity|].
    rewrite !val_digit by assumption. split; [now apply is_dig_spec|]. split; [now apply is_dig_spec|]. unfold value. cbn [fold_left]. lia.
  - intros (a & b & -> & Da & Db & ->). apply is_dig_spec in Da, Db. split; [reflexivity|]. split; [repeat (apply Forall_cons; [assumption|]); apply Forall_nil|].
    unfold value. cbn [fold_left]. rewrite !val_digit by assumption. lia.
Qed.
Lemma padded4 : forall n t, padded 4 n t <-> exists a b c d, t = [a; b; c; d] /\ is_dig a = true /\ is_dig b = true /\ is_dig c = true /\ is_dig d = true /\
  n = val a * 1000 + val b * 100 + val c * 10 + val d.
Proof.
  intros n t. split.
  - intros (L & D & V). destruct t as [|a [|b [|c [|d [|]]]]]; try discriminate.
    assert (digit a /\ digit b /\ digit c /\ digit d) as (A & B & C & E) by (rewrite Forall_forall in D; repeat split; apply D; cbn; tauto).
    exists a, b, c, d. split; [reflexivity|]. rewrite !val_digit by assumption. repeat (split; [apply is_dig_spec; assumption|]).
    subst n. unfold value. cbn [fold_left]. lia.
  - intros (a & b & c & d & -> & A & B & C & E & ->). apply is_dig_spec in A, B, C, E. split; [reflexivity|]. split; [repeat (apply Forall_cons; [assumption|]); apply Forall_nil|].
    unfold value. cbn [fold_left]. rewrite !val_digit by assumption. lia.
Qed.
Lemma getnum_fixed : forall s n r, getnum true s = Some (n, r) <-> exists t, s = t ++ r /\ padded 2 n t.
Proof.
  intros s n r. split.
  - intro H. destruct s as [|a [|b s]]; cbn [getnum] in H; [discriminate|destruct (is_dig a); discriminate|].
    destruct (is_dig a) eqn:A; [|discriminate]. destruct (is_dig b) eqn:B; [|discriminate]. injection H as <- <-. exists [a; b]. split; [reflexivity|].
    apply padded2. exists a, b. auto.
  - intros (t & -> & H). apply padded2 in H as (a & b & -> & A & B & ->). cbn [app getnum]. now rewrite A, B.
Qed.
Definition no_digit (s : str) : Prop := match s with [] => True | c :: _ => is_dig c = false end.
Lemma getnum_loose : forall s n r, (exists t, s = t ++ r /\ no_digit r /\ (padded 2 n t \/ padded 1 n t)) -> getnum false s = Some (n, r).
Proof.
  intros s n r (t & -> & Hr & [H|H]).
  - apply padded2 in H as (a & b & -> & A & B & ->). cbn [app getnum]. now rewrite A, B.
  - apply padded1 in H as (a & -> & A & ->). cbn [app getnum]. rewrite A. destruct r as [|b r]; [reflexivity|]. cbn [no_digit] in Hr. now rewrite Hr.
Qed.
Lemma getnum_loose_inv : forall s n r, getnum false s = Some (n, r) -> exists t, s = t ++ r /\ (padded 2 n t \/ padded 1 n t).
Proof.
  intros s n r H. destruct s as [|a s]; cbn [getnum] in H; [discriminate|]. destruct (is_dig a) eqn:A; [|discriminate].
  assert (P : padded 1 (val a) [a]) by (apply padded1; eauto).
  destruct s as [|b s]; [injection H as <- <-; exists [a]; auto|]. destruct (is_dig b) eqn:B; injection H as <- <-.
  - exists [a; b]. split; [reflexivity|]. left. apply padded2. exists a, b. auto.
  - exists [a]. auto.
Qed.
Lemma get_year_spec : forall s n r, get_year s = Some (n, r) <-> exists t, s = t ++ r /\ padded 4 n t.
Proof.
  intros s n r. split.
  - intro H. destruct s as [|a [|b [|c [|d s]]]]; try discriminate. cbn [get_year] in H.
    destruct (is_dig a && is_dig b && is_dig c && is_dig d) eqn:E; [|discriminate]. injection H as <- <-. exists [a; b; c; d]. split; [reflexivity|].
    do 3 (apply andb_prop in E as [E ?]). apply padded4. exists a, b, c, d. auto 10.
  - intros (t & -> & H). apply padded4 in H as (a & b & c & d & -> & A & B & C & D & ->). cbn [app get_year]. now rewrite A, B, C, D.
Qed.
Lemma skip_spec : forall c s r, skip c s = Some r <-> s = c :: r.
Proof.
  intros c s r. destruct s as [|a s]; cbn [skip]; [split; discriminate|]. destruct (Byte.eqb a c) eqn:E.
  - apply Byte.byte_dec_bl in E. subst a. split; [now intros [= ->]|now intros [= ->]].
  - split; [discriminate|]. intros [= -> _]. now rewrite (Byte.byte_dec_lb (eq_refl c)) in E.
Qed.
Lemma guard_spec : forall b, guard b = Some tt <-> b = true.
Proof. intros [|]; cbn; split; congruence. Qed.
Lemma span_spec : forall s a b, span_digits s = (a, b) <-> s = a ++ b /\ Forall digit a /\ no_digit b.
Proof.
  induction s as [|c s IH]; intros a b; cbn [span_digits].
  - split.
    + intros [= <- <-]. repeat split. constructor.
    + intros (E & _). symmetry in E. now apply app_eq_nil in E as [-> ->].
  - destruct (is_dig c) eqn:C.
    + destruct (span_digits s) as [x y]. split.
      * intros [= <- <-]. destruct (proj1 (IH x y) eq_refl) as (-> & D & N). repeat split; [|exact N]. constructor; [now apply is_dig_spec|exact D].
      * intros (E & D & N). destruct a as [|a0 a]; [cbn [app] in E; subst b; cbn [no_digit] in N; congruence|].
        injection E as <- E. inversion D; subst. assert ((x, y) = (a, b)) as Exy by (apply IH; auto). now injection Exy as -> ->.
    + split.
      * intros [= <- <-]. repeat split; [constructor|exact C].
      * intros (E & D & N). destruct a as [|a0 a]; [cbn [app] in E; now subst b|]. injection E as <- E. inversion D; subst.
        apply is_dig_spec in H1. congruence.
Qed.
Lemma zone_spec : forall s off, get_zone s = Some off <-> loose_offset off s.
Proof.
  intros s off. split.
  - intro H. destruct s as [|z s]; [discriminate|]. destruct s as [|z2 s].
    + cbn [get_zone] in H. destruct (Byte.eqb z x5a) eqn:E; [|discriminate]. apply Byte.byte_dec_bl in E. injection H as <-. left. now subst z.
    + unfold get_zone in H. destruct (getnum true (z2 :: s)) as [[h r]|] eqn:E1; [|discriminate].
      destruct (skip x3a r) as [r2|] eqn:E2; [|discriminate]. destruct (getnum true r2) as [[mi r3]|] eqn:E3; [|discriminate].
      destruct (guard ((h <=? 24) && (mi <=? 60))) as [[]|] eqn:E4; [|discriminate]. destruct r3; [|discriminate].
      apply getnum_fixed in E1 as (a & E1 & Pa), E3 as (b & E3 & Pb). apply skip_spec in E2. apply guard_spec, andb_prop in E4 as [E4 E5].
      rewrite app_nil_r in E3. subst r2 r. right.
      destruct (Byte.eqb z x2b) eqn:Ez; [|destruct (Byte.eqb z x2d) eqn:Ez2; [|discriminate]]; injection H as <-.
      * apply Byte.byte_dec_bl in Ez. subst z. exists (lit "+"), h, mi, a, b. rewrite E1. split; [reflexivity|]. split; [exact Pa|]. split; [exact Pb|]. split; [lia|]. split; [lia|]. auto.
      * apply Byte.byte_dec_bl in Ez2. subst z. exists (lit "-"), h, mi, a, b. rewrite E1. split; [reflexivity|]. split; [exact Pa|]. split; [exact Pb|]. split; [lia|]. split; [lia|]. auto.
  - intros [[-> ->]|(sign & h & mi & a & b & -> & Pa & Pb & Hh & Hm & Hs)]; [reflexivity|].
    assert (Ea : getnum true (a ++ x3a :: b) = Some (h, x3a :: b)) by (apply getnum_fixed; eauto).
    assert (Eb : getnum true b = Some (mi, [])) by (apply getnum_fixed; exists b; rewrite app_nil_r; auto).
    assert (Eg : guard ((h <=? 24) && (mi <=? 60)) = Some tt) by (apply guard_spec; lia).
    assert (G : forall z, get_zone (z :: a ++ x3a :: b) = (if Byte.eqb z x2b then Some ((h * 60 + mi) * 60) else if Byte.eqb z x2d then Some (- ((h * 60 + mi) * 60)) else None)).
    { intro z. unfold get_zone. destruct (a ++ x3a :: b) as [|z2 s] eqn:El; [destruct a; discriminate|]. rewrite Ea. cbn [skip]. change (Byte.eqb x3a x3a) with true. cbv iota.
      rewrite Eb, Eg. reflexivity. }
    destruct Hs as [[-> ->]|[-> ->]]; [exact (G x2b)|exact (G x2d)].
Qed.
Lemma zone_begins : forall off s, loose_offset off s -> exists c r, s = c :: r /\ is_dig c = false /\ Byte.eqb c x2e = false /\ Byte.eqb c x2c = false.
Proof.
  intros off s [[_ ->]|(sign & h & mi & a & b & -> & _ & _ & _ & _ & [[-> _]|[-> _]])]; eexists _, _; repeat split.
Qed.
Lemma digits_cut : forall ds, ds <> [] -> Forall digit ds ->
  value_of (firstn 9 ds) * 10 ^ (9 - Z.of_nat (List.length (firstn 9 ds))) = value ds * 10 ^ 9 / 10 ^ Z.of_nat (List.length ds).
Proof.
  intros ds Hn D. rewrite value_of_is by (rewrite <- (firstn_skipn 9 ds) in D; now apply Forall_app in D).
  destruct (Nat.le_gt_cases (List.length ds) 9) as [L|L].
  - rewrite firstn_all2 by exact L. set (l := Z.of_nat (List.length ds)) in *. assert (0 <= l <= 9) by lia.
    replace (10 ^ 9) with (10 ^ (9 - l) * 10 ^ l) by (rewrite <- Z.pow_add_r by lia; f_equal; lia).
    rewrite Z.mul_assoc, Z.div_mul by (apply Z.pow_nonzero; lia). reflexivity.
  - rewrite firstn_length, Nat.min_l by lia. change (9 - Z.of_nat 9) with 0. rewrite Z.mul_1_r.
    rewrite <- (firstn_skipn 9 ds) at 2 3. set (a := firstn 9 ds). assert (Db : Forall digit (skipn 9 ds)).
    { rewrite <- (firstn_skipn 9 ds) in D. now apply Forall_app in D. }
    assert (La : List.length a = 9%nat) by (unfold a; rewrite firstn_length; lia).
    set (b := skipn 9 ds) in *. rewrite value_app, app_length, La, Nat2Z.inj_add, Z.pow_add_r by lia. change (Z.of_nat 9) with 9.
    pose proof (value_bound b Db) as Hb. set (B := 10 ^ Z.of_nat (List.length b)) in *. assert (0 < B) by lia.
    rewrite (Z.mul_comm _ (10 ^ 9)). rewrite Z.div_mul_cancel_l by lia. rewrite Z.add_comm, Z.div_add by lia. rewrite Z.div_small by lia. lia.
Qed.
Lemma fraction_reads : forall ns off a b, loose_fraction ns a -> loose_offset off b -> get_fraction (a ++ b) = (ns, b).
Proof.
  intros ns off a b [[-> ->]|(p & ds & -> & Hp & Hn & D & ->)] Hb; destruct (zone_begins _ _ Hb) as (c & r & -> & C & P1 & P2).
  - cbn [app get_fraction]. destruct r; [reflexivity|]. rewrite P1, P2. reflexivity.
  - rewrite <- app_assoc. destruct ds as [|d ds]; [congruence|]. assert (Dd : is_dig d = true) by (inversion D; now apply is_dig_spec).
    assert (G : forall z, Byte.eqb z x2e || Byte.eqb z x2c = true -> get_fraction (z :: (d :: ds) ++ c :: r) = (value (d :: ds) * 10 ^ 9 / 10 ^ Z.of_nat (List.length (d :: ds)), c :: r)).
    { intros z Hz. rewrite <- digits_cut by (auto; discriminate). cbn [app]. unfold get_fraction. rewrite Hz, Dd. cbn [andb].
      change (d :: ds ++ c :: r) with ((d :: ds) ++ c :: r). rewrite (proj2 (span_spec _ (d :: ds) (c :: r))); [reflexivity|]. repeat split; auto. }
    destruct Hp as [-> | ->]; [exact (G x2e eq_refl)|exact (G x2c eq_refl)].
Qed.
Lemma fraction_reads_inv : forall s ns r, get_fraction s = (ns, r) -> exists a, s = a ++ r /\ loose_fraction ns a.
Proof.
  intros s ns r H. assert (Z : (0, s) = (ns, r) -> exists a, s = a ++ r /\ loose_fraction ns a).
  { intros [= <- <-]. exists []. split; [reflexivity|]. left. auto. }
  destruct s as [|p [|c s]]; [auto|auto|]. unfold get_fraction in H. destruct ((Byte.eqb p x2e || Byte.eqb p x2c) && is_dig c) eqn:E; [|auto].
  apply andb_prop in E as [Ep Ec]. destruct (span_digits (c :: s)) as [ds rest] eqn:Es. apply span_spec in Es as (Es & D & N).
  assert (ds <> []) by (intros ->; cbn [app] in Es; subst rest; cbn [no_digit] in N; congruence).
  apply pair_equal_spec in H as [H ->]. rewrite digits_cut in H by assumption. exists (p :: ds). split; [cbn [app]; f_equal; exact Es|].
  right. exists [p], ds. split; [reflexivity|]. split; [|auto]. apply Bool.orb_prop in Ep as [Ep|Ep]; apply Byte.byte_dec_bl in Ep; subst p; auto.
Qed.
Lemma clock_micro : forall nanos off y m d h mi s ns, clock nanos off y m d h mi s ns ->
  ((days_since y m d - unix_days) * 86400 + h * 3600 + mi * 60 + s - off) * 1000000 + ns / 1000 = nanos / 1000.
Proof.
  intros nanos off y m d h mi s ns (n & ep & Hn & He & Hh & Hmi & Hs & Hns & ->).
  apply day_number_is in Hn as (_ & _ & _ & ->), He as (_ & _ & _ & ->).
  rewrite days_since_is. change (year_start 1970 + before 1970 1 + 1 - 1) with 719528. unfold unix_days. change (10 ^ 9) with (1000000 * 1000).
  set (u := year_start y + before y m + d - 1) in *. replace (u - 366 - 719162) with (u - 719528) by lia.
  rewrite Z.mul_assoc, (Z.add_comm _ ns), Z.div_add by lia. lia.
Qed.
Lemma parse_loose : forall nanos t, loose_stamp nanos t -> parse_time t = Some (nanos / 1000).
Proof.
  intros nanos t (y & m & d & h & mi & s & ns & off & ty & tm & td & th & tmi & ts & tf & tz & Hc & -> & Py & Pm & Pd & Ph & Pmi & Ps & Hf & Hz).
  pose proof (clock_micro _ _ _ _ _ _ _ _ _ Hc) as HM. destruct Hc as (n & ep & Hn & He & Hh & Hmi & Hs & Hns & _).
  apply day_number_is in Hn as (Hy & Hm & Hd & _). unfold parse_time.
  rewrite (proj2 (get_year_spec _ y _)) by eauto. rewrite (proj2 (skip_spec x2d _ _)) by reflexivity.
  rewrite (proj2 (getnum_fixed _ m _)) by eauto. rewrite (proj2 (guard_spec _)) by lia. rewrite (proj2 (skip_spec x2d _ _)) by reflexivity.
  rewrite (proj2 (getnum_fixed _ d _)) by eauto. rewrite (proj2 (skip_spec x54 _ _)) by reflexivity.
  rewrite (getnum_loose _ h (x3a :: tmi ++ lit ":" ++ ts ++ tf ++ tz)) by (exists th; repeat split; auto).
  rewrite (proj2 (guard_spec _)) by lia. rewrite (proj2 (skip_spec x3a _ _)) by reflexivity.
  rewrite (proj2 (getnum_fixed _ mi _)) by eauto. rewrite (proj2 (guard_spec _)) by lia. rewrite (proj2 (skip_spec x3a _ _)) by reflexivity.
  rewrite (proj2 (getnum_fixed _ s _)) by eauto. rewrite (proj2 (guard_spec _)) by lia.
  rewrite (fraction_reads _ _ _ _ Hf Hz). rewrite (proj2 (zone_spec _ _) Hz). rewrite (proj2 (guard_spec _)) by lia. cbv zeta. now rewrite HM.
Qed.
Lemma padded_nonneg : forall w n t, padded w n t -> 0 <= n.
Proof. intros w n t (_ & D & <-). pose proof (value_bound t D). lia. Qed.
Lemma loose_ns : forall ns t, loose_fraction ns t -> 0 <= ns < 10 ^ 9.
Proof.
  intros ns t [[-> _]|(p & ds & _ & _ & _ & D & ->)]; [lia|]. pose proof (value_bound ds D). split.
  - apply Z.div_pos; lia.
  - apply Z.div_lt_upper_bound; nia.
Qed.
Lemma parse_inv : forall t us, parse_time t = Some us -> exists nanos, loose_stamp nanos t /\ us = nanos / 1000.
Proof.
  intros t us H. unfold parse_time in H.
  destruct (get_year t) as [[y s1]|] eqn:E1; [|discriminate]. destruct (skip x2d s1) as [s2|] eqn:E2; [|discriminate].
  destruct (getnum true s2) as [[m s3]|] eqn:E3; [|discriminate]. destruct (guard ((1 <=? m) && (m <=? 12))) as [[]|] eqn:G1; [|discriminate].
  destruct (skip x2d s3) as [s4|] eqn:E4; [|discriminate]. destruct (getnum true s4) as [[d s5]|] eqn:E5; [|discriminate].
  destruct (skip x54 s5) as [s6|] eqn:E6; [|discriminate]. destruct (getnum false s6) as [[h s7]|] eqn:E7; [|discriminate].
  destruct (guard (h <? 24)) as [[]|] eqn:G2; [|discriminate]. destruct (skip x3a s7) as [s8|] eqn:E8; [|discriminate].
  destruct (getnum true s8) as [[mi s9]|] eqn:E9; [|discriminate]. destruct (guard (mi <? 60)) as [[]|] eqn:G3; [|discriminate].
  destruct (skip x3a s9) as [s10|] eqn:E10; [|discriminate]. destruct (getnum true s10) as [[sec s11]|] eqn:E11; [|discriminate].
  destruct (guard (sec <? 60)) as [[]|] eqn:G4; [|discriminate]. destruct (get_fraction s11) as [ns s12] eqn:E12.
  destruct (get_zone s12) as [off|] eqn:E13; [|discriminate]. destruct (guard ((1 <=? d) && (d <=? days_in m y))) as [[]|] eqn:G5; [|discriminate].
  cbv zeta in H. apply guard_spec in G1, G2, G3, G4, G5.
  apply get_year_spec in E1 as (ty & -> & Py). apply skip_spec in E2, E4, E6, E8, E10.
  apply getnum_fixed in E3 as (tm & E3 & Pm), E5 as (td & E5 & Pd), E9 as (tmi & E9 & Pmi), E11 as (ts & E11 & Ps).
  apply getnum_loose_inv in E7 as (th & E7 & Ph). apply fraction_reads_inv in E12 as (tf & E12 & Hf). apply zone_spec in E13.
  rename s12 into tz. subst s11 s10 s9 s8 s7 s6 s5 s4 s3 s2 s1.
  pose proof (padded_nonneg _ _ _ Py). pose proof (padded_nonneg _ _ _ Pmi). pose proof (padded_nonneg _ _ _ Ps).
  assert (0 <= h) by (destruct Ph as [Ph|Ph]; apply (padded_nonneg _ _ _ Ph)). pose proof (loose_ns _ _ Hf).
  set (nanos := ((year_start y + before y m + d - 1 - 719528) * 86400 + h * 3600 + mi * 60 + sec - off) * 10 ^ 9 + ns).
  assert (Hc : clock nanos off y m d h mi sec ns).
  { exists (year_start y + before y m + d - 1), 719528. split; [apply is_day_number; lia|]. split; [apply epoch_number|]. repeat split; try lia. }
  exists nanos. split.
  - exists y, m, d, h, mi, sec, ns, off, ty, tm, td, th, tmi, ts, tf, tz. split; [exact Hc|]. split; [reflexivity|]. auto 12.
  - rewrite (clock_micro _ _ _ _ _ _ _ _ _ Hc) in H. congruence.
Qed.
