(** Readers: the in-memory, chunked and buffered ones keep their promise, and
    ErrReader turns any delivering reader into a non-eager one. *)
From Coq Require Import Lia.
From Verif Require Import Base BaseFacts IO Spec.
Local Open Scope N_scope.

Lemma flat_delivers : forall eager, delivers flat eager (fun s d => s = d).
Proof.
  intro eager. split.
  - intros s d n -> Hd Hn. destruct d as [|b d]; [congruence|].
    exists (takeN n (b :: d)), (dropN n (b :: d)), None, (dropN n (b :: d)).
    cbn [rread flat]. rewrite take_drop, lenN_take.
    repeat split; auto; try lia.
    cbn [takeN]. destruct (N.eqb_spec n 0); [contradiction | discriminate].
  - intros s n -> Hn. exists []. auto.
  - intros s d ->. cbn. lia.
Qed.

Lemma chunked_delivers : forall eager,
  delivers (chunked eager) eager (fun s d => ~ In [] s /\ d = concat s).
Proof.
  intro eager. split.
  - intros s d n [Hs ->] Hd Hn. destruct s as [|c cs]; [now cbn in Hd|].
    assert (Hc : c <> []) by (intros ->; apply Hs; now left).
    assert (Hcs : ~ In [] cs) by (intro; apply Hs; now right).
    assert (Hp : takeN n c <> []).
    { destruct c as [|b c]; [congruence|]. cbn [takeN].
      destruct (N.eqb_spec n 0); [contradiction | discriminate]. }
    assert (Hl : lenN (takeN n c) <= n) by (rewrite lenN_take; lia).
    cbn [rread chunked]. destruct (dropN n c) as [|b r] eqn:E.
    + exists (takeN n c), (concat cs),
        (if eager then match cs with [] => Some EEOF | _ => None end else None), cs.
      pose proof (take_drop n c) as H. rewrite E, app_nil_r in H.
      repeat split; auto.
      * cbn [concat]. now rewrite H.
      * destruct eager; [|auto]. destruct cs; auto.
    + exists (takeN n c), ((b :: r) ++ concat cs), None, ((b :: r) :: cs).
      repeat split; auto.
      * cbn [concat]. rewrite app_assoc. f_equal. now rewrite <- E, take_drop.
      * intros [H|H]; [discriminate | auto].
  - intros s n [Hs H] Hn. destruct s as [|c cs].
    + exists []. auto.
    + destruct c as [|b c]; [|discriminate]. destruct Hs. now left.
  - intros s d [_ ->]. cbn. lia.
Qed.

Lemma bufio_delivers :
  delivers bufio false (fun s d => d = fst s ++ snd s).
Proof.
  split.
  - intros [buf rest] d n -> Hd Hn. cbn [fst snd] in *. cbn [rread bufio].
    destruct buf as [|b buf].
    + cbn [app] in *. destruct rest as [|c rest]; [congruence|].
      destruct (4096 <=? n) eqn:E.
      * exists (takeN n (c :: rest)), (dropN n (c :: rest)), None,
          ([], dropN n (c :: rest)).
        rewrite take_drop, lenN_take. repeat split; auto; try lia.
        cbn [takeN]. destruct (N.eqb_spec n 0); [contradiction | discriminate].
      * exists (takeN n (takeN 4096 (c :: rest))),
          (dropN n (takeN 4096 (c :: rest)) ++ dropN 4096 (c :: rest)), None,
          (dropN n (takeN 4096 (c :: rest)), dropN 4096 (c :: rest)).
        rewrite app_assoc, !take_drop, lenN_take. repeat split; auto; try lia.
        cbn [takeN N.eqb]. destruct (N.eqb_spec n 0); [contradiction | discriminate].
    + exists (takeN n (b :: buf)), (dropN n (b :: buf) ++ rest), None,
        (dropN n (b :: buf), rest).
      rewrite app_assoc, take_drop, lenN_take. repeat split; auto; try lia.
      cbn [takeN]. destruct (N.eqb_spec n 0); [contradiction | discriminate].
  - intros [buf rest] n H Hn. cbn in H. symmetry in H. apply app_eq_nil in H as [-> ->].
    exists ([], []). auto.
  - intros [buf rest] d ->. cbn. now rewrite app_length.
Qed.

(** What the library's parsers need of a reader while they read a well-formed
    file: requests never exceed what is left.  (ErrReader answers a larger
    request with io.ErrUnexpectedEOF, so it does not satisfy [delivers].) *)
Record serves {S} (R : Reader S) (eager : bool) (I : S -> bytes -> Prop) : Prop := {
  s_more : forall s d n, I s d -> n <> 0 -> n <= lenN d ->
    exists p q e s',
      rread R n s = Ok (p, e, s') /\ d = p ++ q /\ p <> [] /\ lenN p <= n /\
      I s' q /\ (e = None \/ (eager = true /\ e = Some EEOF /\ q = []));
  s_left : forall s d, I s d -> (length d <= rleft R s)%nat
}.
Lemma delivers_serves : forall {S} (R : Reader S) eager I,
  delivers R eager I -> serves R eager I.
Proof.
  intros S R eager I H. split.
  - intros s d n HI Hn Hd. apply (d_more _ _ _ H); auto. intros ->. cbn in Hd. lia.
  - apply (d_left _ _ _ H).
Qed.

(** Reading exactly what is there. *)
Lemma read_at_least_ok : forall {S} (R : Reader S) eager I, serves R eager I ->
  forall fuel need acc s d rest,
    I s (d ++ rest) -> lenN d = need -> (length d <= fuel)%nat ->
    exists s', read_at_least R fuel need acc s = Ok (acc ++ d, None, s') /\ I s' rest.
Proof.
  intros S R eager I HR. induction fuel as [|f IH]; intros need acc s d rest HI Hd Hf.
  - destruct d; [|cbn in Hf; lia]. cbn in Hd. subst need. exists s. cbn.
    now rewrite app_nil_r.
  - cbn [read_at_least]. destruct (N.eqb_spec need 0) as [Hn|Hn].
    + subst need. apply lenN_0 in Hn. subst d. exists s. now rewrite app_nil_r.
    + destruct (s_more _ _ _ HR s (d ++ rest) need HI) as (p & q & e & s1 & E & Epq & Hp & Hlp & HI1 & He).
      { assumption. } { rewrite lenN_app. lia. }
      rewrite E. cbn [bind].
      (* p is a prefix of d *)
      assert (Hpre : exists d1, d = p ++ d1 /\ q = d1 ++ rest).
      { assert (lenN p <= lenN d) by lia.
        exists (dropN (lenN p) d).
        assert (Hdp : takeN (lenN p) d = p).
        { transitivity (takeN (lenN p) (takeN (lenN d) (d ++ rest))).
          - now rewrite takeN_app.
          - rewrite Epq, !takeN_firstn, firstn_firstn.
            replace (Nat.min (N.to_nat (lenN p)) (N.to_nat (lenN d)))
              with (N.to_nat (lenN p)) by lia.
            rewrite <- takeN_firstn. now apply takeN_app. }
        pose proof (take_drop (lenN p) d) as H0. rewrite Hdp in H0.
        split; [easy|]. rewrite <- H0, <- app_assoc in Epq. now apply app_inv_head in Epq. }
      destruct Hpre as (d1 & -> & ->).
      rewrite lenN_app in Hd.
      assert (Hneed : need - lenN p = lenN d1) by lia. rewrite Hneed.
      assert (Hlen : (length d1 <= f)%nat).
      { rewrite app_length in Hf. destruct p; [congruence|]. cbn in Hf. lia. }
      destruct He as [->|(-> & -> & Hq)].
      * destruct (IH (lenN d1) (acc ++ p) s1 d1 rest HI1 eq_refl Hlen) as (s' & -> & HI').
        exists s'. now rewrite app_assoc.
      * apply app_eq_nil in Hq as [-> ->]. cbn.
        exists s1. now rewrite app_nil_r.
Qed.

Lemma read_full_ok : forall {S} (R : Reader S) eager I, serves R eager I ->
  forall n s d rest, I s (d ++ rest) -> lenN d = n ->
    exists s', read_full R n s = Ok (d, None, s') /\ I s' rest.
Proof.
  intros S R eager I HR n s d rest HI Hn. unfold read_full.
  destruct (read_at_least_ok R eager I HR (Datatypes.S (rleft R s)) n [] s d rest HI Hn)
    as (s' & E & HI').
  - pose proof (s_left _ _ _ HR _ _ HI). rewrite app_length in H. lia.
  - exists s'. now rewrite E.
Qed.

(** One-byte reads. *)
Lemma read_byte_ok : forall {S} (R : Reader S) eager I, serves R eager I ->
  forall s b rest, I s (b :: rest) -> more eager rest ->
    exists s', rread R 1 s = Ok ([b], None, s') /\ I s' rest.
Proof.
  intros S R eager I HR s b rest HI Hm.
  destruct (s_more _ _ _ HR s (b :: rest) 1 HI) as (p & q & e & s1 & E & Epq & Hp & Hlp & HI1 & He);
    [discriminate | rewrite lenN_cons; lia |].
  destruct p as [|b' [|? p]]; [congruence | |].
  - injection Epq as <- <-. exists s1. split; [|assumption].
    destruct He as [->|(Ee & _ & Hq)]; [assumption|].
    destruct Hm; congruence.
  - rewrite !lenN_cons in Hlp. lia.
Qed.

(** ErrReader over such a reader: not eager, fills every request, and counts. *)
Definition er_inv {S} (I : S -> bytes -> Prop) (k : N) (e : er S) (d : bytes) : Prop :=
  er_err e = None /\ I (er_in e) d /\ er_n e + lenN d = k.

Lemma er_read_ok : forall {S} (R : Reader S) eager I k, serves R eager I ->
  forall e d rest n, er_inv I k e (d ++ rest) -> lenN d = n ->
    exists e', rread (err_reader R) n e = Ok (d, None, e') /\ er_inv I k e' rest.
Proof.
  intros S R eager I k HR e d rest n (He & HI & Hk) Hd. cbn [rread err_reader]. rewrite He.
  destruct (read_full_ok R eager I HR n _ _ _ HI Hd) as (s' & E & HI').
  rewrite E. cbn [bind]. eexists. split; [reflexivity|].
  repeat split; cbn [er_err er_in er_n]; auto. rewrite lenN_app in Hk. lia.
Qed.

Lemma er_serves : forall {S} (R : Reader S) eager I k, serves R eager I ->
  serves (err_reader R) false (er_inv I k).
Proof.
  intros S R eager I k HR. split.
  - intros e d n H Hn Hd.
    rewrite <- (take_drop n d) in H.
    destruct (er_read_ok R eager I k HR e _ _ n H) as (e' & E & H').
    { rewrite lenN_take. lia. }
    exists (takeN n d), (dropN n d), None, e'. rewrite take_drop, lenN_take.
    split; [assumption|]. split; [reflexivity|]. split; [|split; [lia | auto]].
    destruct d; [cbn in Hd; lia|]. cbn [takeN].
    destruct (N.eqb_spec n 0); [contradiction | discriminate].
  - intros e d (_ & HI & _). cbn. now apply (s_left _ _ _ HR).
Qed.

Lemma new_er_inv : forall {S} (I : S -> bytes -> Prop) s d,
  I s d -> er_inv I (lenN d) (new_er s) d.
Proof. intros. repeat split; auto. Qed.
