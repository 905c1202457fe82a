(** A (trivial) codec that satisfies what is assumed of compress/flate, so that
    the theorems about compressed files are not vacuous. *)
From Coq Require Import Lia.
From Verif Require Import Base BaseFacts IO Spec IOFacts Encoding Writer Reader SpecFile SchedFacts.
Local Open Scope N_scope.

(** Every byte is preceded by a 1; a 0 ends the stream. *)
Definition toy_bytes (p : bytes) : bytes := flat_map (fun b => [x01; b]) p.
Definition toy_z : compressor :=
  {| cz_st := unit; cz_new := tt;
     cz_write := fun p _ => ([toy_bytes p], tt);
     cz_close := fun _ => [[x00]] |}.
Definition toy_iz : inflater :=
  {| iz_st := fun S => (S * bool)%type;
     iz_new := fun S s => (s, false);
     iz_read := fun S R =>
       {| rread := fun n (sd : S * bool) =>
            let (s, ended) := sd in
            if n =? 0 then Ok ([], None, (s, ended))
            else if ended then Ok ([], Some EEOF, (s, true))
            else
              do (r, s1) <- read_full R 1 s;
              match r with
              | ([f], None) =>
                  if b2n f =? 0 then Ok ([], Some EEOF, (s1, true))
                  else do (r2, s2) <- read_full R 1 s1; Ok (fst r2, snd r2, (s2, false))
              | _ => Ok ([], Some EEOF, (s1, true))
              end;
          rleft := fun (sd : S * bool) => rleft R (fst sd) |} |}.

Lemma toy_squeeze : forall cs, squeeze toy_z cs = toy_bytes (concat cs) ++ [x00].
Proof.
  unfold squeeze. cbn [cz_new toy_z]. induction cs as [|c cs IH]; [reflexivity|].
  cbn [squeeze_from cz_write toy_z app concat]. fold toy_z. rewrite IH.
  unfold toy_bytes. now rewrite flat_map_app, app_assoc.
Qed.
Lemma toy_len : forall p, (length p <= length (toy_bytes p))%nat.
Proof. induction p as [|b p IH]; cbn [toy_bytes flat_map app length]; [lia|]. fold (toy_bytes p). lia. Qed.

Theorem toy_ok : codec_ok toy_z toy_iz.
Proof.
  split.
  - intros cs E. rewrite toy_squeeze in E. now destruct (toy_bytes (concat cs)).
  - intros S R eager I HR. pose proof (delivers_serves _ _ _ HR) as HS.
    exists (fun sd d => (snd sd = false /\ exists rest, I (fst sd) (toy_bytes d ++ x00 :: rest)) \/
                        (snd sd = true /\ d = [])). split.
    + split.
      * intros [s b0] d n [(Hb & rest & HI)|[_ ->]] Hd Hn; [|congruence]. cbn [fst snd] in *. subst b0.
        destruct d as [|b d]; [congruence|].
        cbn [iz_read toy_iz rread]. destruct (N.eqb_spec n 0); [lia|].
        change (toy_bytes (b :: d)) with ([x01] ++ [b] ++ toy_bytes d) in HI. rewrite <- !app_assoc in HI.
        destruct (read_full_ok R eager I HS 1 s [x01] _ HI eq_refl) as (s1 & -> & HI1). cbn [bind].
        change (b2n x01 =? 0) with false. cbv iota.
        destruct (read_full_ok R eager I HS 1 s1 [b] _ HI1 eq_refl) as (s2 & -> & HI2). cbn [bind fst snd].
        exists [b], d, None, (s2, false). repeat split; auto; [discriminate | cbn; lia | left; eauto].
      * intros [s b0] n H Hn. cbn [iz_read toy_iz rread fst snd] in *. destruct (N.eqb_spec n 0); [lia|].
        destruct H as [(-> & rest & HI)|[-> _]]; [|eauto].
        change (toy_bytes [] ++ x00 :: rest) with ([x00] ++ rest) in HI.
        destruct (read_full_ok R eager I HS 1 s [x00] _ HI eq_refl) as (s1 & -> & HI1). cbn [bind].
        exists (s1, true). auto.
      * intros [s b0] d [(_ & rest & HI)|[_ ->]]; cbn [rleft iz_read toy_iz fst length] in *; [|lia].
        pose proof (d_left _ _ _ HR _ _ HI) as H.
        rewrite app_length in H. pose proof (toy_len d). lia.
    + intros s cs rest HI. rewrite toy_squeeze, <- app_assoc in HI. left. split; [reflexivity|]. exists rest. exact HI.
Qed.

Theorem toy_ends : inflation_ends toy_iz.
Proof.
  intros S R eager I HR. pose proof (delivers_serves _ _ _ HR) as HS.
  exists (fun sd k => exists d, I (fst sd) d /\ k = length d). split.
  - split.
    + intros [s b0] k n (d & HI & ->) Hn. cbn [iz_read toy_iz rread fst] in *. destruct (N.eqb_spec n 0); [lia|].
      destruct b0.
      { exists [], (Some EEOF), (s, true), (length d). repeat split; eauto; cbn; lia || discriminate. }
      destruct d as [|f d].
      { destruct (read_full_short _ R eager I HR 1 s [] HI) as (s1 & -> & HI1); [reflexivity|]. cbn [bind].
        exists [], (Some EEOF), (s1, true), O. repeat split; eauto; cbn; lia || discriminate. }
      destruct (read_full_ok R eager I HS 1 s [f] d HI eq_refl) as (s1 & -> & HI1). cbn [bind].
      destruct (b2n f =? 0).
      { exists [], (Some EEOF), (s1, true), (length d). repeat split; eauto; cbn; lia || discriminate. }
      destruct d as [|b d].
      { destruct (read_full_short _ R eager I HR 1 s1 [] HI1) as (s2 & -> & HI2); [reflexivity|]. cbn [bind fst snd].
        exists [], (Some EEOF), (s2, false), O. repeat split; eauto; cbn; lia || discriminate. }
      destruct (read_full_ok R eager I HS 1 s1 [b] d HI1 eq_refl) as (s2 & -> & HI2). cbn [bind fst snd].
      exists [b], None, (s2, false), (length d). repeat split; eauto; cbn; lia || discriminate.
    + intros [s b0] k (d & HI & ->). cbn [rleft iz_read toy_iz fst] in *. eapply d_left; eauto.
  - intros s d HI. exists (length d), d. auto.
Qed.
Theorem toy_uniform : inflation_uniform toy_iz.
Proof.
  intros S1 S2 R1 R2 I1 I2 H1 H2.
  pose proof (delivers_serves _ _ _ H1) as V1. pose proof (delivers_serves _ _ _ H2) as V2.
  exists (fun t1 t2 => snd t1 = snd t2 /\ exists d, I1 (fst t1) d /\ I2 (fst t2) d). split.
  { intros s1 s2 d HI1 HI2. cbn. eauto. }
  intros [s1 b1] [s2 b2] n (Hb & d & HI1 & HI2). cbn [fst snd] in *. subst b2. cbn [iz_read toy_iz rread].
  destruct (n =? 0); [repeat eexists; cbn; eauto|]. destruct b1; [repeat eexists; cbn; eauto|].
  destruct d as [|f d].
  { destruct (read_full_short _ R1 _ I1 H1 1 s1 [] HI1) as (a1 & -> & A1); [reflexivity|].
    destruct (read_full_short _ R2 _ I2 H2 1 s2 [] HI2) as (a2 & -> & A2); [reflexivity|].
    cbn [bind]. repeat eexists; cbn; eauto. }
  destruct (read_full_ok R1 _ I1 V1 1 s1 [f] d HI1 eq_refl) as (a1 & -> & A1).
  destruct (read_full_ok R2 _ I2 V2 1 s2 [f] d HI2 eq_refl) as (a2 & -> & A2). cbn [bind].
  destruct (b2n f =? 0); [repeat eexists; cbn; eauto|].
  destruct d as [|b d].
  { destruct (read_full_short _ R1 _ I1 H1 1 a1 [] A1) as (c1 & -> & C1); [reflexivity|].
    destruct (read_full_short _ R2 _ I2 H2 1 a2 [] A2) as (c2 & -> & C2); [reflexivity|].
    cbn [bind]. repeat eexists; cbn; eauto. }
  destruct (read_full_ok R1 _ I1 V1 1 a1 [b] d A1 eq_refl) as (c1 & -> & C1).
  destruct (read_full_ok R2 _ I2 V2 1 a2 [b] d A2 eq_refl) as (c2 & -> & C2).
  cbn [bind]. repeat eexists; cbn; eauto.
Qed.
Theorem toy_cut : inflation_cut toy_z toy_iz.
Proof.
  intros S R eager I HR. pose proof (delivers_serves _ _ _ HR) as HS.
  exists (fun sd d => exists part missing, I (fst sd) part /\ (snd sd = false -> toy_bytes d ++ [x00] = part ++ missing)). split.
  - intros [s b0] d n (part & missing & HI & Hp) Hn. cbn [iz_read toy_iz rread fst snd] in *. destruct (N.eqb_spec n 0); [lia|].
    assert (Hend : forall s' part', I s' part' -> exists p q e t, Ok ([] : bytes, Some EEOF, (s', true)) = Ok (p, e, t) /\ d = p ++ q /\ lenN p <= n /\
      (exists part missing, I (fst t) part /\ (snd t = false -> toy_bytes q ++ [x00] = part ++ missing)) /\ (e = None -> p <> [])).
    { intros s' part' HI'. exists [], d, (Some EEOF), (s', true). repeat split; [cbn; lia | | discriminate].
      exists part', []. split; [exact HI' | discriminate]. }
    destruct b0; [now apply (Hend s part)|]. specialize (Hp eq_refl).
    destruct part as [|f part].
    { destruct (read_full_short _ R eager I HR 1 s [] HI) as (s1 & -> & HI1); [reflexivity|]. cbn [bind]. now apply (Hend s1 []). }
    destruct (read_full_ok R eager I HS 1 s [f] part HI eq_refl) as (s1 & -> & HI1). cbn [bind].
    destruct (b2n f =? 0) eqn:Ef; [now apply (Hend s1 part)|].
    destruct d as [|b d].
    { cbn [toy_bytes flat_map app] in Hp. injection Hp as <- _. discriminate. }
    change (toy_bytes (b :: d) ++ [x00]) with (x01 :: b :: toy_bytes d ++ [x00]) in Hp. injection Hp as <- Hp.
    destruct part as [|c part].
    { destruct (read_full_short _ R eager I HR 1 s1 [] HI1) as (s2 & -> & HI2); [reflexivity|]. cbn [bind fst snd].
      exists [], (b :: d), (Some EEOF), (s2, false). repeat split; [cbn; lia | | discriminate].
      exists [], (x01 :: b :: toy_bytes d ++ [x00]). split; [exact HI2 | reflexivity]. }
    cbn [app] in Hp. injection Hp as <- Hp.
    destruct (read_full_ok R eager I HS 1 s1 [b] part HI1 eq_refl) as (s2 & -> & HI2). cbn [bind fst snd].
    exists [b], d, None, (s2, false). repeat split; [cbn; lia | | discriminate]. exists part, missing. auto.
  - intros s cs part missing HI E. exists part, missing. split; [exact HI|]. intros _. now rewrite <- E, toy_squeeze.
Qed.
