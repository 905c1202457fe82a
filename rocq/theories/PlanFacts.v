(** Which encoder gets which collection: evaluateCollections and the
    distribution of the encoded streams. *)
From Coq Require Import Lia Permutation.
From Verif Require Import Base BaseFacts IO Spec IOFacts Floats BinaryIO BinaryIOFacts.
From Verif Require Import Metadata SpecMeta MetadataFacts Recording SpecRec RecordingFacts Encoding SpecEnc.
From Verif Require Import EncTableFacts StreamFacts TimeIO Writer Reader SpecFile WriterFacts.
Local Open Scope N_scope.

(** the first registered encoder that accepts a collection *)
Definition chosen (es : list encoder) (c : coll) : option encoder := find (fun e => e_accepts e c) es.
(** a list with consecutive indices *)
Fixpoint indexed {A} (n : N) (l : list A) : list (N * A) :=
  match l with [] => [] | x :: l' => (n, x) :: indexed (n + 1) l' end.
Lemma indexed_app : forall A (l l' : list A) n, indexed n (l ++ l') = indexed n l ++ indexed (n + lenN l) l'.
Proof.
  induction l as [|x l IH]; intros l' n; cbn [indexed app].
  - now rewrite N.add_0_r.
  - rewrite IH, lenN_cons. do 3 f_equal. lia.
Qed.
Lemma indexed_In : forall A (l : list A) n i x, In (i, x) (indexed n l) <-> (n <= i /\ nthN l (i - n) = Some x).
Proof.
  induction l as [|y l IH]; intros n i x; cbn [indexed].
  - cbn. split; [intros [] | intros [_ H]; discriminate].
  - cbn [In nthN]. rewrite IH. destruct (N.eqb_spec (i - n) 0) as [E|E].
    + split.
      * intros [H|[H _]]; [injection H as <- <-; split; [lia | reflexivity] | lia].
      * intros [H H']. injection H' as ->. left. f_equal. lia.
    + replace (N.pred (i - n)) with (i - (n + 1)) by lia. split.
      * intros [H|[H H']]; [injection H as -> ->; lia | split; [lia | exact H']].
      * intros [H H']. right. split; [lia | exact H'].
Qed.

Definition pairs (m : mapping) : list (N * coll) := combine (m_order m) (m_colls m).
Definition m_sig (m : mapping) : str := e_sig (m_enc m).
Definition m_good (es : list encoder) (m : mapping) : Prop :=
  m_colls m <> [] /\ length (m_order m) = length (m_colls m) /\ In (m_enc m) es /\
  Forall (fun c => chosen es c = Some (m_enc m)) (m_colls m).
(** [ms] distributes exactly the indexed collections [L] *)
Definition plan (es : list encoder) (L : list (N * coll)) (ms : list mapping) : Prop :=
  Permutation (flat_map pairs ms) L /\ Forall (m_good es) ms /\ NoDup (map m_sig ms).

(** ** One recording's own collections *)
Fixpoint pending (ix : N) (l : list (coll * bool)) : list (N * coll) :=
  match l with
  | [] => []
  | (c, sat) :: l' => (if sat then [] else [(ix, c)]) ++ pending (ix + 1) l'
  end.
Lemma pending_fresh : forall cs ix, pending ix (map (fun c => (c, false)) cs) = indexed ix cs.
Proof. induction cs as [|c cs IH]; intro ix; cbn; [reflexivity | now rewrite IH]. Qed.
Lemma unclaimed_pending : forall l ix, unclaimed l = None <-> pending ix l = [].
Proof.
  induction l as [|[c sat] l IH]; intro ix; cbn [unclaimed pending]; [easy|].
  destruct sat; cbn [app]; [apply IH | split; discriminate].
Qed.
Lemma unclaimed_some : forall l c ix, unclaimed l = Some c -> exists i, In (i, c) (pending ix l).
Proof.
  induction l as [|[d sat] l IH]; intros c ix H; cbn [unclaimed pending] in *; [discriminate|].
  destruct sat; cbn [app].
  - apply (IH c (ix + 1) H).
  - injection H as ->. exists ix. now left.
Qed.
Lemma claim_spec : forall e l ix cs os l2, claim e ix l = (cs, os, l2) ->
  length os = length cs /\ Permutation (pending ix l) (combine os cs ++ pending ix l2) /\
  Forall (fun c => e_accepts e c = true) cs /\
  Forall (fun p => e_accepts e (snd p) = false) (pending ix l2).
Proof.
  intros e. induction l as [|[c sat] l IH]; intros ix cs os l2 H; cbn [claim] in H.
  - injection H as <- <- <-. cbn. auto.
  - destruct (claim e (ix + 1) l) as [[cs1 os1] l1] eqn:E. specialize (IH _ _ _ _ E) as (Hl & Hp & Ha & Hn).
    destruct sat; cbn [negb andb] in H.
    + injection H as <- <- <-. cbn [pending app]. auto.
    + destruct (e_accepts e c) eqn:Ec; injection H as <- <- <-; cbn [pending app combine].
      * repeat split; auto. cbn; lia.
      * repeat split; auto. etransitivity; [apply perm_skip; exact Hp|].
        apply Permutation_middle.
Qed.
Lemma claim_all_spec : forall es es0 off l ms l2, claim_all es off l = (ms, l2) ->
  Forall (fun p => forall e, In e es0 -> e_accepts e (snd p) = false) (pending off l) ->
  NoDup (map e_sig (es0 ++ es)) ->
  Permutation (pending off l) (flat_map pairs ms ++ pending off l2) /\
  Forall (m_good (es0 ++ es)) ms /\
  Forall (fun p => forall e, In e (es0 ++ es) -> e_accepts e (snd p) = false) (pending off l2) /\
  (forall s, In s (map m_sig ms) -> In s (map e_sig es)) /\
  NoDup (map m_sig ms).
Proof.
  induction es as [|e es IH]; intros es0 off l ms l2 H Hp Hd; cbn [claim_all] in H.
  - injection H as <- <-. cbn. rewrite app_nil_r. repeat split; auto. constructor.
  - destruct (claim e off l) as [[cs os] l1] eqn:Ec.
    destruct (claim_spec _ _ _ _ _ _ Ec) as (Hl & Hperm & Ha & Hn).
    destruct (claim_all es off l1) as [ms' l'] eqn:Ea. injection H as <- <-.
    assert (Hp0 : Forall (fun p => forall e0, In e0 es0 -> e_accepts e0 (snd p) = false)
                         (combine os cs ++ pending off l1)).
    { eapply Permutation_Forall; eauto. }
    apply Forall_app in Hp0 as [Hp1 Hp2].
    specialize (IH (es0 ++ [e]) off l1 ms' l' Ea).
    assert (Happ : (es0 ++ [e]) ++ es = es0 ++ e :: es) by (rewrite <- app_assoc; reflexivity).
    rewrite Happ in IH. destruct IH as (P & G & F & Sg & Nd).
    { rewrite Forall_forall in *. intros p Hin e0 He0. apply in_app_or in He0 as [He0|[<-|[]]]; auto. }
    { exact Hd. }
    set (m := mkMapping e cs os).
    assert (Gm : cs <> [] -> m_good (es0 ++ e :: es) m).
    { intro Hne. repeat split; cbn; auto.
      - apply in_or_app. right. now left.
      - rewrite Forall_forall in *. intros c Hc. unfold chosen.
        destruct (In_nth_error _ _ Hc) as [i Hi].
        destruct (nth_error os i) as [o|] eqn:Ho.
        2:{ apply nth_error_None in Ho. assert (i < length cs)%nat by (apply nth_error_Some; congruence). lia. }
        assert (Hin : In (o, c) (combine os cs)).
        { clear -Ho Hi. revert os i Ho Hi. induction cs as [|a cs IH]; intros [|b os] [|i] Ho Hi; cbn in *; try discriminate.
          - left. congruence.
          - right. eauto. }
        specialize (Hp1 _ Hin). cbn in Hp1. specialize (Ha _ Hc). clear -Hp1 Ha.
        induction es0 as [|x es0 IH]; cbn [find app].
        + now rewrite Ha.
        + rewrite (Hp1 x (or_introl eq_refl)). apply IH. intros y Hy. apply Hp1. now right. }
    assert (Hnd : ~ In (e_sig e) (map m_sig ms')).
    { intro Hin. apply Sg in Hin. rewrite map_app in Hd. apply NoDup_remove_2 in Hd.
      apply Hd. apply in_or_app. now right. }
    destruct cs as [|c cs].
    + destruct os; [|discriminate]. cbn [combine app] in Hperm.
      repeat split; auto; [etransitivity; eauto|]. intros s Hs. right. now apply Sg.
    + cbn [flat_map]. repeat split; auto.
      * etransitivity; [exact Hperm|]. rewrite <- app_assoc. apply Permutation_app_head. exact P.
      * constructor; [apply Gm; discriminate | exact G].
      * intros s [<-|Hs]; [now left | right; now apply Sg].
      * cbn. constructor; assumption.
Qed.

(** ** Merging the children's *)
Lemma enc_by_sig : forall es e e', NoDup (map e_sig es) -> In e es -> In e' es -> e_sig e = e_sig e' -> e = e'.
Proof.
  induction es as [|x es IH]; intros e e' Hd He He' Hs; [destruct He|].
  inversion Hd as [|? ? Hx Hd']; subst. destruct He as [->|He], He' as [->|He']; auto.
  - destruct Hx. rewrite Hs. now apply in_map.
  - destruct Hx. rewrite <- Hs. now apply in_map.
Qed.
Lemma combine_app : forall A B (a a' : list A) (b b' : list B), length a = length b ->
  combine (a ++ a') (b ++ b') = combine a b ++ combine a' b'.
Proof. induction a as [|x a IH]; intros a' [|y b] b' H; cbn in *; try discriminate; [reflexivity|]. now rewrite IH by lia. Qed.
Lemma merge1_plan : forall es, NoDup (map e_sig es) -> forall ms c L,
  plan es L ms -> m_good es c -> plan es (L ++ pairs c) (merge1 ms c).
Proof.
  intros es Hes ms c L (P & G & N) Gc. unfold merge1.
  destruct (existsb (fun m => same_enc m c) ms) eqn:E.
  - set (f := fun m => if same_enc m c then mkMapping (m_enc m) (m_colls m ++ m_colls c) (m_order m ++ m_order c) else m).
    assert (Hsig : map m_sig (map f ms) = map m_sig ms).
    { rewrite map_map. apply map_ext. intro m. unfold f. now destruct (same_enc m c). }
    split; [|split].
    + apply existsb_exists in E as (m0 & Hm0 & Em0). apply in_split in Hm0 as (a & b & ->).
      assert (Hother : forall m, In m (a ++ b) -> f m = m).
      { intros m Hm. unfold f. destruct (same_enc m c) eqn:Em; [|reflexivity]. exfalso.
        unfold same_enc in *. apply str_eqb_eq in Em, Em0. rewrite map_app in N. cbn in N.
        apply NoDup_remove_2 in N. apply N. rewrite <- map_app. unfold m_sig at 1.
        rewrite Em0, <- Em. now apply (in_map m_sig). }
      rewrite map_app. cbn [map]. rewrite !flat_map_app. cbn [flat_map].
      assert (Ha : map f a = a).
      { rewrite <- (map_id a) at 2. apply map_ext_in. intros m Hm. apply Hother, in_or_app. now left. }
      assert (Hb : map f b = b).
      { rewrite <- (map_id b) at 2. apply map_ext_in. intros m Hm. apply Hother, in_or_app. now right. }
      rewrite Ha, Hb. unfold f at 1. rewrite Em0. unfold pairs at 2. cbn [m_order m_colls].
      rewrite Forall_forall in G. destruct (G m0) as (_ & Hl & _); [apply in_or_app; right; now left|].
      rewrite combine_app by exact Hl. rewrite flat_map_app in P. cbn [flat_map] in P.
      rewrite <- P. fold (pairs m0) (pairs c). rewrite <- !app_assoc.
      apply Permutation_app_head, Permutation_app_head, Permutation_app_comm.
    + rewrite Forall_forall in *. intros m' Hm'. apply in_map_iff in Hm' as (m & <- & Hm).
      specialize (G m Hm). unfold f. destruct (same_enc m c) eqn:Em; [|exact G].
      unfold same_enc in Em. apply str_eqb_eq in Em.
      destruct G as (G1 & G2 & G3 & G4), Gc as (C1 & C2 & C3 & C4).
      assert (m_enc m = m_enc c) as Hec by (eapply enc_by_sig; eauto).
      repeat split; cbn.
      * destruct (m_colls m); [congruence | discriminate].
      * rewrite !app_length. lia.
      * exact G3.
      * apply Forall_app. split; [exact G4 | now rewrite Hec].
    + now rewrite Hsig.
  - split; [|split].
    + rewrite flat_map_app. cbn [flat_map]. rewrite app_nil_r. now apply Permutation_app_tail.
    + apply Forall_app. split; [exact G | now constructor].
    + rewrite map_app. cbn [map]. apply NoDup_snoc; [exact N|]. intro Hin.
      apply in_map_iff in Hin as (m & Hm & Hin).
      assert (existsb (fun m => same_enc m c) ms = true); [|congruence].
      apply existsb_exists. exists m. split; [exact Hin|]. unfold same_enc. apply str_eqb_eq. exact Hm.
Qed.
Lemma merge_plan : forall es, NoDup (map e_sig es) -> forall cms ms L,
  plan es L ms -> Forall (m_good es) cms ->
  plan es (L ++ flat_map pairs cms) (fold_left merge1 cms ms).
Proof.
  intros es Hes. induction cms as [|c cms IH]; intros ms L P G; cbn [fold_left flat_map].
  - now rewrite app_nil_r.
  - inversion G; subst. rewrite app_assoc. apply IH; [|assumption]. now apply merge1_plan.
Qed.

(** ** Evaluation of a tree *)
Section Eval.
Context (es : list encoder).
Fixpoint eval_recs (l : list (option recording)) (ms : list mapping) (off : N)
  : list mapping * N + err :=
  match l with
  | [] => inl (ms, off)
  | None :: _ => inr ENilRecording
  | Some c :: l' =>
      match evaluate es c off with
      | inr e => inr e
      | inl (cms, off') => eval_recs l' (fold_left merge1 cms ms) off'
      end
  end.
End Eval.
Lemma evaluate_unfold : forall es id name colls recs md bins refs off,
  evaluate es (mkRec id name colls recs md bins refs) off =
  match all_some colls with
      | None => inr ENilCollection
      | Some cs =>
          let (ms, l) := claim_all es off (map (fun c => (c, false)) cs) in
          match unclaimed l with
          | Some c => inr (ENoEncoder (c_sig c))
          | None => eval_recs es recs ms (off + lenN colls)
          end
      end.
Proof. reflexivity. Qed.

Lemma all_some_spec : forall A (l : list (option A)) r, all_some l = Some r <-> l = map Some r.
Proof.
  induction l as [|o l IH]; intro r; cbn [all_some].
  - split; [intro H; injection H as <-; reflexivity | destruct r; [reflexivity | discriminate]].
  - destruct o as [x|].
    + destruct (all_some l) as [r'|] eqn:E.
      * split.
        -- intro H. injection H as <-. cbn. f_equal. now apply IH.
        -- destruct r as [|y r]; [discriminate|]. intro H. injection H as -> H.
           apply IH in H. injection H as ->. reflexivity.
      * split; [discriminate|]. destruct r as [|y r]; [discriminate|]. intro H.
        injection H as -> H. apply IH in H. discriminate.
    + split; [discriminate | destruct r; discriminate].
Qed.
Lemma all_some_none : forall A (l : list (option A)), all_some l = None <-> In None l.
Proof.
  induction l as [|o l IH]; cbn [all_some].
  - split; [discriminate | intros []].
  - destruct o as [x|].
    + destruct (all_some l) as [r'|].
      * split; [discriminate|]. intros [H|H]; [discriminate|]. apply IH in H. discriminate.
      * split; [|reflexivity]. intros _. right. now apply IH.
    + split; [now left | reflexivity].
Qed.
Definition opt_colls (l : list (option coll)) : list coll :=
  flat_map (fun o => match o with Some c => [c] | None => [] end) l.
Definition recs_colls (l : list (option recording)) : list coll :=
  flat_map (fun o => match o with Some c => tree_colls c | None => [] end) l.
Lemma tree_colls_eq : forall id name colls recs md bins refs,
  tree_colls (mkRec id name colls recs md bins refs) = opt_colls colls ++ recs_colls recs.
Proof. reflexivity. Qed.
Lemma opt_colls_some : forall cs, opt_colls (map Some cs) = cs.
Proof. induction cs as [|c cs IH]; [reflexivity|]. unfold opt_colls in *. cbn. now rewrite IH. Qed.

Theorem evaluate_plan : forall es, NoDup (map e_sig es) -> forall r off ms off',
  evaluate es r off = inl (ms, off') ->
  plan es (indexed off (tree_colls r)) ms /\ off' = off + lenN (tree_colls r).
Proof.
  intros es Hes r. induction r as [id name colls recs md bins refs IH] using recording_ind'.
  intros off ms off'. rewrite evaluate_unfold, tree_colls_eq.
  destruct (all_some colls) as [cs|] eqn:Ec; [|discriminate].
  apply all_some_spec in Ec. subst colls. rewrite opt_colls_some.
  destruct (claim_all es off (map (fun c => (c, false)) cs)) as [ms0 l2] eqn:Ea.
  destruct (unclaimed l2) eqn:Eu; [discriminate|].
  apply (unclaimed_pending l2 off) in Eu.
  destruct (claim_all_spec es [] off _ _ _ Ea) as (P & G & _ & _ & N).
  { rewrite Forall_forall. intros p _ e []. } { exact Hes. }
  rewrite Eu, app_nil_r, pending_fresh in P. cbn [app] in G.
  assert (Pl : plan es (indexed off cs) ms0) by (split; [symmetry; exact P | auto]).
  rewrite lenN_map, indexed_app, lenN_app. clear P G N Ea Eu l2.
  generalize (indexed off cs) Pl. clear Pl. intros L Pl.
  rewrite N.add_assoc. generalize dependent (off + lenN cs). clear off cs. intro off.
  revert ms0 L off Pl. induction recs as [|o recs IHl]; intros ms0 L off Pl.
  - cbn [eval_recs recs_colls flat_map indexed]. intro H. injection H as <- <-.
    change (lenN (@nil coll)) with 0. rewrite app_nil_r, N.add_0_r. auto.
  - destruct o as [c|]; cbn [eval_recs]; [|discriminate].
    destruct (evaluate es c off) as [[cms off1]|e] eqn:Ev; [|discriminate].
    destruct (IH c (or_introl eq_refl) off cms off1 Ev) as [[Pc [Gc Nc]] ->].
    intro H. apply (IHl (fun c Hc => IH c (or_intror Hc))) with (L := L ++ flat_map pairs cms) in H.
    + destruct H as [(P & G & N) ->]. unfold recs_colls. cbn [flat_map]. fold (recs_colls recs).
      rewrite indexed_app, lenN_app, N.add_assoc. split; [|reflexivity]. split; [|auto].
      rewrite P, <- app_assoc. apply Permutation_app_head, Permutation_app_tail. exact Pc.
    + apply merge_plan; assumption.
Qed.

(** ** When Write rejects *)
Definition nils (P : recording -> Prop) (r : recording) : Prop := forall c, inside c r -> P c.
Lemma inside_cases : forall id name colls recs md bins refs c,
  inside c (mkRec id name colls recs md bins refs) <->
  c = mkRec id name colls recs md bins refs \/ exists d, In (Some d) recs /\ inside c d.
Proof.
  intros. split.
  - intro H. inversion H as [|? ? d Hd Hi]; subst; [now left | right; eauto].
  - intros [-> | (d & Hd & Hi)]; [apply InsideSelf | eapply InsideSub; eauto].
Qed.
Lemma existsb_none : forall A (l : list (option A)),
  existsb (fun x : option A => match x with None => true | _ => false end) l = true <-> In None l.
Proof.
  intros A l. rewrite existsb_exists. split.
  - intros ([x|] & H & E); [discriminate | exact H].
  - intro H. exists None. auto.
Qed.
Fixpoint check_recs (l : list (option recording)) : option err :=
  match l with
  | [] => None
  | None :: _ => Some ENilRecording
  | Some c :: l' => match check_nil c with Some e => Some e | None => check_recs l' end
  end.
Lemma check_nil_unfold : forall id name colls recs md bins refs,
  check_nil (mkRec id name colls recs md bins refs) =
      if existsb (fun x : option binref => match x with None => true | _ => false end) refs
      then Some ENilReference
      else if existsb (fun x : option binary => match x with None => true | _ => false end) bins
      then Some ENilBinary
      else check_recs recs.
Proof. reflexivity. Qed.
Definition node_ok (c : recording) : Prop :=
  ~ In None (rec_recs c) /\ ~ In None (rec_bins c) /\ ~ In None (rec_refs c).
Lemma check_nil_none : forall r, check_nil r = None <-> (forall c, inside c r -> node_ok c).
Proof.
  induction r as [id name colls recs md bins refs IH] using recording_ind'.
  rewrite check_nil_unfold.
  destruct (existsb _ refs) eqn:Er.
  { split; [discriminate|]. intro H. apply existsb_none in Er. destruct (H _ (InsideSelf _)) as (_ & _ & H3).
    now destruct H3. }
  destruct (existsb _ bins) eqn:Eb.
  { split; [discriminate|]. intro H. apply existsb_none in Eb. destruct (H _ (InsideSelf _)) as (_ & H3 & _).
    now destruct H3. }
  assert (Hr : ~ In None refs) by (intro H; apply existsb_none in H; congruence).
  assert (Hb : ~ In None bins) by (intro H; apply existsb_none in H; congruence).
  assert (Hrecs : check_recs recs = None <-> ~ In None recs /\ forall d, In (Some d) recs -> check_nil d = None).
  { clear. induction recs as [|o recs IH]; cbn [check_recs].
    - split; [intros _; split; [intros [] | intros d []]|reflexivity].
    - destruct o as [c|].
      + destruct (check_nil c) eqn:E.
        * split; [discriminate|]. intros [_ H]. rewrite <- E. apply H. now left.
        * rewrite IH. split.
          -- intros [H1 H2]. split; [intros [H|H]; [discriminate | auto]|].
             intros d [H|H]; [injection H as <-; exact E | auto].
          -- intros [H1 H2]. split; [intro H; apply H1; now right | intros d Hd; apply H2; now right].
      + split; [discriminate|]. intros [H _]. destruct H. now left. }
  rewrite Hrecs. split.
  - intros [H1 H2] c Hc. apply inside_cases in Hc as [-> | (d & Hd & Hc)].
    + repeat split; assumption.
    + apply (IH d Hd); auto.
  - intro H. split; [apply (H _ (InsideSelf _))|]. intros d Hd. apply (IH d Hd).
    intros c Hc. apply H, inside_cases. right. eauto.
Qed.

Lemma claim_all_left : forall es off l ms l2, claim_all es off l = (ms, l2) ->
  (forall p, In p (pending off l2) -> In p (pending off l)) /\
  Forall (fun p => forall e, In e es -> e_accepts e (snd p) = false) (pending off l2).
Proof.
  induction es as [|e es IH]; intros off l ms l2 H; cbn [claim_all] in H.
  - injection H as <- <-. split; [auto|]. rewrite Forall_forall. intros p _ e [].
  - destruct (claim e off l) as [[cs os] l1] eqn:Ec.
    destruct (claim_spec _ _ _ _ _ _ Ec) as (_ & Hperm & _ & Hn).
    destruct (claim_all es off l1) as [ms' l'] eqn:Ea. injection H as _ <-.
    destruct (IH _ _ _ _ Ea) as [H1 H2]. split.
    + intros p Hp. apply (Permutation_in p (Permutation_sym Hperm)), in_or_app. right. auto.
    + rewrite Forall_forall in *. intros p Hp e0 [<-|He0]; auto.
Qed.
Lemma unclaimed_iff : forall es off cs ms l2, claim_all es off (map (fun c => (c, false)) cs) = (ms, l2) ->
  (unclaimed l2 = None <-> forall c, In c cs -> exists e, In e es /\ e_accepts e c = true).
Proof.
  intros es off cs ms l2 H. split.
  - intros Hu c Hc. apply (unclaimed_pending l2 off) in Hu.
    (* every accepted collection left the pending list through an accepting encoder *)
    assert (G : forall es l ms l2, claim_all es off l = (ms, l2) -> pending off l2 = [] ->
              forall p, In p (pending off l) -> exists e, In e es /\ e_accepts e (snd p) = true).
    { clear. induction es as [|e es IH]; intros l ms l2 H Hu p Hp; cbn [claim_all] in H.
      - injection H as _ <-. rewrite Hu in Hp. destruct Hp.
      - destruct (claim e off l) as [[cs os] l1] eqn:Ec.
        destruct (claim_spec _ _ _ _ _ _ Ec) as (_ & Hperm & Ha & _).
        destruct (claim_all es off l1) as [ms' l'] eqn:Ea. injection H as _ <-.
        apply (Permutation_in p Hperm), in_app_or in Hp as [Hp|Hp].
        + exists e. split; [now left|]. rewrite Forall_forall in Ha. apply Ha.
          destruct p as [i c]. eapply in_combine_r; eauto.
        + destruct (IH _ _ _ Ea Hu p Hp) as (e0 & He0 & Ha0). exists e0. split; [now right | exact Ha0]. }
    destruct (In_nth_error _ _ Hc) as [i Hi].
    specialize (G es _ _ _ H Hu (off + N.of_nat i, c)). apply G.
    rewrite pending_fresh. apply indexed_In. split; [lia|].
    rewrite nthN_nth_error. replace (N.to_nat (off + N.of_nat i - off)) with i by lia. exact Hi.
  - intro Ha. destruct (unclaimed l2) as [c|] eqn:Eu; [|reflexivity]. exfalso.
    destruct (unclaimed_some _ _ off Eu) as [i Hi].
    destruct (claim_all_left _ _ _ _ _ H) as [H1 H2]. rewrite Forall_forall in H2.
    specialize (H2 _ Hi). apply H1 in Hi. rewrite pending_fresh in Hi. apply indexed_In in Hi as [_ Hi].
    apply nthN_In in Hi. destruct (Ha c Hi) as (e & He & Hac). specialize (H2 e He). cbn in H2. congruence.
Qed.
Definition accepted_node (es : list encoder) (c : recording) : Prop :=
  ~ In None (rec_colls c) /\
  forall x, In (Some x) (rec_colls c) -> exists e, In e es /\ e_accepts e x = true.
Lemma evaluate_iff : forall es r off, (forall c, inside c r -> node_ok c) ->
  ((exists ms off', evaluate es r off = inl (ms, off')) <-> forall c, inside c r -> accepted_node es c).
Proof.
  intros es r. induction r as [id name colls recs md bins refs IH] using recording_ind'.
  intros off Hnil. rewrite evaluate_unfold.
  assert (Hrecs : forall ms off, (exists ms' off', eval_recs es recs ms off = inl (ms', off')) <->
                  forall d, In (Some d) recs -> forall c, inside c d -> accepted_node es c).
  { assert (Hn : ~ In None recs) by apply (Hnil _ (InsideSelf _)).
    assert (Hd : forall d, In (Some d) recs -> forall c, inside c d -> node_ok c).
    { intros d Hd c Hc. apply Hnil, inside_cases. right. eauto. }
    clear Hnil. induction recs as [|o recs IHl]; intros ms off0; cbn [eval_recs].
    - split; [intros _ d []|]. intros _. eauto.
    - destruct o as [c|]; [|destruct Hn; now left].
      pose proof (IH c (or_introl eq_refl) off0 (Hd c (or_introl eq_refl))) as IHc.
      specialize (IHl (fun c Hc => IH c (or_intror Hc)) (fun H => Hn (or_intror H))
                      (fun d H => Hd d (or_intror H))).
      destruct (evaluate es c off0) as [[cms off1]|e] eqn:Ev.
      + rewrite IHl. split.
        * intros H d [E|E].
          -- injection E as <-. apply IHc. eauto.
          -- apply H. exact E.
        * intros H d Hd'. apply H. now right.
      + split.
        * intros (? & ? & H). discriminate.
        * intro H. destruct IHc as [_ IHc]. destruct IHc as (? & ? & E); [|discriminate].
          apply H. now left. }
  destruct (all_some colls) as [cs|] eqn:Ec.
  - apply all_some_spec in Ec. subst colls.
    destruct (claim_all es off (map (fun c => (c, false)) cs)) as [ms l2] eqn:Ea.
    pose proof (unclaimed_iff _ _ _ _ _ Ea) as Hu.
    assert (Hin : forall x, In (Some x) (map Some cs) <-> In x cs).
    { intro x. rewrite in_map_iff. split; [intros (y & H & Hy); injection H as ->; exact Hy | eauto]. }
    destruct (unclaimed l2) as [c|].
    + split; [intros (? & ? & H); discriminate|]. intro H. exfalso.
      assert (Some c = None) as X; [|discriminate X]. apply Hu.
      intros x Hx. apply (H _ (InsideSelf _)). now apply Hin.
    + rewrite Hrecs. split.
      * intros H c Hc. apply inside_cases in Hc as [-> | (d & Hd & Hc)]; [|eauto].
        split; cbn [rec_colls].
        -- intro Hin'. apply in_map_iff in Hin' as (? & ? & _). discriminate.
        -- intros x Hx. apply Hu; [reflexivity | now apply Hin].
      * intros H d Hd c Hc. apply H, inside_cases. right. eauto.
  - split; [intros (? & ? & H); discriminate|]. intro H. apply all_some_none in Ec.
    destruct (H _ (InsideSelf _)) as [H1 _]. now destruct H1.
Qed.

(** ** Distribution of the encoded streams *)
Lemma set_nth_lt : forall A (l : list A) i x, i < lenN l -> exists l', set_nth l i x = Some l' /\
  lenN l' = lenN l /\ nthN l' i = Some x /\ forall j, j <> i -> nthN l' j = nthN l j.
Proof.
  induction l as [|y l IH]; intros i x Hi; [cbn in Hi; lia|]. rewrite lenN_cons in Hi.
  cbn [set_nth]. destruct (N.eqb_spec i 0) as [->|Hn].
  - eexists. split; [reflexivity|]. rewrite !lenN_cons. repeat split; auto.
    intros j Hj. cbn [nthN]. destruct (N.eqb_spec j 0); [contradiction | reflexivity].
  - destruct (IH (N.pred i) x) as (l' & -> & Hl & Hx & Ho); [lia|].
    eexists. split; [reflexivity|]. rewrite !lenN_cons, Hl. split; [reflexivity|].
    cbn [nthN]. split.
    + destruct (N.eqb_spec i 0); [contradiction | exact Hx].
    + intros j Hj. destruct (N.eqb_spec j 0); [reflexivity|]. apply Ho. lia.
Qed.
Lemma scatter_ok : forall orders ds ix b u, length ds = length orders -> NoDup orders ->
  Forall (fun o => o < lenN b /\ o < lenN u) orders ->
  exists b1 u1, scatter orders ds ix b u = Ok (b1, u1) /\ lenN b1 = lenN b /\ lenN u1 = lenN u /\
    (forall i o, nth_error orders i = Some o -> exists d, nth_error ds i = Some d /\
       nthN b1 o = Some d /\ nthN u1 o = Some ix) /\
    (forall o, ~ In o orders -> nthN b1 o = nthN b o /\ nthN u1 o = nthN u o).
Proof.
  induction orders as [|o orders IH]; intros ds ix b u Hl Hd Hb; cbn [scatter].
  - exists b, u. repeat split; auto. intros [|i] o H; discriminate.
  - destruct ds as [|d ds]; [discriminate|]. inversion Hd as [|? ? Ho Hd']; subst.
    inversion Hb as [|? ? [Hb1 Hb2] Hb']; subst.
    destruct (set_nth_lt _ b o d Hb1) as (b' & -> & Lb & Xb & Ob).
    destruct (set_nth_lt _ u o ix Hb2) as (u' & -> & Lu & Xu & Ou).
    destruct (IH ds ix b' u') as (b1 & u1 & E & L1 & L2 & Hin & Hout); auto.
    { rewrite Lb, Lu. exact Hb'. }
    exists b1, u1. split; [exact E|]. split; [congruence|]. split; [congruence|]. split.
    + intros [|i] x Hx; cbn in Hx.
      * injection Hx as <-. exists d. destruct (Hout o Ho) as [-> ->]. auto.
      * apply Hin. exact Hx.
    + intros x Hx. destruct (Hout x) as [-> ->]; [intro; apply Hx; now right|].
      assert (x <> o) by (intros ->; apply Hx; now left). rewrite Ob, Ou by assumption. auto.
Qed.
Lemma NoDup_app_disjoint : forall A (l l' : list A), NoDup (l ++ l') ->
  NoDup l /\ NoDup l' /\ forall x, In x l -> ~ In x l'.
Proof.
  induction l as [|y l IH]; intros l' H; cbn in *.
  - repeat split; auto. constructor.
  - inversion H as [|? ? Hy H']; subst. destruct (IH _ H') as (H1 & H2 & H3). repeat split; auto.
    + constructor; auto. intro. apply Hy, in_or_app. now left.
    + intros x [<-|Hx]; auto. intro. apply Hy, in_or_app. now right.
Qed.
Lemma prepared_ok : forall ms ix b u,
  Forall (fun m => length (m_order m) = length (m_colls m) /\
    exists h ds, e_encode (m_enc m) (m_colls m) = Ok (h, ds, None) /\ length ds = length (m_colls m)) ms ->
  NoDup (flat_map m_order ms) -> Forall (fun o => o < lenN b /\ o < lenN u) (flat_map m_order ms) ->
  exists hs b2 u2, prepared ms ix b u hs b2 u2 /\ length hs = length ms /\
    lenN b2 = lenN b /\ lenN u2 = lenN u /\
    (forall j m i o, nth_error ms j = Some m -> nth_error (m_order m) i = Some o ->
       exists h ds d, nth_error hs j = Some h /\ e_encode (m_enc m) (m_colls m) = Ok (h, ds, None) /\
         nth_error ds i = Some d /\ nthN b2 o = Some d /\ nthN u2 o = Some (ix + N.of_nat j)) /\
    (forall o, ~ In o (flat_map m_order ms) -> nthN b2 o = nthN b o /\ nthN u2 o = nthN u o).
Proof.
  induction ms as [|m ms IH]; intros ix b u Hm Hd Hb; cbn [flat_map] in *.
  - exists [], b, u. repeat split; auto; try constructor. intros [|j] ? ? ? H; discriminate.
  - inversion Hm as [|? ? (Hlen & h & ds & E & Hds) Hm']; subst.
    apply NoDup_app_disjoint in Hd as (Hd1 & Hd2 & Hd3). apply Forall_app in Hb as [Hb1 Hb2].
    destruct (scatter_ok (m_order m) ds ix b u) as (b1 & u1 & Sc & L1 & L2 & Hin & Hout); auto; [congruence|].
    destruct (IH (ix + 1) b1 u1 Hm' Hd2) as (hs & b2 & u2 & P & Lh & L3 & L4 & Hin2 & Hout2).
    { rewrite L1, L2. exact Hb2. }
    exists (h :: hs), b2, u2. split; [econstructor; eauto|]. split; [cbn; congruence|].
    split; [congruence|]. split; [congruence|]. split.
    + intros [|j] m' i o Hj Ho; cbn in Hj.
      * injection Hj as <-. destruct (Hin i o Ho) as (d & Hd & Hb' & Hu').
        exists h, ds, d. destruct (Hout2 o) as [-> ->]; [apply Hd3; eapply nth_error_In; eauto|].
        rewrite N.add_0_r. auto.
      * destruct (Hin2 j m' i o Hj Ho) as (h' & ds' & d & Hh & E' & Hd & Hb' & Hu').
        exists h', ds', d. repeat split; auto. rewrite Hu'. f_equal. lia.
    + intros o Ho. destruct (Hout2 o) as [-> ->]; [intro; apply Ho, in_or_app; now right|].
      apply Hout. intro. apply Ho, in_or_app. now left.
Qed.

(** Everything needed about the streams of a file: the encoder index and the
    payload stored for stream [k] are those of collection [k]. *)
Definition lawful_all (es : list encoder) (post : encoder -> list f64 -> coll -> coll) : Prop :=
  forall e, In e es -> lawful e (post e).
Theorem distribute : forall es post r ms off', NoDup (map e_sig es) -> lawful_all es post ->
  Forall wf_coll (tree_colls r) -> evaluate es r 0 = inl (ms, off') ->
  let k := N.to_nat (lenN (tree_colls r)) in
  exists hs blocks used, prepared ms 0 (repeat [] k) (repeat 0 k) hs blocks used /\
    length hs = length ms /\
    lenN blocks = lenN (tree_colls r) /\ lenN used = lenN (tree_colls r) /\
    forall i c, nthN (tree_colls r) i = Some c ->
      exists j m h d, nthN used i = Some (N.of_nat j) /\ nthN blocks i = Some d /\
        nth_error ms j = Some m /\ nth_error hs j = Some h /\ chosen es c = Some (m_enc m) /\
        (lenN h <= 2 ^ 44 -> lenN d <= 2 ^ 44 -> forall times, length times = c_length c ->
           e_decode (m_enc m) (c_name c) h d times = Ok (Some (post (m_enc m) times c), None)) /\
        exists ds q, e_encode (m_enc m) (m_colls m) = Ok (h, ds, None) /\ nth_error (m_colls m) q = Some c /\ nth_error ds q = Some d.
Proof.
  intros es post r ms off' Hes Hlaw Hwf Hev k.
  destruct (evaluate_plan es Hes _ _ _ _ Hev) as [(P & G & _) _].
  assert (Horder : Permutation (flat_map m_order ms) (map fst (indexed 0 (tree_colls r)))).
  { rewrite <- P. clear -G. induction ms as [|m ms IH]; [reflexivity|]. cbn [flat_map].
    inversion G as [|? ? (_ & Hl & _) G']; subst. rewrite map_app, <- IH by assumption.
    assert (map fst (pairs m) = m_order m) as ->; [|reflexivity].
    unfold pairs. clear -Hl. revert Hl. generalize (m_colls m).
    induction (m_order m) as [|o os IH]; intros [|c cs] Hl; cbn in *; try discriminate; [reflexivity|].
    now rewrite IH by lia. }
  assert (Hfst : forall (l : list coll) n, NoDup (map fst (indexed n l)) /\
            Forall (fun o => n <= o /\ o < n + lenN l) (map fst (indexed n l))).
  { induction l as [|c l IH]; intro n; cbn [indexed map fst]; [split; constructor|].
    destruct (IH (n + 1)) as [H1 H2]. rewrite lenN_cons. split.
    - constructor; [|exact H1]. intro Hin. rewrite Forall_forall in H2. apply H2 in Hin. lia.
    - constructor; [lia|]. rewrite Forall_forall in *. intros o Ho. apply H2 in Ho. lia. }
  destruct (Hfst (tree_colls r) 0) as [Nd Bd].
  assert (Hlenr : N.of_nat k = lenN (tree_colls r)) by (unfold k; lia).
  assert (Hchosen : forall m c, In m ms -> In c (m_colls m) -> wf_coll c /\ e_accepts (m_enc m) c = true).
  { intros m c Hm Hc. rewrite Forall_forall in G. destruct (G m Hm) as (_ & Hl & _ & Hall). split.
    - rewrite Forall_forall in Hwf. apply Hwf.
      destruct (In_nth_error _ _ Hc) as [i Hi].
      destruct (nth_error (m_order m) i) as [o|] eqn:Ho.
      2:{ apply nth_error_None in Ho. assert (i < length (m_colls m))%nat by (apply nth_error_Some; congruence). lia. }
      assert (Hp : In (o, c) (flat_map pairs ms)).
      { apply in_flat_map. exists m. split; [exact Hm|]. unfold pairs. clear -Hi Ho.
        revert i Hi Ho. generalize (m_order m). induction (m_colls m) as [|a cs IH]; intros [|b os] [|i] Hi Ho; cbn in *; try discriminate.
        - left. congruence.
        - right. eauto. }
      apply (Permutation_in _ P), indexed_In in Hp as [_ Hp]. eapply nthN_In; eauto.
    - rewrite Forall_forall in Hall. specialize (Hall c Hc). unfold chosen in Hall.
      apply find_some in Hall. tauto. }
  assert (Henc : forall m, In m ms -> exists h ds, e_encode (m_enc m) (m_colls m) = Ok (h, ds, None) /\
      length ds = length (m_colls m) /\
      (lenN h <= 2 ^ 44 -> forall i c s, nth_error (m_colls m) i = Some c -> nth_error ds i = Some s ->
         lenN s <= 2 ^ 44 -> forall times, length times = c_length c ->
         e_decode (m_enc m) (c_name c) h s times = Ok (Some (post (m_enc m) times c), None))).
  { intros m Hm. rewrite Forall_forall in G. destruct (G m Hm) as (_ & _ & Hin & _).
    apply (Hlaw _ Hin). rewrite Forall_forall. intros c Hc. apply Hchosen; auto. }
  destruct (prepared_ok ms 0 (repeat [] k) (repeat 0 k)) as (hs & b2 & u2 & Pr & Lh & L1 & L2 & Hin & _).
  { rewrite Forall_forall in *. intros m Hm. destruct (G m Hm) as (_ & Hl & _). split; [exact Hl|].
    destruct (Henc m Hm) as (h & ds & E & L & _). eauto. }
  { eapply Permutation_NoDup; [symmetry; exact Horder | exact Nd]. }
  { eapply Permutation_Forall; [symmetry; exact Horder|]. rewrite !lenN_repeat.
    eapply Forall_impl; [|exact Bd]. cbv beta. intros o Ho. lia. }
  rewrite !lenN_repeat in *. exists hs, b2, u2. split; [exact Pr|]. split; [exact Lh|].
  split; [lia|]. split; [lia|]. intros i c Hi.
  assert (Hp : In (i, c) (flat_map pairs ms)).
  { apply (Permutation_in _ (Permutation_sym P)), indexed_In. rewrite N.sub_0_r. split; [lia | exact Hi]. }
  apply in_flat_map in Hp as (m & Hm & Hp). destruct (In_nth_error _ _ Hm) as [j Hj].
  assert (Hq : exists q, nth_error (m_order m) q = Some i /\ nth_error (m_colls m) q = Some c).
  { unfold pairs in Hp. clear -Hp. revert Hp. generalize (m_order m).
    induction (m_colls m) as [|a cs IH]; intros [|b os] Hp; cbn in Hp; try contradiction.
    destruct Hp as [Hp|Hp].
    - exists 0%nat. injection Hp as -> ->. auto.
    - destruct (IH os Hp) as [q Hq]. exists (S q). exact Hq. }
  destruct Hq as (q & Hq1 & Hq2).
  destruct (Hin j m q i Hj Hq1) as (h & ds & d & Hh & E & Hd & Hb & Hu).
  destruct (Henc m Hm) as (h' & ds' & E' & _ & Hdec). rewrite E in E'.
  apply ok_inj in E'. injection E' as <- <-.
  exists j, m, h, d. rewrite N.add_0_l in Hu. repeat split; auto.
  - rewrite Forall_forall in G. destruct (G m Hm) as (_ & _ & _ & Hall). rewrite Forall_forall in Hall.
    apply Hall. eapply nth_error_In; eauto.
  - intros Hlh Hld times Ht. eapply Hdec; eauto.
  - exists ds, q. auto.
Qed.
