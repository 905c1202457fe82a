(** The numeric encoders are lawful, whatever the technique. *)
From Coq Require Import ZArith Lia.
From Verif Require Import Base BaseFacts IO Spec IOFacts Floats ByteFacts BinaryIO BinaryIOFacts.
From Verif Require Import Metadata Recording SpecRec RecordingFacts Encoding SpecEnc.
From Verif Require Import EncPosition EncEuler EncFloat EncNumFacts OctFacts.
Local Open Scope N_scope.

(** ** what comes back, per technique *)
Definition pos_values (tech : N) (l : list vec) : list vec :=
  match tech with
  | 0 => l
  | 1 => map (vmap near32) l
  | 2 => oct_values 16 l
  | _ => oct_values 8 l
  end.
Definition euler_values (tech : N) (l : list vec) : list vec :=
  match tech with
  | 0 => l
  | 1 => map (vmap near32) l
  | _ => match l with
         | [v] => [vmap (fun a => near32 (wrap_angle a)) v]
         | _ => map (vmap angle16) l
         end
  end.
Definition float_values (tech : N) (l : list f64) : list f64 :=
  match tech with
  | 0 => l
  | 1 => map near32 l
  | _ => map (float16 (fst (val_range l fpinf fminf)) (snd (val_range l fpinf fminf))) l
  end.

Definition pos_post (tech : N) (ts : list f64) (c : coll) : coll :=
  match c_body c with
  | BPos l => mkColl (c_name c) (BPos (combine ts (pos_values tech (map snd l))))
  | _ => retime ts c
  end.
Definition euler_post (tech : N) (ts : list f64) (c : coll) : coll :=
  match c_body c with
  | BEuler l => mkColl (c_name c) (BEuler (combine ts (euler_values tech (map snd l))))
  | _ => retime ts c
  end.
Definition float_post (tech : N) (ts : list f64) (c : coll) : coll :=
  match c_body c with
  | BFloat l => mkColl (c_name c) (BFloat (combine ts (float_values tech (map snd l))))
  | _ => retime ts c
  end.

Lemma pos_post_raw64 : forall ts c, pos_post 0 ts c = retime ts c.
Proof. intros ts c. unfold pos_post, retime. now destruct (c_body c). Qed.
Lemma euler_post_raw64 : forall ts c, euler_post 0 ts c = retime ts c.
Proof. intros ts c. unfold euler_post, retime. now destruct (c_body c). Qed.
Lemma float_post_raw64 : forall ts c, float_post 0 ts c = retime ts c.
Proof. intros ts c. unfold float_post, retime. now destruct (c_body c). Qed.

(** ** acceptance *)
Lemma accepts_pos : forall tech c, wf_coll c -> e_accepts (position_encoder tech) c = true ->
  exists l, c_body c = BPos l.
Proof.
  intros tech c Hw H. cbn in H. apply str_eqb_eq in H. unfold c_sig, wf_coll in *.
  destruct (c_body c) as [l| | | | |s ts]; try (vm_compute in H; discriminate); eauto.
  subst. destruct Hw. cbn. tauto.
Qed.
Lemma accepts_euler : forall tech c, wf_coll c -> e_accepts (euler_encoder tech) c = true ->
  exists l, c_body c = BEuler l.
Proof.
  intros tech c Hw H. cbn in H. apply str_eqb_eq in H. unfold c_sig, wf_coll in *.
  destruct (c_body c) as [|l| | | |s ts]; try (vm_compute in H; discriminate); eauto.
  subst. destruct Hw. cbn. tauto.
Qed.
Lemma accepts_float : forall tech c, wf_coll c -> e_accepts (float_encoder tech) c = true ->
  exists l, c_body c = BFloat l.
Proof.
  intros tech c Hw H. cbn in H. apply str_eqb_eq in H. unfold c_sig, wf_coll in *.
  destruct (c_body c) as [| |l| | |s ts]; try (vm_compute in H; discriminate); eauto.
  subst. destruct Hw. cbn. tauto.
Qed.

Lemma map_res_ok : forall {A B} (f : A -> res B) (g : A -> B) l,
  Forall (fun a => f a = Ok (g a)) l -> map_res f l = Ok (map g l).
Proof.
  intros A B f g l H. induction H as [|a l E H IH]; [reflexivity|]. cbn [map_res map].
  rewrite E. cbn [bind]. now rewrite IH.
Qed.


Definition pos_stream (tech : N) (c : coll) : bytes :=
  match pos_encode1 tech c with Ok b => b | _ => [] end.
Theorem position_lawful : forall tech, tech < 4 -> lawful (position_encoder tech) (pos_post tech).
Proof.
  intros tech Ht cs Hcs. cbn [e_encode position_encoder]. unfold pos_encode.
  rewrite (map_res_ok _ (pos_stream tech)).
  2:{ eapply Forall_impl; [|exact Hcs]. intros c [Hw Ha].
      destruct (accepts_pos tech c Hw Ha) as [l El]. unfold pos_stream, pos_encode1, pos_caps.
      now rewrite El. }
  cbn [bind]. exists [], (map (pos_stream tech) cs). split; [reflexivity|].
  split; [apply map_length|]. intros _ i c s Hc Hs _ times Hl.
  rewrite (map_nth_error _ _ _ Hc) in Hs. injection Hs as <-.
  rewrite Forall_forall in Hcs. destruct (Hcs c (nth_error_In _ _ Hc)) as [Hw Ha].
  destruct (accepts_pos tech c Hw Ha) as [l El].
  unfold pos_stream, pos_encode1, pos_caps, pos_post. rewrite El.
  unfold c_length, c_times in Hl. rewrite El in Hl. rewrite map_length in Hl.
  assert (Hl' : length times = length (map snd l)) by (now rewrite map_length).
  cbn [e_decode position_encoder]. unfold pos_decode.
  assert (Hn : b2n (n2b tech) = tech) by (apply b2n_n2b_small; lia). rewrite Hn.
  destruct tech as [|[[|[]|]|[[]|[]|]|]]; try lia; unfold pos_values.
  - rewrite <- (app_nil_r (encode_raw64 _)), decode_raw64_ok by auto. reflexivity.
  - rewrite <- (app_nil_r (encode_oct _ _ _)).
    rewrite (decode_oct_ok 8 cells_to_bytes24 bytes_to_cells24 3) by (auto using packs24; discriminate).
    reflexivity.
  - rewrite <- (app_nil_r (encode_oct _ _ _)).
    rewrite (decode_oct_ok 16 cells_to_bytes48 bytes_to_cells48 6) by (auto using packs48; discriminate).
    reflexivity.
  - rewrite <- (app_nil_r (encode_raw32 _)), decode_raw32_ok by auto. reflexivity.
Qed.

Definition euler_stream (tech : N) (c : coll) : bytes :=
  match euler_encode1 tech c with Ok b => b | _ => [] end.
Lemma decode_raw16_ok : forall l times, length times = length l ->
  decode_raw16 times (encode_raw16 l) = Ok (combine times (euler_values 2 l), None).
Proof.
  intros l times Ht. unfold decode_raw16, encode_raw16, euler_values.
  destruct times as [|t [|t2 times]]; destruct l as [|v [|v2 l]]; try discriminate.
  - reflexivity.
  - rewrite <- (app_nil_r (wr32 (wrap_angle (vz v)))).
    pose proof (rd32v_flat f32_0 f32_0 f32_0 (vmap wrap_angle v) []) as E.
    unfold wr32v in E. cbn [vmap vx vy vz] in E. rewrite <- !app_assoc in *. rewrite E. reflexivity.
  - rewrite <- (app_nil_r (flat_map _ _)), euler_decode16_ok by auto. reflexivity.
Qed.
Theorem euler_lawful : forall tech, tech < 3 -> lawful (euler_encoder tech) (euler_post tech).
Proof.
  intros tech Ht cs Hcs. cbn [e_encode euler_encoder]. unfold euler_encode.
  rewrite (map_res_ok _ (euler_stream tech)).
  2:{ eapply Forall_impl; [|exact Hcs]. intros c [Hw Ha].
      destruct (accepts_euler tech c Hw Ha) as [l El]. unfold euler_stream, euler_encode1, euler_caps.
      now rewrite El. }
  cbn [bind]. exists [], (map (euler_stream tech) cs). split; [reflexivity|].
  split; [apply map_length|]. intros _ i c s Hc Hs _ times Hl.
  rewrite (map_nth_error _ _ _ Hc) in Hs. injection Hs as <-.
  rewrite Forall_forall in Hcs. destruct (Hcs c (nth_error_In _ _ Hc)) as [Hw Ha].
  destruct (accepts_euler tech c Hw Ha) as [l El].
  unfold euler_stream, euler_encode1, euler_caps, euler_post. rewrite El.
  unfold c_length, c_times in Hl. rewrite El in Hl. rewrite map_length in Hl.
  assert (Hl' : length times = length (map snd l)) by (now rewrite map_length).
  cbn [e_decode euler_encoder]. unfold euler_decode.
  assert (Hn : b2n (n2b tech) = tech) by (apply b2n_n2b_small; lia). rewrite Hn.
  destruct tech as [|[[]|[]|]]; try lia.
  - unfold euler_values. rewrite <- (app_nil_r (euler_raw64 _)), euler_decode64_ok by auto. reflexivity.
  - rewrite decode_raw16_ok by auto. reflexivity.
  - unfold euler_values. rewrite <- (app_nil_r (encode_raw32 _)), euler_decode32_ok by auto. reflexivity.
Qed.

Definition float_stream (tech : N) (c : coll) : bytes :=
  match float_encode1 tech c with Some b => b | _ => [] end.
Lemma float_streams_ok : forall tech cs, Forall (fun c => exists l, c_body c = BFloat l) cs ->
  float_streams tech cs = Some (map (float_stream tech) cs).
Proof.
  intros tech cs H. induction H as [|c cs [l El] H IH]; [reflexivity|].
  cbn [float_streams map]. rewrite IH. unfold float_stream, float_encode1. now rewrite El.
Qed.
Theorem float_lawful : forall tech, tech < 3 -> lawful (float_encoder tech) (float_post tech).
Proof.
  intros tech Ht cs Hcs. cbn [e_encode float_encoder]. unfold float_encode.
  rewrite float_streams_ok.
  2:{ eapply Forall_impl; [|exact Hcs]. intros c [Hw Ha]. eapply accepts_float; eauto. }
  exists [], (map (float_stream tech) cs). split; [reflexivity|].
  split; [apply map_length|]. intros _ i c s Hc Hs _ times Hl.
  rewrite (map_nth_error _ _ _ Hc) in Hs. injection Hs as <-.
  rewrite Forall_forall in Hcs. destruct (Hcs c (nth_error_In _ _ Hc)) as [Hw Ha].
  destruct (accepts_float tech c Hw Ha) as [l El].
  unfold float_stream, float_encode1, float_post. rewrite El.
  unfold c_length, c_times in Hl. rewrite El in Hl. rewrite map_length in Hl.
  assert (Hl' : length times = length (map snd l)) by (now rewrite map_length).
  cbn [e_decode float_encoder]. unfold float_decode.
  assert (Hn : b2n (n2b tech) = tech) by (apply b2n_n2b_small; lia). rewrite Hn.
  assert (HI : forall d, flatI (lenN d) (new_er d) (d ++ [])).
  { intro d. rewrite app_nil_r. now apply new_er_inv. }
  destruct tech as [|[[]|[]|]]; try lia; unfold float_values.
  - destruct (float_decode64_ok _ (map snd l) times f0 Hl' _ _ (HI _)) as (s & -> & (He & _));
      auto with more. cbn [bind]. now rewrite He.
  - destruct (float_bst_ok _ (map snd l) times Hl' _ _ (HI _)) as (s & -> & (He & _));
      auto with more. cbn [bind]. now rewrite He.
  - destruct (float_decode32_ok _ (map snd l) times f32_0 Hl' _ _ (HI _)) as (s & -> & (He & _));
      auto with more. cbn [bind]. now rewrite He.
Qed.
