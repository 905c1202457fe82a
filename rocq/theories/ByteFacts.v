(** Little-endian numbers and the bit patterns of floats. *)
From Coq Require Import ZArith Lia.
Ltac Zify.zify_post_hook ::= Z.div_mod_to_equations.
From Verif Require Import Base BaseFacts Floats.
From Flocq Require Import IEEE754.BinarySingleNaN IEEE754.Binary IEEE754.Bits.
Local Open Scope Z_scope.

Lemma le_bytes_length : forall k z, length (le_bytes k z) = k.
Proof. induction k; intro z; cbn; auto. Qed.
Lemma le_bytes_lenN : forall k z, lenN (le_bytes k z) = N.of_nat k.
Proof. intros. unfold lenN. now rewrite le_bytes_length. Qed.

Lemma le_val_bytes : forall k z, le_val (le_bytes k z) = z mod 256 ^ Z.of_nat k.
Proof.
  induction k as [|k IH]; intro z; cbn [le_bytes le_val].
  - now rewrite Z.mod_1_r.
  - rewrite IH, b2n_n2b_small by (pose proof (Z.mod_pos_bound z 256 eq_refl); lia).
    rewrite Z2N.id by (apply Z.mod_pos_bound; reflexivity).
    replace (256 ^ Z.of_nat (S k)) with (256 * 256 ^ Z.of_nat k).
    2:{ rewrite Nat2Z.inj_succ, Z.pow_succ_r by lia. reflexivity. }
    rewrite Z.rem_mul_r; [reflexivity | discriminate |].
    apply Z.pow_pos_nonneg; lia.
Qed.
Lemma le_val_range : forall l, 0 <= le_val l < 256 ^ Z.of_nat (length l).
Proof.
  induction l as [|b l IH]; [cbn; lia|].
  cbn [le_val length]. rewrite Nat2Z.inj_succ, Z.pow_succ_r by lia.
  pose proof (b2n_lt b). lia.
Qed.
Lemma le_bytes_val : forall l, le_bytes (length l) (le_val l) = l.
Proof.
  induction l as [|b l IH]; [reflexivity|].
  cbn [le_val length le_bytes]. pose proof (b2n_lt b) as Hb.
  replace ((Z.of_N (b2n b) + 256 * le_val l) mod 256) with (Z.of_N (b2n b)).
  2:{ rewrite Z.mul_comm, Z.mod_add by discriminate. rewrite Z.mod_small; lia. }
  replace ((Z.of_N (b2n b) + 256 * le_val l) / 256) with (le_val l).
  2:{ rewrite Z.mul_comm, Z.div_add by discriminate. rewrite Z.div_small; lia. }
  rewrite IH, N2Z.id. f_equal. apply n2b_b2n.
Qed.

Lemma f64_bytes_len : forall x, lenN (f64_bytes x) = 8%N.
Proof. intro. apply le_bytes_lenN. Qed.
Lemma f32_bytes_len : forall x, lenN (f32_bytes x) = 4%N.
Proof. intro. apply le_bytes_lenN. Qed.

(** Float64frombits(Float64bits(x)) is x, bit for bit *)
Lemma f64_bytes_roundtrip : forall x, f64_of_bytes (f64_bytes x) = x.
Proof.
  intro x. unfold f64_of_bytes, f64_bytes. rewrite le_val_bytes.
  pose proof (bits_of_binary_float_range 52 11 eq_refl eq_refl x) as H.
  change (256 ^ Z.of_nat 8) with (2 ^ (52 + 11 + 1)).
  unfold bits_of_b64. rewrite Z.mod_small by exact H.
  apply (binary_float_of_bits_of_binary_float 52 11 eq_refl eq_refl eq_refl).
Qed.
Lemma f32_bytes_roundtrip : forall x, f32_of_bytes (f32_bytes x) = x.
Proof.
  intro x. unfold f32_of_bytes, f32_bytes. rewrite le_val_bytes.
  pose proof (bits_of_binary_float_range 23 8 eq_refl eq_refl x) as H.
  change (256 ^ Z.of_nat 4) with (2 ^ (23 + 8 + 1)).
  unfold bits_of_b32. rewrite Z.mod_small by exact H.
  apply (binary_float_of_bits_of_binary_float 23 8 eq_refl eq_refl eq_refl).
Qed.
