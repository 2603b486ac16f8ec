(** The IEEE-754 instances satisfy the encoding laws. *)
From Verif Require Import Base Flt Lib.
From Flocq Require Import IEEE754.BinarySingleNaN IEEE754.Binary IEEE754.Bits.
Open Scope N_scope.

Lemma flaws32 : FLaws fops32.
Proof.
  constructor.
  - now left.
  - intro x. cbn [dec enc fops32]. rewrite Z2N.id.
    + unfold b32_of_bits, bits_of_b32. exact (binary_float_of_bits_of_binary_float 23 8 eq_refl eq_refl eq_refl x).
    + apply (bits_of_binary_float_range 23 8); reflexivity.
  - intro x. cbn [enc fops32 fbytes].
    pose proof (bits_of_binary_float_range 23 8 eq_refl eq_refl x) as [H1 H2].
    unfold bits_of_b32. change (2 ^ (8 * 4)) with (Z.to_N (2 ^ (23 + 8 + 1))). lia.
Qed.
Lemma flaws64 : FLaws fops64.
Proof.
  constructor.
  - now right.
  - intro x. cbn [dec enc fops64]. rewrite Z2N.id.
    + unfold b64_of_bits, bits_of_b64. exact (binary_float_of_bits_of_binary_float 52 11 eq_refl eq_refl eq_refl x).
    + apply (bits_of_binary_float_range 52 11); reflexivity.
  - intro x. cbn [enc fops64 fbytes].
    pose proof (bits_of_binary_float_range 52 11 eq_refl eq_refl x) as [H1 H2].
    unfold bits_of_b64. change (2 ^ (8 * 8)) with (Z.to_N (2 ^ (52 + 11 + 1))). lia.
Qed.
Lemma dec32_0 : dec fops32 0 = f0 fops32.
Proof. reflexivity. Qed.
Lemma dec64_0 : dec fops64 0 = f0 fops64.
Proof. reflexivity. Qed.
