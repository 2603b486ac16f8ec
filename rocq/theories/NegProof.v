(** Shares of a negative tree count: binary64 quotients between -1 and 0. *)
From Verif Require Import Base Imbalance Policy RoundProof.
From Coq Require Import Reals Lra Lia Psatz.
From Coq Require Import Floats.SpecFloat.
From Flocq Require Import Core IEEE754.BinarySingleNaN.
Open Scope R_scope.

Lemma floor_minus_one a b : (- b <= a < 0)%Z -> (b <= 2 ^ 53)%Z ->
  floor_int (SFdiv 53 1024 (d_intZ a) (d_intZ b)) = (-1)%Z.
Proof.
  intros Ha Hb.
  assert (HbR : 0 < IZR b) by (apply IZR_lt; lia).
  assert (HaR : IZR a <= -1) by (apply IZR_le; lia).
  assert (HabR : - IZR b <= IZR a) by (rewrite <- opp_IZR; apply IZR_le; lia).
  assert (Hbig : forall z, (Z.abs z <= 2 ^ 53)%Z -> Rabs (IZR z) <= big).
  { intros z Hz. rewrite <- abs_IZR. apply Rle_trans with (IZR (2 ^ 53)); [now apply IZR_le|].
    change (2 ^ 53)%Z with (radix2 ^ 53)%Z. rewrite IZR_Zpower by lia. apply bpow_le. lia. }
  pose proof (is_int a (Hbig a ltac:(lia))) as Ia. pose proof (is_int b (Hbig b ltac:(lia))) as Ib.
  rewrite rd_int in Ia, Ib by lia.
  set (q := IZR a / IZR b).
  assert (Hqb : q * IZR b = IZR a) by (unfold q; field; lra).
  assert (Hq1 : -1 <= q) by (apply Rmult_le_reg_r with (IZR b); lra).
  assert (Hb53 : IZR b <= 9007199254740992) by (apply IZR_le; lia).
  assert (Hq2 : q <= - bpow radix2 (-53)).
  { rewrite bpow53. apply Rmult_le_reg_r with (IZR b); [lra|]. rewrite Hqb.
    apply Rle_trans with (-1); [lra|]. apply Rmult_le_reg_l with 9007199254740992; [lra|]. field_simplify. lra. }
  assert (Hd : is (SFdiv 53 1024 (d_intZ a) (d_intZ b)) (rd q)).
  { apply is_div; auto; [lra|]. fold q. apply Rle_trans with 1.
    - apply Rabs_le. split; [lra|]. pose proof (bpow_gt_0 radix2 (-53)). lra.
    - change 1 with (bpow radix2 0). apply bpow_le. lia. }
  rewrite (is_floor _ _ Hd). apply Zfloor_imp. split.
  - rewrite <- (rd_int (-1)) by lia. apply rd_mono. exact Hq1.
  - apply Rle_lt_trans with (- bpow radix2 (-53)).
    + rewrite <- (rd_generic (- bpow radix2 (-53))); [now apply rd_mono|].
      apply generic_format_opp, generic_format_bpow. unfold FLT_exp. lia.
    + pose proof (bpow_gt_0 radix2 (-53)). change (IZR (-1 + 1)) with 0. lra.
Qed.

(** With a count between minus the number of workers and -2, worker [w] is given -1
    while [t + w] is negative, and 0 afterwards. *)
Lemma negative_share t n w : (- Z.of_nat n <= t < -1)%Z -> (w < n)%nat -> (Z.of_nat n <= 2 ^ 52)%Z ->
  trees_for_worker t n w = if (t + Z.of_nat w <? 0)%Z then (-1)%Z else 0%Z.
Proof.
  intros Ht Hw Hn. unfold trees_for_worker. replace (t =? -1)%Z with false by lia.
  destruct (Z.ltb_spec (t + Z.of_nat w) 0).
  - apply floor_minus_one; lia.
  - rewrite floor_quotient by lia. apply Z.div_small. lia.
Qed.
