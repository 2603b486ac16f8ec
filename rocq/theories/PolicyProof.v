(** How the trees are spread over the workers. *)
From Verif Require Import Base Imbalance Policy RoundProof.
From Coq Require Import Lia Floats.SpecFloat.
Open Scope Z_scope.

Definition sumZ (l : list Z) : Z := fold_right Z.add 0 l.
Lemma sumZ_app a b : sumZ (a ++ b) = sumZ a + sumZ b.
Proof. induction a as [|x a IH]; [reflexivity|]. cbn [app sumZ fold_right] in *. unfold sumZ in *. rewrite IH. lia. Qed.

(** The sum of floor((t+w)/n) over w = 0..n-1 is t. *)
Lemma shift_sum t n k : 0 < n ->
  sumZ (map (fun w => (t + 1 + Z.of_nat w) / n) (seq 0 k)) =
  sumZ (map (fun w => (t + Z.of_nat w) / n) (seq 0 k)) + (t + Z.of_nat k) / n - t / n.
Proof.
  intro Hn. induction k as [|k IH].
  - cbn. rewrite Z.add_0_r. lia.
  - rewrite seq_S, !map_app, !sumZ_app, IH. cbn [map sumZ fold_right plus].
    replace (t + 1 + Z.of_nat k) with (t + Z.of_nat (S k)) by lia. lia.
Qed.
Lemma spread_sum t n : (0 < n)%nat -> 0 <= t ->
  sumZ (map (fun w => (t + Z.of_nat w) / Z.of_nat n) (seq 0 n)) = t.
Proof.
  intros Hn Ht. revert t Ht. apply natlike_ind.
  - assert (H : forall k, (k <= n)%nat -> sumZ (map (fun w => (0 + Z.of_nat w) / Z.of_nat n) (seq 0 k)) = 0).
    { induction k as [|k IH]; intro Hk; [reflexivity|]. rewrite seq_S, map_app, sumZ_app, IH by lia.
      cbn [map sumZ fold_right plus]. rewrite Z.div_small by lia. reflexivity. }
    apply H. lia.
  - intros t Ht IH. unfold Z.succ. rewrite shift_sum by lia. rewrite IH.
    replace (t + Z.of_nat n) with (t + 1 * Z.of_nat n) by lia. rewrite Z.div_add by lia. lia.
Qed.

Lemma trees_for_worker_eq t n w : 0 <= t -> (w < n)%nat -> t + Z.of_nat n < 2 ^ 53 ->
  trees_for_worker t n w = (t + Z.of_nat w) / Z.of_nat n.
Proof.
  intros Ht Hw Hb. unfold trees_for_worker. replace (t =? -1) with false by lia.
  apply floor_quotient; lia.
Qed.
Lemma plan_sum t n : 0 <= t -> (0 < n)%nat -> t + Z.of_nat n < 2 ^ 53 ->
  sumZ (map (trees_for_worker t n) (seq 0 n)) = t.
Proof.
  intros Ht Hn Hb. rewrite <- (spread_sum t n Hn Ht) at 2. f_equal. apply map_ext_in.
  intros w Hw. apply in_seq in Hw. apply trees_for_worker_eq; lia.
Qed.
Lemma plan_nonneg t n w : 0 <= t -> (w < n)%nat -> t + Z.of_nat n < 2 ^ 53 ->
  0 <= trees_for_worker t n w.
Proof. intros Ht Hw Hb. rewrite trees_for_worker_eq by assumption. apply Z.div_pos; lia. Qed.
Lemma plan_auto n w : trees_for_worker (-1) n w = -1.
Proof. reflexivity. Qed.
