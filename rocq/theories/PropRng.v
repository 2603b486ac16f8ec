(** The structure of the KISS generators (C72, C73). *)
From Verif Require Import Base Rng Lib RngProof.
Open Scope N_scope.

(** One step of a multiply-with-carry generator: multiplier [a], base [b]. *)
Definition mwc (a b : N) (v c v' c' : N) : Prop := v' + b * c' = a * v + c.

(** C72: a number drawn is the sum of the three components of the new state. *)
Theorem C72_draw_is_sum_of_components :
  forall w r, let r' := snd (kiss_next w r) in
    fst (kiss_next w r) = (kx r' + ky r' + kz r') mod 2 ^ w /\ kx r' = (69069 * kx r + 12345) mod 2 ^ w.
Proof. intros w r. split; reflexivity. Qed.
Theorem C72_draw64_is_sum_of_components :
  forall r, let r' := snd (kiss64_next r) in
    fst (kiss64_next r) = (kx r' + ky r' + kz r') mod 2 ^ 64 /\ kz r' = (6906969069 * kz r + 1234567) mod 2 ^ 64.
Proof. intros r. split; reflexivity. Qed.

(** Kiss64Random: x and c are a multiply-with-carry generator after any number of
    draws, except in the states with c = 2^58 and x mod 64 = 63, where the
    sum computed for t overflows and 2^64 is lost. *)
Theorem C72_kiss64_multiply_with_carry :
  forall n s, s < 2 ^ 64 ->
    let r := snd (kiss64_draws n (kiss64_new s)) in
    let r' := snd (kiss64_next r) in
    kx r < 2 ^ 64 /\ kc r <= 2 ^ 58 /\
    (kc r < 2 ^ 58 \/ kx r mod 64 <> 63 -> mwc (2 ^ 58 + 1) (2 ^ 64) (kx r) (kc r) (kx r') (kc r')) /\
    (kc r = 2 ^ 58 -> kx r mod 64 = 63 -> kx r' + 2 ^ 64 * kc r' + 2 ^ 64 = (2 ^ 58 + 1) * kx r + kc r).
Proof.
  intros n s Hs. destruct (kiss64_reach s n Hs) as [H1 H2]. cbv zeta. repeat split; auto.
  - apply kiss64_mwc; assumption.
  - intros. apply kiss64_lost; assumption.
Qed.
(** Seeding, one draw and seeding again can lead to the exception. *)
Example C72_kiss64_exception :
  let r := kiss64_set_seed (snd (kiss64_next (kiss64_new (2 ^ 64 - 1)))) (2 ^ 64 - 1) in
  kc r = 2 ^ 58 /\ kx r mod 64 = 63 /\ kc (snd (kiss64_next r)) = 2 ^ 58 - 1 /\ kx (snd (kiss64_next r)) = 2 ^ 64 - 1.
Proof. vm_compute. repeat split. Qed.

(** Kiss32Random: z and c are not the multiply-with-carry generator with
    multiplier 698769069 of KISS, on any seed: already the first step differs. *)
Theorem C72_kiss32_multiply_with_carry_refuted :
  forall s, let r := kiss_new s in let r' := snd (kiss_next 32 r) in
    ~ mwc 698769069 (2 ^ 32) (kz r) (kc r) (kz r') (kc r').
Proof. intro s. vm_compute. discriminate. Qed.
(** What they are instead: the constant is added.  z + c runs through an arithmetic
    progression modulo 2^32 - 1 that does not depend on the seed. *)
Theorem C72_kiss32_adds_a_constant :
  forall n s, let r := snd (kiss_draws 32 n (kiss_new s)) in let r' := snd (kiss_next 32 r) in
    kz r' + 2 ^ 32 * kc r' = 698769069 + kz r + kc r /\
    ((0 < n)%nat -> kc r <= 1) /\
    (kz r + kc r) mod (2 ^ 32 - 1) = (521288629 + 7654321 + N.of_nat n * 698769069) mod (2 ^ 32 - 1).
Proof.
  intros n s. cbv zeta. rewrite draws_state.
  assert (B : kz (nth_state 32 n (kiss_new s)) < 2 ^ 32 /\ kc (nth_state 32 n (kiss_new s)) < 2 ^ 32).
  { destruct n as [|n]; [split; reflexivity|]. rewrite nth_state_S. apply kiss_fields_lt. }
  split; [apply kiss32_carry; apply B|]. split.
  - destruct n as [|n]; [lia|]. intros _. apply kiss32_small_carry.
  - rewrite kiss32_progression by reflexivity. reflexivity.
Qed.
Example C72_example :
  kz (snd (kiss_draws 32 3 (kiss_new 7))) = 2625250157 /\
  kx (snd (kiss64_draws 1 (kiss64_new 7))) + 2 ^ 64 * kc (snd (kiss64_draws 1 (kiss64_new 7))) = (2 ^ 58 + 1) * 7 + 123456123456123456 /\
  kc (snd (kiss64_draws 3 (kiss64_new 7))) <> 0.
Proof. vm_compute. repeat split; discriminate. Qed.

(** C73: seeds alike modulo 2^k give numbers alike modulo 2^k, for ever. *)
Theorem C73_low_bits_depend_on_low_bits_of_seed :
  forall w k n s1 s2, k <= w -> s1 <> 0 -> s2 <> 0 -> s1 mod 2 ^ k = s2 mod 2 ^ k ->
    map (fun d => d mod 2 ^ k) (fst (kiss_draws w n (kiss_new s1))) =
    map (fun d => d mod 2 ^ k) (fst (kiss_draws w n (kiss_new s2))).
Proof.
  intros w k n s1 s2 Hk H1 H2 E. apply twin_draws; [assumption|]. unfold kiss_new.
  replace (s1 =? 0) with false by lia. replace (s2 =? 0) with false by lia. constructor; try reflexivity. exact E.
Qed.
(** So NextIndex over a range of 2^k values is the same for such seeds. *)
Theorem C73_indexes_below_a_power_of_two :
  forall w k n s1 s2, k <= w -> s1 <> 0 -> s2 <> 0 -> s1 mod 2 ^ k = s2 mod 2 ^ k ->
    map (index_of_draw (2 ^ k)) (fst (kiss_draws w n (kiss_new s1))) =
    map (index_of_draw (2 ^ k)) (fst (kiss_draws w n (kiss_new s2))).
Proof.
  intros w k n s1 s2 Hk H1 H2 E. pose proof (C73_low_bits_depend_on_low_bits_of_seed w k n s1 s2 Hk H1 H2 E) as M.
  apply (f_equal (map (@Ok N))) in M. rewrite !map_map in M.
  assert (P : (2 ^ k =? 0) = false) by (apply N.eqb_neq, N.pow_nonzero; discriminate).
  unfold index_of_draw. rewrite P. exact M.
Qed.
(** NextSide has only two sequences: one for odd seeds and its opposite for even ones. *)
Theorem C73_two_sequences_of_sides :
  forall w n s1 s2, 1 <= w -> s1 <> 0 -> s2 <> 0 ->
    map side_of_draw (fst (kiss_draws w n (kiss_new s1))) =
    map (fun d => if Bool.eqb (N.odd s1) (N.odd s2) then side_of_draw d else negb (side_of_draw d))
        (fst (kiss_draws w n (kiss_new s2))).
Proof.
  intros w n s1 s2 Hw H1 H2. destruct (Bool.eqb (N.odd s1) (N.odd s2)) eqn:E.
  - apply Bool.eqb_prop in E.
    pose proof (C73_low_bits_depend_on_low_bits_of_seed w 1 n s1 s2 Hw H1 H2) as M.
    assert (Q : forall d, d mod 2 ^ 1 = if N.odd d then 1 else 0).
    { intro d. change (2 ^ 1) with 2. rewrite <- N.bit0_mod, N.bit0_odd. now destruct (N.odd d). }
    rewrite !Q in M. rewrite E in M. specialize (M eq_refl).
    apply (f_equal (map (fun m => m =? 0))) in M. rewrite !map_map in M.
    assert (X : forall l, map side_of_draw l = map (fun d => d mod 2 ^ 1 =? 0) l).
    { intro l. apply map_ext. intro d. rewrite Q. unfold side_of_draw. now destruct (N.odd d). }
    change (map (fun d => side_of_draw d)) with (map side_of_draw). rewrite !X. exact M.
  - assert (O : N.odd s1 = negb (N.odd s2)) by (destruct (N.odd s1), (N.odd s2); cbn in *; congruence).
    assert (R : rival (kiss_new s1) (kiss_new s2)).
    { unfold kiss_new. replace (s1 =? 0) with false by lia. replace (s2 =? 0) with false by lia. constructor; try reflexivity. exact O. }
    pose proof (rival_draws w Hw n _ _ R) as M. apply (f_equal (map negb)) in M. rewrite !map_map in M. exact M.
Qed.
Example C73_example :
  map side_of_draw (fst (kiss_draws 32 6 (kiss_new 7))) = map side_of_draw (fst (kiss_draws 32 6 (kiss_new 1000001))) /\
  map side_of_draw (fst (kiss_draws 32 6 (kiss_new 7))) = map negb (map side_of_draw (fst (kiss_draws 32 6 (kiss_new 8)))) /\
  map side_of_draw (fst (kiss_draws 32 6 (kiss_new 7))) = map side_of_draw (fst (kiss_draws 32 6 (kiss_new 0))) /\
  fst (kiss_draws 32 6 (kiss_new 7)) <> fst (kiss_draws 32 6 (kiss_new 1000001)) /\
  existsb side_of_draw (fst (kiss_draws 32 6 (kiss_new 7))) = true /\
  forallb side_of_draw (fst (kiss_draws 32 6 (kiss_new 7))) = false.
Proof. vm_compute. repeat split; discriminate. Qed.

Print Assumptions C72_draw_is_sum_of_components.
Print Assumptions C72_draw64_is_sum_of_components.
Print Assumptions C72_kiss64_multiply_with_carry.
Print Assumptions C72_kiss32_multiply_with_carry_refuted.
Print Assumptions C72_kiss32_adds_a_constant.
Print Assumptions C73_low_bits_depend_on_low_bits_of_seed.
Print Assumptions C73_indexes_below_a_power_of_two.
Print Assumptions C73_two_sequences_of_sides.
