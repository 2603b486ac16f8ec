(** The structure of the KISS generators. *)
From Verif Require Import Base Rng Lib.
From Coq Require Import Znumtheory.
Open Scope N_scope.

Lemma wrap_low w k x : k <= w -> wrap w x mod 2 ^ k = x mod 2 ^ k.
Proof.
  intro H. unfold wrap. replace w with (k + (w - k)) at 1 by lia. rewrite N.pow_add_r.
  rewrite N.mod_mul_r by (apply N.pow_nonzero; lia).
  rewrite (N.mul_comm (2 ^ k)), N.mod_add by (apply N.pow_nonzero; lia). apply N.mod_mod. apply N.pow_nonzero; lia.
Qed.

(** ** Seeds (C73) *)
(** Two generator states that differ in x only, with x alike modulo [m]. *)
Record twin (m : N) (r1 r2 : kiss) : Prop := mkTwin {
  tw_x : kx r1 mod m = kx r2 mod m; tw_y : ky r1 = ky r2; tw_z : kz r1 = kz r2; tw_c : kc r1 = kc r2
}.
Lemma twin_next w k r1 r2 : k <= w -> twin (2 ^ k) r1 r2 ->
  fst (kiss_next w r1) mod 2 ^ k = fst (kiss_next w r2) mod 2 ^ k /\ twin (2 ^ k) (snd (kiss_next w r1)) (snd (kiss_next w r2)).
Proof.
  intros Hk [Hx Hy Hz Hc]. assert (P : 2 ^ k <> 0) by (apply N.pow_nonzero; lia).
  assert (E : wrap w (69069 * kx r1 + 12345) mod 2 ^ k = wrap w (69069 * kx r2 + 12345) mod 2 ^ k).
  { rewrite !wrap_low by assumption. rewrite N.add_mod, N.mul_mod, Hx, <- N.mul_mod, <- N.add_mod by assumption. reflexivity. }
  unfold kiss_next. cbn [fst snd]. rewrite Hy, Hz, Hc. split; [|constructor; cbn [kx ky kz kc]; auto].
  rewrite !wrap_low by assumption. rewrite <- !N.add_assoc.
  rewrite N.add_mod, E, <- N.add_mod by assumption. reflexivity.
Qed.
Lemma twin_draws w k : k <= w -> forall n r1 r2, twin (2 ^ k) r1 r2 ->
  map (fun d => d mod 2 ^ k) (fst (kiss_draws w n r1)) = map (fun d => d mod 2 ^ k) (fst (kiss_draws w n r2)).
Proof.
  intro Hk. induction n as [|n IH]; intros r1 r2 H; [reflexivity|]. cbn [kiss_draws].
  destruct (twin_next w k r1 r2 Hk H) as [E T].
  destruct (kiss_next w r1) as [d1 r1'], (kiss_next w r2) as [d2 r2']. cbn [fst snd] in *. specialize (IH r1' r2' T).
  destruct (kiss_draws w n r1') as [ds1 q1], (kiss_draws w n r2') as [ds2 q2]. cbn [fst snd map] in *. congruence.
Qed.

Lemma odd_wrap w x : 1 <= w -> N.odd (wrap w x) = N.odd x.
Proof.
  intro H. rewrite <- !N.bit0_odd, !N.bit0_eqb. f_equal.
  change 2 with (2 ^ 1). now apply wrap_low.
Qed.
(** The same with x of opposite parity. *)
Record rival (r1 r2 : kiss) : Prop := mkRival {
  rv_x : N.odd (kx r1) = negb (N.odd (kx r2)); rv_y : ky r1 = ky r2; rv_z : kz r1 = kz r2; rv_c : kc r1 = kc r2
}.
Lemma rival_next w r1 r2 : 1 <= w -> rival r1 r2 ->
  N.odd (fst (kiss_next w r1)) = negb (N.odd (fst (kiss_next w r2))) /\ rival (snd (kiss_next w r1)) (snd (kiss_next w r2)).
Proof.
  intros Hw [Hx Hy Hz Hc].
  assert (E : N.odd (wrap w (69069 * kx r1 + 12345)) = negb (N.odd (wrap w (69069 * kx r2 + 12345)))).
  { rewrite !odd_wrap, !N.odd_add, !N.odd_mul, Hx by assumption. change (N.odd 69069) with true. change (N.odd 12345) with true.
    cbn [andb]. now destruct (N.odd (kx r2)). }
  unfold kiss_next. cbn [fst snd]. rewrite Hy, Hz, Hc. split; [|constructor; cbn [kx ky kz kc]; auto].
  rewrite (odd_wrap w (_ + _ + _)), (odd_wrap w (wrap w (69069 * kx r2 + 12345) + _ + _)) by assumption.
  rewrite !N.odd_add, E. destruct (N.odd (wrap w (69069 * kx r2 + 12345))), (N.odd (N.lxor _ _)), (N.odd (wrap w (wrap 64 _))); reflexivity.
Qed.
Lemma rival_draws w : 1 <= w -> forall n r1 r2, rival r1 r2 ->
  map N.odd (fst (kiss_draws w n r1)) = map (fun d => negb (N.odd d)) (fst (kiss_draws w n r2)).
Proof.
  intro Hw. induction n as [|n IH]; intros r1 r2 H; [reflexivity|]. cbn [kiss_draws].
  destruct (rival_next w r1 r2 Hw H) as [E T].
  destruct (kiss_next w r1) as [d1 r1'], (kiss_next w r2) as [d2 r2']. cbn [fst snd] in *. specialize (IH r1' r2' T).
  destruct (kiss_draws w n r1') as [ds1 q1], (kiss_draws w n r2') as [ds2 q2]. cbn [fst snd map] in *. congruence.
Qed.

(** ** The carry component (C72) *)
Lemma kiss32_carry r : kz r < 2 ^ 32 -> kc r < 2 ^ 32 ->
  kz (snd (kiss_next 32 r)) + 2 ^ 32 * kc (snd (kiss_next 32 r)) = 698769069 + kz r + kc r.
Proof.
  intros Hz Hc. unfold kiss_next. cbn [fst snd kz kc]. unfold wrap.
  assert (T : 698769069 + kz r + kc r < 2 ^ 64).
  { change (2 ^ 64) with (2 ^ 32 * 2 ^ 32). change (2 ^ 32) with 4294967296 in *. lia. }
  rewrite (N.mod_small (698769069 + kz r + kc r) (2 ^ 64)) by assumption.
  rewrite N.shiftr_div_pow2. rewrite (N.mod_small (_ / _) (2 ^ 32)).
  - pose proof (N.div_mod' (698769069 + kz r + kc r) (2 ^ 32)). lia.
  - apply N.div_lt_upper_bound; [discriminate|]. exact T.
Qed.
Lemma kiss_fields_lt w r : kz (snd (kiss_next w r)) < 2 ^ w /\ kc (snd (kiss_next w r)) < 2 ^ w.
Proof. unfold kiss_next. cbn [snd kz kc]. split; apply N.mod_lt; apply N.pow_nonzero; lia. Qed.

Fixpoint nth_state (w : N) (n : nat) (r : kiss) : kiss :=
  match n with O => r | S n' => nth_state w n' (snd (kiss_next w r)) end.
Lemma draws_state w n : forall r, snd (kiss_draws w n r) = nth_state w n r.
Proof.
  induction n as [|n IH]; intro r; [reflexivity|]. cbn [kiss_draws nth_state]. destruct (kiss_next w r) as [d r1]. cbn [snd].
  rewrite <- IH. now destruct (kiss_draws w n r1).
Qed.
Lemma nth_state_S w n : forall r, nth_state w (S n) r = snd (kiss_next w (nth_state w n r)).
Proof. induction n as [|n IH]; intro r; [reflexivity|]. cbn [nth_state] in *. apply (IH (snd (kiss_next w r))). Qed.

(** z + c is an arithmetic progression modulo 2^32 - 1. *)
Lemma kiss32_progression n : forall r, kz r < 2 ^ 32 -> kc r < 2 ^ 32 ->
  (kz (nth_state 32 n r) + kc (nth_state 32 n r)) mod (2 ^ 32 - 1) = (kz r + kc r + N.of_nat n * 698769069) mod (2 ^ 32 - 1).
Proof.
  induction n as [|n IH]; intros r Hz Hc; [cbn [nth_state]; f_equal; lia|].
  cbn [nth_state]. destruct (kiss_fields_lt 32 r) as [Hz' Hc']. rewrite IH by assumption.
  pose proof (kiss32_carry r Hz Hc) as E. set (z' := kz (snd _)) in *. set (c' := kc (snd _)) in *.
  replace (kz r + kc r + N.of_nat (S n) * 698769069) with (z' + c' + N.of_nat n * 698769069 + c' * (2 ^ 32 - 1)).
  - symmetry. apply N.mod_add. discriminate.
  - change (2 ^ 32 - 1) with 4294967295. change (2 ^ 32) with 4294967296 in E. lia.
Qed.
(** The carry is 0 or 1 from the first draw on. *)
Lemma kiss32_small_carry s n : kc (nth_state 32 (S n) (kiss_new s)) <= 1.
Proof.
  assert (G : kz (nth_state 32 (S n) (kiss_new s)) < 2 ^ 32 /\ kc (nth_state 32 (S n) (kiss_new s)) <= 1); [|tauto].
  induction n as [|n [IZ IC]].
  - split; [apply kiss_fields_lt|]. cbn [nth_state]. unfold kiss_next, kiss_new. cbn [snd kz kc]. vm_compute. discriminate.
  - rewrite nth_state_S. split; [apply kiss_fields_lt|].
    pose proof (kiss32_carry (nth_state 32 (S n) (kiss_new s)) IZ ltac:(change (2^32) with 4294967296; lia)) as E.
    set (z' := kz (snd _)) in *. set (c' := kc (snd _)) in *. change (2 ^ 32) with 4294967296 in *. lia.
Qed.

(** Kiss64: a multiply-with-carry generator with multiplier 2^58 + 1. *)
Lemma kiss64_mwc r : kx r < 2 ^ 64 -> kc r <= 2 ^ 58 -> kc r < 2 ^ 58 \/ kx r mod 64 <> 63 ->
  kx (snd (kiss64_next r)) + 2 ^ 64 * kc (snd (kiss64_next r)) = (2 ^ 58 + 1) * kx r + kc r.
Proof.
  intros Hx Hc Hn. unfold kiss64_next. cbn [snd kx kc]. rewrite N.shiftl_mul_pow2, N.shiftr_div_pow2. unfold wrap.
  change (2 ^ 6) with 64. change (2 ^ 58) with 288230376151711744 in *. change (2 ^ 64) with 18446744073709551616 in *.
  pose proof (N.div_mod' (kx r) 64) as D. set (q := kx r / 64) in *. set (m := kx r mod 64) in *.
  assert (Hm : m < 64) by (apply N.mod_lt; discriminate).
  assert (E1 : (kx r * 288230376151711744) mod 18446744073709551616 = m * 288230376151711744).
  { rewrite D. replace ((64 * q + m) * 288230376151711744) with (m * 288230376151711744 + q * 18446744073709551616) by lia.
    rewrite N.mod_add by discriminate. apply N.mod_small. lia. }
  rewrite E1. assert (E2 : (m * 288230376151711744 + kc r) mod 18446744073709551616 = m * 288230376151711744 + kc r) by (apply N.mod_small; lia).
  rewrite E2. set (t := m * 288230376151711744 + kc r) in *. assert (Ht : t < 18446744073709551616) by (unfold t; lia).
  destruct (N.lt_ge_cases (kx r + t) 18446744073709551616) as [H|H].
  - rewrite (N.mod_small (kx r + t)) by assumption. replace (kx r + t <? t) with false by lia. unfold t. lia.
  - assert (E3 : (kx r + t) mod 18446744073709551616 = kx r + t - 18446744073709551616).
    { replace (kx r + t) with ((kx r + t - 18446744073709551616) + 1 * 18446744073709551616) at 1 by lia.
      rewrite N.mod_add by discriminate. apply N.mod_small. lia. }
    rewrite E3. replace (kx r + t - 18446744073709551616 <? t) with true by lia.
    rewrite (N.mod_small (q + 1)) by lia. unfold t in *. lia.
Qed.
Lemma kiss64_lost r : kx r < 2 ^ 64 -> kc r = 2 ^ 58 -> kx r mod 64 = 63 ->
  kx (snd (kiss64_next r)) + 2 ^ 64 * kc (snd (kiss64_next r)) + 2 ^ 64 = (2 ^ 58 + 1) * kx r + kc r.
Proof.
  intros Hx Hc Hn. unfold kiss64_next. cbn [snd kx kc]. rewrite N.shiftl_mul_pow2, N.shiftr_div_pow2. unfold wrap.
  change (2 ^ 6) with 64. change (2 ^ 58) with 288230376151711744 in *. change (2 ^ 64) with 18446744073709551616 in *.
  pose proof (N.div_mod' (kx r) 64) as D. rewrite Hn in D. set (q := kx r / 64) in *. rewrite Hc.
  assert (E1 : (kx r * 288230376151711744) mod 18446744073709551616 = 63 * 288230376151711744).
  { rewrite D. replace ((64 * q + 63) * 288230376151711744) with (63 * 288230376151711744 + q * 18446744073709551616) by lia.
    rewrite N.mod_add by discriminate. reflexivity. }
  rewrite E1. change ((63 * 288230376151711744 + 288230376151711744) mod 18446744073709551616) with 0.
  rewrite N.add_0_r, (N.mod_small (kx r)) by assumption. replace (kx r <? 0) with false by lia. lia.
Qed.
Lemma kiss64_carry_le r : kx r < 2 ^ 64 -> kx (snd (kiss64_next r)) < 2 ^ 64 /\ kc (snd (kiss64_next r)) <= 2 ^ 58.
Proof.
  intro Hx. unfold kiss64_next. cbn [snd kx kc]. split; [apply N.mod_lt; discriminate|].
  rewrite N.shiftr_div_pow2. assert (kx r / 2 ^ 6 < 2 ^ 58) by (apply N.div_lt_upper_bound; [discriminate|]; exact Hx).
  destruct (_ <? _); [|lia]. unfold wrap. rewrite N.mod_small; [lia|]. change (2 ^ 64) with (64 * 2 ^ 58). lia.
Qed.
Lemma kiss64_reach s n : s < 2 ^ 64 -> kx (snd (kiss64_draws n (kiss64_new s))) < 2 ^ 64 /\ kc (snd (kiss64_draws n (kiss64_new s))) <= 2 ^ 58.
Proof.
  intro Hs. assert (G : forall r, kx r < 2 ^ 64 -> kc r <= 2 ^ 58 -> kx (snd (kiss64_draws n r)) < 2 ^ 64 /\ kc (snd (kiss64_draws n r)) <= 2 ^ 58).
  { clear. induction n as [|n IH]; intros r H1 H2; [auto|]. cbn [kiss64_draws]. pose proof (kiss64_carry_le r H1) as [E1 E2].
    destruct (kiss64_next r) as [d r1]. cbn [snd] in *. specialize (IH r1 E1 E2). now destruct (kiss64_draws n r1). }
  apply G; unfold kiss64_new; cbn [kx kc]; [destruct (s =? 0); [reflexivity|exact Hs]|vm_compute; discriminate].
Qed.
