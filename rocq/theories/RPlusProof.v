(** utils.RoundPlus (proofs for PropRound). *)
From Verif Require Import Base Flt Layout Rng Alloc Prog Dist Vec Lib ForestSpec RealSpec AfterProof AccProof DistProof PreProof VecProof.
From Coq Require Import Reals Lra.
From Flocq Require Import Core Plus_error Relative IEEE754.BinarySingleNaN IEEE754.Binary IEEE754.Bits.
Open Scope R_scope.

#[local] Instance prec53 : Prec_gt_0 53. Proof. easy. Qed.
Notation fin64 := (is_finite 53 1024).
Notation val64 := (B2R 53 1024).
Notation r64 := (rnd 53 (-1074)).

Definition u53 : R := / 9007199254740992.
Definition t64 : R := bpow radix2 (-1075).
Lemma t64_small : 0 < t64 /\ t64 * 1267650600228229401496703205376 <= / 4611686018427387904.
Proof.
  split; [apply bpow_gt_0|]. unfold t64. change 1267650600228229401496703205376 with (bpow radix2 100).
  rewrite <- bpow_plus. change (/ 4611686018427387904) with (bpow radix2 (-62)). apply bpow_le. lia.
Qed.
Lemma r64_err x : Rabs (r64 x - x) <= u53 * Rabs x + t64.
Proof. pose proof (rnd_err 53 (-1074) x ltac:(lia)) as H. exact H. Qed.
Lemma r64_bounds x m : Rabs x <= m -> x - u53 * m - t64 <= r64 x <= x + u53 * m + t64.
Proof.
  intro H. pose proof (r64_err x) as E. assert (u53 * Rabs x <= u53 * m) by (apply Rmult_le_compat_l; [unfold u53; lra|exact H]).
  apply Rabs_le_inv in E. lra.
Qed.

Lemma mult64_ok x y : fin64 x = true -> fin64 y = true -> Rabs (val64 x * val64 y) <= p2 126 ->
  fin64 (b64_mult mode_NE x y) = true /\ val64 (b64_mult mode_NE x y) = r64 (val64 x * val64 y).
Proof. intros Fx Fy H. exact (gen_mult 53 1024 eq_refl eq_refl ltac:(lia) ltac:(lia) binop_nan_pl64 x y Fx Fy H). Qed.
Lemma div64_ok x y : fin64 x = true -> val64 y <> 0 -> Rabs (val64 x / val64 y) <= p2 126 ->
  fin64 (b64_div mode_NE x y) = true /\ val64 (b64_div mode_NE x y) = r64 (val64 x / val64 y).
Proof. intros Fx Fy H. exact (gen_div 53 1024 eq_refl eq_refl ltac:(lia) ltac:(lia) binop_nan_pl64 x y Fx Fy H). Qed.

(** Rounding of a float64: the integer chosen. *)
Lemma round64_between g m : fin64 g = true -> Rabs (val64 g) <= m -> m <= 562949953421312 + 1 ->
  exists z, fin64 (round64 g) = true /\ val64 (round64 g) = IZR z /\
    val64 g - / 2 - u53 * (m + / 2) - t64 < IZR z <= val64 g + / 2 + u53 * (m + / 2) + t64.
Proof.
  intros Fg Hg Hm. destruct (round64_ok g Fg) as [F1 E1].
  { apply Rle_trans with (1 := Hg). change (p2 52) with 4503599627370496. lra. }
  set (y := r64 (val64 g + / 2)) in *. exists (Zfloor y). split; [exact F1|]. split; [exact E1|].
  pose proof (Zfloor_lb y). pose proof (Zfloor_ub y).
  assert (Hs : Rabs (val64 g + / 2) <= m + / 2).
  { eapply Rle_trans; [apply Rabs_triang|]. rewrite (Rabs_pos_eq (/ 2)) by lra. lra. }
  pose proof (r64_bounds _ _ Hs) as B. fold y in B. lra.
Qed.

Section RP.
Variables shift f : binary64.
Hypothesis Fs : fin64 shift = true.
Hypothesis Ff : fin64 f = true.
Notation s := (val64 shift).
Notation x := (val64 f * val64 shift).
Hypothesis Hs : 1 <= s <= 1267650600228229401496703205376.
Hypothesis Hx : Rabs x <= 562949953421312.

Lemma round_plus_val : exists z, fin64 (round_plus shift f) = true /\ val64 (round_plus shift f) = r64 (IZR z / s) /\
  fin64 (round64 (b64_mult mode_NE f shift)) = true /\ val64 (round64 (b64_mult mode_NE f shift)) = IZR z /\
  Rabs (IZR z - x) <= / 2 + 2 * u53 * (Rabs x + 1).
Proof.
  pose proof t64_small as [T0 T1]. destruct (mult64_ok f shift Ff Fs) as [F1 E1].
  { apply Rle_trans with (1 := Hx). change (p2 126) with 85070591730234615865843651857942052864. lra. }
  set (g := b64_mult mode_NE f shift) in *. pose proof (r64_bounds x (Rabs x) (Rle_refl _)) as B1. rewrite <- E1 in B1.
  pose proof (Rabs_pos x) as P0. assert (U : 0 < u53 /\ u53 * 9007199254740992 = 1) by (unfold u53; lra).
  assert (Hux : u53 * Rabs x <= / 16) by (destruct U; unfold u53; lra).
  set (m := Rabs x + u53 * Rabs x + t64).
  assert (Hg : Rabs (val64 g) <= m).
  { pose proof (Rle_abs x) as A1. pose proof (Rle_abs (- x)) as A2. rewrite Rabs_Ropp in A2. apply Rabs_le. unfold m. lra. }
  assert (Ht : t64 <= / 4611686018427387904 * / 1267650600228229401496703205376).
  { lra. }
  destruct (round64_between g m F1 Hg) as (z & F2 & E2 & B2); [unfold m; lra|].
  assert (Hz : Rabs (IZR z - x) <= / 2 + 2 * u53 * (Rabs x + 1)).
  { assert (E : u53 * (m + / 2) = u53 * Rabs x + u53 * (u53 * Rabs x) + u53 * t64 + u53 * / 2) by (unfold m; ring).
    assert (A3 : u53 * (u53 * Rabs x) <= u53 * / 16) by (apply Rmult_le_compat_l; lra).
    assert (A4 : u53 * t64 <= t64) by (unfold u53; lra).
    rewrite E in B2. apply Rabs_le. unfold u53 in *. lra. }
  exists z.
  assert (Hzs : Rabs (IZR z / s) <= p2 126).
  { unfold Rdiv. rewrite Rabs_mult, (Rabs_pos_eq (/ s)) by (apply Rlt_le, Rinv_0_lt_compat; lra).
    assert (/ s <= 1) by (rewrite <- Rinv_1; apply Rinv_le_contravar; lra).
    assert (0 < / s) by (apply Rinv_0_lt_compat; lra).
    apply Rle_trans with (Rabs (IZR z) * 1); [apply Rmult_le_compat_l; [apply Rabs_pos|assumption]|].
    change (p2 126) with 85070591730234615865843651857942052864.
    apply Rabs_le_inv in Hz. assert (Rabs (IZR z) <= 1125899906842624); [|lra]. apply Rabs_le.
    pose proof (Rle_abs x) as A1. pose proof (Rle_abs (- x)) as A2. rewrite Rabs_Ropp in A2. unfold u53 in *. lra. }
  destruct (div64_ok (round64 g) shift F2) as [F3 E3]; [lra|now rewrite E2|]. rewrite E2 in E3.
  unfold round_plus. fold g. auto.
Qed.
End RP.

Lemma round_plus_near shift f : fin64 shift = true -> fin64 f = true -> 1 <= val64 shift <= 1267650600228229401496703205376 ->
  Rabs (val64 f * val64 shift) <= 562949953421312 ->
  fin64 (round_plus shift f) = true /\
  (exists z, val64 (round_plus shift f) = r64 (IZR z / val64 shift) /\
     Rabs (IZR z - val64 f * val64 shift) <= / 2 + 2 * u53 * (Rabs (val64 f * val64 shift) + 1)) /\
  Rabs (val64 (round_plus shift f) - val64 f) <= (/ 2 + 4 * u53 * (Rabs (val64 f * val64 shift) + 1)) / val64 shift.
Proof.
  intros Fs Ff Hs Hx. destruct (round_plus_val shift f Fs Ff Hs Hx) as (z & F1 & E1 & _ & _ & B1). split; [exact F1|].
  split; [exists z; auto|]. set (s := val64 shift) in *. set (x := val64 f * s) in *. rewrite E1.
  pose proof t64_small as [T0 T1]. pose proof (r64_err (IZR z / s)) as E2.
  assert (P : 0 < / s) by (apply Rinv_0_lt_compat; lra).
  assert (Ef : val64 f = x / s) by (unfold x; field; lra). rewrite Ef.
  replace (r64 (IZR z / s) - x / s) with ((r64 (IZR z / s) - IZR z / s) + (IZR z - x) / s) by (field; lra).
  eapply Rle_trans; [apply Rabs_triang|].
  assert (A1 : Rabs ((IZR z - x) / s) <= (/ 2 + 2 * u53 * (Rabs x + 1)) / s).
  { unfold Rdiv. rewrite Rabs_mult, (Rabs_pos_eq (/ s)) by lra. apply Rmult_le_compat_r; lra. }
  assert (A2 : Rabs (IZR z) <= Rabs x + 1).
  { replace (IZR z) with ((IZR z - x) + x) by ring. eapply Rle_trans; [apply Rabs_triang|].
    pose proof (Rabs_pos x). unfold u53 in *. lra. }
  assert (A3 : u53 * Rabs (IZR z / s) + t64 <= (2 * u53 * (Rabs x + 1)) / s).
  { unfold Rdiv. rewrite Rabs_mult, (Rabs_pos_eq (/ s)) by lra. rewrite <- Rmult_assoc.
    assert (t64 <= u53 * / s).
    { apply Rmult_le_reg_r with s; [lra|]. rewrite Rmult_assoc, Rinv_l by lra. rewrite Rmult_1_r.
      apply Rle_trans with (t64 * 1267650600228229401496703205376); [apply Rmult_le_compat_l; lra|]. unfold u53. lra. }
    assert (u53 * Rabs (IZR z) * / s <= u53 * (Rabs x + 1) * / s).
    { apply Rmult_le_compat_r; [lra|]. apply Rmult_le_compat_l; [unfold u53; lra|exact A2]. }
    assert (u53 * / s <= u53 * (Rabs x + 1) * / s).
    { apply Rmult_le_compat_r; [lra|]. pose proof (Rabs_pos x). unfold u53. lra. }
    lra. }
  eapply Rle_trans; [apply Rplus_le_compat; [eapply Rle_trans; [exact E2|exact A3]|exact A1]|].
  unfold Rdiv. rewrite <- Rmult_plus_distr_r. apply Rmult_le_compat_r; lra.
Qed.

Lemma round_plus_twice shift f : fin64 shift = true -> fin64 f = true -> 1 <= val64 shift <= 1267650600228229401496703205376 ->
  Rabs (val64 f * val64 shift) <= 562949953421311 ->
  fin64 (round_plus shift (round_plus shift f)) = true /\ val64 (round_plus shift (round_plus shift f)) = val64 (round_plus shift f).
Proof.
  intros Fs Ff Hs Hx. destruct (round_plus_val shift f Fs Ff Hs) as (z & F1 & E1 & _ & _ & B1); [lra|].
  set (g := round_plus shift f) in *. set (s := val64 shift) in *. set (x := val64 f * s) in *. pose proof t64_small as [T0 T1].
  assert (P : 0 < / s) by (apply Rinv_0_lt_compat; lra).
  assert (Az : Rabs (IZR z) <= 562949953421311 + 5/8).
  { replace (IZR z) with ((IZR z - x) + x) by ring. eapply Rle_trans; [apply Rabs_triang|]. unfold u53 in *. lra. }
  assert (Gz : Rabs (val64 g * s - IZR z) <= u53 * Rabs (IZR z) + t64 * 1267650600228229401496703205376).
  { replace (val64 g * s - IZR z) with ((val64 g - IZR z / s) * s) by (field; lra). rewrite Rabs_mult, (Rabs_pos_eq s) by lra.
    rewrite E1. pose proof (r64_err (IZR z / s)) as E2.
    apply Rle_trans with ((u53 * Rabs (IZR z / s) + t64) * s); [apply Rmult_le_compat_r; lra|].
    unfold Rdiv. rewrite Rabs_mult, (Rabs_pos_eq (/ s)) by lra. rewrite Rmult_plus_distr_r.
    replace (u53 * (Rabs (IZR z) * / s) * s) with (u53 * Rabs (IZR z)) by (field; lra).
    apply Rplus_le_compat_l. apply Rmult_le_compat_l; lra. }
  assert (Hg : Rabs (val64 g * s) <= 562949953421312).
  { replace (val64 g * s) with ((val64 g * s - IZR z) + IZR z) by ring. eapply Rle_trans; [apply Rabs_triang|]. unfold u53 in *. lra. }
  destruct (round_plus_val shift g Fs F1 Hs Hg) as (z' & F2 & E2 & _ & _ & B2). fold s in E2, B2. split; [exact F2|].
  assert (z' = z); [|subst z'; congruence].
  assert (Hd : Rabs (IZR z' - IZR z) < 1).
  { replace (IZR z' - IZR z) with ((IZR z' - val64 g * s) + (val64 g * s - IZR z)) by ring.
    eapply Rle_lt_trans; [apply Rabs_triang|]. unfold u53 in *. lra. }
  rewrite <- minus_IZR, <- abs_IZR in Hd. apply lt_IZR in Hd. lia.
Qed.
