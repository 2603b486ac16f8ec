(** The vector functions and utils.Round. *)
From Verif Require Import Base Flt Layout Rng Alloc Prog Dist Vec Lib ForestSpec RealSpec AfterProof AccProof DistProof PreProof.
From Coq Require Import Reals Lra.
From Flocq Require Import Core Plus_error Relative IEEE754.BinarySingleNaN IEEE754.Binary IEEE754.Bits.
Open Scope R_scope.

#[local] Instance prec24 : Prec_gt_0 24. Proof. easy. Qed.
#[local] Instance prec53 : Prec_gt_0 53. Proof. easy. Qed.

(** ** The loops *)
Section L.
Variable fo : FOps.
Notation V := (list (F fo)).
Lemma at_skipn (a : V) i x : nth_error a i = Some x -> skipn i a = x :: skipn (S i) a.
Proof. revert i. induction a as [|y a IH]; intros [|i] H; try discriminate; [injection H as <-; reflexivity|]. cbn. now rewrite (IH i H). Qed.
Lemma loop_ok step (a b : V) k : forall i s, (k + i <= length a)%nat -> (k + i <= length b)%nat ->
  vec_loop fo step a b k i s =
  Ok (fold_left (fun s xy => step s (fst xy) (snd xy)) (combine (firstn k (skipn i a)) (firstn k (skipn i b))) s).
Proof.
  induction k as [|k IH]; intros i s Ha Hb; [reflexivity|]. cbn [vec_loop]. unfold at_slice.
  destruct (nth_error a i) as [x|] eqn:Ea; [|apply nth_error_None in Ea; lia].
  destruct (nth_error b i) as [y|] eqn:Eb; [|apply nth_error_None in Eb; lia].
  cbn [rbind]. rewrite IH by lia. rewrite (at_skipn a i x Ea), (at_skipn b i y Eb). reflexivity.
Qed.
Lemma loop_panics step (a b : V) k : forall i s, (length a < k + i)%nat \/ (length b < k + i)%nat -> (i <= length a)%nat -> (i <= length b)%nat ->
  vec_loop fo step a b k i s = Er (Panic PIndex).
Proof.
  induction k as [|k IH]; intros i s H Ha Hb; [lia|]. cbn [vec_loop]. unfold at_slice.
  destruct (nth_error a i) as [x|] eqn:Ea; [|reflexivity]. cbn [rbind].
  destruct (nth_error b i) as [y|] eqn:Eb; [|reflexivity]. cbn [rbind].
  assert (i < length a)%nat by (apply nth_error_Some; congruence). assert (i < length b)%nat by (apply nth_error_Some; congruence).
  apply IH; lia.
Qed.
Lemma slice_ok step (a b : V) n s : (N.to_nat n <= length a)%nat -> (N.to_nat n <= length b)%nat ->
  vec_loop fo step a b (N.to_nat n) 0 s =
  Ok (fold_left (fun s xy => step s (fst xy) (snd xy)) (combine (firstn (N.to_nat n) a) (firstn (N.to_nat n) b)) s).
Proof. intros. now rewrite loop_ok by lia. Qed.
End L.

Section P.
Variable fm : Fmt.
Hypothesis FM : is_fmt fm.
Notation fo := (ops fm).
Notation rvs := (map (rv fm)).
Notation u := (unit_of fm).
Let L := fmt_laws fm FM.
Let HU := fmt_unit fm FM.
Let HT := fmt_tiny fm FM.
Notation K := (1 + u).
Notation hs := (/ 1427247692705959881058285969449495136382746624).

Lemma nu_small n : INR n <= 1048576 -> 0 <= INR n * u <= / 16.
Proof.
  intro H. pose proof (pos_INR n). split; [apply Rmult_le_pos; lra|].
  apply Rle_trans with (1048576 * / 16777216); [|lra]. apply Rmult_le_compat; lra.
Qed.
Lemma K_pow n m : INR n <= 1048576 -> (m <= 3)%nat -> 1 <= K ^ (m + n) <= 1 + 2 * (INR n + INR m) * u /\ K ^ (m + n) <= 2.
Proof.
  intros H Hm. pose proof (nu_small n H) as N.
  assert (M : 0 <= INR m <= 3) by (split; [apply pos_INR|apply (le_INR m 3) in Hm; cbn in Hm; lra]).
  assert (MU : INR m * u <= 3 * / 16777216) by (apply Rmult_le_compat; lra).
  assert (P : K ^ (m + n) <= 1 + 2 * INR (m + n) * u).
  { apply (pow_lin u HU). rewrite plus_INR. lra. }
  rewrite plus_INR in P. split; [split; [apply (pow_ge1 u HU)|lra]|lra].
Qed.

(** Sums and differences have no error from underflow. *)
Lemma rel_add x y : generic_format radix2 (FLT_exp (femin fm) (fprec fm)) x -> generic_format radix2 (FLT_exp (femin fm) (fprec fm)) y ->
  Rabs (rn fm (x + y) - (x + y)) <= u * Rabs (x + y).
Proof.
  intros Gx Gy. assert (Hp : Prec_gt_0 (fprec fm)) by (destruct FM as [->| ->]; reflexivity).
  destruct (@FLT_plus_error_N_ex radix2 (femin fm) (fprec fm) Hp (fun z => negb (Z.even z)) x y Gx Gy) as (e & He & E).
  change (round radix2 (FLT_exp (femin fm) (fprec fm)) ZnearestE (x + y) = (x + y) * (1 + e)) in E. unfold rn, rnd. rewrite E.
  replace ((x + y) * (1 + e) - (x + y)) with (e * (x + y)) by ring. rewrite Rabs_mult. apply Rmult_le_compat_r; [apply Rabs_pos|].
  apply Rle_trans with (1 := He). unfold u_ro.
  assert (A : / 2 * p2 (- fprec fm + 1) = u).
  { destruct FM as [->| ->]; unfold unit_of; cbn [fprec fmt32 fmt64].
    - change (Z.to_nat 24) with 24%nat. cbn [pow]. change (p2 (- (24) + 1)) with (/ 8388608). lra.
    - change (Z.to_nat 53) with 53%nat. cbn [pow]. change (p2 (- (53) + 1)) with (/ 4503599627370496). lra. }
  rewrite A. apply (Rmult_le_reg_r (1 + u)); [lra|]. unfold Rdiv. rewrite Rmult_assoc, Rinv_l by lra. nra.
Qed.
Lemma rel_sub x y : generic_format radix2 (FLT_exp (femin fm) (fprec fm)) x -> generic_format radix2 (FLT_exp (femin fm) (fprec fm)) y ->
  Rabs (rn fm (x - y) - (x - y)) <= u * Rabs (x - y).
Proof. intros Gx Gy. apply rel_add; [exact Gx|]. now apply generic_format_opp. Qed.

(** ** Dot *)
Lemma bounded_fin x : moderate fm x -> Forall (fin fm) x.
Proof. intros [_ H]. revert H. apply Forall_impl. tauto. Qed.
Lemma bounded_dot x : forall y, moderate fm x -> moderate fm y -> length x = length y -> rabs_dot (rvs x) (rvs y) <= 1152921504606846976.
Proof.
  intros y Bx By Hl. apply Rle_trans with (INR (length x) * 1099511627776); [|destruct Bx as [H _]; lra].
  destruct Bx as [_ Hx]. destruct By as [_ Hy]. revert y Hl Hy. induction Hx as [|a x [Fa Ha] Hx IH]; intros [|b y] Hl Hy; try discriminate; [cbn; lra|].
  inversion Hy as [|? ? [Fb Hb] Hy']; subst. cbn [map rabs_dot length]. rewrite S_INR. injection Hl as Hl. specialize (IH y Hl Hy').
  assert (Rabs (rv fm a * rv fm b) <= 1099511627776); [|lra]. rewrite Rabs_mult.
  replace (2 ^ 20) with 1048576 in * by (cbn [pow]; lra). pose proof (Rabs_pos (rv fm a)). pose proof (Rabs_pos (rv fm b)). nra.
Qed.
Lemma dot_bounded x y M : Forall (fin fm) x -> Forall (fin fm) y -> INR (length x) <= 1048576 -> length x = length y ->
  rabs_dot (rvs x) (rvs y) <= M -> M <= 1298074214633706907132624082305024 ->
  fin fm (inner fo x y) /\
  Rabs (rv fm (inner fo x y) - rdot (rvs x) (rvs y)) <= (2 * INR (length x) + 2) * u * rabs_dot (rvs x) (rvs y) + 12582912 * hs.
Proof.
  intros Fx Fy HN Hl HM MM. destruct (l_0 fm L) as [F0 E0]. pose proof (rabs_dot_pos (rvs x) (rvs y)) as PA.
  destruct (K_pow (length x) 0 HN ltac:(lia)) as [[Q1 Q2] Q3]. destruct (K_pow (length x) 1 HN ltac:(lia)) as [[R1 R2] R3].
  cbn [plus] in *. change (1 + length x)%nat with (S (length x)) in *. change (INR 1) with 1 in *.
  pose proof (pos_INR (length x)) as PN. assert (H0 : 0 < tiny fm <= hs) by exact HT.
  assert (T : 3 * INR (length x) * K ^ length x * tiny fm <= 12582912 * hs).
  { apply Rle_trans with (6291456 * hs); [|lra]. apply Rmult_le_compat; try lra. - apply Rmult_le_pos; lra. - nra. }
  destruct (acc_dot_err fm L u (tiny fm) HU HT (fun x => fmt_err fm x FM) x y (f0 fo) Hl F0 Fx Fy) as [G1 G2].
  - rewrite E0, Rabs_R0, p126. assert (rabs_dot (rvs x) (rvs y) * K ^ S (length x) <= M * 2) by (apply Rmult_le_compat; lra). lra.
  - split; [exact G1|]. unfold inner. fold (acc_dot fm (f0 fo) x y). rewrite E0, Rabs_R0, Rplus_0_l in G2.
    eapply Rle_trans; [exact G2|].
    assert ((K ^ S (length x) - 1) * rabs_dot (rvs x) (rvs y) <= (2 * INR (length x) + 2) * u * rabs_dot (rvs x) (rvs y)) by (apply Rmult_le_compat_r; lra).
    lra.
Qed.

(** ** EuclideanDistance *)
Definition diffs (x y : list (F fo)) : list (F fo) := map (fun xy => fsub fo (fst xy) (snd xy)) (combine x y).
Lemma diff_ok a b : fin fm a -> fin fm b -> Rabs (rv fm a) <= 2 ^ 20 -> Rabs (rv fm b) <= 2 ^ 20 ->
  fin fm (fsub fo a b) /\ rv fm (fsub fo a b) = rn fm (rv fm a - rv fm b) /\
  Rabs (rv fm (fsub fo a b) - (rv fm a - rv fm b)) <= u * Rabs (rv fm a - rv fm b) /\ Rabs (rv fm a - rv fm b) <= 2097152.
Proof.
  intros Fa Fb Ha Hb. replace (2 ^ 20) with 1048576 in * by (cbn [pow]; lra).
  assert (B : Rabs (rv fm a - rv fm b) <= 2097152).
  { unfold Rminus. eapply Rle_trans; [apply Rabs_triang|]. rewrite Rabs_Ropp. lra. }
  destruct (l_sub fm L a b Fa Fb) as [F1 E1]; [rewrite p126; lra|].
  split; [exact F1|]. split; [exact E1|]. split; [|exact B]. rewrite E1. apply rel_sub; apply (l_format fm L).
Qed.
Lemma diffs_ok x : forall y, length x = length y -> moderate fm x -> moderate fm y ->
  length (diffs x y) = length x /\ Forall (fin fm) (diffs x y) /\
  Rabs (rdot (rvs (diffs x y)) (rvs (diffs x y)) - sq_dist (rvs x) (rvs y)) <= 3 * u * sq_dist (rvs x) (rvs y) /\
  0 <= sq_dist (rvs x) (rvs y) <= INR (length x) * 4398046511104.
Proof.
  intros y Hl [_ Bx] [_ By]. revert y Hl By. unfold sq_dist, diffs.
  induction Bx as [|a x [Fa Ha] Hx IH]; intros [|b y] Hl Hy; try discriminate.
  - cbn. replace (0 - 0) with 0 by ring. rewrite Rabs_R0. repeat split; try lra. constructor.
  - inversion Hy as [|? ? [Fb Hb] Hy']; subst. injection Hl as Hl. destruct (IH y Hl Hy') as (I1 & I2 & I3 & I4).
    destruct (diff_ok a b Fa Fb Ha Hb) as (D1 & _ & D2 & D3). cbn [combine map rdiff rdot length fst snd]. rewrite S_INR.
    set (t := rv fm a - rv fm b) in *. set (d := rv fm (fsub fo a b)) in *.
    set (S := rdot (rdiff (rvs x) (rvs y)) (rdiff (rvs x) (rvs y))) in *. set (G := rdot (rvs _) (rvs _)) in *.
    assert (TT : 0 <= t * t <= 4398046511104).
    { split; [nra|]. replace (t * t) with (Rabs t * Rabs t) by (rewrite <- Rabs_mult, Rabs_pos_eq; nra). pose proof (Rabs_pos t). nra. }
    split; [now rewrite I1|]. split; [constructor; assumption|]. split; [|lra].
    assert (E : Rabs (d * d - t * t) <= 3 * u * (t * t)).
    { replace (d * d - t * t) with ((d - t) * (2 * t + (d - t))) by ring. rewrite Rabs_mult.
      pose proof (Rabs_pos t). pose proof (Rabs_pos (d - t)).
      assert (A : Rabs (2 * t + (d - t)) <= (2 + u) * Rabs t).
      { eapply Rle_trans; [apply Rabs_triang|]. rewrite Rabs_mult, (Rabs_pos_eq 2) by lra. lra. }
      apply Rle_trans with (u * Rabs t * ((2 + u) * Rabs t)); [apply Rmult_le_compat; try apply Rabs_pos; assumption|].
      replace (u * Rabs t * ((2 + u) * Rabs t)) with (u * (2 + u) * (Rabs t * Rabs t)) by ring.
      rewrite <- Rabs_mult, (Rabs_pos_eq (t * t)) by lra. apply Rmult_le_compat_r; [lra|]. nra. }
    replace (d * d + G - (t * t + S)) with ((d * d - t * t) + (G - S)) by ring. eapply Rle_trans; [apply Rabs_triang|]. lra.
Qed.
Lemma euclid_inner x y s : fold_left (fun s xy => fadd fo s (fmul fo (fsub fo (fst xy) (snd xy)) (fsub fo (fst xy) (snd xy)))) (combine x y) s =
  acc_dot fm s (diffs x y) (diffs x y).
Proof.
  unfold acc_dot, diffs. revert s. generalize (combine x y). intro l. induction l as [|[a b] l IH]; intro s; [reflexivity|]. cbn. apply IH.
Qed.
Lemma euclid_err x y : length x = length y -> moderate fm x -> moderate fm y ->
  let r := acc_dot fm (f0 fo) (diffs x y) (diffs x y) in
  fin fm r /\ Rabs (rv fm r - sq_dist (rvs x) (rvs y)) <= (3 * INR (length x) + 6) * u * sq_dist (rvs x) (rvs y) + / 2 ^ 126.
Proof.
  intros Hl Bx By. cbv zeta. destruct (diffs_ok x y Hl Bx By) as (D1 & D2 & D3 & D4).
  assert (HN : INR (length x) <= 1048576) by (destruct Bx as [H _]; replace (2 ^ 20) with 1048576 in H by (cbn [pow]; lra); exact H).
  set (S := sq_dist (rvs x) (rvs y)) in *. set (G := rdot (rvs (diffs x y)) (rvs (diffs x y))) in *.
  pose proof (nu_small (length x) HN) as NU. pose proof (pos_INR (length x)) as PN.
  assert (GS : 0 <= G <= S + 3 * u * S). { split; [apply rdot_self_pos|]. apply Rabs_bounds in D3. lra. }
  assert (US : 0 <= u * S <= / 16777216 * S) by (split; [apply Rmult_le_pos; lra|apply Rmult_le_compat_r; lra]).
  destruct (dot_bounded (diffs x y) (diffs x y) G D2 D2) as [F1 E1]; try rewrite D1; auto.
  - rewrite rabs_dot_self. apply Rle_refl.
  - assert (S <= 1048576 * 4398046511104); [|lra]. eapply Rle_trans; [apply D4|]. apply Rmult_le_compat_r; lra.
  - rewrite D1, rabs_dot_self in E1. fold G in E1. unfold inner in F1, E1. fold (acc_dot fm (f0 fo) (diffs x y) (diffs x y)) in F1, E1.
    split; [exact F1|]. set (r := rv fm _) in *. replace (r - S) with ((r - G) + (G - S)) by ring.
    eapply Rle_trans; [apply Rabs_triang|].
    assert (A : (2 * INR (length x) + 2) * u * G <= (2 * INR (length x) + 2) * u * (S + 3 * u * S)).
    { apply Rmult_le_compat_l; [apply Rmult_le_pos; lra|lra]. }
    assert (B : (2 * INR (length x) + 2) * u * (S + 3 * u * S) <= (3 * INR (length x) + 3) * u * S).
    { replace ((2 * INR (length x) + 2) * u * (S + 3 * u * S)) with ((2 * INR (length x) + 2) * u * S * (1 + 3 * u)) by ring.
      replace ((3 * INR (length x) + 3) * u * S) with ((2 * INR (length x) + 2) * u * S * (3 / 2)) by field.
      apply Rmult_le_compat_l; [|lra]. apply Rmult_le_pos; [apply Rmult_le_pos; lra|lra]. }
    assert (C : 12582912 * hs <= / 2 ^ 126) by (replace (2 ^ 126) with 85070591730234615865843651857942052864 by (cbn [pow]; lra); lra).
    lra.
Qed.

(** ** ManhattanDistance *)
Lemma abs_ok a : fin fm a -> fin fm (fabs fo a) /\ rv fm (fabs fo a) = Rabs (rv fm a).
Proof.
  intro Fa. destruct (l_0 fm L) as [F0 E0]. unfold fabs. destruct (flt fo a (f0 fo)) eqn:E.
  - apply (l_lt fm L) in E; auto. destruct (neg_real fm FM a Fa) as [F1 E1]. split; [exact F1|]. rewrite E1, Rabs_left; lra.
  - split; [exact Fa|]. rewrite Rabs_pos_eq; [reflexivity|]. destruct (Rlt_dec (rv fm a) 0) as [H|H]; [|lra].
    rewrite <- E0 in H. apply (l_lt fm L) in H; auto. congruence.
Qed.
Definition man (s : F fo) (x y : list (F fo)) : F fo :=
  fold_left (fun s xy => fadd fo s (fabs fo (fsub fo (fst xy) (snd xy)))) (combine x y) s.
Lemma abs_dist_pos x : forall y, 0 <= abs_dist x y.
Proof.
  unfold abs_dist. induction x as [|a x IH]; intros [|b y]; cbn; try lra. specialize (IH y). pose proof (Rabs_pos (a - b)). lra.
Qed.
(** The sum with its roundings, over the reals. *)
Fixpoint mval (r : R) (x y : list R) : R :=
  match x, y with a :: x', b :: y' => mval (rn fm (r + Rabs (rn fm (a - b)))) x' y' | _, _ => r end.
Lemma man_err x : forall y s, length x = length y -> Forall (fun a => fin fm a /\ Rabs (rv fm a) <= 2 ^ 20) x ->
  Forall (fun a => fin fm a /\ Rabs (rv fm a) <= 2 ^ 20) y -> fin fm s -> 0 <= rv fm s ->
  rv fm s * K ^ length x + abs_dist (rvs x) (rvs y) * K ^ S (length x) <= p2 126 ->
  fin fm (man s x y) /\ 0 <= rv fm (man s x y) /\
  Rabs (rv fm (man s x y) - (rv fm s + abs_dist (rvs x) (rvs y))) <= (K ^ length x - 1) * rv fm s + (K ^ S (length x) - 1) * abs_dist (rvs x) (rvs y) /\
  rv fm (man s x y) = mval (rv fm s) (rvs x) (rvs y).
Proof.
  induction x as [|a x IH]; intros [|b y] s Hl Hx Hy Fs Ps HB; try discriminate.
  - split; [exact Fs|]. split; [exact Ps|]. cbn. replace (rv fm s - (rv fm s + 0)) with 0 by ring. rewrite Rabs_R0. split; [lra|reflexivity].
  - inversion Hx as [|? ? [Fa Ha] Hx']; inversion Hy as [|? ? [Fb Hb] Hy']; subst. injection Hl as Hl.
    destruct (diff_ok a b Fa Fb Ha Hb) as (D1 & D0 & D2 & D3). destruct (abs_ok _ D1) as [A1 A2].
    cbn [map] in *. change (abs_dist (rv fm a :: rvs x) (rv fm b :: rvs y)) with (Rabs (rv fm a - rv fm b) + abs_dist (rvs x) (rvs y)) in *.
    pose proof (abs_dist_pos (rvs x) (rvs y)) as PA. set (A := abs_dist (rvs x) (rvs y)) in *.
    unfold man. cbn [combine fold_left fst snd length pow] in *. fold (man (fadd fo s (fabs fo (fsub fo a b))) x y).
    set (t := Rabs (rv fm a - rv fm b)) in *. pose proof (Rabs_pos (rv fm a - rv fm b)) as PT. fold t in PT.
    pose proof (pow_ge1 u HU (length x)) as Q1. set (q := K ^ length x) in *.
    set (d := rv fm (fabs fo (fsub fo a b))) in *.
    assert (ED : Rabs (d - t) <= u * t).
    { rewrite A2. unfold t. eapply Rle_trans; [apply Rabs_triang_inv2|]. exact D2. }
    assert (PD : 0 <= d) by (rewrite A2; apply Rabs_pos). pose proof ED as ED'. apply Rabs_bounds in ED'.
    assert (K1 : 1 <= K * q) by nra. assert (K2 : K <= K * (K * q)) by nra.
    assert (KS : rv fm s <= rv fm s * (K * q)) by (rewrite <- (Rmult_1_r (rv fm s)) at 1; apply Rmult_le_compat_l; lra).
    assert (KT : t * K <= t * (K * (K * q))) by (apply Rmult_le_compat_l; lra).
    assert (KA : 0 <= A * (K * (K * q))) by (apply Rmult_le_pos; lra).
    assert (RB : Rabs (rv fm s + d) <= p2 126) by (rewrite Rabs_pos_eq by lra; lra).
    destruct (l_add fm L s _ Fs A1 RB) as [F1 E1]. fold d in E1.
    pose proof (rel_add (rv fm s) d (l_format fm L s) (l_format fm L _)) as E2. rewrite <- E1 in E2. rewrite (Rabs_pos_eq (rv fm s + d)) in E2 by lra.
    set (s' := fadd fo s (fabs fo (fsub fo a b))) in *. pose proof E2 as E2'. apply Rabs_bounds in E2'.
    assert (UD : u * d <= u * (K * t)) by (apply Rmult_le_compat_l; lra).
    assert (US : 0 <= u * rv fm s <= / 2 * rv fm s) by (split; [apply Rmult_le_pos; lra|apply Rmult_le_compat_r; lra]).
    assert (UD2 : 0 <= u * d <= / 2 * d) by (split; [apply Rmult_le_pos; lra|apply Rmult_le_compat_r; lra]).
    assert (PS' : 0 <= rv fm s') by lra.
    assert (S1 : rv fm s' <= K * rv fm s + K * K * t) by lra.
    assert (S2 : Rabs (rv fm s' - (rv fm s + t)) <= u * rv fm s + (K * K - 1) * t).
    { replace (rv fm s' - (rv fm s + t)) with ((rv fm s' - (rv fm s + d)) + (d - t)) by ring. eapply Rle_trans; [apply Rabs_triang|]. lra. }
    assert (W1 : rv fm s' * q <= (K * rv fm s + K * K * t) * q) by (apply Rmult_le_compat_r; lra).
    assert (W2 : A * (K * q) <= A * (K * (K * q))) by (apply Rmult_le_compat_l; nra).
    destruct (IH y s' Hl Hx' Hy' F1 PS') as (G1 & G2 & G3 & G4).
    { fold A q. eapply Rle_trans; [|exact HB].
      replace (rv fm s * (K * q) + (t + A) * (K * (K * q))) with ((K * rv fm s + K * K * t) * q + A * (K * (K * q))) by ring. lra. }
    split; [exact G1|]. split; [exact G2|]. split; [|cbn [mval]; rewrite <- D0, <- A2, <- E1; exact G4]. fold A q in G3. set (r := rv fm (man s' x y)) in *.
    replace (r - (rv fm s + (t + A))) with ((r - (rv fm s' + A)) + (rv fm s' - (rv fm s + t))) by ring.
    eapply Rle_trans; [apply Rabs_triang|].
    assert (W3 : (q - 1) * rv fm s' <= (q - 1) * (K * rv fm s + K * K * t)) by (apply Rmult_le_compat_l; lra).
    replace ((K * q - 1) * rv fm s + (K * (K * q) - 1) * (t + A))
      with ((q - 1) * (K * rv fm s + K * K * t) + (u * rv fm s + (K * K - 1) * t) + (A * (K * (K * q)) - A)) by ring.
    lra.
Qed.
Lemma abs_dist_bound x : forall y, length x = length y -> moderate fm x -> moderate fm y -> abs_dist (rvs x) (rvs y) <= INR (length x) * 2097152.
Proof.
  intros y Hl [_ Bx] [_ By]. revert y Hl By. induction Bx as [|a x [Fa Ha] Hx IH]; intros [|b y] Hl Hy; try discriminate; [cbn; lra|].
  inversion Hy as [|? ? [Fb Hb] Hy']; subst. injection Hl as Hl. specialize (IH y Hl Hy'). cbn [length]. rewrite S_INR.
  change (abs_dist (rvs (a :: x)) (rvs (b :: y))) with (Rabs (rv fm a - rv fm b) + abs_dist (rvs x) (rvs y)).
  destruct (diff_ok a b Fa Fb Ha Hb) as (_ & _ & _ & D3). lra.
Qed.
Lemma manhattan_err x y : length x = length y -> moderate fm x -> moderate fm y ->
  fin fm (man (f0 fo) x y) /\ 0 <= rv fm (man (f0 fo) x y) /\
  Rabs (rv fm (man (f0 fo) x y) - abs_dist (rvs x) (rvs y)) <= (2 * INR (length x) + 2) * u * abs_dist (rvs x) (rvs y) /\
  rv fm (man (f0 fo) x y) = mval 0 (rvs x) (rvs y).
Proof.
  intros Hl Bx By. destruct (l_0 fm L) as [F0 E0]. pose proof (abs_dist_bound x y Hl Bx By) as AB. pose proof (abs_dist_pos (rvs x) (rvs y)) as PA.
  assert (HN : INR (length x) <= 1048576) by (destruct Bx as [H _]; replace (2 ^ 20) with 1048576 in H by (cbn [pow]; lra); exact H).
  destruct (K_pow (length x) 1 HN ltac:(lia)) as [[R1 R2] R3]. change (1 + length x)%nat with (S (length x)) in *. change (INR 1) with 1 in *.
  destruct (man_err x y (f0 fo) Hl (proj2 Bx) (proj2 By) F0) as (G1 & G2 & G3 & G4).
  - lra.
  - rewrite E0, p126. assert (abs_dist (rvs x) (rvs y) * K ^ S (length x) <= (1048576 * 2097152) * 2); [|lra]. apply Rmult_le_compat; lra.
  - split; [exact G1|]. split; [exact G2|]. split; [|rewrite G4, E0; reflexivity]. rewrite E0, Rplus_0_l, Rmult_0_r, Rplus_0_l in G3.
    eapply Rle_trans; [exact G3|]. apply Rmult_le_compat_r; lra.
Qed.

(** ** Symmetry *)
Lemma rn_opp x : rn fm (- x) = - rn fm x.
Proof. unfold rn, rnd. apply round_NE_opp. Qed.
Lemma diff_opp a b : fin fm a -> fin fm b -> Rabs (rv fm a) <= 2 ^ 20 -> Rabs (rv fm b) <= 2 ^ 20 ->
  rv fm (fsub fo a b) = - rv fm (fsub fo b a).
Proof.
  intros Fa Fb Ha Hb. destruct (diff_ok a b Fa Fb Ha Hb) as (_ & E1 & _). destruct (diff_ok b a Fb Fa Hb Ha) as (_ & E2 & _).
  rewrite E1, E2, <- rn_opp. f_equal. ring.
Qed.
Lemma mval_sym x : forall r y, mval r x y = mval r y x.
Proof.
  induction x as [|a x IH]; intros r [|b y]; cbn [mval]; auto. rewrite IH. f_equal. f_equal. f_equal.
  replace (b - a) with (- (a - b)) by ring. now rewrite rn_opp, Rabs_Ropp.
Qed.
Lemma sq_same d e : fin fm d -> fin fm e -> rv fm d = - rv fm e -> Rabs (rv fm d) <= 4194304 -> fmul fo d d = fmul fo e e.
Proof.
  intros Fd Fe E H. assert (SQ : rv fm d * rv fm d = rv fm e * rv fm e) by (rewrite E; ring).
  assert (B : Rabs (rv fm d * rv fm d) <= p2 126).
  { rewrite Rabs_mult, p126. pose proof (Rabs_pos (rv fm d)). apply Rle_trans with (4194304 * 4194304); [|lra]. apply Rmult_le_compat; lra. }
  destruct (l_mul fm L d d Fd Fd B) as [F1 E1]. pose proof B as B'. rewrite SQ in B'. destruct (l_mul fm L e e Fe Fe B') as [F2 E2].
  assert (EE : rv fm (fmul fo d d) = rv fm (fmul fo e e)) by (rewrite E1, E2, SQ; reflexivity). clear E1 E2.
  assert (SG : forall prec emax (Hp : Prec_gt_0 prec) (He : Prec_lt_emax prec emax) pn (x : binary_float prec emax),
    is_finite _ _ (Bmult prec emax Hp He pn mode_NE x x) = true -> Bsign _ _ (Bmult prec emax Hp He pn mode_NE x x) = false).
  { intros prec emax Hp He pn x Fx. pose proof (Bmult_correct prec emax Hp He pn mode_NE x x) as C. cbv zeta in C.
    destruct (Rlt_bool _ _).
    - destruct C as (_ & _ & C). rewrite C; [apply xorb_nilpotent|]. destruct (Bmult _ _ _ _ _ _ _ _); try reflexivity; discriminate.
    - rewrite xorb_nilpotent in C. destruct (Bmult _ _ _ _ _ _ _ _); cbn in *; try discriminate. }
  destruct FM as [->| ->]; cbn [rv fin ops fmt32 fmt64 fmul fops32 fops64] in *.
  - apply B2R_Bsign_inj; auto. unfold b32_mult in *. now rewrite !SG.
  - apply B2R_Bsign_inj; auto. unfold b64_mult in *. now rewrite !SG.
Qed.
Lemma euclid_sym x : forall y s, length x = length y -> moderate fm x -> moderate fm y ->
  acc_dot fm s (diffs x y) (diffs x y) = acc_dot fm s (diffs y x) (diffs y x).
Proof.
  intros y s Hl [_ Bx] [_ By]. revert y s Hl By. unfold acc_dot, diffs.
  induction Bx as [|a x [Fa Ha] Hx IH]; intros [|b y] s Hl Hy; try discriminate; [reflexivity|].
  inversion Hy as [|? ? [Fb Hb] Hy']; subst. injection Hl as Hl. cbn [combine map fold_left fst snd].
  destruct (diff_ok a b Fa Fb Ha Hb) as (D1 & _ & D2 & D3). destruct (diff_ok b a Fb Fa Hb Ha) as (D1' & _ & _ & _).
  rewrite (sq_same (fsub fo a b) (fsub fo b a)); auto.
  - now apply diff_opp.
  - set (t := rv fm a - rv fm b) in *. set (d := rv fm (fsub fo a b)) in *. replace d with (t + (d - t)) by ring.
    eapply Rle_trans; [apply Rabs_triang|]. assert (u * Rabs t <= / 16777216 * 2097152); [|lra].
    apply Rmult_le_compat; try lra. apply Rabs_pos.
Qed.
Lemma euclid_self x : moderate fm x -> rv fm (acc_dot fm (f0 fo) (diffs x x) (diffs x x)) = 0 /\ fin fm (acc_dot fm (f0 fo) (diffs x x) (diffs x x)).
Proof.
  intros [_ Bx]. destruct (l_0 fm L) as [F0 E0]. revert E0 F0. generalize (f0 fo). unfold acc_dot, diffs.
  induction Bx as [|a x [Fa Ha] Hx IH]; intros s E0 F0; [split; assumption|]. cbn [combine map fold_left fst snd].
  destruct (diff_ok a a Fa Fa Ha Ha) as (D1 & D2 & _). rewrite Rminus_diag_eq, (rn_0 fm FM) in D2 by reflexivity.
  assert (P : 0 <= p2 126) by apply bpow_ge_0.
  destruct (l_mul fm L _ _ D1 D1) as [M1 M2]; [now rewrite D2, Rmult_0_l, Rabs_R0|]. rewrite D2, Rmult_0_l, (rn_0 fm FM) in M2.
  destruct (l_add fm L s _ F0 M1) as [A1 A2]; [now rewrite E0, M2, Rplus_0_l, Rabs_R0|]. rewrite E0, M2, Rplus_0_l, (rn_0 fm FM) in A2.
  now apply IH.
Qed.

(** ** GetNorm *)
Lemma norm_err x : tame fm x ->
  fin fm (fsqrt fo (inner fo x x)) /\ 0 <= rv fm (fsqrt fo (inner fo x x)) /\
  Rabs (rv fm (fsqrt fo (inner fo x x)) * rv fm (fsqrt fo (inner fo x x)) - rdot (rvs x) (rvs x)) <= (2 * INR (length x) + 9) * u * rdot (rvs x) (rvs x).
Proof.
  intro Tx. assert (HN : INR (length x) <= 1048576) by (destruct Tx as (H & _); replace (2 ^ 20) with 1048576 in H by (cbn [pow]; lra); exact H).
  destruct (tame_normed fm FM (length x) HN x Tx eq_refl) as (F1 & P1 & _ & E1). rewrite rlen_sq in E1.
  unfold pp_norm in *. rewrite <- inner_dot in *.
  destruct (inner_err fm L u (tiny fm) HU HT (fun x => fmt_err fm x FM) x x eq_refl Tx Tx) as [Fd Ed]. rewrite rlen_sq in Ed.
  pose proof (nu_small (length x) HN). pose proof (rdot_self_pos (rvs x)) as PD.
  rewrite (nonneg_test fm FM) in *; auto.
  all: apply Rabs_bounds in Ed; assert ((2 * INR (length x) + 3) * u * rdot (rvs x) (rvs x) <= / 2 * rdot (rvs x) (rvs x)) by (apply Rmult_le_compat_r; lra); lra.
Qed.
End P.

(** ** Round *)
Lemma half64_ok : is_finite 53 1024 half64 = true /\ B2R 53 1024 half64 = / 2.
Proof.
  replace half64 with (b64_of_bits 4602678819172646912) by (apply B2FF_inj; vm_compute; reflexivity).
  replace (b64_of_bits 4602678819172646912) with (B754_finite (prec := 53) (emax := 1024) false 4503599627370496 (-53) eq_refl) by (apply B2FF_inj; vm_compute; reflexivity).
  split; [reflexivity|]. cbn [B2R]. unfold F2R. cbn [Fnum Fexp cond_Zopp]. change (p2 (-53)) with (/ 9007199254740992). lra.
Qed.
Lemma int64_ok z : (Z.abs z <= 2 ^ 53)%Z -> is_finite 53 1024 (d_of_Z z) = true /\ B2R 53 1024 (d_of_Z z) = IZR z.
Proof.
  intro H. assert (A : Rabs (F2R (Float radix2 z 0)) <= p2 126).
  { unfold F2R. cbn [Fnum Fexp]. change (p2 0) with 1. rewrite Rmult_1_r, <- abs_IZR. apply Rle_trans with (IZR (2 ^ 53)); [now apply IZR_le|].
    change (IZR (2 ^ 53)) with (p2 53). apply bpow_le. lia. }
  destruct (gen_normalize 53 1024 eq_refl eq_refl ltac:(lia) ltac:(lia) z 0%Z false A) as [F1 E1]. split; [exact F1|]. unfold d_of_Z. rewrite E1.
  unfold rnd. rewrite round_generic; [unfold F2R; cbn; lra|exact _|].
  destruct (Z_le_lt_eq_dec _ _ H) as [H'|H'].
  - apply generic_format_FLT. exists (Float radix2 z 0); cbn; auto; lia.
  - assert (z = 2 ^ 53 \/ z = - 2 ^ 53)%Z as [->| ->] by lia.
    + replace (F2R _) with (p2 53) by (unfold F2R; cbn; lra). apply generic_format_bpow. unfold FLT_exp. lia.
    + replace (F2R _) with (- p2 53) by (unfold F2R; cbn; lra). apply generic_format_opp, generic_format_bpow. unfold FLT_exp. lia.
Qed.
Lemma floor64_ok x : is_finite 53 1024 x = true -> Rabs (B2R 53 1024 x) <= p2 53 ->
  is_finite 53 1024 (floor64 x) = true /\ B2R 53 1024 (floor64 x) = IZR (Zfloor (B2R 53 1024 x)).
Proof.
  intros Fx Hx. destruct x as [s|s|s pl H|s m e H]; try discriminate.
  - split; [reflexivity|]. cbn. now rewrite (Zfloor_IZR 0).
  - cbn [floor64]. destruct (Z.leb_spec 0 e) as [He|He].
    + split; [reflexivity|]. cbn [B2R]. unfold F2R. cbn [Fnum Fexp]. rewrite <- (IZR_Zpower radix2) by exact He. now rewrite <- mult_IZR, Zfloor_IZR.
    + cbn [B2R] in *. set (z := cond_Zopp s (Zpos m)) in *.
      assert (E : F2R (Float radix2 z e) = IZR z / IZR (2 ^ (- e))).
      { unfold F2R. cbn [Fnum Fexp]. replace e with (- - e)%Z at 1 by lia. rewrite bpow_opp, <- (IZR_Zpower radix2) by lia. reflexivity. }
      rewrite E in *. rewrite Zfloor_div by lia. apply int64_ok.
      assert (P : (0 < 2 ^ (- e))%Z) by (apply Z.pow_pos_nonneg; lia).
      assert (R1 : IZR (z / 2 ^ (- e)) <= IZR z / IZR (2 ^ (- e)) < IZR (z / 2 ^ (- e)) + 1).
      { rewrite <- Zfloor_div by lia. split; [apply Zfloor_lb|apply Zfloor_ub]. }
      change (p2 53) with (IZR (2 ^ 53)) in Hx. apply Rabs_le_inv in Hx.
      assert (- 2 ^ 53 <= z / 2 ^ (- e))%Z.
      { apply Z.lt_succ_r. apply lt_IZR. rewrite succ_IZR, opp_IZR. lra. }
      assert (z / 2 ^ (- e) <= 2 ^ 53)%Z by (apply le_IZR; lra). lia.
Qed.
Lemma round64_ok f : is_finite 53 1024 f = true -> Rabs (B2R 53 1024 f) <= p2 52 ->
  is_finite 53 1024 (round64 f) = true /\ B2R 53 1024 (round64 f) = IZR (Zfloor (rnd 53 (-1074) (B2R 53 1024 f + / 2))).
Proof.
  intros Ff Hf. destruct half64_ok as [Fh Eh]. unfold round64.
  assert (P52 : p2 52 + 1 <= p2 53) by (change (p2 52) with 4503599627370496; change (p2 53) with 9007199254740992; lra).
  assert (H : Rabs (B2R 53 1024 f + / 2) <= p2 53).
  { eapply Rle_trans; [apply Rabs_triang|]. rewrite (Rabs_pos_eq (/ 2)) by lra. lra. }
  destruct (gen_plus 53 1024 eq_refl eq_refl ltac:(lia) ltac:(lia) binop_nan_pl64 f half64 Ff Fh) as [F1 E1].
  { rewrite Eh. apply Rle_trans with (1 := H). apply bpow_le. lia. }
  change (Bplus 53 1024 eq_refl eq_refl binop_nan_pl64 mode_NE f half64) with (b64_plus mode_NE f half64) in *. rewrite Eh in E1.
  destruct (floor64_ok (b64_plus mode_NE f half64) F1) as [F2 E2]; [rewrite E1; apply rnd_abs_le; try lia; exact H|].
  split; [exact F2|]. now rewrite E2, E1.
Qed.
(** Half integers below 2^52 are representable. *)
Lemma half_format z : (Z.abs z <= 2 ^ 52 - 1)%Z -> generic_format radix2 (FLT_exp (-1074) 53) (IZR z + / 2).
Proof.
  intro H. apply generic_format_FLT. exists (Float radix2 (2 * z + 1) (-1)); cbn [Fnum Fexp].
  - unfold F2R. cbn [Fnum Fexp]. rewrite plus_IZR, mult_IZR. change (p2 (-1)) with (/ 2). lra.
  - change (radix2 ^ 53)%Z with (2 ^ 53)%Z. lia.
  - lia.
Qed.
Lemma round_near f : is_finite 53 1024 f = true -> Rabs (B2R 53 1024 f) <= IZR (2 ^ 52 - 2) ->
  exists z, is_finite 53 1024 (round64 f) = true /\ B2R 53 1024 (round64 f) = IZR z /\ Rabs (IZR z - B2R 53 1024 f) <= 1 /\
    (forall g, is_finite 53 1024 g = true -> B2R 53 1024 g = B2R 53 1024 f + / 2 -> B2R 53 1024 f - / 2 < IZR z <= B2R 53 1024 f + / 2).
Proof.
  intros Ff Hf. destruct (round64_ok f Ff) as [F1 E1].
  { apply Rle_trans with (1 := Hf). change (p2 52) with (IZR (2 ^ 52)). apply IZR_le. lia. }
  set (x := B2R 53 1024 f) in *. exists (Zfloor (rnd 53 (-1074) (x + / 2))). split; [exact F1|]. split; [exact E1|].
  pose proof (Zfloor_lb x) as A1. pose proof (Zfloor_ub x) as A2. set (k := Zfloor x) in *. apply Rabs_le_inv in Hf.
  assert (K1 : (- (2 ^ 52 - 2) - 1 < k + 0)%Z).
  { apply lt_IZR. rewrite plus_IZR, minus_IZR, opp_IZR. lra. }
  assert (K2 : (k <= 2 ^ 52 - 2)%Z) by (apply le_IZR; lra).
  assert (L1 : rnd 53 (-1074) (IZR k + / 2) <= rnd 53 (-1074) (x + / 2)) by (apply rnd_le; [lia|lra]).
  assert (L2 : rnd 53 (-1074) (x + / 2) <= rnd 53 (-1074) (IZR (k + 1) + / 2)) by (apply rnd_le; [lia|rewrite plus_IZR; lra]).
  rewrite (rnd_generic 53 (-1074) (IZR k + / 2)) in L1 by (try lia; apply half_format; lia).
  rewrite (rnd_generic 53 (-1074) (IZR (k + 1) + / 2)) in L2 by (try lia; apply half_format; lia). rewrite plus_IZR in L2.
  set (y := rnd 53 (-1074) (x + / 2)) in *. pose proof (Zfloor_lb y) as B1. pose proof (Zfloor_ub y) as B2. set (j := Zfloor y) in *.
  split.
  - assert (J1 : (k <= j)%Z). { apply Z.lt_succ_r, lt_IZR. rewrite succ_IZR. lra. }
    assert (J2 : (j <= k + 1)%Z). { apply Z.lt_succ_r, lt_IZR. rewrite succ_IZR, plus_IZR. lra. }
    apply IZR_le in J1. apply IZR_le in J2. rewrite plus_IZR in J2. apply Rabs_le. lra.
  - intros g Fg Eg. assert (y = x + / 2).
    { unfold y. apply rnd_generic; [lia|]. rewrite <- Eg. apply (gen_format 53 1024). }
    lra.
Qed.
