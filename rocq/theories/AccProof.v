(** Rounding errors of the distances. *)
From Verif Require Import Base Flt ForestSpec RealSpec.
From Coq Require Import Reals Lra Lia Psatz.
From Flocq Require Import Core Relative IEEE754.BinarySingleNaN IEEE754.Binary IEEE754.Bits.
Open Scope R_scope.

Notation p2 := (bpow radix2).
Definition rnd (prec emin : Z) (x : R) : R := round radix2 (FLT_exp emin prec) ZnearestE x.

(** ** Flocq's operations round correctly when nothing overflows *)
Section Gen.
Variables prec emax : Z.
Context (Hp : Prec_gt_0 prec) (He : Prec_lt_emax prec emax).
Hypothesis Hbig : (127 <= emax)%Z.
Hypothesis Hpr : (2 <= prec)%Z.
Hypothesis Hsmall : (3 - emax - prec <= 0)%Z.
Notation emin := (3 - emax - prec)%Z.
Notation bf := (binary_float prec emax).
Notation r := (rnd prec emin).
Notation val := (B2R prec emax).

Lemma in_range x : Rabs x <= p2 126 -> Rlt_bool (Rabs (round radix2 (FLT_exp emin prec) (round_mode mode_NE) x)) (p2 emax) = true.
Proof.
  intro H. apply Rlt_bool_true. apply Rle_lt_trans with (p2 126).
  - apply abs_round_le_generic; try exact _; [|exact H]. apply generic_format_bpow. unfold FLT_exp. red in Hp. lia.
  - apply bpow_lt. lia.
Qed.
Lemma gen_plus pn (x y : bf) : is_finite _ _ x = true -> is_finite _ _ y = true -> Rabs (val x + val y) <= p2 126 ->
  is_finite _ _ (Bplus prec emax Hp He pn mode_NE x y) = true /\ val (Bplus prec emax Hp He pn mode_NE x y) = r (val x + val y).
Proof.
  intros Fx Fy H. pose proof (Bplus_correct prec emax Hp He pn mode_NE x y Fx Fy) as C.
  cbv zeta in C. unfold SpecFloat.fexp in C. fold emin in C. change (SpecFloat.emin prec emax) with emin in C.
  rewrite in_range in C by exact H. tauto.
Qed.
Lemma gen_minus pn (x y : bf) : is_finite _ _ x = true -> is_finite _ _ y = true -> Rabs (val x - val y) <= p2 126 ->
  is_finite _ _ (Bminus prec emax Hp He pn mode_NE x y) = true /\ val (Bminus prec emax Hp He pn mode_NE x y) = r (val x - val y).
Proof.
  intros Fx Fy H. pose proof (Bminus_correct prec emax Hp He pn mode_NE x y Fx Fy) as C.
  cbv zeta in C. change (SpecFloat.fexp prec emax) with (FLT_exp emin prec) in C.
  rewrite in_range in C by exact H. tauto.
Qed.
Lemma gen_mult pn (x y : bf) : is_finite _ _ x = true -> is_finite _ _ y = true -> Rabs (val x * val y) <= p2 126 ->
  is_finite _ _ (Bmult prec emax Hp He pn mode_NE x y) = true /\ val (Bmult prec emax Hp He pn mode_NE x y) = r (val x * val y).
Proof.
  intros Fx Fy H. pose proof (Bmult_correct prec emax Hp He pn mode_NE x y) as C.
  cbv zeta in C. change (SpecFloat.fexp prec emax) with (FLT_exp emin prec) in C.
  rewrite in_range in C by exact H. rewrite Fx, Fy in C. tauto.
Qed.
Lemma gen_div pn (x y : bf) : is_finite _ _ x = true -> val y <> 0 -> Rabs (val x / val y) <= p2 126 ->
  is_finite _ _ (Bdiv prec emax Hp He pn mode_NE x y) = true /\ val (Bdiv prec emax Hp He pn mode_NE x y) = r (val x / val y).
Proof.
  intros Fx Zy H. pose proof (Bdiv_correct prec emax Hp He pn mode_NE x y Zy) as C.
  cbv zeta in C. change (SpecFloat.fexp prec emax) with (FLT_exp emin prec) in C.
  rewrite in_range in C by exact H. rewrite Fx in C. tauto.
Qed.
Lemma gen_sqrt pn (x : bf) : is_finite _ _ x = true -> 0 < val x ->
  is_finite _ _ (Bsqrt prec emax Hp He pn mode_NE x) = true /\ val (Bsqrt prec emax Hp He pn mode_NE x) = r (sqrt (val x)).
Proof.
  intros Fx P. pose proof (Bsqrt_correct prec emax Hp He pn mode_NE x) as (C1 & C2 & _).
  split; [|exact C1]. rewrite C2. destruct x as [s|s|s pl H|s m e H]; try discriminate; [reflexivity|].
  destruct s; [|reflexivity]. exfalso. cbn [B2R] in P. revert P. apply Rle_not_lt. apply F2R_le_0. cbn. lia.
Qed.
Lemma gen_format (x : bf) : generic_format radix2 (FLT_exp emin prec) (val x).
Proof. apply generic_format_B2R. Qed.
Lemma gen_normalize m e s : Rabs (F2R (Float radix2 m e)) <= p2 126 ->
  is_finite _ _ (binary_normalize prec emax Hp He mode_NE m e s) = true /\
  val (binary_normalize prec emax Hp He mode_NE m e s) = r (F2R (Float radix2 m e)).
Proof.
  intro H. pose proof (binary_normalize_correct prec emax Hp He mode_NE m e s) as C.
  cbv zeta in C. change (SpecFloat.fexp prec emax) with (FLT_exp emin prec) in C.
  rewrite in_range in C by exact H. tauto.
Qed.
End Gen.

#[local] Instance prec24 : Prec_gt_0 24. Proof. easy. Qed.
#[local] Instance prec53 : Prec_gt_0 53. Proof. easy. Qed.

(** ** The laws both float types satisfy *)
Definition rn (fm : Fmt) (x : R) : R := rnd (fprec fm) (femin fm) x.
Record RLaws (fm : Fmt) : Prop := mkRL {
  l_add : forall x y, fin fm x -> fin fm y -> Rabs (rv fm x + rv fm y) <= p2 126 ->
    fin fm (fadd (ops fm) x y) /\ rv fm (fadd (ops fm) x y) = rn fm (rv fm x + rv fm y);
  l_sub : forall x y, fin fm x -> fin fm y -> Rabs (rv fm x - rv fm y) <= p2 126 ->
    fin fm (fsub (ops fm) x y) /\ rv fm (fsub (ops fm) x y) = rn fm (rv fm x - rv fm y);
  l_mul : forall x y, fin fm x -> fin fm y -> Rabs (rv fm x * rv fm y) <= p2 126 ->
    fin fm (fmul (ops fm) x y) /\ rv fm (fmul (ops fm) x y) = rn fm (rv fm x * rv fm y);
  l_div : forall x y, fin fm x -> rv fm y <> 0 -> Rabs (rv fm x / rv fm y) <= p2 126 ->
    fin fm (fdiv (ops fm) x y) /\ rv fm (fdiv (ops fm) x y) = rn fm (rv fm x / rv fm y);
  l_sqrt : forall x, fin fm x -> 0 < rv fm x -> rv fm x <= p2 126 ->
    fin fm (fsqrt (ops fm) x) /\ rv fm (fsqrt (ops fm) x) = rn fm (rnd 53 (-1074) (sqrt (rv fm x)));
  l_lt : forall x y, fin fm x -> fin fm y -> flt (ops fm) x y = true <-> rv fm x < rv fm y;
  l_eq : forall x y, fin fm x -> fin fm y -> feq (ops fm) x y = true <-> rv fm x = rv fm y;
  l_format : forall x, generic_format radix2 (FLT_exp (femin fm) (fprec fm)) (rv fm x);
  l_0 : fin fm (f0 (ops fm)) /\ rv fm (f0 (ops fm)) = 0;
  l_2 : fin fm (f2 (ops fm)) /\ rv fm (f2 (ops fm)) = 2
}.

Lemma rnd_le prec emin x y : (0 < prec)%Z -> x <= y -> rnd prec emin x <= rnd prec emin y.
Proof. intros H1 H. assert (Prec_gt_0 prec) by exact H1. apply round_le; try exact _. exact H. Qed.
Lemma rnd_generic prec emin x : (0 < prec)%Z -> generic_format radix2 (FLT_exp emin prec) x -> rnd prec emin x = x.
Proof. intros H1 H. apply round_generic; [exact _|exact H]. Qed.
Lemma rnd_abs_le prec emin e x : (0 < prec)%Z -> (emin <= e - 1)%Z -> Rabs x <= p2 e -> Rabs (rnd prec emin x) <= p2 e.
Proof.
  intros H1 H2 H. assert (Prec_gt_0 prec) by exact H1. apply abs_round_le_generic; try exact _; [|exact H].
  apply generic_format_bpow. unfold FLT_exp. lia.
Qed.

Lemma to64_exact x : is_finite 24 128 x = true -> is_finite 53 1024 (to64 x) = true /\ B2R 53 1024 (to64 x) = B2R 24 128 x.
Proof.
  intro Fx. pose proof (gen_format 24 128 x) as G.
  destruct x as [s|s|s pl H|s m e H]; try discriminate; [split; reflexivity|].
  cbn [to64]. assert (A : Rabs (F2R (Float radix2 (cond_Zopp s (Zpos m)) e)) <= p2 128).
  { change (F2R (Float radix2 (cond_Zopp s (Zpos m)) e)) with (B2R 24 128 (B754_finite s m e H)). left. apply abs_B2R_lt_emax. }
  pose proof (binary_normalize_correct 53 1024 eq_refl eq_refl mode_NE (cond_Zopp s (Zpos m)) e s) as C. cbv zeta in C.
  change (SpecFloat.fexp 53 1024) with (FLT_exp (-1074) 53) in C.
  rewrite Rlt_bool_true in C.
  - destruct C as (C1 & C2 & _). split; [exact C2|]. rewrite C1. cbn [B2R]. apply round_generic; [exact _|].
    cbn [B2R] in G. revert G. apply generic_inclusion_mag. intros _. unfold FLT_exp. lia.
  - apply Rle_lt_trans with (p2 128); [|apply bpow_lt; lia].
    apply abs_round_le_generic; try exact _; [|exact A]. apply generic_format_bpow. unfold FLT_exp. lia.
Qed.
Lemma to32_round y : is_finite 53 1024 y = true -> Rabs (B2R 53 1024 y) <= p2 126 ->
  is_finite 24 128 (to32 y) = true /\ B2R 24 128 (to32 y) = rnd 24 (-149) (B2R 53 1024 y).
Proof.
  intros Fy Hy. destruct y as [s|s|s pl H|s m e H]; try discriminate.
  - split; [reflexivity|]. cbn [to32 B2R]. symmetry. apply round_0. exact _.
  - cbn [to32]. cbn [B2R] in *. apply gen_normalize; try lia. exact Hy.
Qed.
Lemma sqrt_126 x : 0 < x -> x <= p2 126 -> Rabs (sqrt x) <= p2 63.
Proof.
  intros P H. rewrite Rabs_pos_eq by apply sqrt_pos. replace (p2 63) with (sqrt (p2 126)).
  - now apply sqrt_le_1_alt.
  - change 126%Z with (63 + 63)%Z. rewrite bpow_plus. apply sqrt_square. apply bpow_ge_0.
Qed.

Lemma cmp_lt prec emax x y : is_finite prec emax x = true -> is_finite prec emax y = true ->
  (match Bcompare prec emax x y with Some Lt => true | _ => false end) = true <-> B2R prec emax x < B2R prec emax y.
Proof.
  intros Fx Fy. rewrite Bcompare_correct by assumption. destruct (Rcompare_spec (B2R _ _ x) (B2R _ _ y)); split; intro; try lra; try discriminate; reflexivity.
Qed.
Lemma cmp_eq prec emax x y : is_finite prec emax x = true -> is_finite prec emax y = true ->
  (match Bcompare prec emax x y with Some Eq => true | _ => false end) = true <-> B2R prec emax x = B2R prec emax y.
Proof.
  intros Fx Fy. rewrite Bcompare_correct by assumption. destruct (Rcompare_spec (B2R _ _ x) (B2R _ _ y)); split; intro; try lra; try discriminate; reflexivity.
Qed.

Lemma two_small : Rabs (F2R (Float radix2 2 0)) <= p2 126.
Proof.
  replace (F2R (Float radix2 2 0)) with (p2 1) by (unfold F2R; cbn; lra).
  rewrite Rabs_pos_eq by apply bpow_ge_0. apply bpow_le. lia.
Qed.
Lemma rnd_two prec emin : (1 < prec)%Z -> (emin < 0)%Z -> rnd prec emin (F2R (Float radix2 2 0)) = 2.
Proof.
  intros H1 H2. replace (F2R (Float radix2 2 0)) with (p2 1) by (unfold F2R; cbn; lra).
  rewrite rnd_generic; [cbn; lra|lia|]. apply generic_format_bpow. unfold FLT_exp. lia.
Qed.

Lemma laws32 : RLaws fmt32.
Proof.
  constructor; cbn [ops rv fin fmt32 fadd fsub fmul fdiv fsqrt flt feq f0 f2 fops32].
  - intros x y Hx Hy H. apply (gen_plus 24 128); auto; lia.
  - intros x y Hx Hy H. apply (gen_minus 24 128); auto; lia.
  - intros x y Hx Hy H. apply (gen_mult 24 128); auto; lia.
  - intros x y Hx Hy H. apply (gen_div 24 128); auto; lia.
  - intros x Hx P H. destruct (to64_exact x Hx) as [F1 E1].
    destruct (gen_sqrt 53 1024 eq_refl eq_refl unop_nan_pl64 (to64 x) F1) as [F2 E2]; [now rewrite E1|].
    change (Bsqrt 53 1024 eq_refl eq_refl unop_nan_pl64 mode_NE (to64 x)) with (b64_sqrt mode_NE (to64 x)) in *.
    rewrite E1 in E2. destruct (to32_round _ F2) as [F3 E3].
    + rewrite E2. apply Rle_trans with (p2 63); [|apply bpow_le; lia]. apply rnd_abs_le; try lia. now apply sqrt_126.
    + split; [exact F3|]. rewrite E3, E2. reflexivity.
  - intros. now apply cmp_lt.
  - intros. now apply cmp_eq.
  - intro x. apply (gen_format 24 128).
  - split; reflexivity.
  - destruct (gen_normalize 24 128 eq_refl eq_refl ltac:(lia) ltac:(lia) 2%Z 0%Z false) as [A B]; [apply two_small|].
    split; [exact A|]. unfold s_of_Z. rewrite B. now apply rnd_two.
Qed.
Lemma laws64 : RLaws fmt64.
Proof.
  constructor; cbn [ops rv fin fmt64 fadd fsub fmul fdiv fsqrt flt feq f0 f2 fops64].
  - intros x y Hx Hy H. apply (gen_plus 53 1024); auto; lia.
  - intros x y Hx Hy H. apply (gen_minus 53 1024); auto; lia.
  - intros x y Hx Hy H. apply (gen_mult 53 1024); auto; lia.
  - intros x y Hx Hy H. apply (gen_div 53 1024); auto; lia.
  - intros x Hx P H. destruct (gen_sqrt 53 1024 eq_refl eq_refl unop_nan_pl64 x Hx P) as [F2 E2].
    split; [exact F2|]. unfold b64_sqrt. rewrite E2. symmetry. apply rnd_generic; [reflexivity|]. apply generic_format_round; exact _.
  - intros. now apply cmp_lt.
  - intros. now apply cmp_eq.
  - intro x. apply (gen_format 53 1024).
  - split; reflexivity.
  - destruct (gen_normalize 53 1024 eq_refl eq_refl ltac:(lia) ltac:(lia) 2%Z 0%Z false) as [A B]; [apply two_small|].
    split; [exact A|]. unfold d_of_Z. rewrite B. now apply rnd_two.
Qed.

(** ** Rounding errors *)
Lemma rnd_err prec emin x : (0 < prec)%Z -> Rabs (rnd prec emin x - x) <= p2 (- prec) * Rabs x + p2 (emin - 1).
Proof.
  intro Hp. destruct (error_N_FLT radix2 emin prec Hp (fun x => negb (Z.even x)) x) as (e & h & He & Hh & _ & E).
  unfold rnd. rewrite E. replace (x * (1 + e) + h - x) with (x * e + h) by ring.
  eapply Rle_trans; [apply Rabs_triang|]. rewrite Rabs_mult.
  assert (A : / 2 * p2 (- prec + 1) = p2 (- prec)) by (rewrite bpow_plus; cbn; lra).
  assert (B : / 2 * p2 emin = p2 (emin - 1)).
  { unfold Z.sub. rewrite bpow_plus. cbn. lra. }
  rewrite A in He. rewrite B in Hh. pose proof (Rabs_pos x). nra.
Qed.

Section Err.
Variable fm : Fmt.
Hypothesis L : RLaws fm.
Notation fo := (ops fm).
Variables u h : R.
Hypothesis Hu : / 9007199254740992 <= u <= / 16777216.
Hypothesis Hh : 0 < h <= p2 (-150).
Hypothesis Herr : forall x, Rabs (rn fm x - x) <= u * Rabs x + h.
Notation K := (1 + u).
Lemma u_pos : 0 < u. Proof. lra. Qed.

Lemma pow_ge1 n : 1 <= K ^ n.
Proof. apply pow_R1_Rle. lra. Qed.
Lemma pow_lin n : INR n * u <= / 2 -> K ^ n <= 1 + 2 * INR n * u.
Proof.
  induction n as [|n IH]; intro H; [cbn; lra|]. rewrite S_INR in *. cbn [pow].
  pose proof (pos_INR n). assert (INR n * u <= / 2) by nra. specialize (IH H1). nra.
Qed.

Fixpoint rabs_dot (x y : list R) : R :=
  match x, y with a :: x', b :: y' => Rabs (a * b) + rabs_dot x' y' | _, _ => 0 end.
Lemma rabs_dot_pos x : forall y, 0 <= rabs_dot x y.
Proof. induction x as [|a x IH]; intros [|b y]; cbn; try lra. specialize (IH y). pose proof (Rabs_pos (a * b)). lra. Qed.
Lemma rdot_abs x : forall y, Rabs (rdot x y) <= rabs_dot x y.
Proof.
  induction x as [|a x IH]; intros [|b y]; cbn; try (rewrite Rabs_R0; lra).
  eapply Rle_trans; [apply Rabs_triang|]. specialize (IH y). lra.
Qed.
Lemma rabs_dot_self x : rabs_dot x x = rdot x x.
Proof. induction x as [|a x IH]; cbn; [reflexivity|]. rewrite IH, Rabs_pos_eq by nra. reflexivity. Qed.

(** The error of an inner product, added up from [acc]. *)
Definition acc_dot (acc : F fo) (x y : list (F fo)) : F fo :=
  fold_left (fadd fo) (map (fun ab => fmul fo (fst ab) (snd ab)) (combine x y)) acc.
Notation rvs := (map (rv fm)).
Lemma acc_dot_err x : forall y acc, length x = length y -> fin fm acc -> Forall (fin fm) x -> Forall (fin fm) y ->
  Rabs (rv fm acc) * K ^ length x + rabs_dot (rvs x) (rvs y) * K ^ S (length x) + 3 * INR (length x) * K ^ length x * h <= p2 126 ->
  fin fm (acc_dot acc x y) /\
  Rabs (rv fm (acc_dot acc x y) - (rv fm acc + rdot (rvs x) (rvs y))) <=
    (K ^ length x - 1) * Rabs (rv fm acc) + (K ^ S (length x) - 1) * rabs_dot (rvs x) (rvs y) + 3 * INR (length x) * K ^ length x * h.
Proof.
  induction x as [|a x IH]; intros [|b y] acc Hl Fa Fx Fy HB; try discriminate.
  - split; [exact Fa|]. cbn. replace (_ - _) with 0 by ring. rewrite Rabs_R0. lra.
  - inversion Fx as [|? ? Fa' Fx']; inversion Fy as [|? ? Fb' Fy']; subst. injection Hl as Hl.
    cbn [length map rdot rabs_dot] in *. set (n := length x) in *. unfold acc_dot. cbn [combine map fold_left fst snd].
    pose proof (pow_ge1 n) as P1. pose proof (pos_INR n) as PN. pose proof (rabs_dot_pos (rvs x) (rvs y)) as PA.
    set (A := rabs_dot (rvs x) (rvs y)) in *. set (ab := rv fm a * rv fm b) in *.
    pose proof (Rabs_pos ab) as Pab. pose proof (Rabs_pos (rv fm acc)) as Pacc. rewrite S_INR in *. cbn [pow] in *.
    assert (PK : 0 <= K ^ n - 1) by lra.
    set (q := K ^ n) in *.
    assert (B1 : Rabs (rv fm acc) + Rabs ab + u * Rabs ab + h <= p2 126).
    { apply Rle_trans with (2 := HB).
      assert (KQ : 1 <= K * q) by nra. assert (KQ2 : K <= K * (K * q)) by nra.
      assert (Rabs (rv fm acc) <= Rabs (rv fm acc) * (K * q)) by nra.
      assert (Rabs ab * K <= Rabs ab * (K * (K * q))) by (apply Rmult_le_compat_l; [assumption|exact KQ2]).
      assert (0 <= A * (K * (K * q))) by (apply Rmult_le_pos; lra).
      assert (h <= 3 * (INR n + 1) * (K * q) * h).
      { rewrite <- (Rmult_1_l h) at 1. apply Rmult_le_compat_r; [lra|]. nra. }
      nra. }
    destruct (l_mul fm L a b Fa' Fb') as [Fm Em]; [fold ab; pose proof (Rabs_pos (rv fm acc)); nra|]. fold ab in Em.
    pose proof (Herr ab) as E1. rewrite <- Em in E1. set (p := rv fm (fmul fo a b)) in *.
    assert (Hp : Rabs p <= Rabs ab + (u * Rabs ab + h)).
    { replace p with (ab + (p - ab)) by ring. eapply Rle_trans; [apply Rabs_triang|]. lra. }
    destruct (l_add fm L acc (fmul fo a b) Fa Fm) as [Fs Es].
    { fold p. eapply Rle_trans; [apply Rabs_triang|]. lra. }
    fold p in Es. pose proof (Herr (rv fm acc + p)) as E2. rewrite <- Es in E2. set (acc' := fadd fo acc (fmul fo a b)) in *.
    pose proof (Rabs_triang (rv fm acc) p) as T1.
    assert (E3 : Rabs (rv fm acc' - (rv fm acc + ab)) <= u * Rabs (rv fm acc) + (K * K - 1) * Rabs ab + 3 * h).
    { replace (rv fm acc' - (rv fm acc + ab)) with ((rv fm acc' - (rv fm acc + p)) + (p - ab)) by ring.
      eapply Rle_trans; [apply Rabs_triang|]. assert (u * h <= h) by nra. nra. }
    assert (E4 : Rabs (rv fm acc') <= K * Rabs (rv fm acc) + K * K * Rabs ab + 3 * h).
    { replace (rv fm acc') with ((rv fm acc + ab) + (rv fm acc' - (rv fm acc + ab))) by ring.
      eapply Rle_trans; [apply Rabs_triang|]. pose proof (Rabs_triang (rv fm acc) ab). lra. }
    assert (QA : Rabs (rv fm acc') * q <= (K * Rabs (rv fm acc) + K * K * Rabs ab + 3 * h) * q) by (apply Rmult_le_compat_r; lra).
    assert (Q1 : A * (K * q) <= A * (K * (K * q))) by (apply Rmult_le_compat_l; [lra|]; nra).
    assert (Q2 : 3 * INR n * q * h + 3 * h * q <= 3 * (INR n + 1) * (K * q) * h).
    { replace (3 * INR n * q * h + 3 * h * q) with (3 * (INR n + 1) * q * h) by ring. apply Rmult_le_compat_r; [lra|].
      apply Rmult_le_compat_l; [lra|]. nra. }
    destruct (IH y acc' Hl Fs Fx' Fy') as [G1 G2].
    { fold A q. replace (3 * INR n * q * h) with (3 * INR n * q * h + 3 * h * q - 3 * h * q) by ring.
      eapply Rle_trans; [|exact HB]. 
      replace (Rabs (rv fm acc) * (K * q) + (Rabs ab + A) * (K * (K * q)) + 3 * (INR n + 1) * (K * q) * h)
        with ((K * Rabs (rv fm acc) + K * K * Rabs ab) * q + A * (K * (K * q)) + 3 * (INR n + 1) * (K * q) * h) by ring.
      lra. }
    fold A q in G2. unfold acc_dot in G1, G2. split; [exact G1|].
    set (res := fold_left _ _ acc') in *.
    replace (rv fm res - (rv fm acc + (ab + rdot (rvs x) (rvs y)))) with
      ((rv fm res - (rv fm acc' + rdot (rvs x) (rvs y))) + (rv fm acc' - (rv fm acc + ab))) by ring.
    eapply Rle_trans; [apply Rabs_triang|]. 
    assert (QB : (q - 1) * Rabs (rv fm acc') <= (q - 1) * (K * Rabs (rv fm acc) + K * K * Rabs ab + 3 * h)) by (apply Rmult_le_compat_l; lra).
    replace ((K * q - 1) * Rabs (rv fm acc) + (K * (K * q) - 1) * (Rabs ab + A))
      with ((q - 1) * (K * Rabs (rv fm acc) + K * K * Rabs ab) + (u * Rabs (rv fm acc) + (K * K - 1) * Rabs ab) + (A * (K * (K * q)) - A)) by ring.
    lra.
Qed.

(** Cauchy and Schwarz. *)
Lemma rdot_self_pos x : 0 <= rdot x x.
Proof. rewrite <- rabs_dot_self. apply rabs_dot_pos. Qed.
Lemma cauchy_sq x : forall y, rabs_dot x y * rabs_dot x y <= rdot x x * rdot y y.
Proof.
  induction x as [|a x IH]; intros [|b y]; cbn; try lra.
  specialize (IH y). pose proof (rdot_self_pos x) as PX. pose proof (rdot_self_pos y) as PY. pose proof (rabs_dot_pos x y) as PS.
  set (X := rdot x x) in *. set (Y := rdot y y) in *. set (S := rabs_dot x y) in *.
  assert (Eab : Rabs (a * b) * Rabs (a * b) = (a * a) * (b * b)) by (rewrite <- Rabs_mult, Rabs_pos_eq; nra).
  pose proof (Rabs_pos (a * b)) as PP. set (p := Rabs (a * b)) in *.
  assert (M : 2 * (p * S) <= a * a * Y + b * b * X).
  { apply Rsqr_incr_0_var; [|nra]. unfold Rsqr.
    assert (p * p * (S * S) <= (a * a * (b * b)) * (X * Y)).
    { rewrite Eab. apply Rmult_le_compat_l; [nra|exact IH]. }
    assert (0 <= (a * a * Y - b * b * X) * (a * a * Y - b * b * X)) by apply Rle_0_sqr. nra. }
  nra.
Qed.
Lemma rlen_pos x : 0 <= rlen x.
Proof. apply sqrt_pos. Qed.
Lemma rlen_sq x : rlen x * rlen x = rdot x x.
Proof. apply sqrt_sqrt. apply rdot_self_pos. Qed.
Lemma cauchy x y : rabs_dot x y <= rlen x * rlen y.
Proof.
  apply Rsqr_incr_0_var; [|apply Rmult_le_pos; apply rlen_pos]. unfold Rsqr.
  replace (rlen x * rlen y * (rlen x * rlen y)) with ((rlen x * rlen x) * (rlen y * rlen y)) by ring.
  rewrite !rlen_sq. apply cauchy_sq.
Qed.

Lemma tame_len x : tame fm x -> / 1048576 <= rlen (rvs x) <= 1073741824.
Proof.
  intros (Hn & Hf & Hl). split; [lra|].
  assert (B : rdot (rvs x) (rvs x) <= INR (length x) * 1099511627776).
  { clear Hn Hl. induction Hf as [|a x [Fa Ha] Hf IH]; [cbn; lra|]. cbn [map rdot length]. rewrite S_INR.
    assert (rv fm a * rv fm a <= 1099511627776); [|lra].
    replace (rv fm a * rv fm a) with (Rabs (rv fm a) * Rabs (rv fm a)) by (rewrite <- Rabs_mult, Rabs_pos_eq; nra).
    pose proof (Rabs_pos (rv fm a)). nra. }
  rewrite <- rlen_sq in B. pose proof (rlen_pos (rvs x)). nra.
Qed.
Lemma tame_fin x : tame fm x -> Forall (fin fm) x.
Proof. intros (_ & H & _). revert H. apply Forall_impl. tauto. Qed.

Notation hsmall := (/ 1427247692705959881058285969449495136382746624).
Lemma h_small : 0 < h <= hsmall.
Proof. exact Hh. Qed.
Lemma p126 : p2 126 = 85070591730234615865843651857942052864.
Proof. reflexivity. Qed.

Lemma inner_err x y : length x = length y -> tame fm x -> tame fm y ->
  fin fm (inner fo x y) /\
  Rabs (rv fm (inner fo x y) - rdot (rvs x) (rvs y)) <= (2 * INR (length x) + 3) * u * (rlen (rvs x) * rlen (rvs y)).
Proof.
  intros Hl Tx Ty. pose proof (tame_len x Tx) as LX. pose proof (tame_len y Ty) as LY. pose proof u_pos as PU.
  assert (HN : INR (length x) <= 1048576) by (destruct Tx as (H & _); lra).
  pose proof (cauchy (rvs x) (rvs y)) as CS. pose proof (rabs_dot_pos (rvs x) (rvs y)) as PA. pose proof h_small as HS.
  pose proof (pos_INR (length x)) as PN.
  assert (P1 : K ^ length x <= 1 + 2 * INR (length x) * u) by (apply pow_lin; nra).
  assert (P2 : K ^ S (length x) <= 1 + 2 * (INR (length x) + 1) * u) by (rewrite <- S_INR; apply pow_lin; rewrite S_INR; nra).
  pose proof (pow_ge1 (length x)) as G1. pose proof (pow_ge1 (S (length x))) as G2.
  set (W := rlen (rvs x) * rlen (rvs y)) in *.
  assert (HW : / 1099511627776 <= W <= 1152921504606846976) by (unfold W; nra).
  assert (KB : K ^ length x <= 2) by nra. assert (KB2 : K ^ S (length x) <= 2) by nra.
  assert (HB : 3 * INR (length x) * K ^ length x * h <= u * W).
  { apply Rle_trans with (6291456 * hsmall).
    - apply Rle_trans with (6291456 * h); [|lra]. apply Rmult_le_compat_r; [lra|]. nra.
    - apply Rle_trans with (/ 9007199254740992 * / 1099511627776); [lra|]. apply Rmult_le_compat; lra. }
  destruct (l_0 fm L) as [F0 E0].
  destruct (acc_dot_err x y (f0 fo) Hl F0 (tame_fin x Tx) (tame_fin y Ty)) as [R1 R2].
  - rewrite E0, Rabs_R0, p126. assert (rabs_dot (rvs x) (rvs y) * K ^ S (length x) <= W * 2) by (apply Rmult_le_compat; lra). nra.
  - split; [exact R1|]. unfold inner. fold (acc_dot (f0 fo) x y). rewrite E0, Rabs_R0 in R2.
    rewrite Rplus_0_l in R2. eapply Rle_trans; [exact R2|].
    assert ((K ^ S (length x) - 1) * rabs_dot (rvs x) (rvs y) <= 2 * (INR (length x) + 1) * u * W) by (apply Rmult_le_compat; lra).
    lra.
Qed.

(** Bounds, free of floats: see [gap_err]. *)
Lemma sqrt_between a b m : 0 <= a -> 0 <= b -> a * a <= m -> m <= b * b -> a <= sqrt m <= b.
Proof.
  intros Ha Hb H1 H2. split.
  - rewrite <- (sqrt_square a) by assumption. now apply sqrt_le_1_alt.
  - rewrite <- (sqrt_square b) by assumption. now apply sqrt_le_1_alt.
Qed.
Lemma Rabs_bounds x y e : Rabs (x - y) <= e -> y - e <= x <= y + e.
Proof. intro H. apply Rabs_le_inv in H. lra. Qed.
Lemma bounds_Rabs x y e : y - e <= x <= y + e -> Rabs (x - y) <= e.
Proof. intro H. apply Rabs_le. lra. Qed.

Lemma sqrt_err m : / 1208925819614629174706176 * / 4 <= m -> Rabs (rn fm (rnd 53 (-1074) (sqrt m)) - sqrt m) <= 3 * u * sqrt m.
Proof.
  intro Hm. pose proof u_pos as PU. pose proof h_small as HS.
  assert (S1 : / 2199023255552 <= sqrt m).
  { rewrite <- (sqrt_square (/ 2199023255552)) by lra. apply sqrt_le_1_alt. lra. }
  pose proof (rnd_err 53 (-1074) (sqrt m) ltac:(lia)) as E1. rewrite (Rabs_pos_eq (sqrt m)) in E1 by lra.
  change (p2 (- (53))) with (/ 9007199254740992) in E1.
  assert (T : p2 (-1074 - 1) <= hsmall).
  { change hsmall with (p2 (-150)). apply bpow_le. lia. }
  set (r := rnd 53 (-1074) (sqrt m)) in *. set (q := sqrt m) in *.
  assert (HQ : hsmall <= / 1000000 * (/ 9007199254740992 * q)).
  { apply Rle_trans with (/ 1000000 * (/ 9007199254740992 * / 2199023255552)); lra. }
  assert (U1 : / 9007199254740992 * q <= u * q) by (apply Rmult_le_compat_r; lra).
  assert (E1' : Rabs (r - q) <= 1.000001 * (u * q)) by lra.
  assert (Rr : 0 <= r <= 1.1 * q).
  { apply Rabs_bounds in E1'. assert (u * q <= / 16777216 * q) by (apply Rmult_le_compat_r; lra). lra. }
  pose proof (Herr r) as E2. rewrite (Rabs_pos_eq r) in E2 by lra.
  assert (U2 : u * r <= u * (1.1 * q)) by (apply Rmult_le_compat_l; lra).
  replace (rn fm r - q) with ((rn fm r - r) + (r - q)) by ring. eapply Rle_trans; [apply Rabs_triang|]. lra.
Qed.

Lemma gap_err x y : length x = length y -> tame fm x -> tame fm y ->
  fin fm (cos_gap fo x y) /\
  Rabs (rv fm (cos_gap fo x y) - true_gap (rvs x) (rvs y)) <= (10 * INR (length x) + 44) * u.
Proof.
  intros Hl Tx Ty. pose proof (tame_len x Tx) as LX. pose proof (tame_len y Ty) as LY. pose proof u_pos as PU. pose proof h_small as HS.
  assert (HN : INR (length x) <= 1048576) by (destruct Tx as (H & _); lra). pose proof (pos_INR (length x)) as PN.
  destruct (inner_err x x eq_refl Tx Tx) as [Fp Ep]. destruct (inner_err y y eq_refl Ty Ty) as [Fq Eq].
  destruct (inner_err x y Hl Tx Ty) as [Fd Ed]. rewrite <- Hl in Eq. rewrite <- !rlen_sq in Ep, Eq.
  pose proof (rdot_abs (rvs x) (rvs y)) as CS. pose proof (cauchy (rvs x) (rvs y)) as CS2.
  unfold cos_gap, true_gap. set (n := INR (length x)) in *. set (X := rlen (rvs x)) in *. set (Y := rlen (rvs y)) in *.
  set (D := rdot (rvs x) (rvs y)) in *. set (P := rv fm (inner fo x x)) in *. set (Q := rv fm (inner fo y y)) in *.
  set (d := rv fm (inner fo x y)) in *. set (g := (2 * n + 3) * u) in *.
  assert (Hnu : 0 <= n * u <= / 16) by (split; [apply Rmult_le_pos; lra|]; nra).
  assert (Hg : 3 * u <= g <= / 7) by (unfold g; nra).
  set (W := X * Y) in *. assert (HW : / 1099511627776 <= W <= 1152921504606846976) by (unfold W; nra).
  apply Rabs_bounds in Ep. apply Rabs_bounds in Eq.
  assert (PX : (1 - g) * (X * X) <= P <= (1 + g) * (X * X)) by lra. assert (PY : (1 - g) * (Y * Y) <= Q <= (1 + g) * (Y * Y)) by lra.
  assert (XX : 0 < X * X) by nra. assert (YY : 0 < Y * Y) by nra.
  assert (PQ : ((1 - g) * W) * ((1 - g) * W) <= P * Q <= ((1 + g) * W) * ((1 + g) * W)).
  { unfold W. split.
    - replace ((1 - g) * (X * Y) * ((1 - g) * (X * Y))) with (((1 - g) * (X * X)) * ((1 - g) * (Y * Y))) by ring.
      apply Rmult_le_compat; try lra; apply Rmult_le_pos; lra.
    - replace ((1 + g) * (X * Y) * ((1 + g) * (X * Y))) with (((1 + g) * (X * X)) * ((1 + g) * (Y * Y))) by ring.
      apply Rmult_le_compat; try lra; [apply Rle_trans with ((1 - g) * (X * X)); [apply Rmult_le_pos|]; lra|apply Rle_trans with ((1 - g) * (Y * Y)); [apply Rmult_le_pos|]; lra]. }
  assert (WW : / 1208925819614629174706176 <= W * W <= 1329227995784915872903807060280344576).
  { split.
    - apply Rle_trans with (/ 1099511627776 * / 1099511627776); [lra|]. apply Rmult_le_compat; lra.
    - apply Rle_trans with (1152921504606846976 * 1152921504606846976); [|lra]. apply Rmult_le_compat; lra. }
  assert (PQ2 : 0.7 * (W * W) <= P * Q <= 1.4 * (W * W)).
  { assert (G1 : 0.7 <= (1 - g) * (1 - g)) by (apply Rle_trans with (6 / 7 * (6 / 7)); [lra|]; apply Rmult_le_compat; lra).
    assert (G2 : (1 + g) * (1 + g) <= 1.4) by (apply Rle_trans with (8 / 7 * (8 / 7)); [|lra]; apply Rmult_le_compat; lra).
    split.
    - apply Rle_trans with ((1 - g) * (1 - g) * (W * W)); [apply Rmult_le_compat_r; lra|]. lra.
    - apply Rle_trans with ((1 + g) * (1 + g) * (W * W)); [lra|]. apply Rmult_le_compat_r; lra. }
  destruct (l_mul fm L (inner fo x x) (inner fo y y) Fp Fq) as [Fm Em].
  { fold P Q. rewrite Rabs_pos_eq by lra. rewrite p126. lra. }
  fold P Q in Em. pose proof (Herr (P * Q)) as E1. rewrite <- Em in E1. set (nn := fmul fo (inner fo x x) (inner fo y y)) in *.
  set (m := rv fm nn) in *. rewrite (Rabs_pos_eq (P * Q)) in E1 by lra.
  assert (HH : h <= u * (P * Q)).
  { apply Rle_trans with hsmall; [lra|]. apply Rle_trans with (/ 9007199254740992 * (/ 2 * / 1208925819614629174706176)); [lra|].
    apply Rmult_le_compat; lra. }
  apply Rabs_bounds in E1. assert (M1 : (1 - 2 * u) * (P * Q) <= m <= (1 + 2 * u) * (P * Q)) by lra.
  assert (M2 : / 2 * (W * W) <= m <= 2 * (W * W)).
  { split.
    - apply Rle_trans with (0.9 * (P * Q)); [lra|]. apply Rle_trans with ((1 - 2 * u) * (P * Q)); [apply Rmult_le_compat_r|]; lra.
    - apply Rle_trans with (1.1 * (P * Q)); [|lra]. apply Rle_trans with ((1 + 2 * u) * (P * Q)); [|apply Rmult_le_compat_r]; lra. }
  destruct (l_0 fm L) as [F0 E0]. destruct (l_2 fm L) as [F2 E2].
  replace (flt fo (f0 fo) nn) with true by (symmetry; apply (l_lt fm L); auto; rewrite E0; fold m; lra).
  assert (SM : (1 - 2 * u) * ((1 - g) * W) <= sqrt m <= (1 + 2 * u) * ((1 + g) * W)).
  { apply sqrt_between.
    - apply Rmult_le_pos; [lra|]. apply Rmult_le_pos; lra.
    - apply Rmult_le_pos; [lra|]. apply Rmult_le_pos; lra.
    - apply Rle_trans with ((1 - 2 * u) * (P * Q)); [|lra].
      replace ((1 - 2 * u) * ((1 - g) * W) * ((1 - 2 * u) * ((1 - g) * W))) with ((1 - 2 * u) * ((1 - 2 * u) * ((1 - g) * W * ((1 - g) * W)))) by ring.
      apply Rmult_le_compat_l; [lra|]. apply Rle_trans with (1 * ((1 - g) * W * ((1 - g) * W))); [|lra].
      apply Rmult_le_compat_r; [apply Rle_0_sqr|lra].
    - apply Rle_trans with ((1 + 2 * u) * (P * Q)); [lra|].
      replace ((1 + 2 * u) * ((1 + g) * W) * ((1 + 2 * u) * ((1 + g) * W))) with ((1 + 2 * u) * ((1 + 2 * u) * ((1 + g) * W * ((1 + g) * W)))) by ring.
      apply Rmult_le_compat_l; [lra|]. apply Rle_trans with (1 * ((1 + g) * W * ((1 + g) * W))); [lra|].
      apply Rmult_le_compat_r; [apply Rle_0_sqr|lra]. }
  destruct (l_sqrt fm L nn Fm) as [Fs Es]; [fold m; lra|fold m; rewrite p126; lra|]. fold m in Es.
  pose proof (sqrt_err m ltac:(lra)) as ES. rewrite <- Es in ES. set (s := rv fm (fsqrt fo nn)) in *. apply Rabs_bounds in ES.
  set (g1 := g + 6 * u). assert (Hg1 : g1 <= / 6) by (unfold g1; lra).
  assert (S1 : (1 - g1) * W <= s <= (1 + g1) * W).
  { assert (A1 : (1 - g1) <= (1 - 3 * u) * ((1 - 2 * u) * (1 - g))).
    { assert (B1 : 0 <= u * u) by apply Rle_0_sqr. assert (B2 : 0 <= u * g) by (apply Rmult_le_pos; lra).
      assert (B3 : u * u * g <= u * u * 1) by (apply Rmult_le_compat_l; lra). unfold g1. lra. }
    assert (A2 : (1 + 3 * u) * ((1 + 2 * u) * (1 + g)) <= 1 + g1).
    { assert (B1 : u * u <= / 16777216 * u) by (apply Rmult_le_compat_r; lra).
      assert (B2 : u * g <= u * / 7) by (apply Rmult_le_compat_l; lra).
      assert (B3 : u * u * g <= / 16777216 * u * / 7) by (apply Rmult_le_compat; try lra; apply Rle_0_sqr).
      unfold g1. lra. }
    split.
    - apply Rle_trans with ((1 - 3 * u) * ((1 - 2 * u) * (1 - g)) * W); [apply Rmult_le_compat_r; lra|].
      apply Rle_trans with ((1 - 3 * u) * sqrt m); [|lra].
      replace ((1 - 3 * u) * ((1 - 2 * u) * (1 - g)) * W) with ((1 - 3 * u) * ((1 - 2 * u) * ((1 - g) * W))) by ring.
      apply Rmult_le_compat_l; lra.
    - apply Rle_trans with ((1 + 3 * u) * ((1 + 2 * u) * (1 + g)) * W); [|apply Rmult_le_compat_r; lra].
      apply Rle_trans with ((1 + 3 * u) * sqrt m); [lra|].
      replace ((1 + 3 * u) * ((1 + 2 * u) * (1 + g)) * W) with ((1 + 3 * u) * ((1 + 2 * u) * ((1 + g) * W))) by ring.
      apply Rmult_le_compat_l; lra. }
  assert (Ws : 0.8 * W <= s) by (apply Rle_trans with ((1 - g1) * W); [apply Rmult_le_compat_r|]; lra). assert (DW : Rabs D <= W) by lra.
  assert (Bd : Rabs d <= (1 + g) * W).
  { replace d with (D + (d - D)) by ring. eapply Rle_trans; [apply Rabs_triang|]. lra. }
  destruct (l_mul fm L (f2 fo) (inner fo x y) F2 Fd) as [Ft Et].
  { rewrite E2. fold d. rewrite Rabs_mult, (Rabs_pos_eq 2), p126 by lra. assert ((1 + g) * W <= 2 * W) by (apply Rmult_le_compat_r; lra). lra. }
  rewrite E2 in Et. fold d in Et. pose proof (Herr (2 * d)) as E3. rewrite <- Et in E3. set (tt := fmul fo (f2 fo) (inner fo x y)) in *.
  set (t := rv fm tt) in *. rewrite Rabs_mult, (Rabs_pos_eq 2) in E3 by lra.
  assert (hW : h <= / 100 * (u * W)).
  { apply Rle_trans with hsmall; [lra|]. apply Rle_trans with (/ 100 * (/ 9007199254740992 * / 1099511627776)); [lra|].
    apply Rmult_le_compat_l; [lra|]. apply Rmult_le_compat; lra. }
  assert (E4 : Rabs (t - 2 * D) <= (2 * g + 3 * u) * W).
  { replace (t - 2 * D) with ((t - 2 * d) + 2 * (d - D)) by ring. eapply Rle_trans; [apply Rabs_triang|].
    rewrite Rabs_mult, (Rabs_pos_eq 2) by lra.
    assert (u * (2 * Rabs d) <= u * (2 * ((1 + g) * W))) by (apply Rmult_le_compat_l; lra).
    assert (u * (2 * ((1 + g) * W)) <= 2.5 * (u * W)).
    { replace (u * (2 * ((1 + g) * W))) with ((2 * (1 + g)) * (u * W)) by ring. apply Rmult_le_compat_r; [apply Rmult_le_pos; lra|lra]. }
    lra. }
  assert (Sp : 0 < s) by lra.
  set (r := 2 * (D / W)).
  assert (E5 : Rabs (t / s - r) <= (10 * n + 33) * u).
  { replace (t / s - r) with ((t - 2 * D + 2 * (D / W) * (W - s)) / s) by (unfold r; field; lra).
    unfold Rdiv at 1. rewrite Rabs_mult, (Rabs_pos_eq (/ s)) by (left; now apply Rinv_0_lt_compat).
    apply Rle_trans with (((2 * g + 3 * u + 2 * g1) * W) * / s).
    - apply Rmult_le_compat_r; [left; now apply Rinv_0_lt_compat|]. eapply Rle_trans; [apply Rabs_triang|].
      assert (Rabs (2 * (D / W) * (W - s)) <= 2 * g1 * W); [|lra].
      rewrite Rabs_mult. apply Rle_trans with (2 * (g1 * W)); [|lra]. apply Rmult_le_compat; try apply Rabs_pos.
      + rewrite Rabs_mult, (Rabs_pos_eq 2) by lra. unfold Rdiv. rewrite Rabs_mult, (Rabs_pos_eq (/ W)) by (left; apply Rinv_0_lt_compat; lra).
        assert (Rabs D * / W <= 1); [|lra]. apply Rmult_le_reg_r with W; [lra|]. rewrite Rmult_assoc, Rinv_l, Rmult_1_r by lra. lra.
      + apply Rabs_le. lra.
    - apply Rmult_le_reg_r with s; [exact Sp|]. rewrite Rmult_assoc, Rinv_l, Rmult_1_r by lra.
      apply Rle_trans with ((10 * n + 33) * u * ((1 - g1) * W)).
      + replace ((10 * n + 33) * u * ((1 - g1) * W)) with (((10 * n + 33) * u * (1 - g1)) * W) by ring. apply Rmult_le_compat_r; [lra|].
        apply Rle_trans with ((10 * n + 33) * u * (5 / 6)); [unfold g1, g; lra|]. apply Rmult_le_compat_l; [apply Rmult_le_pos; lra|lra].
      + apply Rmult_le_compat_l; [apply Rmult_le_pos; lra|lra]. }
  assert (Hr : Rabs r <= 2).
  { unfold r. rewrite Rabs_mult, (Rabs_pos_eq 2) by lra. unfold Rdiv. rewrite Rabs_mult, (Rabs_pos_eq (/ W)) by (left; apply Rinv_0_lt_compat; lra).
    assert (Rabs D * / W <= 1); [|lra]. apply Rmult_le_reg_r with W; [lra|]. rewrite Rmult_assoc, Rinv_l, Rmult_1_r by lra. lra. }
  assert (Hts : Rabs (t / s) <= 3).
  { replace (t / s) with (r + (t / s - r)) by ring. eapply Rle_trans; [apply Rabs_triang|]. lra. }
  destruct (l_div fm L tt (fsqrt fo nn) Ft) as [Fv Ev]; [fold s; lra|fold t s; rewrite p126; lra|].
  fold t s in Ev. pose proof (Herr (t / s)) as E6. rewrite <- Ev in E6. set (vv := fdiv fo tt (fsqrt fo nn)) in *. set (v := rv fm vv) in *.
  assert (hu : h <= / 100 * u) by lra.
  assert (E7 : Rabs (v - t / s) <= 3.01 * u) by (assert (u * Rabs (t / s) <= u * 3) by (apply Rmult_le_compat_l; lra); lra).
  assert (Hv : Rabs (2 - v) <= 5.1).
  { replace (2 - v) with (2 - t / s - (v - t / s)) by ring. pose proof (Rabs_le_inv _ _ Hts). pose proof (Rabs_le_inv _ _ E7). apply Rabs_le. lra. }
  destruct (l_sub fm L (f2 fo) vv F2 Fv) as [Fw Ew]; [rewrite E2; fold v; rewrite p126; lra|].
  rewrite E2 in Ew. fold v in Ew. pose proof (Herr (2 - v)) as E8. rewrite <- Ew in E8.
  split; [exact Fw|]. set (w := rv fm (fsub fo (f2 fo) vv)) in *.
  assert (E9 : Rabs (w - (2 - v)) <= 5.2 * u) by (assert (u * Rabs (2 - v) <= u * 5.1) by (apply Rmult_le_compat_l; lra); lra).
  fold W. fold r. replace (w - (2 - r)) with ((w - (2 - v)) - ((v - t / s) + (t / s - r))) by ring.
  apply Rabs_le_inv in E9. apply Rabs_le_inv in E7. apply Rabs_le_inv in E5. apply Rabs_le. lra.
Qed.
End Err.

(** ** The root of a rounded square *)
Lemma rnd_err_below prec emin x k : (0 < prec)%Z -> (emin <= k - prec)%Z -> x <> 0 -> Rabs x < p2 k ->
  Rabs (rnd prec emin x - x) <= / 2 * p2 (k - prec).
Proof.
  intros Hp Hk Zx Hx. assert (Prec_gt_0 prec) by exact Hp.
  eapply Rle_trans; [apply error_le_half_ulp; exact _|]. apply Rmult_le_compat_l; [lra|].
  rewrite ulp_neq_0 by exact Zx. apply bpow_le. unfold cexp, FLT_exp.
  pose proof (mag_le_bpow radix2 x k Zx Hx). lia.
Qed.
Lemma rnd_stays prec emin d y : (0 < prec)%Z -> generic_format radix2 (FLT_exp emin prec) d -> 0 < d ->
  (y = d \/ d <> p2 (mag radix2 d - 1) /\ Rabs (y - d) < / 2 * ulp radix2 (FLT_exp emin prec) d) -> rnd prec emin y = d.
Proof.
  intros Hp Fd Pd [->|[Hn Hy]]; [now apply rnd_generic|]. assert (Prec_gt_0 prec) by exact Hp.
  apply Rabs_lt_inv in Hy.
  assert (E1 : succ radix2 (FLT_exp emin prec) d = d + ulp radix2 (FLT_exp emin prec) d) by (apply succ_eq_pos; lra).
  assert (E2 : pred radix2 (FLT_exp emin prec) d = d - ulp radix2 (FLT_exp emin prec) d).
  { rewrite pred_eq_pos by lra. unfold pred_pos. rewrite Req_bool_false; [reflexivity|exact Hn]. }
  apply Rle_antisym.
  - apply round_N_le_midp; try exact _; auto. rewrite E1. lra.
  - apply round_N_ge_midp; try exact _; auto. rewrite E2. lra.
Qed.
Lemma sq_exact prec emin e : (0 < prec)%Z -> (emin <= 2 * e - prec)%Z ->
  rnd prec emin (p2 e * p2 e) = p2 e * p2 e.
Proof.
  intros Hp He. rewrite <- bpow_plus. assert (Prec_gt_0 prec) by exact Hp. apply rnd_generic; [exact Hp|].
  apply generic_format_bpow. unfold FLT_exp. lia.
Qed.
(** How far the root of the rounded square is from where it started. *)
Lemma root_sq_close prec emin d e : (20 < prec)%Z -> (emin <= 2 * (e - 1) - prec)%Z -> p2 (e - 1) <= d < p2 e ->
  let m := rnd prec emin (d * d) in
  0 < m /\ Rabs (sqrt m - d) <= 0.4 * p2 (e - prec) /\ sqrt m <= 1.1 * p2 e.
Proof.
  intros Hp He [H1 H2] m.
  assert (P1 : 0 < p2 (e - 1)) by apply bpow_gt_0. set (B := p2 (e - 1)) in *.
  assert (EB : p2 e = 2 * B) by (unfold B; replace e with ((e - 1) + 1)%Z at 1 by lia; rewrite bpow_plus; cbn; lra).
  set (U := p2 (e - prec)). assert (PU : 0 < U) by apply bpow_gt_0.
  assert (UB : U <= / 1048576 * (2 * B)).
  { rewrite <- EB. change (/ 1048576) with (p2 (-20)). unfold U. rewrite <- bpow_plus. apply bpow_le. lia. }
  assert (Dd : d * d <> 0) by nra.
  assert (BB : p2 (2 * e) = 4 * (B * B)) by (replace (2 * e)%Z with (e + e)%Z by lia; rewrite bpow_plus, EB; ring).
  assert (BB1 : p2 (2 * e - 1) = 2 * (B * B)) by (replace (2 * e - 1)%Z with (e + (e - 1))%Z by lia; rewrite bpow_plus, EB; fold B; ring).
  assert (T1 : p2 (2 * e - prec) = U * (2 * B)) by (rewrite <- EB; unfold U; rewrite <- bpow_plus; f_equal; lia).
  assert (T2 : p2 (2 * e - 1 - prec) = U * B) by (unfold U, B; rewrite <- bpow_plus; f_equal; lia).
  assert (DD : B * B <= d * d) by (apply Rmult_le_compat; lra).
  assert (Key : 0.5 * (d * d) <= m /\ m <= 1.1 * (4 * (B * B)) /\ Rabs (m - d * d) <= 0.79 * U * d).
  { destruct (Rlt_or_le (d * d) (2 * (B * B))) as [C|C].
    - pose proof (rnd_err_below prec emin (d * d) (2 * e - 1) ltac:(lia) ltac:(lia) Dd) as E.
      rewrite Rabs_pos_eq, BB1, T2 in E by nra. specialize (E C). fold m in E.
      assert (U * B <= U * d) by (apply Rmult_le_compat_l; lra).
      assert (U * B <= / 1048576 * (2 * B) * B) by (apply Rmult_le_compat_r; lra).
      pose proof (Rabs_bounds _ _ _ E). split; [lra|]. split; lra.
    - pose proof (rnd_err_below prec emin (d * d) (2 * e) ltac:(lia) ltac:(lia) Dd) as E.
      rewrite Rabs_pos_eq, BB, T1 in E by nra.
      assert (C2 : d * d < 4 * (B * B)) by (replace (4 * (B * B)) with ((2 * B) * (2 * B)) by ring; apply Rmult_le_0_lt_compat; lra).
      specialize (E C2). fold m in E.
      assert (D2 : 1.41 * B <= d) by (apply Rsqr_incr_0_var; [unfold Rsqr; nra|lra]).
      assert (U * (1.41 * B) <= U * d) by (apply Rmult_le_compat_l; lra).
      assert (U * B <= / 1048576 * (2 * B) * B) by (apply Rmult_le_compat_r; lra).
      pose proof (Rabs_bounds _ _ _ E). split; [lra|]. split; lra. }
  destruct Key as (K1 & K2 & K3). assert (Pm : 0 < m) by nra. split; [exact Pm|].
  assert (S0 : 0 <= sqrt m) by apply sqrt_pos. pose proof (sqrt_sqrt m (Rlt_le _ _ Pm)) as SS.
  assert (Dif : (sqrt m - d) * (sqrt m + d) = m - d * d) by (rewrite <- SS at 3; ring).
  assert (Low : 0.999 * d <= sqrt m).
  { apply Rsqr_incr_0_var; [|exact S0]. unfold Rsqr. rewrite SS. pose proof (Rabs_bounds _ _ _ K3) as [G _].
    assert (U * d <= / 1048576 * (2 * B) * d) by (apply Rmult_le_compat_r; lra).
    assert (B * d <= d * d) by (apply Rmult_le_compat_r; lra). lra. }
  split.
  - assert (G : Rabs (sqrt m - d) * (1.999 * d) <= 0.79 * U * d).
    { apply Rle_trans with (Rabs (sqrt m - d) * (sqrt m + d)); [apply Rmult_le_compat_l; [apply Rabs_pos|lra]|].
      rewrite <- (Rabs_pos_eq (sqrt m + d)) by lra. rewrite <- Rabs_mult, Dif. exact K3. }
    apply Rmult_le_reg_r with (1.999 * d); [lra|]. eapply Rle_trans; [exact G|].
    assert (0 <= U * d) by (apply Rmult_le_pos; lra). lra.
  - rewrite EB. apply Rsqr_incr_0_var; [|lra]. unfold Rsqr. rewrite SS. assert (0 < B * B) by (apply Rmult_lt_0_compat; lra). lra.
Qed.

Lemma root_sq fm d : is_fmt fm -> generic_format radix2 (FLT_exp (femin fm) (fprec fm)) d -> p2 (-50) <= d ->
  rn fm (rnd 53 (-1074) (sqrt (rn fm (d * d)))) = d.
Proof.
  intros FM Fd Hd. assert (Pd : 0 < d) by (eapply Rlt_le_trans; [apply bpow_gt_0|exact Hd]).
  set (e := mag radix2 d : Z). pose proof (bpow_mag_gt radix2 d) as G1. pose proof (bpow_mag_le radix2 d ltac:(lra)) as G2.
  rewrite Rabs_pos_eq in G1, G2 by lra. fold e in G1, G2.
  assert (He : (-50 < e)%Z) by (apply (lt_bpow radix2); lra).
  assert (ULP : forall fm, is_fmt fm -> ulp radix2 (FLT_exp (femin fm) (fprec fm)) d = p2 (e - fprec fm)).
  { intros fm0 F0. rewrite ulp_neq_0 by lra. f_equal. unfold cexp, FLT_exp. fold e. destruct F0 as [->| ->]; cbn [femin fprec fmt32 fmt64]; lia. }
  destruct (Req_dec d (p2 (e - 1))) as [Ed|Nd].
  - assert (Q : rn fm (d * d) = d * d).
    { rewrite Ed. unfold rn. apply sq_exact; destruct FM as [->| ->]; cbn [femin fprec fmt32 fmt64]; lia. }
    rewrite Q, sqrt_square by lra. rewrite (rnd_generic 53).
    + apply rnd_generic; [destruct FM as [->| ->]; reflexivity|exact Fd].
    + lia.
    + rewrite Ed. apply generic_format_bpow. unfold FLT_exp. lia.
  - assert (C : let m := rn fm (d * d) in 0 < m /\ Rabs (sqrt m - d) <= 0.4 * p2 (e - fprec fm) /\ sqrt m <= 1.1 * p2 e).
    { apply root_sq_close; destruct FM as [->| ->]; cbn [femin fprec fmt32 fmt64]; try lia; split; assumption. }
    cbv zeta in C. set (m := rn fm (d * d)) in *. destruct C as (C1 & C2 & C3).
    pose proof (bpow_gt_0 radix2 (e - fprec fm)) as PU. pose proof (sqrt_pos m) as S0.
    destruct FM as [->| ->].
    + unfold rn at 1. apply rnd_stays; [reflexivity|exact Fd|exact Pd|]. right. split; [exact Nd|].
      change (FLT_exp (femin fmt32) (fprec fmt32)) with (FLT_exp (femin fmt32) (fprec fmt32)).
      rewrite (ULP fmt32) by now left.
      assert (Zs : sqrt m <> 0) by (intro Z; apply sqrt_eq_0 in Z; lra).
      assert (E : Rabs (rnd 53 (-1074) (sqrt m) - sqrt m) <= / 2 * p2 (e + 1 - 53)).
      { apply rnd_err_below; try lia; [exact Zs|]. rewrite Rabs_pos_eq by lra. rewrite bpow_plus. cbn [bpow]. change (IZR (Z.pow_pos radix2 1)) with 2.
        pose proof (bpow_gt_0 radix2 e). lra. }
      assert (B : p2 (e + 1 - 53) <= / 16 * p2 (e - fprec fmt32)).
      { change (/ 16) with (p2 (-4)). rewrite <- bpow_plus. apply bpow_le. cbn [fprec fmt32]. lia. }
      replace (rnd 53 (-1074) (sqrt m) - d) with ((rnd 53 (-1074) (sqrt m) - sqrt m) + (sqrt m - d)) by ring.
      eapply Rle_lt_trans; [apply Rabs_triang|]. lra.
    + assert (Z : rn fmt64 (rnd 53 (-1074) (sqrt m)) = rn fmt64 (sqrt m)).
      { unfold rn. apply rnd_generic; [reflexivity|]. apply generic_format_round; exact _. }
      rewrite Z. unfold rn at 1. apply rnd_stays; [reflexivity|exact Fd|exact Pd|]. right. split; [exact Nd|].
      rewrite (ULP fmt64) by now right. lra.
Qed.

(** ** Zeros, negative radicands, equal operands *)
Lemma B2R_zero prec emax (x : binary_float prec emax) : is_finite _ _ x = true -> B2R _ _ x = 0 -> exists s, x = B754_zero s.
Proof.
  intros Fx H. destruct x as [s|s|s pl P|s m e P]; try discriminate; [eauto|]. exfalso. cbn [B2R] in H.
  apply eq_0_F2R in H. cbn in H. destruct s; discriminate.
Qed.
Lemma B2R_neg prec emax (x : binary_float prec emax) : is_finite _ _ x = true -> B2R _ _ x < 0 -> exists m e P, x = B754_finite true m e P.
Proof.
  intros Fx H. destruct x as [s|s|s pl P|s m e P]; try discriminate; cbn [B2R] in H; [lra|].
  destruct s; [eauto|]. exfalso. revert H. apply Rle_not_lt. apply F2R_ge_0. cbn. lia.
Qed.
Lemma B2R_pos_sign prec emax (x : binary_float prec emax) : is_finite _ _ x = true -> 0 < B2R _ _ x -> Bsign _ _ x = false.
Proof.
  intros Fx H. destruct x as [s|s|s pl P|s m e P]; try discriminate; cbn [B2R] in H; [lra|].
  destruct s; [|reflexivity]. exfalso. revert H. apply Rle_not_lt. apply F2R_le_0. cbn. lia.
Qed.
Lemma sqrt_zero fm x : is_fmt fm -> fin fm x -> rv fm x = 0 -> fin fm (fsqrt (ops fm) x) /\ rv fm (fsqrt (ops fm) x) = 0.
Proof.
  intros [->| ->] Fx H; destruct (B2R_zero _ _ x Fx H) as [s ->]; split; destruct s; reflexivity.
Qed.
Lemma sqrt_neg fm x : is_fmt fm -> fin fm x -> rv fm x < 0 -> feq (ops fm) (fsqrt (ops fm) x) (fsqrt (ops fm) x) = false.
Proof.
  intros [->| ->] Fx H; destruct (B2R_neg _ _ x Fx H) as (m & e & P & ->); cbn [ops fmt32 fmt64 fsqrt feq fops32 fops64].
  - destruct (to64_exact (B754_finite true m e P) eq_refl) as [F1 E1]. cbn [rv fmt32] in H. rewrite <- E1 in H.
    destruct (B2R_neg _ _ _ F1 H) as (m' & e' & P' & ->). reflexivity.
  - reflexivity.
Qed.
Lemma sub_same fm x y : is_fmt fm -> fin fm x -> fin fm y -> 0 < rv fm x -> rv fm y = rv fm x -> fsub (ops fm) x y = f0 (ops fm).
Proof.
  intros [->| ->] Fx Fy Px E; cbn [rv fin ops fmt32 fmt64 fsub f0 fops32 fops64] in *.
  - pose proof (Bminus_correct 24 128 eq_refl eq_refl binop_nan_pl32 mode_NE x y Fx Fy) as C. cbv zeta in C.
    rewrite E, Rminus_diag_eq, round_0, Rabs_R0, Rlt_bool_true, Rcompare_Eq in C by (try exact _; auto using bpow_gt_0).
    destruct C as (C1 & C2 & C3). unfold b32_minus. destruct (B2R_zero _ _ _ C2 C1) as [s Es]. rewrite Es in *. cbn [Bsign] in C3.
    rewrite C3, (B2R_pos_sign _ _ x) by assumption. reflexivity.
  - pose proof (Bminus_correct 53 1024 eq_refl eq_refl binop_nan_pl64 mode_NE x y Fx Fy) as C. cbv zeta in C.
    rewrite E, Rminus_diag_eq, round_0, Rabs_R0, Rlt_bool_true, Rcompare_Eq in C by (try exact _; auto using bpow_gt_0).
    destruct C as (C1 & C2 & C3). unfold b64_minus. destruct (B2R_zero _ _ _ C2 C1) as [s Es]. rewrite Es in *. cbn [Bsign] in C3.
    rewrite C3, (B2R_pos_sign _ _ x) by assumption. reflexivity.
Qed.
Lemma double_format prec emin d : (0 < prec)%Z -> generic_format radix2 (FLT_exp emin prec) d -> generic_format radix2 (FLT_exp emin prec) (2 * d).
Proof.
  intros Hp H. assert (Prec_gt_0 prec) by exact Hp. apply FLT_format_generic in H; [|exact _]. destruct H as [[m e] E Hm He]. cbn [Fnum Fexp] in *.
  apply generic_format_FLT. exists (Float radix2 m (e + 1)); cbn [Fnum Fexp]; [|exact Hm|lia].
  rewrite E. unfold F2R. cbn [Fnum Fexp]. rewrite bpow_plus. cbn. lra.
Qed.

(** ** Both float types *)
Lemma fmt_laws fm : is_fmt fm -> RLaws fm.
Proof. intros [->| ->]; [apply laws32|apply laws64]. Qed.
Lemma fmt_unit fm : is_fmt fm -> / 9007199254740992 <= unit_of fm <= / 16777216.
Proof.
  intros [->| ->]; unfold unit_of; cbn [fprec fmt32 fmt64].
  - change (Z.to_nat 24) with 24%nat. cbn [pow]. lra.
  - change (Z.to_nat 53) with 53%nat. cbn [pow]. lra.
Qed.
Definition tiny (fm : Fmt) : R := p2 (femin fm - 1).
Lemma fmt_tiny fm : is_fmt fm -> 0 < tiny fm <= p2 (-150).
Proof. intros FM. split; [apply bpow_gt_0|]. apply bpow_le. destruct FM as [->| ->]; cbn [femin fmt32 fmt64]; lia. Qed.
Lemma fmt_err fm x : is_fmt fm -> Rabs (rn fm x - x) <= unit_of fm * Rabs x + tiny fm.
Proof.
  intro FM. unfold rn. eapply Rle_trans; [apply rnd_err; destruct FM as [->| ->]; reflexivity|].
  apply Rplus_le_compat; [|apply Rle_refl]. apply Rmult_le_compat_r; [apply Rabs_pos|]. right.
  destruct FM as [->| ->]; unfold unit_of; cbn [fprec fmt32 fmt64].
  - change (p2 (- (24))) with (/ 16777216). change (Z.to_nat 24) with 24%nat. cbn [pow]. lra.
  - change (p2 (- (53))) with (/ 9007199254740992). change (Z.to_nat 53) with 53%nat. cbn [pow]. lra.
Qed.

Section Both.
Variable fm : Fmt.
Hypothesis FM : is_fmt fm.
Notation fo := (ops fm).
Notation rvs := (map (rv fm)).
Notation u := (unit_of fm).

Lemma gap_accurate x y : length x = length y -> tame fm x -> tame fm y ->
  fin fm (cos_gap fo x y) /\ Rabs (rv fm (cos_gap fo x y) - true_gap (rvs x) (rvs y)) <= (10 * INR (length x) + 44) * u.
Proof. apply (gap_err fm (fmt_laws fm FM) u (tiny fm) (fmt_unit fm FM) (fmt_tiny fm FM) (fun x => fmt_err fm x FM)). Qed.

Lemma gap_range x y : tame fm x -> tame fm y -> 0 <= true_gap (rvs x) (rvs y) <= 4.
Proof.
  intros Tx Ty. pose proof (tame_len fm x Tx) as LX. pose proof (tame_len fm y Ty) as LY. unfold true_gap.
  pose proof (rdot_abs (rvs x) (rvs y)) as C1. pose proof (cauchy (rvs x) (rvs y)) as C2.
  set (W := rlen (rvs x) * rlen (rvs y)) in *. assert (HW : 0 < W) by (apply Rmult_lt_0_compat; lra).
  assert (B : Rabs (rdot (rvs x) (rvs y) / W) <= 1).
  { unfold Rdiv. rewrite Rabs_mult, (Rabs_pos_eq (/ W)) by (left; now apply Rinv_0_lt_compat).
    apply Rmult_le_reg_r with W; [exact HW|]. rewrite Rmult_assoc, Rinv_l, Rmult_1_r by lra. lra. }
  apply Rabs_le_inv in B. lra.
Qed.

Lemma root_accurate g : fin fm g -> 0 <= rv fm g <= 5 ->
  fin fm (fsqrt fo g) /\ Rabs (rv fm (fsqrt fo g) * rv fm (fsqrt fo g) - rv fm g) <= 31 * u.
Proof.
  intros Fg Hg. pose proof (fmt_unit fm FM) as HU. pose proof (fmt_tiny fm FM) as HT. destruct (Req_dec (rv fm g) 0) as [Z|Z].
  - destruct (sqrt_zero fm g FM Fg Z) as [A B]. split; [exact A|]. rewrite B, Z. replace (0 * 0 - 0) with 0 by ring. rewrite Rabs_R0. lra.
  - destruct (l_sqrt fm (fmt_laws fm FM) g Fg) as [A B]; [lra|rewrite p126; lra|]. split; [exact A|]. rewrite B.
    set (q := sqrt (rv fm g)). assert (Q0 : 0 <= q) by apply sqrt_pos.
    assert (QQ : q * q = rv fm g) by (apply sqrt_sqrt; lra).
    assert (Q1 : q <= 2.24).
    { apply Rsqr_incr_0_var; [|lra]. unfold Rsqr. lra. }
    pose proof (rnd_err 53 (-1074) q ltac:(lia)) as E1. rewrite (Rabs_pos_eq q) in E1 by exact Q0.
    change (p2 (- (53))) with (/ 9007199254740992) in E1.
    change (p2 (-150)) with (/ 1427247692705959881058285969449495136382746624) in HT.
    assert (T : p2 (-1074 - 1) <= / 1427247692705959881058285969449495136382746624).
    { change (/ 1427247692705959881058285969449495136382746624) with (p2 (-150)). apply bpow_le. lia. }
    set (r := rnd 53 (-1074) q) in *. pose proof (fmt_err fm r FM) as E2. set (s := rn fm r) in *.
    assert (U1 : / 9007199254740992 * q <= u * q) by (apply Rmult_le_compat_r; lra).
    assert (U2 : u * q <= u * 2.24) by (apply Rmult_le_compat_l; lra).
    assert (E1' : Rabs (r - q) <= 2.25 * u) by lra.
    assert (Rr : Rabs r <= 2.25).
    { replace r with (q + (r - q)) by ring. eapply Rle_trans; [apply Rabs_triang|]. rewrite (Rabs_pos_eq q) by lra. lra. }
    assert (U3 : u * Rabs r <= u * 2.25) by (apply Rmult_le_compat_l; lra).
    assert (E3 : Rabs (s - q) <= 4.51 * u).
    { replace (s - q) with ((s - r) + (r - q)) by ring. eapply Rle_trans; [apply Rabs_triang|]. lra. }
    assert (S1 : Rabs (s + q) <= 4.49).
    { replace (s + q) with (2 * q + (s - q)) by ring. eapply Rle_trans; [apply Rabs_triang|]. rewrite (Rabs_pos_eq (2 * q)) by lra. lra. }
    rewrite <- QQ. replace (s * s - q * q) with ((s - q) * (s + q)) by ring. rewrite Rabs_mult.
    apply Rle_trans with (4.51 * u * 4.49); [|lra]. apply Rmult_le_compat; try apply Rabs_pos; assumption.
Qed.

(** The distance of a vector to itself. *)
Lemma gap_self x : tame fm x -> cos_gap fo x x = f0 fo.
Proof.
  intro Tx. pose proof (fmt_laws fm FM) as L. pose proof (fmt_unit fm FM) as HU.
  destruct (inner_err fm L u (tiny fm) HU (fmt_tiny fm FM) (fun x => fmt_err fm x FM) x x eq_refl Tx Tx) as [Fd Ed].
  pose proof (tame_len fm x Tx) as LX. assert (HN : INR (length x) <= 1048576) by (destruct Tx as (H & _); lra).
  pose proof (pos_INR (length x)) as PN. rewrite <- rlen_sq in Ed. set (X := rlen (rvs x)) in *. set (n := INR (length x)) in *.
  assert (Hnu : 0 <= n * u <= / 16).
  { split; [apply Rmult_le_pos; lra|]. apply Rle_trans with (1048576 * / 16777216); [|lra]. apply Rmult_le_compat; lra. }
  assert (Hg : 0 <= (2 * n + 3) * u <= / 7) by lra.
  assert (XX : / 1099511627776 <= X * X <= 1152921504606846976).
  { split.
    - apply Rle_trans with (/ 1048576 * / 1048576); [lra|]. apply Rmult_le_compat; lra.
    - apply Rle_trans with (1073741824 * 1073741824); [|lra]. apply Rmult_le_compat; lra. }
  assert (G : (2 * n + 3) * u * (X * X) <= / 7 * (X * X)) by (apply Rmult_le_compat_r; lra).
  apply Rabs_bounds in Ed. unfold cos_gap. set (dd := inner fo x x) in *. set (d := rv fm dd) in *.
  assert (Hd : / 2199023255552 <= d <= 2305843009213693952) by lra.
  destruct (l_mul fm L dd dd Fd Fd) as [Fm Em].
  { fold d. rewrite Rabs_pos_eq by nra. rewrite p126.
    apply Rle_trans with (2305843009213693952 * 2305843009213693952); [|lra]. apply Rmult_le_compat; lra. }
  fold d in Em. set (nn := fmul fo dd dd) in *. pose proof (fmt_err fm (d * d) FM) as E1. rewrite <- Em in E1.
  assert (DD : / 4835703278458516698824704 <= d * d <= 5316911983139663491615228241121378304).
  { split.
    - apply Rle_trans with (/ 2199023255552 * / 2199023255552); [lra|]. apply Rmult_le_compat; lra.
    - apply Rle_trans with (2305843009213693952 * 2305843009213693952); [|lra]. apply Rmult_le_compat; lra. }
  rewrite (Rabs_pos_eq (d * d)) in E1 by lra. pose proof (fmt_tiny fm FM) as HT.
  change (p2 (-150)) with (/ 1427247692705959881058285969449495136382746624) in HT.
  assert (U1 : u * (d * d) <= / 16777216 * (d * d)) by (apply Rmult_le_compat_r; lra). apply Rabs_bounds in E1.
  destruct (l_0 fm L) as [F0 E0]. destruct (l_2 fm L) as [F2 E2].
  replace (flt fo (f0 fo) nn) with true by (symmetry; apply (l_lt fm L); auto; rewrite E0; lra).
  destruct (l_sqrt fm L nn Fm) as [Fs Es]; [lra|rewrite p126; lra|].
  assert (P50 : p2 (-50) <= d).
  { apply Rle_trans with (/ 2199023255552); [|lra]. change (/ 2199023255552) with (p2 (-41)). apply bpow_le. lia. }
  rewrite Em, (root_sq fm d FM (l_format fm L dd) P50) in Es.
  assert (Hp : (0 < fprec fm)%Z) by (destruct FM as [->| ->]; reflexivity).
  destruct (l_mul fm L (f2 fo) dd F2 Fd) as [Ft Et]; [rewrite E2; fold d; rewrite Rabs_pos_eq, p126; lra|].
  rewrite E2 in Et. fold d in Et. unfold rn in Et. rewrite rnd_generic in Et; [|exact Hp|apply double_format; [exact Hp|apply (l_format fm L)]].
  assert (Q : rv fm (fmul fo (f2 fo) dd) / rv fm (fsqrt fo nn) = 2) by (rewrite Et, Es; field; lra).
  destruct (l_div fm L (fmul fo (f2 fo) dd) (fsqrt fo nn) Ft) as [Fv Ev]; [rewrite Es; lra|rewrite Q, Rabs_pos_eq, p126; lra|].
  rewrite Q in Ev. unfold rn in Ev. rewrite rnd_generic in Ev; [|exact Hp|rewrite <- E2; apply (l_format fm L)].
  apply sub_same; auto; rewrite E2; [lra|exact Ev].
Qed.
End Both.
