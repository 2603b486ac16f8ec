(** The standard library's executable binary64 ([SpecFloat]) computes correctly
    rounded real arithmetic (through Flocq); floors of quotients; the acceptance tests
    of a split. *)
From Verif Require Import Base Imbalance Policy.
From Coq Require Import Reals Lra Lia Psatz.
From Coq Require Import Floats.SpecFloat.
From Flocq Require Import Core Relative IEEE754.BinarySingleNaN.
Open Scope R_scope.

Notation emin := (3 - 1024 - 53)%Z.
Notation rfexp := (FLT_exp emin 53).
Definition rd (x : R) : R := round radix2 rfexp ZnearestE x.
Notation bin := (binary_float 53 1024).

#[local] Instance prec_pos : Prec_gt_0 53. Proof. easy. Qed.
#[local] Instance prec_emax : Prec_lt_emax 53 1024. Proof. easy. Qed.
#[local] Instance fexp_valid : Valid_exp rfexp. Proof. apply FLT_exp_valid. easy. Qed.

Lemma round_nearest_even_equiv s m l : round_nearest_even m l = choice_mode mode_NE s m l.
Proof. case l; [reflexivity|intro k]. case k; [|reflexivity..]. now simpl; unfold Round.cond_incr; case Z.even. Qed.
Lemma round_aux_equiv sx mx ex lx :
  SpecFloat.binary_round_aux 53 1024 sx mx ex lx = binary_round_aux 53 1024 mode_NE sx mx ex lx.
Proof.
  unfold SpecFloat.binary_round_aux, binary_round_aux.
  set (q := shr_fexp _ _ _). case q; intros q1 q2; simpl. now rewrite (round_nearest_even_equiv sx).
Qed.
Lemma round_equiv s m e : SpecFloat.binary_round 53 1024 s m e = binary_round 53 1024 mode_NE s m e.
Proof.
  unfold SpecFloat.binary_round, binary_round, shl_align_fexp.
  set (q := shl_align _ _ _); case q as [q1 q2]. apply round_aux_equiv.
Qed.
Lemma normalize_equiv m e sz :
  SpecFloat.binary_normalize 53 1024 m e sz = B2SF (binary_normalize 53 1024 _ _ mode_NE m e sz).
Proof. case m as [|p|p]; [reflexivity| |]; simpl; rewrite B2SF_SF2B; apply round_equiv. Qed.
Lemma add_equiv (x y : bin) : SFadd 53 1024 (B2SF x) (B2SF y) = B2SF (Bplus mode_NE x y).
Proof.
  case x as [sx|sx| |sx mx ex Bx]; case y as [sy|sy| |sy my ey By];
  [now (trivial || simpl; case Bool.eqb).. | ]. apply normalize_equiv.
Qed.
Lemma sub_equiv (x y : bin) : SFsub 53 1024 (B2SF x) (B2SF y) = B2SF (Bminus mode_NE x y).
Proof.
  case x as [sx|sx| |sx mx ex Bx]; case y as [sy|sy| |sy my ey By];
  [now (trivial || simpl; case Bool.eqb).. | ].
  simpl. unfold Zminus. rewrite <- cond_Zopp_negb. apply normalize_equiv.
Qed.
Lemma div_equiv (x y : bin) : SFdiv 53 1024 (B2SF x) (B2SF y) = B2SF (Bdiv mode_NE x y).
Proof.
  case x as [sx|sx| |sx mx ex Bx]; case y as [sy|sy| |sy my ey By];
  [now (trivial || simpl; case Bool.eqb).. | ].
  simpl. rewrite B2SF_SF2B. set (q := SFdiv_core_binary _ _ _ _ _ _). case q as [[q1 q2] q3]. apply round_aux_equiv.
Qed.

(** [x] is a finite binary64 number whose value is [r]. *)
Definition is (x : spec_float) (r : R) : Prop := exists b : bin, B2SF b = x /\ is_finite b = true /\ B2R b = r.

Definition big : R := bpow radix2 100.
Lemma rd_big x : Rabs x <= big -> Rlt_bool (Rabs (rd x)) (bpow radix2 1024) = true.
Proof.
  intro H. apply Rlt_bool_true. apply Rle_lt_trans with big; [|now apply bpow_lt].
  apply abs_round_le_generic; auto; try exact _. apply generic_format_bpow. unfold FLT_exp. lia.
Qed.
Lemma is_int z : Rabs (IZR z) <= big -> is (d_intZ z) (rd (IZR z)).
Proof.
  intro H. unfold d_intZ. rewrite normalize_equiv. eexists. split; [reflexivity|].
  pose proof (binary_normalize_correct 53 1024 _ _ mode_NE z 0 false) as C. cbv zeta in C.
  assert (E : F2R (Float radix2 z 0) = IZR z) by (unfold F2R; cbn; lra). rewrite E in C.
  change (round radix2 (fexp 53 1024) (round_mode mode_NE) (IZR z)) with (rd (IZR z)) in C.
  rewrite rd_big in C by exact H. destruct C as (C1 & C2 & _). auto.
Qed.
Lemma is_add x y a b : is x a -> is y b -> Rabs (a + b) <= big -> is (SFadd 53 1024 x y) (rd (a + b)).
Proof.
  intros (u & <- & Fu & <-) (v & <- & Fv & <-) H. rewrite add_equiv. eexists. split; [reflexivity|].
  pose proof (Bplus_correct 53 1024 _ _ mode_NE u v Fu Fv) as C.
  change (round radix2 (fexp 53 1024) (round_mode mode_NE) (B2R u + B2R v)) with (rd (B2R u + B2R v)) in C.
  rewrite rd_big in C by exact H. destruct C as (C1 & C2 & _). auto.
Qed.
Lemma is_sub x y a b : is x a -> is y b -> Rabs (a - b) <= big -> is (SFsub 53 1024 x y) (rd (a - b)).
Proof.
  intros (u & <- & Fu & <-) (v & <- & Fv & <-) H. rewrite sub_equiv. eexists. split; [reflexivity|].
  pose proof (Bminus_correct 53 1024 _ _ mode_NE u v Fu Fv) as C.
  change (round radix2 (fexp 53 1024) (round_mode mode_NE) (B2R u - B2R v)) with (rd (B2R u - B2R v)) in C.
  rewrite rd_big in C by exact H. destruct C as (C1 & C2 & _). auto.
Qed.
Lemma is_div x y a b : is x a -> is y b -> b <> 0 -> Rabs (a / b) <= big -> is (SFdiv 53 1024 x y) (rd (a / b)).
Proof.
  intros (u & <- & Fu & <-) (v & <- & Fv & <-) Hb H. rewrite div_equiv. eexists. split; [reflexivity|].
  pose proof (Bdiv_correct 53 1024 _ _ mode_NE u v Hb) as C.
  change (round radix2 (fexp 53 1024) (round_mode mode_NE) (B2R u / B2R v)) with (rd (B2R u / B2R v)) in C.
  rewrite rd_big in C by exact H. destruct C as (C1 & C2 & _). rewrite Fu in C2. auto.
Qed.
Lemma is_compare x y a b : is x a -> is y b -> SFcompare x y = Some (Rcompare a b).
Proof.
  intros (u & <- & Fu & <-) (v & <- & Fv & <-). rewrite <- Bcompare_correct by assumption. reflexivity.
Qed.
Lemma is_ltb x y a b : is x a -> is y b -> SFltb x y = true <-> a < b.
Proof.
  intros Hx Hy. unfold SFltb. rewrite (is_compare _ _ _ _ Hx Hy).
  destruct (Rcompare_spec a b); split; intro; try lra; try discriminate; reflexivity.
Qed.
Lemma is_leb x y a b : is x a -> is y b -> SFleb x y = true <-> a <= b.
Proof.
  intros Hx Hy. unfold SFleb. rewrite (is_compare _ _ _ _ Hx Hy).
  destruct (Rcompare_spec a b); split; intro; try lra; try discriminate; reflexivity.
Qed.
Lemma is_const s m e (H : bounded 53 1024 m e = true) :
  is (S754_finite s m e) (F2R (Float radix2 (cond_Zopp s (Zpos m)) e)).
Proof. exists (B754_finite s m e H). auto. Qed.

(** ** Rounding *)
Lemma rd_mono x y : x <= y -> rd x <= rd y.
Proof. intro H. apply round_le; auto; exact _. Qed.
Lemma rd_generic x : generic_format radix2 rfexp x -> rd x = x.
Proof. intro H. apply round_generic; auto; exact _. Qed.
Lemma generic_int z : (Z.abs z <= 2 ^ 53)%Z -> generic_format radix2 rfexp (IZR z).
Proof.
  intro H. apply generic_format_FLT. destruct (Z.eq_dec (Z.abs z) (2 ^ 53)) as [E|E].
  - exists (Float radix2 (Z.sgn z * 2 ^ 52) 1); cbn [Fnum Fexp].
    + unfold F2R. cbn [Fnum Fexp bpow]. rewrite <- mult_IZR. f_equal. change (Z.pow_pos radix2 1) with 2%Z. lia.
    + rewrite Z.abs_mul. destruct z; cbn; lia.
    + lia.
  - exists (Float radix2 z 0); cbn [Fnum Fexp].
    + unfold F2R. cbn [Fnum Fexp bpow]. lra.
    + change (Zaux.radix_val radix2) with 2%Z. lia.
    + lia.
Qed.
Lemma rd_int z : (Z.abs z <= 2 ^ 53)%Z -> rd (IZR z) = IZR z.
Proof. intro H. apply rd_generic. now apply generic_int. Qed.
Lemma rd_rd x : rd (rd x) = rd x.
Proof. apply rd_generic. apply generic_format_round; exact _. Qed.
Lemma rd_0 : rd 0 = 0.
Proof. apply round_0. exact _. Qed.
Lemma rd_err x : bpow radix2 (-1000) <= x -> Rabs (rd x - x) <= bpow radix2 (-53) * x.
Proof.
  intro H.
  assert (Hp : 0 < x) by (eapply Rlt_le_trans; [apply bpow_gt_0|exact H]).
  pose proof (relative_error_N_FLT radix2 emin 53 (eq_refl : (0 < 53)%Z) (fun t => negb (Z.even t)) x) as E.
  rewrite (Rabs_pos_eq x) in E by lra.
  unfold rd. eapply Rle_trans; [apply E|].
  - eapply Rle_trans; [|exact H]. apply bpow_le. lia.
  - right. change (bpow radix2 (- (53) + 1)) with (/ 4503599627370496).
    change (bpow radix2 (-53)) with (/ 9007199254740992). lra.
Qed.
Lemma bpow53 : bpow radix2 (-53) = / 9007199254740992.
Proof. reflexivity. Qed.
Lemma small_1000 x : 1 / 10000000000 <= x -> bpow radix2 (-1000) <= x.
Proof.
  intro H. eapply Rle_trans; [|exact H]. apply Rle_trans with (bpow radix2 (-40)); [apply bpow_le; lia|].
  change (bpow radix2 (-40)) with (/ 1099511627776). lra.
Qed.
(** Rounding changes a positive number by less than one part in a million. *)
Lemma rd_close x : 1 / 10000000000 <= x -> 0.999999 * x <= rd x <= 1.000001 * x.
Proof.
  intro H. pose proof (rd_err x (small_1000 x H)) as E. rewrite bpow53 in E. apply Rabs_le_inv in E. split; nra.
Qed.

(** ** Floor of a correctly rounded quotient of integers *)
Lemma is_floor x r : is x r -> floor_int x = Zfloor r.
Proof.
  intros (b & <- & Fb & <-). destruct b as [s|s| |s m e H]; try discriminate; cbn [B2SF floor_int B2R].
  - symmetry. apply (Zfloor_IZR 0).
  - assert (E : cond_Zopp s (Zpos m) = (if s then Zneg m else Zpos m)) by (destruct s; reflexivity).
    rewrite E. set (z := if s then Zneg m else Zpos m). unfold F2R. cbn [Fnum Fexp].
    destruct (Z.leb_spec 0 e) as [He|He].
    + rewrite <- IZR_Zpower by exact He. rewrite <- mult_IZR. now rewrite Zfloor_IZR.
    + replace (bpow radix2 e) with (/ IZR (2 ^ (- e))).
      * change (IZR z * / IZR (2 ^ - e)) with (IZR z / IZR (2 ^ - e)).
        symmetry. apply Zfloor_div. apply Z.pow_nonzero; lia.
      * change 2%Z with (radix_val radix2). rewrite IZR_Zpower by lia. rewrite <- bpow_opp. f_equal. lia.
Qed.
Lemma floor_quotient a b : (0 <= a < 2 ^ 53)%Z -> (0 < b <= 2 ^ 53)%Z ->
  floor_int (SFdiv 53 1024 (d_intZ a) (d_intZ b)) = (a / b)%Z.
Proof.
  intros Ha Hb.
  assert (HbR : 0 < IZR b) by (apply IZR_lt; lia).
  assert (HaR : 0 <= IZR a) by (apply IZR_le; lia).
  assert (Hbig : forall z, (Z.abs z <= 2 ^ 53)%Z -> Rabs (IZR z) <= big).
  { intros z Hz. rewrite <- abs_IZR. apply Rle_trans with (IZR (2 ^ 53)); [now apply IZR_le|].
    change (2 ^ 53)%Z with (radix2 ^ 53)%Z. rewrite IZR_Zpower by lia. apply bpow_le. lia. }
  pose proof (is_int a (Hbig a ltac:(lia))) as Ia. pose proof (is_int b (Hbig b ltac:(lia))) as Ib.
  rewrite rd_int in Ia, Ib by lia.
  assert (Hq : 0 <= IZR a / IZR b) by (apply Rmult_le_pos; [lra|apply Rlt_le, Rinv_0_lt_compat; lra]).
  assert (Hle : IZR a / IZR b <= IZR a).
  { apply Rle_trans with (IZR a / 1); [|lra]. apply Rmult_le_compat_l; [lra|].
    apply Rinv_le; [lra|]. apply IZR_le. lia. }
  assert (Hd : is (SFdiv 53 1024 (d_intZ a) (d_intZ b)) (rd (IZR a / IZR b))).
  { apply is_div; auto; [lra|]. rewrite Rabs_pos_eq by exact Hq. eapply Rle_trans; [exact Hle|].
    pose proof (Hbig a ltac:(lia)) as B. rewrite Rabs_pos_eq in B by lra. exact B. }
  rewrite (is_floor _ _ Hd). rewrite <- (Zfloor_div a b) by lia.
  set (q := IZR a / IZR b) in *. set (k := Zfloor q).
  pose proof (Zfloor_lb q) as L. fold k in L. pose proof (Zfloor_ub q) as U. fold k in U.
  assert (Hk0 : (0 <= k)%Z).
  { unfold k. rewrite <- (Zfloor_IZR 0). apply Zfloor_le. exact Hq. }
  assert (Hk : (k <= a)%Z) by (apply le_IZR; lra).
  apply Zfloor_imp. split.
  - rewrite <- (rd_int k) by lia. apply rd_mono. exact L.
  - destruct (Z.eq_dec a 0) as [->|Hnz].
    { assert (E : q = 0) by (unfold q; unfold Rdiv; lra). rewrite E, rd_0. apply IZR_lt. lia. }
    assert (Ha1 : 1 <= IZR a) by (apply IZR_le; lia).
    assert (Hqb : q * IZR b = IZR a) by (unfold q; field; lra).
    assert (Hb53 : IZR b <= 9007199254740992) by (apply IZR_le; lia).
    assert (Hqs : bpow radix2 (-1000) <= q).
    { apply Rle_trans with (bpow radix2 (-53)); [apply bpow_le; lia|]. rewrite bpow53.
      apply Rmult_le_reg_r with (IZR b); [lra|]. rewrite Hqb.
      apply Rle_trans with 1; [|lra]. apply Rmult_le_reg_l with 9007199254740992; [lra|]. field_simplify. lra. }
    pose proof (rd_err q Hqs) as E. rewrite bpow53 in E. apply Rabs_le_inv in E.
    (* q <= k + 1 - 1/b *)
    assert (Hgap : q <= IZR (k + 1) - / IZR b).
    { assert (H1 : IZR a <= IZR (k + 1) * IZR b - 1).
      { rewrite <- mult_IZR. rewrite <- (minus_IZR _ 1). apply IZR_le.
        assert (IZR a < IZR ((k + 1) * b)); [|apply lt_IZR in H; lia].
        rewrite mult_IZR, plus_IZR. rewrite <- Hqb. apply Rmult_lt_compat_r; lra. }
      apply Rmult_le_reg_r with (IZR b); [lra|]. rewrite Hqb. rewrite Rmult_minus_distr_r. rewrite Rinv_l by lra. exact H1. }
    assert (Hsm : / 9007199254740992 * q < / IZR b).
    { apply Rmult_lt_reg_r with (IZR b); [lra|]. rewrite Rmult_assoc, Hqb, Rinv_l by lra.
      assert (IZR a < 9007199254740992) by (apply IZR_lt; lia).
      apply Rmult_lt_reg_l with 9007199254740992; [lra|]. field_simplify. lra. }
    lra.
Qed.

(** ** The acceptance tests of a split *)
Definition eps9 : R := F2R (Float radix2 4835703278458517 (-82)).
Lemma is_1em9 : is d_1em9 eps9.
Proof. exact (is_const false 4835703278458517 (-82) eq_refl). Qed.
Lemma eps9_bound : 9 / 10000000000 <= eps9 <= 11 / 10000000000.
Proof.
  unfold eps9, F2R. cbn [Fnum Fexp]. change (bpow radix2 (-82)) with (/ 4835703278458516698824704). lra.
Qed.
Lemma is_one : is d_one 1.
Proof.
  replace 1 with (F2R (Float radix2 4503599627370496 (-52))).
  - exact (is_const false 4503599627370496 (-52) eq_refl).
  - unfold F2R. cbn [Fnum Fexp]. change (bpow radix2 (-52)) with (/ 4503599627370496). lra.
Qed.
Definition r095 : R := F2R (Float radix2 8556839292003942 (-53)).
Definition r099 : R := F2R (Float radix2 8917127262193582 (-53)).
Lemma is_095 : is d_095 r095.
Proof. exact (is_const false 8556839292003942 (-53) eq_refl). Qed.
Lemma is_099 : is d_099 r099.
Proof. exact (is_const false 8917127262193582 (-53) eq_refl). Qed.
Lemma bound_095 : 0.949 <= r095 <= 0.951.
Proof. unfold r095, F2R. cbn [Fnum Fexp]. rewrite bpow53. lra. Qed.
Lemma bound_099 : 0.989 <= r099 <= 0.991.
Proof. unfold r099, F2R. cbn [Fnum Fexp]. rewrite bpow53. lra. Qed.

Lemma big_bound x : 0 <= x <= 1180591620717411303424 -> Rabs x <= big.
Proof.
  intro H. rewrite Rabs_pos_eq by lra. apply Rle_trans with (bpow radix2 70); [|apply bpow_le; lia].
  change (bpow radix2 70) with 1180591620717411303424. lra.
Qed.

(** The first argument of math.Max, as a real number. *)
Definition frac (l r : N) : R :=
  rd (rd (IZR (Z.of_N l)) / rd (rd (rd (IZR (Z.of_N l)) + rd (IZR (Z.of_N r))) + eps9)).

Lemma N_real n : (n < 2 ^ 64)%N -> 0 <= IZR (Z.of_N n) <= 18446744073709551616.
Proof. intro H. split; [|change 18446744073709551616 with (IZR (2 ^ 64))]; apply IZR_le; lia. Qed.
Lemma rd_N n : (n < 2 ^ 64)%N -> 0.999999 * IZR (Z.of_N n) <= rd (IZR (Z.of_N n)) <= 1.000001 * IZR (Z.of_N n).
Proof.
  intro H. destruct (N.eq_dec n 0) as [->|Hn].
  - change (IZR (Z.of_N 0)) with 0. rewrite rd_0. lra.
  - apply rd_close. assert (1 <= IZR (Z.of_N n)) by (apply IZR_le; lia). lra.
Qed.

Lemma frac_parts l r : (l < 2 ^ 64)%N -> (r < 2 ^ 64)%N ->
  let a := rd (IZR (Z.of_N l)) in
  let d := rd (rd (a + rd (IZR (Z.of_N r))) + eps9) in
  0 <= a <= 1.000001 * 18446744073709551616 /\
  0.99999 * (IZR (Z.of_N l) + IZR (Z.of_N r) + eps9) <= d <= 1.00001 * (IZR (Z.of_N l) + IZR (Z.of_N r) + eps9) /\
  rd (a + rd (IZR (Z.of_N r))) <= 1.0001 * 36893488147419103232.
Proof.
  intros Hl Hr a d. pose proof (N_real l Hl) as Bl. pose proof (N_real r Hr) as Br.
  pose proof (rd_N l Hl) as Rl. pose proof (rd_N r Hr) as Rr. pose proof eps9_bound as He.
  fold a in Rl. set (b := rd (IZR (Z.of_N r))) in *.
  set (L := IZR (Z.of_N l)) in *. set (Rr' := IZR (Z.of_N r)) in *.
  assert (Hs : 0.99999 * (L + Rr') - 0.0000000001 <= rd (a + b) <= 1.00001 * (L + Rr') /\
               0.999997 * (L + Rr') <= rd (a + b) <= 1.000003 * (L + Rr')).
  { destruct (Rle_or_lt (1 / 10000000000) (a + b)) as [H|H].
    - pose proof (rd_close (a + b) H). split; split; nra.
    - assert (Hl0 : l = 0%N).
      { destruct (N.eq_dec l 0); auto. assert (1 <= L) by (apply IZR_le; lia). nra. }
      assert (Hr0 : r = 0%N).
      { destruct (N.eq_dec r 0); auto. assert (1 <= Rr') by (apply IZR_le; lia). nra. }
      assert (L = 0) by (unfold L; now rewrite Hl0). assert (Rr' = 0) by (unfold Rr'; now rewrite Hr0).
      assert (a = 0) by nra. assert (b = 0) by nra.
      replace (a + b) with 0 by lra. rewrite rd_0. split; split; nra. }
  destruct Hs as [_ Hs].
  split; [split; nra|]. split; [|nra].
  assert (Hpos : 1 / 10000000000 <= rd (a + b) + eps9) by nra.
  pose proof (rd_close _ Hpos) as Hd. fold d in Hd. split; nra.
Qed.

Lemma is_frac l r : (l < 2 ^ 64)%N -> (r < 2 ^ 64)%N ->
  is (SFdiv 53 1024 (d_int l) (SFadd 53 1024 (SFadd 53 1024 (d_int l) (d_int r)) d_1em9)) (frac l r).
Proof.
  intros Hl Hr. pose proof (N_real l Hl) as Bl. pose proof (N_real r Hr) as Br. pose proof eps9_bound as He.
  pose proof (rd_N l Hl) as Rl. pose proof (rd_N r Hr) as Rr.
  destruct (frac_parts l r Hl Hr) as (Ha & Hd & Hs). cbv zeta in Ha, Hd, Hs.
  assert (Il : is (d_int l) (rd (IZR (Z.of_N l)))) by (apply is_int, big_bound; lra).
  assert (Ir : is (d_int r) (rd (IZR (Z.of_N r)))) by (apply is_int, big_bound; lra).
  assert (Is : is (SFadd 53 1024 (d_int l) (d_int r)) (rd (rd (IZR (Z.of_N l)) + rd (IZR (Z.of_N r))))).
  { apply is_add; auto. apply big_bound. lra. }
  assert (Ie : is (SFadd 53 1024 (SFadd 53 1024 (d_int l) (d_int r)) d_1em9)
                  (rd (rd (rd (IZR (Z.of_N l)) + rd (IZR (Z.of_N r))) + eps9))).
  { apply is_add; [exact Is|exact is_1em9|]. apply big_bound.
    assert (0 <= rd (rd (IZR (Z.of_N l)) + rd (IZR (Z.of_N r)))).
    { rewrite <- rd_0. apply rd_mono. lra. }
    lra. }
  set (d := rd (rd (rd (IZR (Z.of_N l)) + rd (IZR (Z.of_N r))) + eps9)) in *.
  assert (Hdp : 0 < d) by nra.
  apply is_div; [exact Il|exact Ie|now apply Rgt_not_eq|]. apply big_bound. split.
  - apply Rmult_le_pos; [lra|]. apply Rlt_le, Rinv_0_lt_compat. exact Hdp.
  - apply Rmult_le_reg_r with d; [exact Hdp|]. unfold Rdiv. rewrite Rmult_assoc, Rinv_l by lra. nra.
Qed.

Lemma frac_range l r : (l < 2 ^ 64)%N -> (r < 2 ^ 64)%N -> 0 <= frac l r <= 1.01.
Proof.
  intros Hl Hr. pose proof (N_real l Hl) as Bl. pose proof (N_real r Hr) as Br. pose proof eps9_bound as He.
  pose proof (rd_N l Hl) as Rl.
  destruct (frac_parts l r Hl Hr) as (Ha & Hd & Hs). cbv zeta in Ha, Hd, Hs. unfold frac.
  set (d := rd (rd (rd (IZR (Z.of_N l)) + rd (IZR (Z.of_N r))) + eps9)) in *.
  assert (Hdp : 0 < d) by nra.
  assert (Hq : 0 <= rd (IZR (Z.of_N l)) / d) by (apply Rmult_le_pos; [lra|apply Rlt_le, Rinv_0_lt_compat; lra]).
  assert (Hq1 : rd (IZR (Z.of_N l)) / d <= 1.001).
  { apply Rmult_le_reg_r with d; [exact Hdp|]. unfold Rdiv. rewrite Rmult_assoc, Rinv_l by lra. nra. }
  split.
  - rewrite <- rd_0. now apply rd_mono.
  - eapply Rle_trans; [apply rd_mono; exact Hq1|].
    pose proof (rd_close 1.001 ltac:(lra)). lra.
Qed.
(** splitImbalance is max(f, 1 - f) with both parts rounded. *)
Lemma is_imbalance l r : (l < 2 ^ 64)%N -> (r < 2 ^ 64)%N ->
  is (split_imbalance l r) (Rmax (frac l r) (rd (1 - frac l r))).
Proof.
  intros Hl Hr. unfold split_imbalance, d_max. cbv zeta.
  pose proof (is_frac l r Hl Hr) as F1. pose proof (frac_range l r Hl Hr) as B.
  assert (F2 : is (SFsub 53 1024 d_one (SFdiv 53 1024 (d_int l) (SFadd 53 1024 (SFadd 53 1024 (d_int l) (d_int r)) d_1em9)))
                  (rd (1 - frac l r))).
  { apply is_sub; auto using is_one. apply Rle_trans with 2; [apply Rabs_le; lra|].
    change 2 with (bpow radix2 1). apply bpow_le. lia. }
  pose proof (is_ltb _ _ _ _ F2 F1) as C.
  destruct (SFltb _ _).
  - destruct C as [C _]. specialize (C eq_refl). rewrite Rmax_left by lra. exact F1.
  - rewrite Rmax_right; [exact F2|]. destruct (Rle_or_lt (frac l r) (rd (1 - frac l r))); auto.
    destruct C as [_ C]. specialize (C H). discriminate.
Qed.
(** An empty side is never acceptable .. *)
Lemma usable_nonempty l r : (l < 2 ^ 64)%N -> (r < 2 ^ 64)%N -> split_usable l r = true -> (l <> 0 /\ r <> 0)%N.
Proof.
  intros Hl Hr U. unfold split_usable in U.
  apply (is_leb _ _ _ _ (is_imbalance l r Hl Hr) is_099) in U. pose proof bound_099.
  pose proof (Rmax_l (frac l r) (rd (1 - frac l r))). pose proof (Rmax_r (frac l r) (rd (1 - frac l r))).
  destruct (frac_parts l r Hl Hr) as (Ha & Hd & Hs). cbv zeta in Ha, Hd, Hs.
  pose proof eps9_bound as He. pose proof (rd_N l Hl) as Rl. pose proof (N_real r Hr) as Br. pose proof (N_real l Hl) as Bl.
  split; intros ->.
  - assert (E : frac 0 r = 0).
    { unfold frac. change (IZR (Z.of_N 0)) with 0. rewrite rd_0. unfold Rdiv. rewrite Rmult_0_l. apply rd_0. }
    rewrite E in *. rewrite Rminus_0_r in *. change 1 with (IZR 1) in *. rewrite rd_int in * by lia. lra.
  - destruct (N.eq_dec l 0) as [->|Hn].
    + assert (E : frac 0 0 = 0).
      { unfold frac. change (IZR (Z.of_N 0)) with 0. rewrite rd_0. unfold Rdiv. rewrite Rmult_0_l. apply rd_0. }
      rewrite E in *. rewrite Rminus_0_r in *. change 1 with (IZR 1) in *. rewrite rd_int in * by lia. lra.
    + assert (Hf : 0.992 <= frac l 0); [|lra].
      assert (H1l : 1 <= IZR (Z.of_N l)) by (apply IZR_le; lia). unfold frac.
      change (IZR (Z.of_N 0)) with 0 in *.
      set (d := rd (rd (rd (IZR (Z.of_N l)) + rd 0) + eps9)) in *.
      assert (Hdp : 0 < d) by nra.
      assert (Hq : 0.999 <= rd (IZR (Z.of_N l)) / d).
      { apply Rmult_le_reg_r with d; [exact Hdp|].
        replace (rd (IZR (Z.of_N l)) / d * d) with (rd (IZR (Z.of_N l))) by (field; now apply Rgt_not_eq). nra. }
      pose proof (rd_close 0.999 ltac:(lra)). pose proof (rd_mono _ _ Hq). lra.
Qed.
(** .. and sides of nearly equal size always are. *)
Lemma balanced_good n : (2 <= n < 2 ^ 64)%N -> split_good (n / 2) (n - n / 2) = true.
Proof.
  intro Hn. set (l := (n / 2)%N). set (r := (n - l)%N).
  assert (Hl : (l < 2 ^ 64)%N) by (unfold l; pose proof (N.div_le_upper_bound n 2 n ltac:(lia) ltac:(lia)); lia).
  assert (Hr : (r < 2 ^ 64)%N) by (unfold r; lia).
  assert (H3 : (1 <= l /\ l <= r /\ r <= l + 1)%N).
  { clear - Hn. subst r l. pose proof (N.div_mod n 2 ltac:(lia)) as E. pose proof (N.mod_lt n 2 ltac:(lia)) as M.
    set (q := (n / 2)%N) in *. set (m := (n mod 2)%N) in *. clearbody q m. lia. }
  unfold split_good. apply (is_ltb _ _ _ _ (is_imbalance l r Hl Hr) is_095). pose proof bound_095.
  destruct (frac_parts l r Hl Hr) as (Ha & Hd & Hs). cbv zeta in Ha, Hd, Hs.
  pose proof eps9_bound as He. pose proof (rd_N l Hl) as Rl. pose proof (N_real r Hr) as Br. pose proof (N_real l Hl) as Bl.
  assert (L1 : 1 <= IZR (Z.of_N l)) by (apply IZR_le; lia).
  assert (L2 : IZR (Z.of_N l) <= IZR (Z.of_N r)) by (apply IZR_le; lia).
  assert (L3 : IZR (Z.of_N r) <= IZR (Z.of_N l) + 1) by (rewrite <- plus_IZR; apply IZR_le; lia).
  assert (Hf : 0.3 <= frac l r <= 0.6).
  { unfold frac. set (d := rd (rd (rd (IZR (Z.of_N l)) + rd (IZR (Z.of_N r))) + eps9)) in *.
    assert (Hdp : 0 < d) by nra.
    assert (Hq : 0.31 <= rd (IZR (Z.of_N l)) / d <= 0.59).
    { split; (apply Rmult_le_reg_r with d; [exact Hdp|]);
        (replace (rd (IZR (Z.of_N l)) / d * d) with (rd (IZR (Z.of_N l))) by (field; now apply Rgt_not_eq)); nra. }
    pose proof (rd_close 0.31 ltac:(lra)). pose proof (rd_close 0.59 ltac:(lra)).
    pose proof (rd_mono _ _ (proj1 Hq)). pose proof (rd_mono _ _ (proj2 Hq)). lra. }
  assert (Hg : rd (1 - frac l r) <= 0.8).
  { pose proof (rd_close (1 - frac l r) ltac:(lra)). lra. }
  apply Rmax_lub_lt; lra.
Qed.
Lemma good_usable l r : (l < 2 ^ 64)%N -> (r < 2 ^ 64)%N -> split_good l r = true -> split_usable l r = true.
Proof.
  intros Hl Hr U. unfold split_good, split_usable in *.
  apply (is_ltb _ _ _ _ (is_imbalance l r Hl Hr) is_095) in U.
  apply (is_leb _ _ _ _ (is_imbalance l r Hl Hr) is_099). pose proof bound_095. pose proof bound_099. lra.
Qed.
