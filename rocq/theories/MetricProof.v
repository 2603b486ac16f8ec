(** Reported angular distances as a metric. *)
From Verif Require Import Base Flt Layout Dist ForestSpec RealSpec MetricSpec Lib FltProof AccProof DistProof.
From Coq Require Import Reals Lra Lia.
From Flocq Require Import Core IEEE754.BinarySingleNaN IEEE754.Binary IEEE754.Bits.
Open Scope R_scope.

(** ** Over the real numbers *)
Lemma rdot_diff x : forall y z, length x = length y -> length y = length z ->
  rdot (rdiff x z) (rdiff x z) = rdot (rdiff x y) (rdiff x y) + rdot (rdiff y z) (rdiff y z) + 2 * rdot (rdiff x y) (rdiff y z).
Proof.
  induction x as [|a x IH]; intros [|b y] [|d z] H1 H2; try discriminate; cbn [rdiff rdot]; [ring|].
  cbn [length] in *. rewrite (IH y z) by lia. ring.
Qed.
Lemma norm_triangle x y z : length x = length y -> length y = length z -> rlen (rdiff x z) <= rlen (rdiff x y) + rlen (rdiff y z).
Proof.
  intros H1 H2. pose proof (rlen_pos (rdiff x y)) as P1. pose proof (rlen_pos (rdiff y z)) as P2. pose proof (rlen_pos (rdiff x z)) as P3.
  apply Rsqr_incr_0_var; [|lra]. unfold Rsqr. rewrite rlen_sq, (rdot_diff x y z H1 H2), <- !rlen_sq.
  pose proof (cauchy (rdiff x y) (rdiff y z)). pose proof (rdot_abs (rdiff x y) (rdiff y z)).
  pose proof (Rle_abs (rdot (rdiff x y) (rdiff y z))). nra.
Qed.
Lemma rdot_scale k x : forall l y, rdot (scale k x) (scale l y) = k * l * rdot x y.
Proof. induction x as [|a x IH]; intros l [|b y]; cbn [scale map rdot]; try ring. fold (scale k x) (scale l y). rewrite IH. ring. Qed.
Lemma rlen_scale k x : 0 <= k -> rlen (scale k x) = k * rlen x.
Proof.
  intro Hk. unfold rlen. rewrite rdot_scale, sqrt_mult; [|nra|apply rdot_self_pos]. rewrite sqrt_square by exact Hk. reflexivity.
Qed.
Lemma sq_expand x : forall y, length x = length y -> sq_dist x y = rdot x x + rdot y y - 2 * rdot x y.
Proof.
  unfold sq_dist. induction x as [|a x IH]; intros [|b y] H; try discriminate; cbn [rdiff rdot]; [ring|].
  cbn [length] in H. rewrite (IH y) by lia. ring.
Qed.
Lemma gap_is_chord x y : length x = length y -> 0 < rlen x -> 0 < rlen y ->
  true_gap x y = sq_dist (scale (/ rlen x) x) (scale (/ rlen y) y).
Proof.
  intros Hl Hx Hy. rewrite sq_expand by (unfold scale; now rewrite !map_length). rewrite !rdot_scale, <- !rlen_sq. unfold true_gap. field. lra.
Qed.
Lemma gap_root x y : length x = length y -> 0 < rlen x -> 0 < rlen y ->
  sqrt (true_gap x y) = rlen (rdiff (scale (/ rlen x) x) (scale (/ rlen y) y)).
Proof. intros Hl Hx Hy. rewrite gap_is_chord by assumption. reflexivity. Qed.
Theorem gap_triangle x y z : length x = length y -> length y = length z -> 0 < rlen x -> 0 < rlen y -> 0 < rlen z ->
  sqrt (true_gap x z) <= sqrt (true_gap x y) + sqrt (true_gap y z).
Proof.
  intros H1 H2 Hx Hy Hz. rewrite !gap_root by (congruence || assumption). apply norm_triangle; unfold scale; rewrite !map_length; assumption.
Qed.
Lemma gap_scale k x y : 0 < k -> 0 < rlen x -> 0 < rlen y -> true_gap (scale k x) y = true_gap x y.
Proof.
  intros Hk Hx Hy. unfold true_gap. rewrite rlen_scale by lra. replace y with (scale 1 y) at 1.
  - rewrite rdot_scale. field. lra.
  - unfold scale. rewrite <- (map_id y) at 2. apply map_ext. intro. ring.
Qed.

(** ** Reported distances *)
Section S.
Variable fm : Fmt.
Hypothesis FM : is_fmt fm.
Notation fo := (ops fm).
Notation rvs := (map (rv fm)).

Lemma tame_pos x : tame fm x -> 0 < rlen (rvs x).
Proof. intros (_ & _ & H). assert (0 < / 2 ^ 20) by (apply Rinv_0_lt_compat; lra). lra. Qed.
Lemma close_root a t e : 0 <= a -> 0 <= t -> 0 <= e -> Rabs (a * a - t) <= e -> Rabs (a - sqrt t) <= sqrt e.
Proof.
  intros Ha Ht He H. pose proof (sqrt_pos t) as P. pose proof (sqrt_sqrt t Ht) as Q. set (s := sqrt t) in *.
  rewrite <- (sqrt_Rsqr_abs (a - s)). apply sqrt_le_1_alt. unfold Rsqr.
  rewrite <- Q in H. replace (a * a - s * s) with ((a - s) * (a + s)) in H by ring. rewrite Rabs_mult, (Rabs_pos_eq (a + s)) in H by lra.
  assert (A : Rabs (a - s) <= a + s) by (apply Rabs_le; lra). pose proof (Rabs_pos (a - s)).
  assert (R2 : Rabs (a - s) * Rabs (a - s) = (a - s) * (a - s)) by (rewrite <- Rabs_mult; apply Rabs_pos_eq; apply Rle_0_sqr).
  rewrite <- R2. eapply Rle_trans; [|exact H]. apply Rmult_le_compat_l; assumption.
Qed.
Lemma rnd_nonneg prec emin x : (0 < prec)%Z -> 0 <= x -> 0 <= rnd prec emin x.
Proof.
  intros Hp Hx. assert (E : rnd prec emin 0 = 0) by (unfold rnd; apply round_0; exact _). rewrite <- E. now apply rnd_le.
Qed.
Lemma root_nonneg (g : F fo) : fin fm g -> 0 <= rv fm g <= 5 -> 0 <= rv fm (fsqrt fo g).
Proof.
  intros Fg Hg. destruct (Req_dec (rv fm g) 0) as [Z|Z].
  - destruct (sqrt_zero fm g FM Fg Z) as [_ ->]. lra.
  - destruct (l_sqrt fm (fmt_laws fm FM) g Fg) as [_ ->]; [lra|rewrite p126; lra|]. unfold rn.
    apply rnd_nonneg; [destruct FM as [->| ->]; cbn; lia|]. apply rnd_nonneg; [lia|apply sqrt_pos].
Qed.
Lemma shown_close (c : Cfg) x y : knd c = Angular -> length x = length y -> tame fm x -> tame fm y ->
  0 <= shown fm (vec_distance fo c x y) /\
  Rabs (shown fm (vec_distance fo c x y) - sqrt (true_gap (rvs x) (rvs y))) <= sqrt (dist_err fm (length x)).
Proof.
  intros Hk Hl Tx Ty. destruct (gap_accurate fm FM x y Hl Tx Ty) as [Fg Eg]. pose proof (gap_range fm x y Tx Ty) as G4.
  pose proof (tame_size fm FM x Tx) as Hnu. pose proof (fmt_unit fm FM) as HU. pose proof (distance_accurate fm FM c x y Hl Tx Ty) as CD.
  assert (E0 : 0 <= dist_err fm (length x)). { unfold dist_err. apply Rmult_le_pos; [|lra]. pose proof (pos_INR (length x)). lra. }
  unfold close_distance in CD. rewrite Hk in CD. unfold shown. set (d := vec_distance fo c x y) in *. set (t := true_gap (rvs x) (rvs y)) in *.
  pose proof Eg as Eg'. apply Rabs_bounds in Eg'. destruct CD as [[Fd Hd]|[Nd Hd]].
  - rewrite (fin_not_nan fm FM d Fd).
    assert (Hpos : 0 <= rv fm d).
    { unfold d, vec_distance, reported. rewrite Hk. destruct (Rlt_or_le (rv fm (cos_gap fo x y)) 0) as [Hneg|Hpos].
      - exfalso. pose proof (AccProof.sqrt_neg fm _ FM Fg Hneg) as X. unfold d, vec_distance, reported in Fd. rewrite Hk in Fd.
        rewrite (fin_not_nan fm FM _ Fd) in X. discriminate.
      - apply root_nonneg; [exact Fg|]. lra. }
    split; [exact Hpos|]. apply close_root; lra.
  - rewrite Nd. split; [lra|]. rewrite Rabs_minus_sym, Rminus_0_r, Rabs_pos_eq by apply sqrt_pos. apply sqrt_le_1_alt. lra.
Qed.

Theorem shown_triangle (c : Cfg) x y z : knd c = Angular -> length x = length y -> length y = length z ->
  tame fm x -> tame fm y -> tame fm z ->
  shown fm (vec_distance fo c x z) <= shown fm (vec_distance fo c x y) + shown fm (vec_distance fo c y z) + 3 * sqrt (dist_err fm (length x)).
Proof.
  intros Hk H1 H2 Tx Ty Tz.
  destruct (shown_close c x z Hk ltac:(lia) Tx Tz) as [_ A]. destruct (shown_close c x y Hk H1 Tx Ty) as [_ B]. destruct (shown_close c y z Hk H2 Ty Tz) as [_ C].
  rewrite <- H1 in C. apply Rabs_bounds in A, B, C.
  pose proof (gap_triangle (rvs x) (rvs y) (rvs z) ltac:(rewrite !map_length; lia) ltac:(rewrite !map_length; lia) (tame_pos x Tx) (tame_pos y Ty) (tame_pos z Tz)). lra.
Qed.
Theorem shown_range (c : Cfg) x y : knd c = Angular -> length x = length y -> tame fm x -> tame fm y ->
  0 <= shown fm (vec_distance fo c x y) <= 2 + sqrt (dist_err fm (length x)).
Proof.
  intros Hk Hl Tx Ty. destruct (shown_close c x y Hk Hl Tx Ty) as [P A]. split; [exact P|]. apply Rabs_bounds in A.
  pose proof (gap_range fm x y Tx Ty) as G. assert (sqrt (true_gap (rvs x) (rvs y)) <= 2); [|lra].
  replace 2 with (sqrt (2 * 2)) by (rewrite sqrt_square; lra). apply sqrt_le_1_alt. lra.
Qed.
Theorem shown_scale (c : Cfg) k x x' y : knd c = Angular -> length x = length y -> tame fm x -> tame fm x' -> tame fm y ->
  0 < k -> rvs x' = scale k (rvs x) ->
  Rabs (shown fm (vec_distance fo c x' y) - shown fm (vec_distance fo c x y)) <= 2 * sqrt (dist_err fm (length x)).
Proof.
  intros Hk Hl Tx Tx' Ty Hp E. assert (Hl' : length x' = length x).
  { apply (f_equal (@length R)) in E. unfold scale in E. rewrite !map_length in E. exact E. }
  destruct (shown_close c x y Hk Hl Tx Ty) as [_ A]. destruct (shown_close c x' y Hk ltac:(lia) Tx' Ty) as [_ B].
  rewrite Hl', E, gap_scale in B by (try apply tame_pos; assumption). apply Rabs_bounds in A, B. apply bounds_Rabs. lra.
Qed.
End S.
