(** What PreProcess stores with the dot product distance. *)
From Verif Require Import Base Flt Layout Rng Alloc Prog Dist Build Policy Index Search Lib Spec ForestSpec RealSpec LayoutProof FltProof MemProof StoreProof
  BuildProof BuildSpec ForestProof AfterProof AccProof DistProof.
From Coq Require Import Reals Lra.
From Flocq Require Import Core IEEE754.BinarySingleNaN IEEE754.Binary IEEE754.Bits.
Open Scope R_scope.

#[local] Instance prec24 : Prec_gt_0 24. Proof. easy. Qed.
#[local] Instance prec53 : Prec_gt_0 53. Proof. easy. Qed.

Lemma sq_law fm x : is_fmt fm -> fin fm x -> rv fm x * rv fm x <= p2 126 ->
  fin fm (fsq (ops fm) x) /\ rv fm (fsq (ops fm) x) = rn fm (rnd 53 (-1074) (rv fm x * rv fm x)).
Proof.
  intros [->| ->] Fx H; cbn [ops rv fin fmt32 fmt64 fsq fops32 fops64] in *.
  - destruct (to64_exact x Fx) as [F1 E1].
    assert (A : Rabs (B2R 53 1024 (to64 x) * B2R 53 1024 (to64 x)) <= p2 126).
    { rewrite E1, Rabs_pos_eq; [exact H|]. apply Rle_0_sqr. }
    destruct (gen_mult 53 1024 eq_refl eq_refl ltac:(lia) ltac:(lia) binop_nan_pl64 (to64 x) (to64 x) F1 F1 A) as [F2 E2].
    change (Bmult 53 1024 eq_refl eq_refl binop_nan_pl64 mode_NE (to64 x) (to64 x)) with (b64_mult mode_NE (to64 x) (to64 x)) in *.
    rewrite E1 in *. destruct (to32_round _ F2) as [F3 E3].
    + rewrite E2. apply rnd_abs_le; try lia. exact A.
    + split; [exact F3|]. rewrite E3, E2. reflexivity.
  - assert (A : Rabs (B2R 53 1024 x * B2R 53 1024 x) <= p2 126).
    { rewrite Rabs_pos_eq; [exact H|]. apply Rle_0_sqr. }
    destruct (gen_mult 53 1024 eq_refl eq_refl ltac:(lia) ltac:(lia) binop_nan_pl64 x x Fx Fx A) as [F2 E2].
    split; [exact F2|]. unfold b64_mult. rewrite E2. symmetry. apply rnd_generic; [reflexivity|]. apply generic_format_round; exact _.
Qed.

Section P.
Variable fm : Fmt.
Hypothesis FM : is_fmt fm.
Notation fo := (ops fm).
Notation rvs := (map (rv fm)).
Notation u := (unit_of fm).
Let L := fmt_laws fm FM.

Lemma rn_mono x y : x <= y -> rn fm x <= rn fm y.
Proof. apply rnd_le. destruct FM as [->| ->]; reflexivity. Qed.
Lemma rn_0 : rn fm 0 = 0.
Proof. unfold rn, rnd. apply round_0. destruct FM as [->| ->]; exact _. Qed.
Lemma rnd53_0 : rnd 53 (-1074) 0 = 0.
Proof. apply round_0. exact _. Qed.

(** Rounding twice, once in float64. *)
Lemma twice x : 0 <= x -> Rabs (rn fm (rnd 53 (-1074) x) - x) <= 2.01 * u * x + / 2 ^ 148.
Proof.
  intro Hx. pose proof (fmt_unit fm FM) as HU. pose proof (fmt_tiny fm FM) as HT.
  change (p2 (-150)) with (/ 1427247692705959881058285969449495136382746624) in HT.
  pose proof (rnd_err 53 (-1074) x ltac:(lia)) as E1. rewrite (Rabs_pos_eq x) in E1 by exact Hx.
  change (p2 (- (53))) with (/ 9007199254740992) in E1.
  assert (T : p2 (-1074 - 1) <= / 1427247692705959881058285969449495136382746624).
  { change (/ 1427247692705959881058285969449495136382746624) with (p2 (-150)). apply bpow_le. lia. }
  set (r := rnd 53 (-1074) x) in *. pose proof (fmt_err fm r FM) as E2. set (s := rn fm r) in *.
  assert (U1 : / 9007199254740992 * x <= u * x) by (apply Rmult_le_compat_r; lra).
  assert (Rr : Rabs r <= x + (u * x + / 1427247692705959881058285969449495136382746624)).
  { replace r with (x + (r - x)) by ring. eapply Rle_trans; [apply Rabs_triang|]. rewrite (Rabs_pos_eq x) by lra. lra. }
  assert (U3 : u * Rabs r <= u * (x + (u * x + / 1427247692705959881058285969449495136382746624))) by (apply Rmult_le_compat_l; lra).
  assert (U4 : u * (u * x) <= / 16777216 * (u * x)).
  { apply Rmult_le_compat_r; [apply Rmult_le_pos; lra|lra]. }
  replace (2 ^ 148) with 356811923176489970264571492362373784095686656 by (cbn [pow]; lra).
  assert (0 <= u * x) by (apply Rmult_le_pos; lra).
  assert (u * / 1427247692705959881058285969449495136382746624 <= / 16777216 * / 1427247692705959881058285969449495136382746624) by (apply Rmult_le_compat_r; lra).
  replace (s - x) with ((s - r) + (r - x)) by ring. eapply Rle_trans; [apply Rabs_triang|]. lra.
Qed.

(** A root, squared. *)
Lemma root_sq_err g B : fin fm g -> 0 <= rv fm g <= B -> / 2 ^ 41 <= B -> B <= p2 126 ->
  fin fm (fsqrt fo g) /\ 0 <= rv fm (fsqrt fo g) /\ Rabs (rv fm (fsqrt fo g) * rv fm (fsqrt fo g) - rv fm g) <= 5 * u * B.
Proof.
  intros Fg Hg HB HB2. pose proof (fmt_unit fm FM) as HU. replace (2 ^ 41) with 2199023255552 in HB by (cbn [pow]; lra).
  destruct (Req_dec (rv fm g) 0) as [Z|Z].
  - destruct (sqrt_zero fm g FM Fg Z) as [A1 A2]. split; [exact A1|]. rewrite A2, Z. replace (0 * 0 - 0) with 0 by ring. rewrite Rabs_R0.
    split; [lra|]. apply Rmult_le_pos; lra.
  - destruct (l_sqrt fm L g Fg) as [A1 A2]; [lra|lra|]. split; [exact A1|]. rewrite A2.
    set (q := sqrt (rv fm g)). assert (Q0 : 0 <= q) by apply sqrt_pos.
    assert (QQ : q * q = rv fm g) by (apply sqrt_sqrt; lra).
    split.
    { rewrite <- rn_0. apply rn_mono. rewrite <- rnd53_0. apply rnd_le; [lia|exact Q0]. }
    set (b := sqrt B). assert (B0 : / 2097152 <= b).
    { unfold b. rewrite <- (sqrt_square (/ 2097152)) by lra. apply sqrt_le_1_alt. lra. }
    assert (BB : b * b = B) by (apply sqrt_sqrt; lra).
    assert (Qb : q <= b) by (apply sqrt_le_1_alt; lra).
    pose proof (twice q Q0) as E. set (s := rn fm (rnd 53 (-1074) q)) in *.
    replace (2 ^ 148) with 356811923176489970264571492362373784095686656 in E by (cbn [pow]; lra).
    assert (U1 : u * q <= u * b) by (apply Rmult_le_compat_l; lra).
    assert (U2 : / 18889465931478580854784 <= u * b).
    { apply Rle_trans with (/ 9007199254740992 * / 2097152); [lra|]. apply Rmult_le_compat; lra. }
    assert (E' : Rabs (s - q) <= 2.02 * (u * b)) by lra.
    assert (U3 : u * b <= / 16777216 * b) by (apply Rmult_le_compat_r; lra).
    assert (S1 : Rabs (s + q) <= 2.01 * b).
    { replace (s + q) with (2 * q + (s - q)) by ring. eapply Rle_trans; [apply Rabs_triang|]. rewrite (Rabs_pos_eq (2 * q)) by lra. lra. }
    rewrite <- QQ. replace (s * s - q * q) with ((s - q) * (s + q)) by ring. rewrite Rabs_mult.
    apply Rle_trans with (2.02 * (u * b) * (2.01 * b)); [apply Rmult_le_compat; try apply Rabs_pos; assumption|].
    replace (2.02 * (u * b) * (2.01 * b)) with (2.02 * 2.01 * (u * (b * b))) by ring. rewrite BB.
    assert (0 <= u * B) by (apply Rmult_le_pos; lra). lra.
Qed.

(** ** Norms *)
Variable k : nat.
Hypothesis Hk : INR k <= 1048576.
Lemma ku_small : 0 <= INR k * u <= / 16.
Proof.
  pose proof (fmt_unit fm FM). pose proof (pos_INR k). split; [apply Rmult_le_pos; lra|].
  apply Rle_trans with (1048576 * / 16777216); [|lra]. apply Rmult_le_compat; lra.
Qed.
(** The norm computed for a vector of length [l]. *)
Definition normed (s : F fo) (l : R) : Prop :=
  fin fm s /\ 0 <= rv fm s /\ 0 <= l <= 1073741824 /\ Rabs (rv fm s * rv fm s - l * l) <= (2 * INR k + 9) * u * (l * l).

Lemma nonneg_test d : fin fm d -> 0 <= rv fm d -> flt fo (f0 fo) d || feq fo (f0 fo) d = true.
Proof.
  intros Fd Hd. destruct (l_0 fm L) as [F0 E0]. apply orb_true_iff. destruct (Req_dec (rv fm d) 0) as [Z|Z].
  - right. apply (l_eq fm L); auto. lra.
  - left. apply (l_lt fm L); auto. lra.
Qed.
Lemma tame_normed v : tame fm v -> length v = k -> normed (pp_norm fo v) (rlen (rvs v)).
Proof.
  intros Tv Hl. pose proof (fmt_unit fm FM) as HU. pose proof (tame_len fm v Tv) as LX. pose proof ku_small as Hnu.
  destruct (inner_err fm L u (tiny fm) HU (fmt_tiny fm FM) (fun x => fmt_err fm x FM) v v eq_refl Tv Tv) as [Fd Ed].
  rewrite <- rlen_sq, Hl in Ed. unfold pp_norm. rewrite <- inner_dot. set (X := rlen (rvs v)) in *. set (d := inner fo v v) in *.
  assert (XX : / 1099511627776 <= X * X <= 1152921504606846976).
  { split.
    - apply Rle_trans with (/ 1048576 * / 1048576); [lra|]. apply Rmult_le_compat; lra.
    - apply Rle_trans with (1073741824 * 1073741824); [|lra]. apply Rmult_le_compat; lra. }
  assert (G : (2 * INR k + 3) * u * (X * X) <= / 7 * (X * X)) by (apply Rmult_le_compat_r; lra).
  pose proof Ed as Ed'. apply Rabs_bounds in Ed'.
  rewrite (nonneg_test d Fd) by lra. pose proof p126 as P126.
  destruct (root_sq_err d (rv fm d) Fd) as (F1 & P1 & E1); [lra|replace (2 ^ 41) with 2199023255552 by (cbn [pow]; lra); lra|rewrite P126; lra|].
  split; [exact F1|]. split; [exact P1|]. split; [lra|]. set (s := rv fm (fsqrt fo d)) in *.
  replace (s * s - X * X) with ((s * s - rv fm d) + (rv fm d - X * X)) by ring. eapply Rle_trans; [apply Rabs_triang|].
  assert (U1 : u * rv fm d <= u * (8 / 7 * (X * X))) by (apply Rmult_le_compat_l; lra).
  assert (0 <= u * (X * X)) by (apply Rmult_le_pos; lra). lra.
Qed.
Lemma zero_normed s : fin fm s -> rv fm s = 0 -> normed s 0.
Proof. intros Fs Hs. split; [exact Fs|]. rewrite Hs. split; [lra|]. split; [lra|]. replace (0 * 0 - 0 * 0) with 0 by ring. rewrite Rabs_R0. lra. Qed.

Lemma normed_sq s l m : normed s l -> l <= m -> / 1048576 <= m ->
  fin fm (fsq fo s) /\ 0 <= rv fm (fsq fo s) /\ rv fm (fsq fo s) = rn fm (rnd 53 (-1074) (rv fm s * rv fm s)) /\
  Rabs (rv fm (fsq fo s) - l * l) <= (2 * INR k + 12) * u * (m * m).
Proof.
  intros (Fs & Ps & Hl & Es) Hm Hm0. pose proof (fmt_unit fm FM) as HU. pose proof ku_small as Hnu.
  assert (LL : 0 <= l * l <= 1152921504606846976).
  { split; [apply Rmult_le_pos; lra|]. apply Rle_trans with (1073741824 * 1073741824); [|lra]. apply Rmult_le_compat; lra. }
  assert (LM : l * l <= m * m) by (apply Rmult_le_compat; lra).
  assert (MM : / 1099511627776 <= m * m).
  { apply Rle_trans with (/ 1048576 * / 1048576); [lra|]. apply Rmult_le_compat; lra. }
  assert (G : (2 * INR k + 9) * u * (l * l) <= / 7 * (l * l)) by (apply Rmult_le_compat_r; lra).
  assert (G2 : (2 * INR k + 9) * u * (l * l) <= (2 * INR k + 9) * u * (m * m)) by (apply Rmult_le_compat_l; lra).
  set (z := rv fm s * rv fm s) in *. assert (Z0 : 0 <= z) by (apply Rmult_le_pos; exact Ps).
  pose proof Es as Es'. apply Rabs_bounds in Es'.
  destruct (sq_law fm s FM Fs) as [F1 E1]; [fold z; rewrite p126; lra|]. fold z in E1. split; [exact F1|]. rewrite E1.
  split.
  { rewrite <- rn_0. apply rn_mono. rewrite <- rnd53_0. apply rnd_le; [lia|exact Z0]. }
  split; [reflexivity|]. pose proof (twice z Z0) as E2. set (q := rn fm (rnd 53 (-1074) z)) in *.
  replace (2 ^ 148) with 356811923176489970264571492362373784095686656 in E2 by (cbn [pow]; lra).
  assert (U1 : u * z <= u * (8 / 7 * (m * m))) by (apply Rmult_le_compat_l; lra).
  assert (U2 : / 9007199254740992 * / 1099511627776 <= u * (m * m)) by (apply Rmult_le_compat; lra).
  replace (q - l * l) with ((q - z) + (z - l * l)) by ring. eapply Rle_trans; [apply Rabs_triang|]. lra.
Qed.

(** ** The largest *)
Lemma max_spec l : forall a, fin fm a -> 0 <= rv fm a -> (forall s, In s l -> fin fm s /\ 0 <= rv fm s) ->
  let r := fold_left (fun m x => if flt fo m x then x else m) l a in
  (r = a \/ In r l) /\ rv fm a <= rv fm r /\ forall s, In s l -> rv fm s <= rv fm r.
Proof.
  induction l as [|x l IH]; intros a Fa Pa Hl; cbn [fold_left]; [cbn; split; [now left|split; [lra|easy]]|].
  destruct (Hl x) as [Fx Px]; [now left|]. set (a' := if flt fo a x then x else a).
  assert (Ha : fin fm a' /\ 0 <= rv fm a' /\ rv fm a <= rv fm a' /\ rv fm x <= rv fm a' /\ (a' = a \/ a' = x)).
  { unfold a'. destruct (flt fo a x) eqn:E.
    - apply (l_lt fm L) in E; auto. repeat split; auto; lra.
    - repeat split; auto; try lra. apply Rnot_lt_le. intro C. apply (l_lt fm L) in C; auto. congruence. }
  destruct Ha as (F' & P' & A1 & A2 & A3). destruct (IH a' F' P') as (I1 & I2 & I3); [intros s Hs; apply Hl; now right|].
  cbv zeta in *. split; [|split; [lra|]].
  - destruct I1 as [->|I1]; [|right; now right]. destruct A3 as [->| ->]; [now left|right; now left].
  - intros s [<-|Hs]; [lra|auto].
Qed.

Lemma factor_err (ps : list (F fo * R)) m : (forall s l, In (s, l) ps -> normed s l /\ l <= m) ->
  (exists s, In (s, m) ps) -> / 1048576 <= m -> forall s l, In (s, l) ps ->
  let f := pp_factor fo (pp_max fo (map fst ps)) s in
  fin fm f /\ 0 <= rv fm f /\ Rabs (rv fm f * rv fm f + l * l - m * m) <= (4 * INR k + 40) * u * (m * m).
Proof.
  intros Hn (s0 & I0) Hm s l Hs. cbv zeta. set (ns := map fst ps). destruct (l_0 fm L) as [F0 Z0].
  assert (Hz : normed (f0 fo) 0) by (apply zero_normed; assumption).
  destruct (max_spec ns (f0 fo) F0) as (M1 & _ & M3); [lra|intros t Ht; apply in_map_iff in Ht; destruct Ht as ([t' lt] & <- & Ht); destruct (Hn t' lt Ht) as [(A & B & _) _]; auto|].
  unfold pp_max. set (mx := fold_left (fun m0 x => if flt fo m0 x then x else m0) ns (f0 fo)) in *.
  assert (HM : exists lx, normed mx lx /\ lx <= m).
  { destruct M1 as [->|M1]; [exists 0; split; [exact Hz|lra]|]. apply in_map_iff in M1. destruct M1 as ([t lt] & E & Ht). cbn in E. subst t. exists lt. apply Hn, Ht. }
  destruct HM as (lx & Nx & Lx). destruct (Hn s l Hs) as [Ns Ls]. destruct (Hn s0 m I0) as [N0 L0].
  destruct (normed_sq mx lx m Nx Lx Hm) as (FX & PX & RX & EX). destruct (normed_sq s l m Ns Ls Hm) as (FS & PS & RS & ES).
  destruct (normed_sq s0 m m N0 L0 Hm) as (_ & _ & R0 & E00).
  assert (mono : forall t lt, In (t, lt) ps -> rv fm (fsq fo t) = rn fm (rnd 53 (-1074) (rv fm t * rv fm t)) -> rv fm (fsq fo t) <= rv fm (fsq fo mx)).
  { intros t lt Ht ->. rewrite RX. apply rn_mono, rnd_le; [lia|]. destruct (Hn t lt Ht) as [(_ & B & _) _].
    specialize (M3 t (in_map fst _ _ Ht)).
    apply Rmult_le_compat; lra. }
  pose proof (mono s l Hs RS) as QS. pose proof (mono s0 m I0 R0) as Q0. clear mono.
  pose proof (fmt_unit fm FM) as HU. pose proof ku_small as Hnu.
  destruct N0 as (_ & _ & Lb & _).
  assert (MM : / 1099511627776 <= m * m <= 1152921504606846976).
  { split.
    - apply Rle_trans with (/ 1048576 * / 1048576); [lra|]. apply Rmult_le_compat; lra.
    - apply Rle_trans with (1073741824 * 1073741824); [|lra]. apply Rmult_le_compat; lra. }
  destruct Nx as (_ & _ & Lx0 & _). assert (LXX : lx * lx <= m * m) by (apply Rmult_le_compat; lra).
  apply Rabs_bounds in EX. apply Rabs_bounds in E00. pose proof ES as ES'. apply Rabs_bounds in ES'.
  set (X := rv fm (fsq fo mx)) in *. set (S := rv fm (fsq fo s)) in *.
  assert (G : (2 * INR k + 12) * u * (m * m) <= / 7 * (m * m)) by (apply Rmult_le_compat_r; lra).
  assert (UM : 0 <= u * (m * m)) by (apply Rmult_le_pos; lra).
  assert (UM2 : / 9007199254740992 * / 1099511627776 <= u * (m * m)) by (apply Rmult_le_compat; lra).
  assert (EX' : Rabs (X - m * m) <= (2 * INR k + 12) * u * (m * m)) by (apply Rabs_le; lra).
  pose proof (fmt_tiny fm FM) as HT. change (p2 (-150)) with (/ 1427247692705959881058285969449495136382746624) in HT.
  destruct (l_sub fm L (fsq fo mx) (fsq fo s) FX FS) as [FD ED]; [fold X S; rewrite Rabs_pos_eq, p126; lra|]. fold X S in ED.
  unfold pp_factor. set (dd := fsub fo (fsq fo mx) (fsq fo s)) in *.
  assert (PD : 0 <= rv fm dd) by (rewrite ED, <- rn_0; apply rn_mono; lra).
  rewrite (nonneg_test dd FD PD). pose proof (fmt_err fm (X - S) FM) as EE. rewrite <- ED, (Rabs_pos_eq (X - S)) in EE by lra.
  assert (U1 : u * (X - S) <= u * (8 / 7 * (m * m))) by (apply Rmult_le_compat_l; lra).
  assert (U2 : u * (m * m) <= / 16777216 * (m * m)) by (apply Rmult_le_compat_r; lra).
  assert (EE' : Rabs (rv fm dd - (X - S)) <= 1.2 * (u * (m * m))) by lra.
  assert (BD : rv fm dd <= 1.5 * (m * m)) by (apply Rabs_bounds in EE'; lra).
  destruct (root_sq_err dd (1.5 * (m * m)) FD) as (F1 & P1 & E1); [lra|replace (2 ^ 41) with 2199023255552 by (cbn [pow]; lra); lra|rewrite p126; lra|].
  split; [exact F1|]. split; [exact P1|]. set (f := rv fm (fsqrt fo dd)) in *.
  replace (f * f + l * l - m * m) with ((f * f - rv fm dd) + ((rv fm dd - (X - S)) + ((X - m * m) - (S - l * l)))) by ring.
  eapply Rle_trans; [apply Rabs_triang|]. eapply Rle_trans; [apply Rplus_le_compat_l, Rabs_triang|].
  assert (Rabs (X - m * m - (S - l * l)) <= 2 * ((2 * INR k + 12) * u * (m * m))).
  { unfold Rminus at 1. eapply Rle_trans; [apply Rabs_triang|]. rewrite Rabs_Ropp. lra. }
  lra.
Qed.
End P.

(** ** The stored factors *)
Section Stored.
Variable fm : Fmt.
Hypothesis FM : is_fmt fm.
Notation fo := (ops fm).
Notation rvs := (map (rv fm)).
Notation u := (unit_of fm).
Variable c : Cfg.
Hypothesis OK : CfgOK fo c.
Hypothesis DP : knd c = DotProduct.

Lemma zeros_norm n : fin fm (pp_norm fo (map (dec fo) (repeat 0%N n))) /\ rv fm (pp_norm fo (map (dec fo) (repeat 0%N n))) = 0.
Proof.
  assert (E : dot fo (map (dec fo) (repeat 0%N n)) (map (dec fo) (repeat 0%N n)) = f0 fo).
  { unfold dot. induction n as [|n IH]; [reflexivity|]. cbn [repeat map dot_from].
    replace (fadd fo (f0 fo) (fmul fo (dec fo 0) (dec fo 0))) with (f0 fo); [exact IH|].
    destruct FM as [->| ->]; cbn [ops fmt32 fmt64]; [rewrite dec32_0|rewrite dec64_0]; reflexivity. }
  unfold pp_norm. rewrite E. destruct FM as [->| ->]; split; reflexivity.
Qed.

Lemma factor_stored ix f plan ix' fs i v m : items_inv fo c ix f -> after_build fo c ix f plan ix' ->
  INR (N.to_nat (vlen c)) <= 1048576 ->
  (forall j w, f j = Some w -> tame fm w /\ rlen (rvs w) <= m) -> (exists j w, f j = Some w /\ rlen (rvs w) = m) -> f i = Some v ->
  exists x, vread (view fs ix') (addr fo c i + off_dot fo c) (fbytes fo) = Ok (enc_f fo x) /\ fin fm x /\
    Rabs (rv fm x * rv fm x + rlen (rvs v) * rlen (rvs v) - m * m) <= (4 * INR (N.to_nat (vlen c)) + 40) * u * (m * m).
Proof.
  intros I A Hlen Hf (j0 & w0 & J0 & M0) Hi. 
  assert (Li : (i < n_items ix)%N) by (eapply ii_ext; eauto).
  pose proof (bt_img _ _ _ _ _ _ A i Li) as Ei. unfold pre_image in Ei. rewrite DP in Ei.
  set (vs := map (fun j => n_vec fo c (image_of fo c (f j))) (rangeN (n_items ix))) in *.
  set (x := nth (N.to_nat i) (dot_factors fo vs) (f0 fo)) in *. exists x.
  assert (Hlv : forall j w, f j = Some w -> length w = N.to_nat (vlen c)).
  { intros j w Hj. pose proof (ii_len _ _ _ _ I _ _ Hj) as H. unfold lenN in H. lia. }
  split.
  { pose proof (dot_fits fo c OK DP) as Hd. pose proof (bt_ns _ _ _ _ _ _ A). pose proof (bt_ni _ _ _ _ _ _ A).
    rewrite (cap_ok_addr _ _ _ i (bt_cap _ _ _ _ _ _ A)) by lia.
    rewrite (vread_wf fo c fs ix' i (off_dot fo c) (fbytes fo)); [|apply A|lia|lia]. rewrite Ei. f_equal.
    unfold sub, splice. rewrite skipn_app_exact.
    - rewrite firstn_app_exact; [reflexivity|]. apply length_enc_f.
    - rewrite firstn_length_le; [reflexivity|]. pose proof (length_image_of fo c OK (f i)) as Hl. rewrite Hl; [lia|].
      intros w Hw. eapply ii_len; eauto. }
  set (lv := fun j => match f j with Some w => rlen (rvs w) | None => 0 end).
  set (ps := map (fun j => (pp_norm fo (n_vec fo c (image_of fo c (f j))), lv j)) (rangeN (n_items ix))).
  assert (Hps : map fst ps = map (pp_norm fo) vs) by (unfold ps, vs; rewrite !map_map; reflexivity).
  assert (Hvec : forall j, n_vec fo c (image_of fo c (f j)) = match f j with Some w => w | None => map (dec fo) (repeat 0%N (N.to_nat (vlen c))) end).
  { intro j. apply (ib_vec fo c (f j)). apply image_bytes0; [exact OK|]. intros w Hw. eapply ii_len; eauto. }
  assert (Hm : / 1048576 <= m).
  { rewrite <- M0. destruct (Hf j0 w0 J0) as [T0 _]. apply (tame_len fm w0 T0). }
  assert (Hin : forall s l, In (s, l) ps -> normed fm (N.to_nat (vlen c)) s l /\ l <= m).
  { intros s l Hs. apply in_map_iff in Hs. destruct Hs as (j & [= <- <-] & Hj). rewrite Hvec. unfold lv. destruct (f j) as [w|] eqn:Ej.
    - destruct (Hf j w Ej) as [Tw Lw]. split; [|exact Lw]. apply tame_normed; auto. eapply Hlv; eauto.
    - destruct (zeros_norm (N.to_nat (vlen c))) as [Z1 Z2]. split; [now apply zero_normed|lra]. }
  assert (Hx : x = pp_factor fo (pp_max fo (map fst ps)) (pp_norm fo v)).
  { unfold x, dot_factors. cbv zeta. rewrite <- Hps. unfold ps. rewrite !map_map. cbn [fst].
    rewrite (nth_indep _ _ (pp_factor fo (pp_max fo (map (fun j => pp_norm fo (n_vec fo c (image_of fo c (f j)))) (rangeN (n_items ix)))) (pp_norm fo (n_vec fo c (image_of fo c (f 0%N)))))).
    - rewrite (map_nth (fun j => pp_factor fo _ (pp_norm fo (n_vec fo c (image_of fo c (f j)))))).
      erewrite (nth_error_nth (rangeN (n_items ix))); [|apply nth_error_rangeN; lia]. rewrite N2Nat.id, Hvec, Hi. reflexivity.
    - rewrite map_length, length_rangeN. lia. }
  rewrite Hx. destruct (factor_err fm FM (N.to_nat (vlen c)) Hlen ps m Hin) with (s := pp_norm fo v) (l := rlen (rvs v)) as (R1 & _ & R3); auto.
  - exists (pp_norm fo w0). apply in_map_iff. exists j0. rewrite Hvec. unfold lv. rewrite J0. split; [congruence|].
    apply in_rangeN. eapply ii_ext; eauto.
  - apply in_map_iff. exists i. rewrite Hvec. unfold lv. rewrite Hi. split; [reflexivity|]. now apply in_rangeN.
Qed.
End Stored.
