(** Distances do not change when vectors are multiplied by powers of two. *)
From Verif Require Import Base Flt ForestSpec RealSpec ScaleSpec AccProof.
From Coq Require Import Reals Lra Lia Psatz.
From Flocq Require Import Core Relative Plus_error IEEE754.BinarySingleNaN IEEE754.Binary IEEE754.Bits.
Open Scope R_scope.

(** ** Multiples of a power of two *)
Definition on_grid (e : Z) (x : R) : Prop := exists n : Z, x = IZR n * p2 e.
Lemma grid_coarser e e' x : (e <= e')%Z -> on_grid e' x -> on_grid e x.
Proof.
  intros He [n ->]. exists (n * Zpower radix2 (e' - e))%Z. rewrite mult_IZR, (IZR_Zpower radix2) by lia.
  rewrite Rmult_assoc, <- bpow_plus. do 2 f_equal. lia.
Qed.
Lemma grid_add e x y : on_grid e x -> on_grid e y -> on_grid e (x + y).
Proof. intros [n ->] [m ->]. exists (n + m)%Z. rewrite plus_IZR. ring. Qed.
Lemma grid_mul e f x y : on_grid e x -> on_grid f y -> on_grid (e + f) (x * y).
Proof. intros [n ->] [m ->]. exists (n * m)%Z. rewrite mult_IZR, bpow_plus. ring. Qed.
Lemma grid_0 e : on_grid e 0.
Proof. exists 0%Z. ring. Qed.
Lemma grid_size e x : on_grid e x -> x = 0 \/ p2 e <= Rabs x.
Proof.
  intros [n ->]. destruct (Z.eq_dec n 0) as [->|H]; [left; ring|right].
  rewrite Rabs_mult, (Rabs_pos_eq (p2 e)) by apply bpow_ge_0. rewrite <- abs_IZR.
  rewrite <- (Rmult_1_l (p2 e)) at 1. apply Rmult_le_compat_r; [apply bpow_ge_0|]. apply IZR_le. lia.
Qed.
Lemma grid_rnd prec emin e x : (0 < prec)%Z -> on_grid e x -> on_grid e (rnd prec emin x).
Proof.
  intros Hp Hx. assert (Prec_gt_0 prec) by exact Hp.
  destruct (Z_le_gt_dec e (cexp radix2 (FLT_exp emin prec) x)) as [H1|H1].
  - apply (grid_coarser e (cexp radix2 (FLT_exp emin prec) x)); [exact H1|].
    exists (ZnearestE (scaled_mantissa radix2 (FLT_exp emin prec) x)). reflexivity.
  - rewrite rnd_generic; [exact Hx|exact Hp|]. destruct Hx as [n En].
    change (IZR n * p2 e) with (F2R (Float radix2 n e)) in En. rewrite En in *. apply generic_format_F2R. intros _. lia.
Qed.
Lemma grid_format prec emin x e : (0 < prec)%Z -> generic_format radix2 (FLT_exp emin prec) x -> p2 e <= Rabs x -> on_grid (e - prec) x.
Proof.
  intros Hp Hx He. assert (X0 : x <> 0) by (intros ->; rewrite Rabs_R0 in He; pose proof (bpow_gt_0 radix2 e); lra).
  apply (grid_coarser _ (cexp radix2 (FLT_exp emin prec) x)).
  - unfold cexp, FLT_exp. assert (e < mag radix2 x)%Z; [|lia]. apply (lt_bpow radix2).
    eapply Rle_lt_trans; [exact He|]. apply bpow_mag_gt.
  - rewrite Hx at 2. eexists. reflexivity.
Qed.

(** ** Rounding a multiple of a power of two *)
Lemma rnd_scale prec emin k x : (0 < prec)%Z ->
  x = 0 \/ (p2 (emin + prec - 1) <= Rabs x /\ p2 (emin + prec - 1) <= Rabs (p2 k * x)) ->
  rnd prec emin (p2 k * x) = p2 k * rnd prec emin x.
Proof.
  intros Hp [->|[H1 H2]]; [unfold rnd; now rewrite Rmult_0_r, round_0, Rmult_0_r by exact _|].
  assert (Prec_gt_0 prec) by exact Hp.
  assert (X0 : x <> 0) by (intros ->; rewrite Rabs_R0 in H1; pose proof (bpow_gt_0 radix2 (emin + prec - 1)); lra).
  pose proof (mag_mult_bpow radix2 x k X0) as Hm. rewrite (Rmult_comm x) in Hm.
  assert (M1 : (emin + prec - 1 < mag radix2 x)%Z).
  { apply (lt_bpow radix2). eapply Rle_lt_trans; [exact H1|]. apply bpow_mag_gt. }
  assert (M2 : (emin + prec - 1 < mag radix2 (p2 k * x))%Z).
  { apply (lt_bpow radix2). eapply Rle_lt_trans; [exact H2|]. apply bpow_mag_gt. }
  assert (C : cexp radix2 (FLT_exp emin prec) (p2 k * x) = (cexp radix2 (FLT_exp emin prec) x + k)%Z).
  { unfold cexp, FLT_exp. lia. }
  unfold rnd, round, F2R, scaled_mantissa. cbn [Fnum Fexp]. rewrite C.
  replace (p2 k * x * p2 (- (cexp radix2 (FLT_exp emin prec) x + k))) with (x * p2 (- cexp radix2 (FLT_exp emin prec) x)).
  - rewrite bpow_plus. ring.
  - rewrite Z.opp_add_distr, bpow_plus. replace (p2 k * x * (p2 (- cexp radix2 (FLT_exp emin prec) x) * p2 (- k)))
      with (x * p2 (- cexp radix2 (FLT_exp emin prec) x) * (p2 k * p2 (- k))) by ring.
    rewrite <- bpow_plus. replace (k + - k)%Z with 0%Z by lia. cbn [bpow]. ring.
Qed.
Lemma sqrt_scale k x : 0 <= x -> sqrt (p2 (2 * k) * x) = p2 k * sqrt x.
Proof.
  intro Hx. rewrite sqrt_mult by (auto using bpow_ge_0). f_equal.
  replace (2 * k)%Z with (k + k)%Z by lia. rewrite bpow_plus. apply sqrt_square, bpow_ge_0.
Qed.

Section S.
Variable fm : Fmt.
Hypothesis FM : is_fmt fm.
Notation fo := (ops fm).
Let L : RLaws fm := fmt_laws fm FM.
(** Products of components are multiples of 2^G. *)
Definition G : Z := (-40 - 2 * fprec fm)%Z.
Lemma prec_pos : (0 < fprec fm)%Z.
Proof. destruct FM as [->| ->]; reflexivity. Qed.
Lemma prec_ge : (21 < fprec fm)%Z.
Proof. destruct FM as [->| ->]; reflexivity. Qed.
Lemma G_normal : (femin fm + fprec fm - 1 <= G)%Z.
Proof. unfold G. destruct FM as [->| ->]; cbn [femin fprec fmt32 fmt64]; lia. Qed.
Lemma emin_low : (femin fm <= -149)%Z.
Proof. destruct FM as [->| ->]; cbn [femin fmt32 fmt64]; lia. Qed.

Definition okc (a : F fo) : Prop := fin fm a /\ Rabs (rv fm a) <= 2 ^ 20 /\ (rv fm a = 0 \/ / 2 ^ 20 <= Rabs (rv fm a)).
Lemma pow20 : 2 ^ 20 = p2 20. Proof. cbn. lra. Qed.
Lemma ipow20 : / 2 ^ 20 = p2 (-20). Proof. cbn. lra. Qed.
Lemma okc_grid a : okc a -> on_grid (-20 - fprec fm) (rv fm a).
Proof.
  intros (_ & _ & [->|H]); [apply grid_0|]. rewrite ipow20 in H.
  eapply grid_format; [apply prec_pos|apply (l_format fm L)|exact H].
Qed.
Lemma rn_grid x : on_grid G x -> on_grid G (rn fm x).
Proof. apply grid_rnd, prec_pos. Qed.
Lemma rn_scale k x : on_grid G x -> on_grid G (p2 k * x) -> rn fm (p2 k * x) = p2 k * rn fm x.
Proof.
  intros H1 H2. apply rnd_scale; [apply prec_pos|]. pose proof G_normal as HG.
  destruct (grid_size _ _ H1) as [->|X1]; [now left|]. right.
  assert (HB : p2 (femin fm + fprec fm - 1) <= p2 G) by (apply bpow_le; exact HG).
  destruct (grid_size _ _ H2) as [E|X2]; [|lra]. exfalso. pose proof (bpow_gt_0 radix2 k). pose proof (bpow_gt_0 radix2 G).
  apply Rmult_integral in E. destruct E as [E|E]; [lra|]. rewrite E, Rabs_R0 in X1. lra.
Qed.

(** One step of an inner product. *)
Definition big (N : nat) : R := INR N * 2199023255552.
Lemma big_format N : INR N <= 1048576 -> generic_format radix2 (FLT_exp (femin fm) (fprec fm)) (big N).
Proof.
  intro H. pose proof prec_ge as Hp. pose proof emin_low as He. assert (Prec_gt_0 (fprec fm)) by apply prec_pos.
  apply generic_format_FLT. exists (Float radix2 (Z.of_nat N) 41); cbn [Fnum Fexp]; [|  |lia].
  - unfold big, F2R. cbn [Fnum Fexp]. rewrite <- INR_IZR_INZ. cbn [bpow]. f_equal.
  - apply Z.le_lt_trans with 1048576%Z; [|apply Z.lt_le_trans with (radix2 ^ 21)%Z; [reflexivity|apply Z.pow_le_mono_r; [reflexivity|lia]]].
    rewrite Z.abs_eq by lia. apply le_IZR. now rewrite <- INR_IZR_INZ.
Qed.
Record stp (acc : F fo) (N : nat) : Prop := mkStp {
  s_fin : fin fm acc; s_grid : on_grid G (rv fm acc); s_big : Rabs (rv fm acc) <= big N }.
Lemma prod_ok a b : okc a -> okc b -> on_grid G (rv fm a * rv fm b) /\ fin fm (fmul fo a b) /\
  rv fm (fmul fo a b) = rn fm (rv fm a * rv fm b) /\ Rabs (rv fm (fmul fo a b)) <= p2 40.
Proof.
  intros Ha Hb. pose proof (okc_grid a Ha) as Ga. pose proof (okc_grid b Hb) as Gb. destruct Ha as (Fa & Ba & _), Hb as (Fb & Bb & _).
  rewrite pow20 in *. assert (Hab : Rabs (rv fm a * rv fm b) <= p2 40).
  { rewrite Rabs_mult. change 40%Z with (20 + 20)%Z. rewrite bpow_plus. apply Rmult_le_compat; auto using Rabs_pos. }
  split. { replace G with (-20 - fprec fm + (-20 - fprec fm))%Z by (unfold G; lia). now apply grid_mul. }
  destruct (l_mul fm L a b Fa Fb) as [H1 H2]; [eapply Rle_trans; [exact Hab|apply bpow_le; lia]|].
  split; [exact H1|]. split; [exact H2|]. rewrite H2. pose proof emin_low. apply rnd_abs_le; [apply prec_pos|lia|exact Hab].
Qed.
Lemma step_ok acc N a b : stp acc N -> INR (S N) <= 1048576 -> okc a -> okc b ->
  stp (fadd fo acc (fmul fo a b)) (S N) /\
  rv fm (fadd fo acc (fmul fo a b)) = rn fm (rv fm acc + rn fm (rv fm a * rv fm b)).
Proof.
  intros [S1 S2 S3] HN Ha Hb. destruct (prod_ok a b Ha Hb) as (P1 & P2 & P3 & P4).
  assert (HS : Rabs (rv fm acc + rv fm (fmul fo a b)) <= big (S N)).
  { eapply Rle_trans; [apply Rabs_triang|]. unfold big in *. rewrite S_INR. change (p2 40) with 1099511627776 in P4. lra. }
  assert (HB : big (S N) <= p2 126) by (unfold big; rewrite p126; lra).
  destruct (l_add fm L _ _ S1 P2) as [A1 A2]; [lra|]. rewrite P3 in A2. split; [|exact A2]. constructor; [exact A1| |].
  - rewrite A2. apply rn_grid, grid_add; [exact S2|now apply rn_grid].
  - rewrite A2, <- P3. assert (Prec_gt_0 (fprec fm)) by apply prec_pos.
    apply abs_round_le_generic; try exact _; [now apply big_format|exact HS].
Qed.
Notation scaled k := (fun a b : F fo => rv fm b = p2 k * rv fm a).
Lemma dot_scaled k l x x' : Forall2 (scaled k) x x' -> forall y y' acc acc' N, Forall2 (scaled l) y y' -> length x = length y ->
  Forall okc x -> Forall okc x' -> Forall okc y -> Forall okc y' -> stp acc N -> stp acc' N -> rv fm acc' = p2 (k + l) * rv fm acc ->
  INR (N + length x) <= 1048576 ->
  stp (acc_dot fm acc x y) (N + length x) /\ stp (acc_dot fm acc' x' y') (N + length x) /\
  rv fm (acc_dot fm acc' x' y') = p2 (k + l) * rv fm (acc_dot fm acc x y).
Proof.
  induction 1 as [|a a' x x' Ea Hx IH]; intros y y' acc acc' N Hy Hl Ox Ox' Oy Oy' S S' E HN.
  - destruct y; [|discriminate]. inversion Hy; subst. cbn [length acc_dot combine map fold_left]. rewrite Nat.add_0_r. auto.
  - destruct y as [|b y]; [discriminate|]. inversion Hy as [|? b' ? y1 Eb Hy']; subst. injection Hl as Hl.
    inversion Ox; inversion Ox'; inversion Oy; inversion Oy'; subst.
    assert (HS : INR (Datatypes.S N) <= 1048576).
    { eapply Rle_trans; [|exact HN]. apply le_INR. cbn [length]. lia. }
    destruct (step_ok acc N a b S HS) as [S1 E1]; try assumption. destruct (step_ok acc' N a' b' S' HS) as [S1' E1']; try assumption.
    unfold acc_dot. cbn [combine map fold_left fst snd length]. replace (N + Datatypes.S (length x))%nat with (Datatypes.S N + length x)%nat by lia.
    apply (IH y y1 _ _ (Datatypes.S N) Hy' Hl); try assumption.
    + rewrite E1', E1, E, Ea, Eb. destruct (prod_ok a b) as (P1 & _ & P3 & _); try assumption. destruct (prod_ok a' b') as (P1' & _ & P3' & _); try assumption.
      assert (Q : p2 k * rv fm a * (p2 l * rv fm b) = p2 (k + l) * (rv fm a * rv fm b)) by (rewrite bpow_plus; ring).
      rewrite Q. rewrite Ea, Eb, Q in P1'. rewrite (rn_scale (k + l)) by assumption.
      rewrite <- Rmult_plus_distr_l. apply rn_scale.
      * apply grid_add; [apply S|now apply rn_grid].
      * rewrite Rmult_plus_distr_l, <- E. apply grid_add; [apply S'|]. rewrite <- rn_scale by assumption. now apply rn_grid.
    + cbn [length] in HN. replace (Datatypes.S N + length x)%nat with (N + Datatypes.S (length x))%nat by lia. exact HN.
Qed.

Lemma plain_okc x : plain fm x -> Forall okc x.
Proof.
  intros [(_ & H1 & _) H2]. rewrite Forall_forall in *. intros a Ha. destruct (H1 a Ha). split; [assumption|]. split; [assumption|]. now apply H2.
Qed.
Lemma inner_scaled k l x x' y y' : times_pow fm k x x' -> times_pow fm l y y' -> length x = length y ->
  plain fm x -> plain fm x' -> plain fm y -> plain fm y' ->
  fin fm (inner fo x y) /\ fin fm (inner fo x' y') /\ Rabs (rv fm (inner fo x y)) <= p2 61 /\
  rv fm (inner fo x' y') = p2 (k + l) * rv fm (inner fo x y).
Proof.
  intros Hx Hy Hl Px Px' Py Py'. destruct (l_0 fm L) as [F0 E0].
  assert (S0 : stp (f0 fo) 0) by (constructor; [exact F0|rewrite E0; apply grid_0|rewrite E0, Rabs_R0; unfold big; cbn; lra]).
  assert (HN : INR (length x) <= 1048576) by (destruct Px as [(H & _) _]; lra).
  destruct (dot_scaled k l x x' Hx y y' (f0 fo) (f0 fo) 0 Hy Hl) as (A & B & C); auto using plain_okc.
  { rewrite E0. ring. }
  split; [apply A|]. split; [apply B|]. split; [|exact C]. eapply Rle_trans; [apply A|]. unfold big.
  change (p2 61) with 2305843009213693952. cbn [Nat.add]. lra.
Qed.
Lemma self_bounds x : tame fm x -> fin fm (inner fo x x) /\ p2 (-41) <= rv fm (inner fo x x) <= p2 61.
Proof.
  intro Tx. pose proof (fmt_unit fm FM) as HU.
  destruct (inner_err fm L (unit_of fm) (tiny fm) HU (fmt_tiny fm FM) (fun x => fmt_err fm x FM) x x eq_refl Tx Tx) as [Fd Ed].
  pose proof (tame_len fm x Tx) as LX. assert (HN : INR (length x) <= 1048576) by (destruct Tx as (H & _); lra).
  pose proof (pos_INR (length x)) as PN. rewrite <- rlen_sq in Ed. set (X := rlen (map (rv fm) x)) in *. set (n := INR (length x)) in *.
  set (u := unit_of fm) in *.
  assert (Hnu : 0 <= n * u <= / 16).
  { split; [apply Rmult_le_pos; lra|]. apply Rle_trans with (1048576 * / 16777216); [|lra]. apply Rmult_le_compat; lra. }
  assert (Hg : 0 <= (2 * n + 3) * u <= / 7) by lra.
  assert (XX : / 1099511627776 <= X * X <= 1152921504606846976).
  { split.
    - apply Rle_trans with (/ 1048576 * / 1048576); [lra|]. apply Rmult_le_compat; lra.
    - apply Rle_trans with (1073741824 * 1073741824); [|lra]. apply Rmult_le_compat; lra. }
  assert (G0 : (2 * n + 3) * u * (X * X) <= / 7 * (X * X)) by (apply Rmult_le_compat_r; lra).
  apply Rabs_bounds in Ed. split; [exact Fd|]. change (p2 (-41)) with (/ 2199023255552). change (p2 61) with 2305843009213693952. lra.
Qed.

(** Equal values, equal differences from 2. *)
Lemma same_float (x y : F fo) : fin fm x -> fin fm y -> rv fm x = rv fm y -> rv fm x <> 0 -> x = y.
Proof.
  destruct FM as [->| ->]; cbn [fin rv ops fmt32 fmt64]; intros F1 F2 E NZ.
  - apply (B2R_inj 24 128); [| |exact E]; [destruct x|destruct y]; try discriminate; try reflexivity; cbn in *; congruence.
  - apply (B2R_inj 53 1024); [| |exact E]; [destruct x|destruct y]; try discriminate; try reflexivity; cbn in *; congruence.
Qed.
Lemma sub_congr t t' : fin fm t -> fin fm t' -> rv fm t' = rv fm t -> Rabs (2 - rv fm t) <= p2 126 -> fsub fo (f2 fo) t' = fsub fo (f2 fo) t.
Proof.
  intros F1 F2 E HB. destruct (l_2 fm L) as [T1 T2]. destruct (Req_dec (rv fm t) 2) as [H|H].
  - rewrite !(sub_same fm) by (try assumption; lra). reflexivity.
  - destruct (l_sub fm L _ _ T1 F1) as [A1 A2]; [now rewrite T2|]. destruct (l_sub fm L _ _ T1 F2) as [B1 B2]; [now rewrite T2, E|].
    apply same_float; [exact B1|exact A1|now rewrite A2, B2, E|]. rewrite B2, E, T2. assert (Prec_gt_0 (fprec fm)) by apply prec_pos.
    apply round_plus_neq_0; try exact _; [|apply generic_format_opp, (l_format fm L)|lra].
    rewrite <- T2. apply (l_format fm L).
Qed.

Lemma times_length k x y : times_pow fm k x y -> length y = length x.
Proof. unfold times_pow. induction 1; cbn [length]; congruence. Qed.
Theorem gap_scaled k l x x' y y' : times_pow fm k x x' -> times_pow fm l y y' -> length x = length y ->
  plain fm x -> plain fm x' -> plain fm y -> plain fm y' -> cos_gap fo x' y' = cos_gap fo x y.
Proof.
  intros Hx Hy Hl Px Px' Py Py'.
  destruct (inner_scaled k k x x' x x' Hx Hx eq_refl Px Px' Px Px') as (_ & _ & _ & EA).
  destruct (inner_scaled l l y y' y y' Hy Hy eq_refl Py Py' Py Py') as (_ & _ & _ & EB).
  destruct (inner_scaled k l x x' y y' Hx Hy Hl Px Px' Py Py') as (FI & FI' & BI & EI).
  destruct (self_bounds x (proj1 Px)) as [FA BA]. destruct (self_bounds x' (proj1 Px')) as [FA' BA'].
  destruct (self_bounds y (proj1 Py)) as [FB BB]. destruct (self_bounds y' (proj1 Py')) as [FB' BB'].
  unfold cos_gap. cbv zeta. set (A := inner fo x x) in *. set (A' := inner fo x' x') in *. set (B := inner fo y y) in *. set (B' := inner fo y' y') in *.
  set (I := inner fo x y) in *. set (I' := inner fo x' y') in *.
  set (s := (k + l)%Z) in *. pose proof prec_pos as Hp. pose proof emin_low as He. pose proof G_normal as HG. pose proof prec_ge as Hpg.
  assert (HE : (femin fm + fprec fm - 1 <= -82)%Z) by (unfold G in HG; lia).
  assert (HP : forall a b, p2 (-41) <= a <= p2 61 -> p2 (-41) <= b <= p2 61 -> p2 (-82) <= a * b <= p2 122).
  { intros a b Ha Hb. change (-82)%Z with (-41 + -41)%Z. change 122%Z with (61 + 61)%Z. rewrite !bpow_plus.
    pose proof (bpow_gt_0 radix2 (-41)). split; apply Rmult_le_compat; lra. }
  pose proof (HP _ _ BA BB) as HAB. pose proof (HP _ _ BA' BB') as HAB'.
  assert (P82 : 0 < p2 (-82)) by apply bpow_gt_0. assert (P126 : p2 122 <= p2 126) by (apply bpow_le; lia).
  destruct (l_mul fm L A B FA FB) as [FN EN]; [rewrite Rabs_pos_eq by lra; lra|].
  destruct (l_mul fm L A' B' FA' FB') as [FN' EN']; [rewrite Rabs_pos_eq by lra; lra|].
  set (n := fmul fo A B) in *. set (n' := fmul fo A' B') in *.
  assert (HF : forall e, (-82 <= e <= 122)%Z -> generic_format radix2 (FLT_exp (femin fm) (fprec fm)) (p2 e)).
  { intros e Hee. apply generic_format_bpow. unfold FLT_exp. lia. }
  assert (HR : forall a, p2 (-82) <= a <= p2 122 -> p2 (-82) <= rn fm a <= p2 122).
  { intros a [H1 H2]. unfold rn. split.
    - rewrite <- (rnd_generic (fprec fm) (femin fm) (p2 (-82)) Hp (HF (-82)%Z ltac:(lia))). now apply rnd_le.
    - rewrite <- (rnd_generic (fprec fm) (femin fm) (p2 122) Hp (HF 122%Z ltac:(lia))). now apply rnd_le. }
  pose proof (HR _ HAB) as Rn. pose proof (HR _ HAB') as Rn'. rewrite <- EN in Rn. rewrite <- EN' in Rn'.
  assert (QN : rv fm A' * rv fm B' = p2 (2 * s) * (rv fm A * rv fm B)).
  { rewrite EA, EB. replace (2 * s)%Z with (k + k + (l + l))%Z by (unfold s; lia). rewrite (bpow_plus radix2 (k + k)). ring. }
  assert (Lw : p2 (femin fm + fprec fm - 1) <= p2 (-82)) by (apply bpow_le; exact HE).
  assert (SN : rv fm n' = p2 (2 * s) * rv fm n).
  { rewrite EN', EN, QN. unfold rn. apply rnd_scale; [exact Hp|right]. rewrite <- QN, !Rabs_pos_eq by lra. lra. }
  destruct (l_0 fm L) as [F0 E0].
  assert (G1 : flt fo (f0 fo) n = true) by (apply (l_lt fm L); [exact F0|exact FN|lra]).
  assert (G2 : flt fo (f0 fo) n' = true) by (apply (l_lt fm L); [exact F0|exact FN'|lra]).
  rewrite G1, G2.
  destruct (l_sqrt fm L n FN) as [FD ED]; [lra|lra|]. destruct (l_sqrt fm L n' FN') as [FD' ED']; [lra|lra|].
  set (d := fsqrt fo n) in *. set (d' := fsqrt fo n') in *.
  assert (HQ : forall a, p2 (-82) <= a -> p2 (-41) <= sqrt a).
  { intros a Ha. replace (p2 (-41)) with (sqrt (p2 (-82))); [now apply sqrt_le_1_alt|].
    change (-82)%Z with (-41 + -41)%Z. rewrite bpow_plus. apply sqrt_square, bpow_ge_0. }
  pose proof (HQ _ (proj1 Rn)) as Q1. pose proof (HQ _ (proj1 Rn')) as Q1'.
  assert (H53 : forall a, p2 (-41) <= a -> p2 (-41) <= rnd 53 (-1074) a).
  { intros a Ha. rewrite <- (rnd_generic 53 (-1074) (p2 (-41))); [now apply rnd_le|lia|]. apply generic_format_bpow. unfold FLT_exp. lia. }
  assert (HRd : forall a, p2 (-41) <= a -> p2 (-41) <= rn fm a).
  { intros a Ha. unfold rn. rewrite <- (rnd_generic (fprec fm) (femin fm) (p2 (-41)) Hp (HF (-41)%Z ltac:(lia))). now apply rnd_le. }
  assert (P41 : 0 < p2 (-41)) by apply bpow_gt_0.
  assert (Lw2 : p2 (femin fm + fprec fm - 1) <= p2 (-41)) by (apply bpow_le; lia).
  assert (Lw3 : p2 (-1074 + 53 - 1) <= p2 (-41)) by (apply bpow_le; lia).
  pose proof (H53 _ Q1) as Q2. pose proof (H53 _ Q1') as Q2'. pose proof (HRd _ Q2) as Q3. pose proof (HRd _ Q2') as Q3'.
  rewrite <- ED in Q3. rewrite <- ED' in Q3'.
  assert (S1 : sqrt (rv fm n') = p2 s * sqrt (rv fm n)) by (rewrite SN; apply sqrt_scale; lra).
  assert (S2 : rnd 53 (-1074) (sqrt (rv fm n')) = p2 s * rnd 53 (-1074) (sqrt (rv fm n))).
  { rewrite S1. apply rnd_scale; [lia|right]. rewrite <- S1, !Rabs_pos_eq by lra. lra. }
  assert (SD : rv fm d' = p2 s * rv fm d).
  { rewrite ED', ED, S2. unfold rn. apply rnd_scale; [exact Hp|right]. rewrite <- S2, !Rabs_pos_eq by lra. lra. }
  destruct (l_2 fm L) as [F2 E2].
  assert (B61 : p2 61 = 2305843009213693952) by reflexivity.
  assert (BI2 : Rabs (2 * rv fm I) <= p2 62) by (rewrite Rabs_mult, (Rabs_pos_eq 2) by lra; change (p2 62) with 4611686018427387904; lra).
  assert (P62 : p2 62 <= p2 126) by (apply bpow_le; lia).
  assert (BI' : Rabs (rv fm I') <= p2 61).
  { destruct (inner_scaled 0 0 x' x' y' y') as (_ & _ & X & _); auto; [| |].
    - clear. unfold times_pow. induction x' as [|a r IH]; constructor; [cbn [bpow]; ring|exact IH].
    - clear. unfold times_pow. induction y' as [|a r IH]; constructor; [cbn [bpow]; ring|exact IH].
    - now rewrite (times_length _ _ _ Hx), (times_length _ _ _ Hy). }
  assert (BI2' : Rabs (2 * rv fm I') <= p2 62) by (rewrite Rabs_mult, (Rabs_pos_eq 2) by lra; change (p2 62) with 4611686018427387904; lra).
  destruct (l_mul fm L (f2 fo) I F2 FI) as [FM1 EM1]; [rewrite E2; lra|].
  destruct (l_mul fm L (f2 fo) I' F2 FI') as [FM2 EM2]; [rewrite E2; lra|].
  rewrite E2 in EM1, EM2. unfold rn in EM1, EM2. rewrite rnd_generic in EM1, EM2 by (first [exact Hp|apply double_format; [exact Hp|apply (l_format fm L)]]).
  set (m := fmul fo (f2 fo) I) in *. set (m' := fmul fo (f2 fo) I') in *.
  assert (QD : rv fm m' / rv fm d' = rv fm m / rv fm d).
  { rewrite EM1, EM2, SD, EI. pose proof (bpow_gt_0 radix2 s). field. lra. }
  assert (HQD : Rabs (rv fm m / rv fm d) <= p2 103).
  { unfold Rdiv. rewrite Rabs_mult, EM1. change 103%Z with (62 + 41)%Z. rewrite bpow_plus.
    apply Rmult_le_compat; auto using Rabs_pos. rewrite Rabs_pos_eq by (left; apply Rinv_0_lt_compat; lra).
    replace (p2 41) with (/ p2 (-41)) by (rewrite <- bpow_opp; reflexivity). apply Rinv_le; lra. }
  assert (P103 : p2 103 <= p2 126) by (apply bpow_le; lia).
  destruct (l_div fm L m d FM1) as [FT ET]; [lra|lra|]. destruct (l_div fm L m' d' FM2) as [FT' ET']; [lra|rewrite QD; lra|].
  apply sub_congr; [exact FT|exact FT'|now rewrite ET, ET', QD|].
  assert (HT : Rabs (rv fm (fdiv fo m d)) <= p2 103) by (rewrite ET; unfold rn; apply rnd_abs_le; [exact Hp|lia|exact HQD]).
  apply Rabs_le_inv in HT. assert (p2 103 + 2 <= p2 126).
  { change (p2 103) with 10141204801825835211973625643008. rewrite p126. lra. }
  apply Rabs_le. lra.
Qed.
End S.
