(** The planes of split nodes have components of size at most 2, and side values are finite,
    if the added vectors have finite components of moderate size. *)
From Verif Require Import Base Flt Layout Dist Spec ForestSpec RealSpec Lib AccProof DistProof PreProof VecProof.
From Coq Require Import Reals Lra Lia Psatz.
From Flocq Require Import Core Relative IEEE754.BinarySingleNaN IEEE754.Binary IEEE754.Bits.
Open Scope R_scope.

(** Bit patterns with a small exponent field. *)
Lemma ff_tiny mw ew x E : (0 < mw)%Z -> (0 <= ew)%Z -> (0 <= x < 2 ^ mw * E)%Z -> (E < 2 ^ ew - 1)%Z ->
  (mw + E + SpecFloat.emin (mw + 1) (2 ^ (ew - 1)) <= 0)%Z ->
  is_finite_FF (binary_float_of_bits_aux mw ew x) = true /\ Rabs (FF2R radix2 (binary_float_of_bits_aux mw ew x)) <= 1.
Proof.
  intros Hm He Hx HE Hs. unfold binary_float_of_bits_aux, split_bits.
  assert (P : (0 < 2 ^ mw)%Z) by (apply Z.pow_pos_nonneg; lia).
  assert (B : (0 <= x mod 2 ^ mw < 2 ^ mw)%Z) by (apply Z.mod_pos_bound; lia).
  assert (D : (0 <= x / 2 ^ mw < E)%Z) by (split; [apply Z.div_pos; lia|apply Z.div_lt_upper_bound; lia]).
  rewrite (Z.mod_small (x / 2 ^ mw)) by lia.
  set (m := (x mod 2 ^ mw)%Z) in *. set (e := (x / 2 ^ mw)%Z) in *. set (em := SpecFloat.emin _ _) in *.
  assert (Size : forall s p k, (Zpos p < 2 ^ (mw + 1))%Z -> (mw + 1 + k <= 0)%Z -> Rabs (FF2R radix2 (F754_finite s p k)) <= 1).
  { intros s p k Hp Hk. cbn [FF2R]. rewrite <- F2R_Zabs, abs_cond_Zopp. cbn [Z.abs].
    apply Rle_trans with (p2 (mw + 1 + k)); [|change 1 with (p2 0); apply bpow_le; lia].
    rewrite bpow_plus. unfold F2R. cbn [Fnum Fexp]. apply Rmult_le_compat_r; [apply bpow_ge_0|].
    rewrite <- (IZR_Zpower radix2) by lia. apply IZR_le. cbn [radix_val radix2]. lia. }
  assert (PW : (2 ^ (mw + 1) = 2 * 2 ^ mw)%Z) by (rewrite Z.pow_add_r by lia; lia).
  destruct (Zeq_bool e 0) eqn:E0.
  - destruct m as [|p|p] eqn:Em; [split; [reflexivity|cbn; rewrite Rabs_R0; lra]| |lia].
    split; [reflexivity|]. apply Size; lia.
  - replace (Zeq_bool e (2 ^ ew - 1)) with false by (symmetry; destruct (Zeq_bool e (2 ^ ew - 1)) eqn:E1; [apply Zeq_bool_eq in E1; lia|reflexivity]).
    destruct (m + 2 ^ mw)%Z as [|p|p] eqn:Em; [lia| |lia]. split; [reflexivity|]. apply Size; [lia|].
    apply Zeq_bool_neq in E0. lia.
Qed.

Section P.
Variable fm : Fmt.
Hypothesis FM : is_fmt fm.
Notation fo := (ops fm).
Notation rvs := (map (rv fm)).
Notation L := (fmt_laws fm FM).

(** Finite and of size at most [b]. *)
Definition small (b : R) (a : F fo) : Prop := fin fm a /\ Rabs (rv fm a) <= b.
Lemma small_le b b' a : b <= b' -> small b a -> small b' a.
Proof. intros H [H1 H2]. split; [exact H1|lra]. Qed.
Lemma small_moderate b v : b <= 2 ^ 20 -> INR (length v) <= 2 ^ 20 -> Forall (small b) v -> moderate fm v.
Proof. intros Hb Hl H. split; [exact Hl|]. eapply Forall_impl; [|exact H]. intros a Ha. exact (small_le _ _ _ Hb Ha). Qed.

(** Rounding is monotone and keeps the numbers of the format. *)
Notation fmt x := (generic_format radix2 (FLT_exp (femin fm) (fprec fm)) x).
Lemma prec_pos : (0 < fprec fm)%Z.
Proof. destruct FM as [-> | ->]; reflexivity. Qed.
Lemma emin_neg : (femin fm <= -149)%Z.
Proof. destruct FM as [-> | ->]; cbn; lia. Qed.
Lemma rn_ge x b : fmt b -> b <= x -> b <= rn fm x.
Proof. intros Fb H. rewrite <- (rnd_generic (fprec fm) (femin fm) b prec_pos Fb). apply rnd_le; [apply prec_pos|exact H]. Qed.
Lemma rn_abs x b : fmt b -> Rabs x <= b -> Rabs (rn fm x) <= b.
Proof.
  intros Fb H. assert (Prec_gt_0 (fprec fm)) by exact prec_pos. apply abs_round_le_generic; try exact _; assumption.
Qed.
Lemma fmt_pow e : (femin fm <= e)%Z -> fmt (p2 e).
Proof.
  intro H. apply generic_format_bpow. unfold FLT_exp. pose proof prec_pos.
  assert (2 <= fprec fm)%Z by (destruct FM as [-> | ->]; cbn; lia). lia.
Qed.
Lemma fmt_int z : (Z.abs z <= 2 ^ 24)%Z -> fmt (IZR z).
Proof.
  intro H. assert (Prec_gt_0 (fprec fm)) by exact prec_pos.
  destruct (Z.eq_dec z (2 ^ 24)) as [->|N1]; [replace (IZR (2 ^ 24)) with (p2 24) by (cbn; lra); apply fmt_pow; pose proof emin_neg; lia|].
  destruct (Z.eq_dec z (- 2 ^ 24)) as [->|N2].
  { replace (IZR (- 2 ^ 24)) with (- p2 24) by (cbn; lra). apply generic_format_opp. apply fmt_pow; pose proof emin_neg; lia. }
  apply generic_format_FLT. exists (Float radix2 z 0); [unfold F2R; cbn; lra| |cbn; destruct FM as [-> | ->]; cbn; lia].
  cbn. apply Z.lt_le_trans with (2 ^ 24)%Z; [lia|]. destruct FM as [-> | ->]; cbn; lia.
Qed.
Lemma big n : Rabs n <= p2 30 -> Rabs n <= p2 126.
Proof. intro H. apply Rle_trans with (1 := H). apply bpow_le. lia. Qed.

Lemma fmt_scaled z e : (Z.abs z <= 2 ^ 24)%Z -> (0 <= e)%Z -> fmt (IZR z * p2 e).
Proof.
  intros H He. assert (Prec_gt_0 (fprec fm)) by exact prec_pos. pose proof (fmt_int z H) as G.
  destruct (Req_dec (IZR z) 0) as [->|Hz]; [rewrite Rmult_0_l; apply generic_format_0|].
  apply FLT_format_generic in G; [|exact _]. destruct G as [f E1 E2 E3].
  apply generic_format_FLT. exists (Float radix2 (Fnum f) (Fexp f + e)); [|exact E2|cbn; lia].
  rewrite E1. unfold F2R. cbn. rewrite bpow_plus. ring.
Qed.

(** The computed square of the length is at least the rounded square of each component. *)
Lemma acc_ge x : forall acc m, (0 <= m)%Z -> (m + Z.of_nat (length x) <= 2 ^ 20)%Z -> fin fm acc ->
  0 <= rv fm acc <= IZR m * p2 40 -> Forall (small (2 ^ 20)) x ->
  fin fm (acc_dot fm acc x x) /\ rv fm acc <= rv fm (acc_dot fm acc x x) <= p2 60 /\
  forall a, In a x -> rn fm (rv fm a * rv fm a) <= rv fm (acc_dot fm acc x x).
Proof.
  induction x as [|a x IH]; intros acc m Hm Hl Fa Ha Hx.
  - split; [exact Fa|]. split; [|contradiction]. split; [apply Rle_refl|]. change (acc_dot fm acc [] []) with acc.
    apply Rle_trans with (1 := proj2 Ha). change 60%Z with (20 + 40)%Z. rewrite bpow_plus.
    apply Rmult_le_compat_r; [apply bpow_ge_0|]. replace (p2 20) with (IZR (2 ^ 20)) by (cbn; lra). apply IZR_le. cbn [length] in Hl. lia.
  - inversion Hx as [|? ? [F1 B1] Hx']; subst. cbn [length] in Hl. unfold acc_dot. cbn [combine map fold_left fst snd].
    fold (acc_dot fm (fadd fo acc (fmul fo a a)) x x).
    assert (Sq : 0 <= rv fm a * rv fm a <= p2 40).
    { split; [apply Rle_0_sqr|]. replace (rv fm a * rv fm a) with (Rabs (rv fm a) * Rabs (rv fm a)) by (rewrite <- Rabs_mult; apply Rabs_pos_eq, Rle_0_sqr).
      replace (p2 40) with (2 ^ 20 * 2 ^ 20) by (cbn [pow]; cbn; lra). apply Rmult_le_compat; auto; apply Rabs_pos. }
    assert (P126 : forall r, 0 <= r <= p2 60 -> Rabs r <= p2 126).
    { intros r Hr. rewrite Rabs_pos_eq by lra. apply Rle_trans with (1 := proj2 Hr). apply bpow_le. lia. }
    assert (P40 : p2 40 <= p2 60) by (apply bpow_le; lia).
    destruct (l_mul fm L a a F1 F1) as [Fm Em]; [apply P126; lra|].
    assert (Bp : 0 <= rv fm (fmul fo a a) <= p2 40).
    { rewrite Em. split; [apply rn_ge; [apply generic_format_0|lra]|].
      eapply Rle_trans; [apply Rle_abs|]. apply rn_abs; [apply fmt_pow; pose proof emin_neg; lia|]. rewrite Rabs_pos_eq; lra. }
    assert (Hs : 0 <= rv fm acc + rv fm (fmul fo a a) <= IZR (m + 1) * p2 40).
    { rewrite plus_IZR. split; [lra|]. rewrite Rmult_plus_distr_r. lra. }
    assert (Hb : IZR (m + 1) * p2 40 <= p2 60).
    { change 60%Z with (20 + 40)%Z. rewrite bpow_plus. apply Rmult_le_compat_r; [apply bpow_ge_0|].
      replace (p2 20) with (IZR (2 ^ 20)) by (cbn; lra). apply IZR_le. lia. }
    destruct (l_add fm L acc _ Fa Fm) as [Fs Es]; [apply P126; lra|].
    assert (R1 : rv fm acc <= rv fm (fadd fo acc (fmul fo a a))) by (rewrite Es; apply rn_ge; [apply (l_format fm L)|lra]).
    assert (R2 : rv fm (fmul fo a a) <= rv fm (fadd fo acc (fmul fo a a))) by (rewrite Es; apply rn_ge; [apply (l_format fm L)|lra]).
    assert (R3 : rv fm (fadd fo acc (fmul fo a a)) <= IZR (m + 1) * p2 40).
    { rewrite Es. eapply Rle_trans; [apply Rle_abs|]. apply rn_abs; [apply fmt_scaled; lia|]. rewrite Rabs_pos_eq; lra. }
    destruct (IH (fadd fo acc (fmul fo a a)) (m + 1)%Z) as (G1 & G2 & G3); auto; [lia|lia|lra|].
    split; [exact G1|]. split; [lra|]. intros b [<-|Hb']; [|auto]. rewrite <- Em. lra.
Qed.

(** The exponent below which squares may vanish. *)
Definition low : Z := (femin fm + 1) / 2.
Lemma low_ok : (femin fm <= 2 * low)%Z /\ (2 * (low - 1) <= femin fm)%Z /\ (femin fm <= low - 1)%Z /\ (-1074 <= low - 1)%Z /\ (low <= 0)%Z.
Proof. unfold low. destruct FM as [-> | ->]; cbn [femin fmt32 fmt64]; [change ((-149 + 1) / 2)%Z with (-74)%Z|change ((-1074 + 1) / 2)%Z with (-537)%Z]; lia. Qed.
Lemma sqrt_pow e : sqrt (p2 (2 * e)) = p2 e.
Proof. replace (2 * e)%Z with (e + e)%Z by lia. rewrite bpow_plus. apply sqrt_square. apply bpow_ge_0. Qed.
Lemma root_ge s e : fin fm s -> 0 < rv fm s -> rv fm s <= p2 60 -> p2 (2 * e) <= rv fm s -> (femin fm <= e)%Z -> (-1074 <= e)%Z ->
  fin fm (fsqrt fo s) /\ p2 e <= rv fm (fsqrt fo s).
Proof.
  intros Fs Hp Hu Hs He He2. destruct (l_sqrt fm L s Fs Hp) as [G1 G2]; [apply Rle_trans with (1 := Hu); apply bpow_le; lia|].
  split; [exact G1|]. rewrite G2. apply rn_ge; [now apply fmt_pow|].
  assert (Prec_gt_0 53) by reflexivity.
  rewrite <- (rnd_generic 53 (-1074) (p2 e)); [|lia|apply generic_format_bpow; unfold FLT_exp; lia].
  apply rnd_le; [lia|]. rewrite <- sqrt_pow. now apply sqrt_le_1_alt.
Qed.

(** Components of a normalised vector are at most 2 in size; those of a vector whose length
    is computed as zero are, too. *)
Lemma two_fmt : fmt 2.
Proof. exact (fmt_int 2 ltac:(lia)). Qed.
Lemma length_cases v : moderate fm v ->
  let n := fsqrt fo (inner fo v v) in
  fin fm n /\
  (0 < rv fm n /\ (forall a, In a v -> Rabs (rv fm a) <= 2 * rv fm n) \/
   rv fm n = 0 /\ forall a, In a v -> Rabs (rv fm a) <= 1).
Proof.
  intros [Hl Hv] n. destruct (l_0 fm L) as [F0 E0]. assert (Prec_gt_0 (fprec fm)) by exact prec_pos.
  destruct low_ok as (L1 & L2 & L3 & L4 & L5).
  destruct (acc_ge v (f0 fo) 0) as (G1 & G2 & G3); auto; [lia| |rewrite E0; lra|].
  { apply le_IZR. rewrite plus_IZR, <- INR_IZR_INZ. replace (IZR (2 ^ 20)) with (2 ^ 20) by (cbn [pow]; cbn; lra). lra. }
  fold (inner fo v v) in *. unfold acc_dot in *. fold (inner fo v v) in *. rewrite E0 in G2. set (s := inner fo v v) in *.
  (* a component that is not very small *)
  assert (Big : forall a, In a v -> p2 low <= Rabs (rv fm a) -> exists e, (low <= e)%Z /\ p2 e <= Rabs (rv fm a) < p2 (e + 1) /\ p2 (2 * e) <= rv fm s).
  { intros a Ha Hb. assert (Nz : rv fm a <> 0) by (intro Z; rewrite Z, Rabs_R0 in Hb; pose proof (bpow_gt_0 radix2 low); lra).
    destruct (mag radix2 (rv fm a)) as [e He]. specialize (He Nz). exists (e - 1)%Z.
    assert (low <= e - 1)%Z.
    { apply Z.lt_succ_r. unfold Z.succ. replace (e - 1 + 1)%Z with e by lia. apply (lt_bpow radix2). lra. }
    split; [assumption|]. replace (e - 1 + 1)%Z with e by lia. split; [lra|].
    apply Rle_trans with (2 := G3 a Ha). apply rn_ge; [apply fmt_pow; lia|].
    replace (rv fm a * rv fm a) with (Rabs (rv fm a) * Rabs (rv fm a)) by (rewrite <- Rabs_mult; apply Rabs_pos_eq, Rle_0_sqr).
    replace (2 * (e - 1))%Z with ((e - 1) + (e - 1))%Z by lia. rewrite bpow_plus. apply Rmult_le_compat; try apply bpow_ge_0; lra. }
  destruct (Req_dec (rv fm s) 0) as [Z|Nz].
  - destruct (sqrt_zero fm s FM G1 Z) as [Fn En]. split; [exact Fn|]. right. split; [exact En|]. intros a Ha.
    destruct (Rle_or_lt (p2 low) (Rabs (rv fm a))) as [B|B].
    + destruct (Big a Ha B) as (e & _ & _ & Hs). pose proof (bpow_gt_0 radix2 (2 * e)). lra.
    + left. apply Rlt_le_trans with (1 := B). change 1 with (p2 0). apply bpow_le. lia.
  - assert (P : 0 < rv fm s) by lra.
    assert (Hmin : p2 (2 * (low - 1)) <= rv fm s).
    { apply Rle_trans with (p2 (femin fm)); [apply bpow_le; lia|]. 
      destruct (Rle_or_lt (p2 (femin fm)) (rv fm s)) as [H'|H']; [exact H'|exfalso].
      pose proof (l_format fm L s) as GF. apply FLT_format_generic in GF; [|exact _]. destruct GF as [f E1 E2 E3].
      assert (Fp : (0 < Fnum f)%Z) by (destruct f as [fn fe]; apply (gt_0_F2R radix2 fn fe); rewrite <- E1; exact P).
      assert (p2 (Fexp f) <= rv fm s).
      { rewrite E1. unfold F2R. rewrite <- (Rmult_1_l (p2 (Fexp f))) at 1. apply Rmult_le_compat_r; [apply bpow_ge_0|]. apply IZR_le. lia. }
      pose proof (bpow_le radix2 _ _ E3). lra. }
    destruct (root_ge s (low - 1) G1 P (proj2 G2) Hmin) as [Fn Hn]; [lia|lia|].
    split; [exact Fn|]. left. split; [pose proof (bpow_gt_0 radix2 (low - 1)); fold n in Hn; lra|]. intros a Ha.
    destruct (Rle_or_lt (p2 low) (Rabs (rv fm a))) as [B|B].
    + destruct (Big a Ha B) as (e & He & He2 & Hs). destruct (root_ge s e G1 P (proj2 G2) Hs) as [_ Hr]; [lia|lia|].
      fold n in Hr. rewrite bpow_plus in He2. change (p2 1) with 2 in He2. lra.
    + replace low with (low - 1 + 1)%Z in B by lia. rewrite bpow_plus in B. change (p2 1) with 2 in B. fold n in Hn. lra.
Qed.
Lemma div_small a n : fin fm a -> 0 < rv fm n -> Rabs (rv fm a) <= 2 * rv fm n -> small 2 (fdiv fo a n).
Proof.
  intros Fa Hn H. assert (Rabs (rv fm a / rv fm n) <= 2).
  { unfold Rdiv. rewrite Rabs_mult, Rabs_inv, (Rabs_pos_eq (rv fm n)) by lra.
    apply Rmult_le_reg_r with (rv fm n); [exact Hn|]. rewrite Rmult_assoc, Rinv_l by lra. lra. }
  destruct (l_div fm L a n Fa) as [G1 G2]; [lra| |].
  - apply Rle_trans with (1 := H0). change 2 with (p2 1). apply bpow_le. lia.
  - split; [exact G1|]. rewrite G2. apply rn_abs; [apply two_fmt|assumption].
Qed.
Lemma pos_test n : fin fm n -> flt fo (f0 fo) n = true -> 0 < rv fm n.
Proof. intros Fn H. destruct (l_0 fm L) as [F0 E0]. apply (l_lt fm L) in H; auto. lra. Qed.
Lemma unit_small v : moderate fm v -> Forall (small 2) (unit_vec fo v).
Proof.
  intro M. destruct (length_cases v M) as [Fn Hn]. unfold unit_vec. set (n := fsqrt fo (inner fo v v)) in *.
  pose proof (bounded_fin fm FM v M) as Fv. rewrite Forall_forall in Fv.
  destruct (flt fo (f0 fo) n) eqn:E; apply Forall_forall.
  - intros x Hx. apply in_map_iff in Hx. destruct Hx as (a & <- & Ha). pose proof (pos_test n Fn E) as P.
    destruct Hn as [[_ Hn]|[Hn _]]; [|lra]. apply div_small; auto.
  - intros a Ha. destruct Hn as [[Hp _]|[_ Hn]].
    + destruct (l_0 fm L) as [F0 E0]. assert (flt fo (f0 fo) n = true) by (apply (l_lt fm L); auto; lra). congruence.
    + split; [auto|]. specialize (Hn a Ha). lra.
Qed.
Lemma part_small v : moderate fm v -> flt fo (f0 fo) (fsqrt fo (inner fo v v)) = true ->
  Forall (fun a => small 2 (fdiv fo a (fsqrt fo (inner fo v v)))) v.
Proof.
  intros M E. pose proof (unit_small v M) as H. unfold unit_vec in H. rewrite E in H. rewrite Forall_map in H. exact H.
Qed.

(** Small integers are exact. *)
Lemma int_exact n : (n <= 1048576)%N -> fin fm (fofN fo n) /\ rv fm (fofN fo n) = IZR (Z.of_N n).
Proof.
  intro H. destruct FM as [-> | ->]; cbn [fofN ops fmt32 fmt64 fops32 fops64 fin rv].
  - apply (int_real (Z.of_N n)). lia.
  - apply int64_ok. lia.
Qed.
(** One component of a moved centroid. *)
Lemma step_small ic a b : (1 <= ic <= 1000)%N -> small 2 a -> small 2 b ->
  small 2 (fdiv fo (fadd fo (fmul fo a (fofN fo ic)) b) (fofN fo (ic + 1))).
Proof.
  intros Hi [Fa Ba] [Fb Bb]. destruct (int_exact ic ltac:(lia)) as [F1 E1]. destruct (int_exact (ic + 1) ltac:(lia)) as [F2 E2].
  assert (I1 : 1 <= IZR (Z.of_N ic) <= 1000) by (split; apply IZR_le; lia).
  rewrite N2Z.inj_add, plus_IZR in E2. change (IZR (Z.of_N 1)) with 1 in E2. set (k := IZR (Z.of_N ic)) in *.
  assert (P : forall r, Rabs r <= 2002 -> Rabs r <= p2 126) by (intros r Hr; apply big; apply Rle_trans with (1 := Hr); cbn; lra).
  assert (M1 : Rabs (rv fm a * rv fm (fofN fo ic)) <= 2 * k).
  { rewrite E1, Rabs_mult, (Rabs_pos_eq k) by lra. apply Rmult_le_compat_r; lra. }
  destruct (l_mul fm L a _ Fa F1) as [Fm Em]; [apply P; lra|].
  assert (B1 : Rabs (rv fm (fmul fo a (fofN fo ic))) <= 2 * k).
  { rewrite Em. apply rn_abs; [|exact M1]. unfold k. rewrite <- mult_IZR. apply fmt_int. lia. }
  assert (M2 : Rabs (rv fm (fmul fo a (fofN fo ic)) + rv fm b) <= 2 * k + 2) by (eapply Rle_trans; [apply Rabs_triang|]; lra).
  destruct (l_add fm L _ b Fm Fb) as [Fs Es]; [apply P; lra|].
  assert (B2 : Rabs (rv fm (fadd fo (fmul fo a (fofN fo ic)) b)) <= 2 * k + 2).
  { rewrite Es. apply rn_abs; [|exact M2]. unfold k. rewrite <- mult_IZR, <- plus_IZR. apply fmt_int. lia. }
  apply div_small; [exact Fs|rewrite E2; lra|rewrite E2; lra].
Qed.
Lemma sub_small a b : small 2 a -> small 2 b -> small 4 (fsub fo a b).
Proof.
  intros [Fa Ba] [Fb Bb]. assert (M : Rabs (rv fm a - rv fm b) <= 4).
  { replace (rv fm a - rv fm b) with (rv fm a + - rv fm b) by ring. eapply Rle_trans; [apply Rabs_triang|]. rewrite Rabs_Ropp. lra. }
  destruct (l_sub fm L a b Fa Fb) as [Fs Es]; [apply big; apply Rle_trans with (1 := M); cbn; lra|].
  split; [exact Fs|]. rewrite Es. apply rn_abs; [exact (fmt_int 4 ltac:(lia))|exact M].
Qed.
(** A number whose bytes are cut off at the high end is tiny. *)
Lemma dec_tiny n : (n < 2 ^ (8 * (fbytes fo - 1)))%N -> small 1 (dec fo n).
Proof.
  intro H. destruct FM as [E | E]; unfold small; rewrite E in *; cbn [ops fmt32 fmt64 fops32 fops64 fbytes dec fin rv] in *.
  - change (2 ^ (8 * (4 - 1)))%N with 16777216%N in H. unfold b32_of_bits, binary_float_of_bits. rewrite (is_finite_FF2B 24 128), (B2R_FF2B 24 128).
    apply (ff_tiny 23 8 _ 2); cbn; lia.
  - change (2 ^ (8 * (8 - 1)))%N with 72057594037927936%N in H. unfold b64_of_bits, binary_float_of_bits. rewrite (is_finite_FF2B 53 1024), (B2R_FF2B 53 1024).
    apply (ff_tiny 52 11 _ 16); cbn; lia.
Qed.
End P.
