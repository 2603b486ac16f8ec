(** The measurement of cmd/precision. *)
From Verif Require Import Base Flt Layout Rng Sorts Dist Index Search Precision Spec ForestSpec RealSpec PrecSpec Lib SortsProof AccProof VecProof.
From Coq Require Import Permutation Reals Lra.
From Flocq Require Import Core IEEE754.BinarySingleNaN IEEE754.Binary IEEE754.Bits.
Close Scope R_scope. Open Scope N_scope.

(** ** Intersections of duplicate-free lists *)
Lemma hits_le a b : (hits a b <= length a)%nat.
Proof. unfold hits. induction a as [|x a IH]; cbn [filter length]; [lia|]. destruct (in_dec N.eq_dec x b); cbn [length]; lia. Qed.
Lemma hits_all a b : incl a b -> hits a b = length a.
Proof.
  unfold hits. induction a as [|x a IH]; intro H; [reflexivity|]. cbn [filter].
  destruct (in_dec N.eq_dec x b) as [_|n]; [|destruct n; apply H; now left]. cbn [length]. rewrite IH; [reflexivity|]. intros y Hy. apply H. now right.
Qed.
Lemma hits_perm a a' b : Permutation a a' -> hits a b = hits a' b.
Proof. intro H. unfold hits. induction H; cbn [filter length]; repeat destruct (in_dec N.eq_dec _ b); cbn [length]; congruence. Qed.
Lemma inter_hits a b r : NoDup a -> NoDup b -> multi_inter a b r -> length r = hits a b.
Proof.
  intros Na Nb H. unfold hits. apply Permutation_length.
  apply (Permutation_count_occ N.eq_dec). intro x. rewrite H.
  pose proof (proj1 (NoDup_count_occ N.eq_dec a) Na x) as Ca. pose proof (proj1 (NoDup_count_occ N.eq_dec b) Nb x) as Cb.
  set (fl := filter _ a).
  assert (Nf : NoDup fl) by (apply NoDup_filter, Na).
  pose proof (proj1 (NoDup_count_occ N.eq_dec fl) Nf x) as Cf.
  pose proof (count_occ_In N.eq_dec fl x) as If. pose proof (count_occ_In N.eq_dec a x) as Ia. pose proof (count_occ_In N.eq_dec b x) as Ib.
  assert (K : In x fl <-> In x a /\ In x b).
  { unfold fl. rewrite filter_In. destruct (in_dec N.eq_dec x b); intuition congruence. }
  destruct (count_occ N.eq_dec fl x) as [|n] eqn:E.
  - destruct (count_occ N.eq_dec a x) as [|p]; [reflexivity|]. destruct (count_occ N.eq_dec b x) as [|q]; [now rewrite Nat.min_0_r|].
    assert (In x fl) by (apply K; split; [apply Ia|apply Ib]; lia). apply If in H0. lia.
  - assert (X : In x fl) by (apply If; lia). apply K in X as [Xa Xb]. apply Ia in Xa. apply Ib in Xb. lia.
Qed.

(** ** The sums *)
Definition add_hits (numReturn : Z) (hs : list nat) (s : binary64) : binary64 :=
  fold_left (fun s x => b64_plus mode_NE s (hit_rate x numReturn)) hs s.
Definition column (k : nat) (rows : list (list N * list (list N))) : list nat := map (fun row => hits (fst row) (nth k (snd row) [])) rows.
Lemma total_column k rows : total_hits k rows = fold_right Nat.add 0%nat (column k rows).
Proof. unfold total_hits, column. induction rows as [|r rows IH]; [reflexivity|]. cbn. now rewrite IH. Qed.

Section Q.
Variable fo : FOps.
Variable c : Cfg.
Variable sortIx : list N -> list N.
Variable sortPairs : list (F fo * N) -> list (F fo * N).
Variable sortU : list N -> list N.
Hypothesis HU : sorts (fun _ => True) N.ltb sortU.
Variable qfuel : nat.
Variable fs : files.
Variable ix : idx.
Notation by_item := (get_nns_by_item fo c sortIx sortPairs qfuel fs ix).
Variable f : N -> option (list (F fo)).
Variable query : N -> Z -> list N -> Prop.
Variable ctx_ok : ctx (F fo) -> Prop.
Hypothesis Hctx : forall j n ins bc ids ds bc', ctx_ok bc -> by_item j n ins bc = Ok (ids, ds, bc') ->
  ctx_ok bc' /\ NoDup ids /\ (Z.of_nat (length ids) <= Z.max 0 n)%Z.
Hypothesis Hquery : forall j l bc top ds bc', ctx_ok bc -> by_item j l (-1)%Z bc = Ok (top, ds, bc') -> query j l top.

Lemma per_limit_rows j nr : forall ls sums closest closest0 bc sums' bc', ctx_ok bc -> NoDup closest -> Permutation closest closest0 ->
  length sums = length ls -> per_limit fo c sortIx sortPairs sortU qfuel fs ix j nr ls sums closest bc = Ok (sums', bc') ->
  ctx_ok bc' /\ length sums' = length ls /\
  exists tops, Forall2 (query j) ls tops /\
    forall k s, nth_error sums k = Some s -> nth_error sums' k = Some (b64_plus mode_NE s (hit_rate (hits closest0 (nth k tops [])) nr)).
Proof.
  induction ls as [|l ls IH]; intros [|s sums] closest closest0 bc sums' bc' C ND P HL E; try discriminate.
  - injection E as <- <-. split; [exact C|]. split; [reflexivity|]. exists []. split; [constructor|]. intros [|k] s H; discriminate.
  - cbn [per_limit] in E. destruct (by_item j l (-1)%Z bc) as [[[top ds] bc1]|e] eqn:Eq; [|discriminate]. cbn [rbind] in E.
    destruct (Hctx _ _ _ _ _ _ _ C Eq) as (C1 & NDt & _). pose proof (intersection_spec sortU closest top HU) as HS.
    destruct (intersection sortU closest top) as [[common closest'] top'] eqn:Ei. destruct HS as (HM & _ & Pc & _).
    destruct (per_limit fo c sortIx sortPairs sortU qfuel fs ix j nr ls sums closest' bc1) as [[ss' bc2]|e] eqn:Er; [|discriminate].
    cbn [rbind] in E. injection E as <- <-. cbn [length] in HL. apply Nat.succ_inj in HL.
    destruct (IH sums closest' closest0 bc1 ss' bc2) as (C2 & L2 & tops & Q & HN); auto.
    { now apply (Permutation_NoDup (Permutation_sym Pc)). }
    { now transitivity closest. }
    split; [exact C2|]. split; [cbn; congruence|]. exists (top :: tops). split; [constructor; [exact (Hquery _ _ _ _ _ _ C Eq)|exact Q]|].
    intros [|k] s0 H; cbn [nth_error] in *; [|now apply HN]. injection H as ->. cbn [nth].
    rewrite (inter_hits closest top common ND NDt HM), (hits_perm _ _ _ P). reflexivity.
Qed.

Variable numItems : N.
Variable nr : Z.
Hypothesis Hexact : forall j bc ids ds bc', j < numItems -> ctx_ok bc -> by_item j nr (Z.of_N numItems) bc = Ok (ids, ds, bc') ->
  exists v, f j = Some v /\ exact_nearest fo c f v (Z.to_nat nr) ids ds.
Lemma rounds_rows ls : forall k r sums bc sums' bc', ctx_ok bc -> length sums = length ls ->
  rounds fo c sortIx sortPairs sortU qfuel fs ix k numItems nr ls r sums bc = Ok (sums', bc') ->
  length sums' = length ls /\ exists rows, length rows = k /\
    Forall2 (fun d row => true_row fo c f query nr ls (d mod numItems) row /\ (Z.of_nat (length (fst row)) <= Z.max 0 nr)%Z) (first_draws k r) rows /\
    forall k s, nth_error sums k = Some s -> nth_error sums' k = Some (add_hits nr (column k rows) s).
Proof.
  induction k as [|k IH]; intros r sums bc sums' bc' C HL E.
  - injection E as <- <-. split; [exact HL|]. exists []. split; [reflexivity|]. split; [constructor|]. intros k s H. exact H.
  - cbn [rounds] in E. cbn [first_draws]. destruct (kiss_next 32 r) as [d r']. cbn [fst snd]. unfold index_of_draw in E. destruct (N.eqb_spec numItems 0) as [|Hn]; [discriminate|].
    cbn [rbind] in E. set (j := d mod numItems) in *. assert (Hj : j < numItems) by (apply N.mod_lt, Hn).
    destruct (by_item j nr (Z.of_N numItems) bc) as [[[cl ds] bc1]|e] eqn:Eq; [|discriminate]. cbn [rbind] in E.
    destruct (Hctx _ _ _ _ _ _ _ C Eq) as (C1 & ND & Hlen). destruct (Hexact _ _ _ _ _ Hj C Eq) as (v & Hv & HE).
    destruct (per_limit fo c sortIx sortPairs sortU qfuel fs ix j nr ls sums cl bc1) as [[ss bc2]|e] eqn:Ep; [|discriminate]. cbn [rbind] in E.
    destruct (per_limit_rows j nr ls sums cl cl bc1 ss bc2 C1 ND (Permutation_refl _) HL Ep) as (C2 & L2 & tops & Q & HN).
    destruct (IH r' ss bc2 sums' bc' C2 L2 E) as (L' & rows & Lr & FA & HN').
    split; [exact L'|]. exists ((cl, tops) :: rows). split; [cbn; congruence|]. split.
    + constructor; [|exact FA]. split; [|exact Hlen]. exists v, ds. auto.
    + intros k0 s H. apply HN in H. apply HN' in H. rewrite H. reflexivity.
Qed.
End Q.

Close Scope N_scope. Open Scope R_scope.
(** ** binary64 *)
Notation val := (rv fmt64).
Notation u52 := (/ 4503599627370496).
Lemma format_int z : (Z.abs z <= 2 ^ 53)%Z -> rn fmt64 (IZR z) = IZR z.
Proof.
  intro H. destruct (int64_ok z H) as [_ E]. unfold rn. apply rnd_generic; [reflexivity|]. rewrite <- E. apply (l_format fmt64 laws64 (d_of_Z z)).
Qed.
Lemma rn_mono x y : x <= y -> rn fmt64 x <= rn fmt64 y.
Proof. apply rnd_le. reflexivity. Qed.
Lemma rn_near x : Rabs x <= 9007199254740992 -> Rabs (rn fmt64 x - x) <= u52 / 2 * Rabs x + u52 / 8.
Proof.
  intro H. eapply Rle_trans; [apply rnd_err; reflexivity|]. cbn [fprec femin fmt64].
  change (p2 (- (53))) with (/ 9007199254740992).
  assert (p2 (-1074 - 1) <= p2 (-55)) by (apply bpow_le; lia). change (p2 (-55)) with (/ 36028797018963968) in *. lra.
Qed.
Lemma p126_big : 9007199254740992 <= p2 126.
Proof. change 9007199254740992 with (p2 53). apply bpow_le. lia. Qed.

(** Dividing a number in [0, n] by a positive integer n. *)
Lemma div_ok s (z n : Z) : (1 <= n <= 2 ^ 53)%Z -> n = z -> fin fmt64 s -> 0 <= val s <= IZR n ->
  let q := b64_div mode_NE s (d_of_Z z) in
  fin fmt64 q /\ 0 <= val q <= 1 /\ Rabs (val q - val s / IZR n) <= u52 /\ (val s = IZR n -> val q = 1) /\ (val s = 0 -> val q = 0).
Proof.
  intros Hn <- Fs Hs q. destruct (int64_ok n) as [Fn En]; [lia|].
  assert (P : 1 <= IZR n) by (apply IZR_le; lia).
  assert (Q : 0 <= val s / IZR n <= 1).
  { split; [apply Rmult_le_pos; [lra|]; left; apply Rinv_0_lt_compat; lra|]. apply (Rmult_le_reg_r (IZR n)); [lra|]. unfold Rdiv. rewrite Rmult_assoc, Rinv_l; lra. }
  assert (A : Rabs (val s / IZR n) <= 1) by (rewrite Rabs_pos_eq; lra). pose proof p126_big.
  assert (Ev : val (d_of_Z n) = IZR n) by exact En.
  destruct (l_div fmt64 laws64 s (d_of_Z n) Fs) as [F1 E1]; [lra|rewrite Ev; lra|]. rewrite Ev in E1.
  change (fdiv (ops fmt64) s (d_of_Z n)) with q in *.
  pose proof (format_int 0 ltac:(lia)) as R0. pose proof (format_int 1 ltac:(lia)) as R1.
  split; [exact F1|]. rewrite E1. split; [split|split; [|split]].
  - rewrite <- R0. now apply rn_mono.
  - rewrite <- R1. now apply rn_mono.
  - eapply Rle_trans; [apply rn_near; lra|]. lra.
  - intros ->. replace (IZR n / IZR n) with 1 by (field; lra). exact R1.
  - intros ->. replace (0 / IZR n) with 0 by (field; lra). exact R0.
Qed.
Lemma hit_ok x nr : (1 <= nr <= 2 ^ 53)%Z -> (Z.of_nat x <= nr)%Z ->
  fin fmt64 (hit_rate x nr) /\ 0 <= val (hit_rate x nr) <= 1 /\ Rabs (val (hit_rate x nr) - INR x / IZR nr) <= u52 /\
  (Z.of_nat x = nr -> val (hit_rate x nr) = 1).
Proof.
  intros Hn Hx. destruct (int64_ok (Z.of_nat x)) as [Fx Ex]; [lia|].
  assert (Ev : val (d_of_Z (Z.of_nat x)) = IZR (Z.of_nat x)) by exact Ex.
  assert (X : 0 <= IZR (Z.of_nat x) <= IZR nr) by (split; apply IZR_le; lia).
  destruct (div_ok (d_of_Z (Z.of_nat x)) nr nr Hn eq_refl Fx) as (A & B & C & D & _); [lra|].
  fold (hit_rate x nr) in *. rewrite INR_IZR_INZ. rewrite Ev in *. repeat split; try tauto. intro E. apply D. now rewrite E.
Qed.
Lemma add_ok s h i : fin fmt64 s -> fin fmt64 h -> 0 <= val s <= INR i -> 0 <= val h <= 1 -> (Z.of_nat (S i) <= 2 ^ 53)%Z ->
  let t := b64_plus mode_NE s h in
  fin fmt64 t /\ 0 <= val t <= INR (S i) /\ Rabs (val t - (val s + val h)) <= u52 * INR (S i) /\
  (val s = INR i -> val h = 1 -> val t = INR (S i)).
Proof.
  intros Fs Fh Hs Hh Hi t. pose proof p126_big.
  assert (I1 : 1 <= INR (S i)) by (rewrite S_INR; pose proof (pos_INR i); lra).
  assert (I2 : INR (S i) <= 9007199254740992) by (rewrite INR_IZR_INZ; apply IZR_le; lia).
  assert (A : Rabs (val s + val h) <= INR (S i)) by (rewrite S_INR, Rabs_pos_eq; lra).
  destruct (l_add fmt64 laws64 s h Fs Fh) as [F1 E1]; [lra|]. change (fadd (ops fmt64) s h) with t in *.
  pose proof (format_int 0 ltac:(lia)) as R0. pose proof (format_int (Z.of_nat (S i)) ltac:(lia)) as R1. rewrite <- INR_IZR_INZ in R1.
  split; [exact F1|]. rewrite E1. split; [split|split].
  - rewrite <- R0. apply rn_mono. lra.
  - rewrite <- R1. apply rn_mono. rewrite S_INR. lra.
  - eapply Rle_trans; [apply rn_near; lra|]. lra.
  - intros H1 H2. rewrite <- R1. f_equal. rewrite S_INR. lra.
Qed.
Definition Eb (i : nat) : R := u52 * (INR i * (INR i + 2)).
Definition sum_ok (i : nat) (A : R) (s : binary64) : Prop := fin fmt64 s /\ 0 <= val s <= INR i /\ Rabs (val s - A) <= Eb i.
Lemma add_hits_ok nr : (1 <= nr <= 2 ^ 53)%Z -> forall hs i A s, Forall (fun x => (Z.of_nat x <= nr)%Z) hs -> (Z.of_nat (i + length hs) <= 2 ^ 53)%Z ->
  sum_ok i A s -> sum_ok (i + length hs) (A + INR (fold_right Nat.add 0%nat hs) / IZR nr) (add_hits nr hs s).
Proof.
  intro Hn. induction hs as [|x hs IH]; intros i A s F Hl (Fs & Rs & Es).
  - cbn. rewrite Nat.add_0_r. repeat split; try tauto. replace (A + 0 / IZR nr) with A; [exact Es|]. unfold Rdiv. ring.
  - inversion F as [|? ? Hx F']; subst. cbn [add_hits fold_left length fold_right] in *.
    destruct (hit_ok x nr Hn Hx) as (Fh & Rh & Eh & _). destruct (add_ok s _ i Fs Fh Rs Rh) as (Ft & Rt & Et & _); [lia|].
    replace (i + S (length hs))%nat with (S i + length hs)%nat by lia.
    rewrite plus_INR. replace (A + (INR x + INR (fold_right Nat.add 0%nat hs)) / IZR nr) with
      ((A + INR x / IZR nr) + INR (fold_right Nat.add 0%nat hs) / IZR nr) by (unfold Rdiv; ring).
    apply IH; [exact F'|lia|]. split; [exact Ft|]. split; [exact Rt|].
    set (t := val (b64_plus mode_NE s (hit_rate x nr))) in *.
    replace (t - (A + INR x / IZR nr)) with ((t - (val s + val (hit_rate x nr))) + (val s - A) + (val (hit_rate x nr) - INR x / IZR nr)) by ring.
    eapply Rle_trans; [apply Rabs_triang|]. eapply Rle_trans; [apply Rplus_le_compat_r, Rabs_triang|].
    unfold Eb in *. rewrite S_INR in *. pose proof (pos_INR i). nra.
Qed.
Lemma add_hits_all nr : (1 <= nr <= 2 ^ 53)%Z -> forall hs i s, Forall (fun x => Z.of_nat x = nr) hs -> (Z.of_nat (i + length hs) <= 2 ^ 53)%Z ->
  fin fmt64 s -> val s = INR i -> fin fmt64 (add_hits nr hs s) /\ val (add_hits nr hs s) = INR (i + length hs).
Proof.
  intro Hn. induction hs as [|x hs IH]; intros i s F Hl Fs Es.
  - cbn. rewrite Nat.add_0_r. auto.
  - inversion F as [|? ? Hx F']; subst. cbn [add_hits fold_left length] in *.
    destruct (hit_ok x _ Hn (Z.le_refl _)) as (Fh & Rh & _ & Eh). pose proof (pos_INR i).
    destruct (add_ok s _ i Fs Fh) as (Ft & _ & _ & Et); [lra|lra|lia|].
    replace (i + S (length hs))%nat with (S i + length hs)%nat by lia. apply IH; auto. lia.
Qed.

(** One reported precision. *)
Lemma precision_ok nr n rows k : (1 <= nr <= 2 ^ 53)%Z -> (1 <= n <= 2 ^ 53)%Z -> Z.of_nat (length rows) = n ->
  Forall (fun row => (Z.of_nat (length (fst row)) <= nr)%Z) rows ->
  let p := b64_div mode_NE (add_hits nr (column k rows) (d_of_Z 0)) (d_of_Z n) in
  fin fmt64 p /\ 0 <= val p <= 1 /\ Rabs (val p - mean_recall nr k rows) <= u52 * (IZR n + 3).
Proof.
  intros Hn Hk HL HF p. destruct (int64_ok 0 ltac:(lia)) as [F0 E0].
  assert (Lc : length (column k rows) = length rows) by apply map_length.
  assert (FC : Forall (fun x => (Z.of_nat x <= nr)%Z) (column k rows)).
  { apply Forall_map. eapply Forall_impl; [|exact HF]. intros row H. pose proof (hits_le (fst row) (nth k (snd row) [])). cbn beta in *. lia. }
  destruct (add_hits_ok nr Hn (column k rows) 0 0 (d_of_Z 0) FC) as (Fs & Rs & Es).
  - lia.
  - split; [exact F0|]. change (val (d_of_Z 0) = 0) in E0. rewrite E0. unfold Eb. cbn [INR]. rewrite Rminus_0_r, Rabs_R0. lra.
  - rewrite <- total_column, Rplus_0_l in Es. cbn [plus] in Rs, Es. unfold Eb in Es. rewrite Lc, (INR_IZR_INZ (length rows)), HL in Rs, Es.
    destruct (div_ok _ n n Hk eq_refl Fs Rs) as (A & B & C & _). fold p in A, B, C.
    split; [exact A|]. split; [exact B|]. unfold mean_recall. rewrite (INR_IZR_INZ (length rows)), HL.
    assert (P : 1 <= IZR n) by (apply IZR_le; lia). assert (P2 : 1 <= IZR nr) by (apply IZR_le; lia).
    set (S := val (add_hits nr (column k rows) (d_of_Z 0))) in *.
    replace (val p - INR (total_hits k rows) / (IZR nr * IZR n)) with ((val p - S / IZR n) + (S - INR (total_hits k rows) / IZR nr) / IZR n) by (field; lra).
    eapply Rle_trans; [apply Rabs_triang|].
    assert (D : Rabs ((S - INR (total_hits k rows) / IZR nr) / IZR n) <= u52 * (IZR n + 2)); [|lra].
    unfold Rdiv at 1. rewrite Rabs_mult, (Rabs_pos_eq (/ IZR n)) by (left; apply Rinv_0_lt_compat; lra).
    apply (Rmult_le_reg_r (IZR n)); [lra|]. rewrite Rmult_assoc, Rinv_l, Rmult_1_r by lra. lra.
Qed.
Lemma precision_one nr n rows k : (1 <= nr <= 2 ^ 53)%Z -> (1 <= n <= 2 ^ 53)%Z -> Z.of_nat (length rows) = n ->
  Forall (fun row => Z.of_nat (length (fst row)) = nr /\ incl (fst row) (nth k (snd row) [])) rows ->
  let p := b64_div mode_NE (add_hits nr (column k rows) (d_of_Z 0)) (d_of_Z n) in
  fin fmt64 p /\ val p = 1.
Proof.
  intros Hn Hk HL HF p. destruct (int64_ok 0 ltac:(lia)) as [F0 E0].
  assert (Lc : length (column k rows) = length rows) by apply map_length.
  destruct (add_hits_all nr Hn (column k rows) 0 (d_of_Z 0)) as (Fs & Es).
  - apply Forall_map. eapply Forall_impl; [|exact HF]. intros row [H1 H2]. now rewrite hits_all.
  - lia.
  - exact F0.
  - exact E0.
  - cbn [plus] in Es. rewrite Lc, INR_IZR_INZ, HL in Es. assert (P : 1 <= IZR n) by (apply IZR_le; lia).
    destruct (div_ok _ n n Hk eq_refl Fs) as (A & _ & _ & B & _); [lra|]. auto.
Qed.
