(** Reported distances: of which vectors, and how accurate. *)
From Verif Require Import Base Flt Layout Rng Alloc Prog Dist Build Policy Index Search Lib Spec ForestSpec RealSpec LayoutProof FltProof MemProof StoreProof
  BuildProof BuildSpec ForestProof AfterProof AccProof Concrete.
From Coq Require Import Reals Lra Sorted Permutation.
From Flocq Require Import Core IEEE754.BinarySingleNaN IEEE754.Binary IEEE754.Bits.
Open Scope N_scope.

(** ** GetDistance looks at the vectors that were added *)
Section D.
Variable fo : FOps.
Variable c : Cfg.
Hypothesis OK : CfgOK fo c.
Notation V := (list (F fo)).
Notation NSZ := (nodeSize fo c).

Lemma image_bytes0 (o : option V) : (forall w, o = Some w -> lenN w = vlen c) -> item_bytes fo c o (image_of fo c o).
Proof.
  intro Hf. pose proof (nodeSize_eq _ _ OK) as Hs. pose proof (off_dot_ge _ _ OK). pose proof (norm_before_dot _ _ OK) as Hn0.
  pose proof (off_vec_ge _ _ OK). pose proof (off_vec_eq fo c) as Ho. pose proof (fb_pos _ _ OK).
  assert (Hl : lenN (image_of fo c o) = NSZ).
  { unfold lenN. rewrite length_image_of; [lia|exact OK|]. exact Hf. }
  assert (Hv : n_vec fo c (image_of fo c o) = match o with Some w => w | None => map (dec fo) (repeat 0 (N.to_nat (vlen c))) end).
  { unfold n_vec. destruct o as [w|]; cbn [image_of].
    - rewrite (sub_item_vec fo c OK); [|now apply Hf|apply repeat_length]. rewrite <- (app_nil_r (enc_vec fo w)).
      apply dec_enc_vec; [exact OK|]. now apply Hf.
    - unfold zeros. rewrite sub_zeros by lia. apply dec_vec_zeros. }
  constructor.
  - exact Hl.
  - apply (image_desc fo c OK).
  - exact Hv.
  - intro FL. unfold norm_right. cbn [snode_of s_norm s_vec]. rewrite Hv.
    unfold n_norm. destruct o as [w|]; cbn [image_of].
    + unfold item_image. destruct (knd c) eqn:Ek.
      * left. unfold sub. rewrite skipn_app_exact by (rewrite length_enc_ix; unfold off_children; reflexivity).
        rewrite <- app_assoc, firstn_app_exact by apply length_enc_f. now apply (dec_enc_f fo c OK).
      * right. unfold sub. rewrite skipn_app_exact by (rewrite length_enc_ix; unfold off_children; reflexivity).
        unfold off_children in Hn0.
        rewrite <- app_assoc, firstn_app. rewrite repeat_length.
        replace (N.to_nat (fbytes fo) - N.to_nat (off_dot fo c - ixb c))%nat with 0%nat by lia. cbn [firstn]. rewrite app_nil_r.
        rewrite firstn_repeat0 by lia. unfold dec_f. rewrite le_dec_zeros. now apply zero_eq.
    + right. unfold zeros. rewrite sub_zeros by lia. unfold dec_f. rewrite le_dec_zeros. now apply zero_eq.
Qed.

Lemma item_read ix f fs i : items_inv fo c ix f -> i < n_items ix ->
  vread (view fs ix) (addr fo c i) NSZ = Ok (image_of fo c (f i)).
Proof.
  intros I Hi. pose proof (ii_ns _ _ _ _ I). destruct (view_ok fo c ix f fs I) as (b & Hv & Hat & Hsz); [lia|].
  rewrite Hv. cbn [vread]. rewrite (cap_ok_addr _ _ _ i (ii_cap _ _ _ _ I) Hi).
  pose proof (nodeSize_eq _ _ OK) as Hs. rewrite bread_ok by nia. f_equal.
  rewrite <- (ii_img _ _ _ _ I i). unfold snode_img, smem, cur_mem. rewrite Hat. reflexivity.
Qed.

Lemma get_distance_of v fs ix i j x y bi bj : is_float fo -> view fs ix = v ->
  vread v (addr fo c i) NSZ = Ok bi -> item_bytes fo c (Some x) bi ->
  vread v (addr fo c j) NSZ = Ok bj -> item_bytes fo c (Some y) bj ->
  get_distance fo c fs ix i j = Ok (vec_distance fo c x y).
Proof.
  intros FL <- Ri Bi Rj Bj. unfold get_distance, node_fields. rewrite Ri, Rj. cbn [rbind].
  rewrite (distance_gap fo _ _ FL (ib_norm _ _ _ _ Bi FL) (ib_norm _ _ _ _ Bj FL)). cbn [snode_of s_vec].
  rewrite (ib_vec _ _ _ _ Bi), (ib_vec _ _ _ _ Bj). reflexivity.
Qed.
Lemma get_distance_added ix f fs i j x y : is_float fo -> items_inv fo c ix f -> f i = Some x -> f j = Some y ->
  get_distance fo c fs ix i j = Ok (vec_distance fo c x y).
Proof.
  intros FL I Hi Hj. eapply get_distance_of; eauto.
  - apply (item_read ix f fs i I). eapply ii_ext; eauto.
  - rewrite Hi. apply image_bytes0. intros w [= <-]. eapply ii_len; eauto.
  - apply (item_read ix f fs j I). eapply ii_ext; eauto.
  - rewrite Hj. apply image_bytes0. intros w [= <-]. eapply ii_len; eauto.
Qed.
Lemma get_distance_forest fs ix f roots i j x y : is_float fo -> forest fo c (view fs ix) (n_items ix) roots f -> f i = Some x -> f j = Some y ->
  get_distance fo c fs ix i j = Ok (vec_distance fo c x y).
Proof.
  intros FL H Hi Hj. destruct (fr_ext _ _ _ _ _ _ H i x Hi) as [Li _]. destruct (fr_ext _ _ _ _ _ _ H j y Hj) as [Lj _].
  destruct (fr_item _ _ _ _ _ _ H i Li) as (bi & Ri & Bi). destruct (fr_item _ _ _ _ _ _ H j Lj) as (bj & Rj & Bj).
  rewrite Hi in Bi. rewrite Hj in Bj. eapply get_distance_of; eauto.
Qed.
End D.

(** ** Accuracy *)
Open Scope R_scope.
Section Acc.
Variable fm : Fmt.
Hypothesis FM : is_fmt fm.
Notation fo := (ops fm).
Notation rvs := (map (rv fm)).
Notation u := (unit_of fm).

Lemma neg_real x : fin fm x -> fin fm (fneg fo x) /\ rv fm (fneg fo x) = - rv fm x.
Proof.
  intro Fx. destruct FM as [->| ->]; cbn [ops fmt32 fmt64 fneg fops32 fops64 fin rv] in *.
  - split; [unfold b32_opp; rewrite is_finite_Bopp; exact Fx|]. apply B2R_Bopp.
  - split; [unfold b64_opp; rewrite is_finite_Bopp; exact Fx|]. apply B2R_Bopp.
Qed.
Lemma tame_size x : tame fm x -> 0 <= INR (length x) * u <= / 16.
Proof.
  intros (H & _). pose proof (fmt_unit fm FM). pose proof (pos_INR (length x)). split; [apply Rmult_le_pos; lra|].
  apply Rle_trans with (1048576 * / 16777216); [|lra]. apply Rmult_le_compat; lra.
Qed.
Lemma distance_accurate (c : Cfg) x y : length x = length y -> tame fm x -> tame fm y ->
  close_distance fm (knd c) (vec_distance fo c x y) x y (dist_err fm (length x)).
Proof.
  intros Hl Tx Ty. destruct (gap_accurate fm FM x y Hl Tx Ty) as [Fg Eg]. pose proof (gap_range fm x y Tx Ty) as G4.
  pose proof (tame_size x Tx) as Hnu. pose proof (fmt_unit fm FM) as HU. unfold close_distance, vec_distance, reported, dist_err.
  set (g := cos_gap fo x y) in *. set (t := true_gap (rvs x) (rvs y)) in *.
  pose proof Eg as Eg'. apply Rabs_bounds in Eg'. destruct (knd c).
  - destruct (Rlt_or_le (rv fm g) 0) as [Hneg|Hpos].
    + right. split; [now apply AccProof.sqrt_neg|]. lra.
    + left. destruct (root_accurate fm FM g Fg) as [Fs Es]; [lra|]. split; [exact Fs|].
      set (s := rv fm (fsqrt fo g)) in *. replace (s * s - t) with ((s * s - rv fm g) + (rv fm g - t)) by ring.
      eapply Rle_trans; [apply Rabs_triang|]. lra.
  - destruct (neg_real g Fg) as [Fn En]. split; [exact Fn|]. rewrite En, Ropp_involutive. lra.
Qed.
Lemma self_zero (c : Cfg) x : tame fm x -> vec_distance fo c x x = match knd c with Angular => f0 fo | DotProduct => fneg fo (f0 fo) end.
Proof.
  intro Tx. unfold vec_distance. rewrite (gap_self fm FM x Tx). unfold reported. destruct (knd c); [|reflexivity].
  destruct FM as [->| ->]; reflexivity.
Qed.

(** ** Ranking *)
Lemma nearer_le (p q : F fo * N) : fin fm (fst p) -> fin fm (fst q) -> nearer fo q p = false -> rv fm (fst p) <= rv fm (fst q).
Proof.
  intros Fp Fq H. apply Rnot_lt_le. intro C. apply orb_false_iff in H. destruct H as [H _].
  apply (l_lt fm (fmt_laws fm FM)) in C; auto. congruence.
Qed.
Lemma fin_not_nan x : fin fm x -> not_nan fo x.
Proof. intro Fx. unfold not_nan. now apply (l_eq fm (fmt_laws fm FM)). Qed.

Lemma sorted_nth {A} (R : A -> A -> Prop) l : StronglySorted R l -> forall a b x y, (a < b)%nat -> nth_error l a = Some x -> nth_error l b = Some y -> R x y.
Proof.
  induction 1 as [|z l S IH F]; intros a b x y Hab Ha Hb; [destruct a; discriminate|].
  destruct b as [|b]; [lia|]. cbn in Hb. destruct a as [|a].
  - injection Ha as <-. rewrite Forall_forall in F. apply F. eapply nth_error_In; eauto.
  - apply (IH a b); [lia|exact Ha|exact Hb].
Qed.
Lemma combine_nth {A B} (l : list A) : forall (m : list B) k b, length l = length m -> nth_error m k = Some b ->
  exists a, nth_error l k = Some a /\ nth_error (combine l m) k = Some (a, b).
Proof.
  induction l as [|x l IH]; intros [|y m] k b Hl Hk; try discriminate; destruct k as [|k]; cbn in *; try discriminate.
  - injection Hk as ->. eauto.
  - apply IH; auto.
Qed.
Lemma in_combine_nth {A B} (l : list A) : forall (m : list B) b, length l = length m -> In b m -> exists a, In (a, b) (combine l m).
Proof.
  intros m b Hl Hb. apply In_nth_error in Hb. destruct Hb as [k Hk]. destruct (combine_nth l m k b Hl Hk) as (a & _ & E).
  exists a. eapply nth_error_In; eauto.
Qed.

Section Rank.
Variable c : Cfg.
Variable f : N -> option (list (F fo)).
Variable q : list (F fo).
Hypothesis Tq : tame fm q.
Hypothesis Tf : forall j v, f j = Some v -> length v = length q /\ tame fm v.
Notation E := ((10 * INR (length q) + 44) * u).

Lemma tame_all_num : all_num fo f q.
Proof. intros j v H. destruct (Tf j v H) as [Hl Tv]. apply fin_not_nan. apply (gap_accurate fm FM q v); auto. Qed.
Lemma gap_bound j v : f j = Some v -> fin fm (cos_gap fo q v) /\ Rabs (rv fm (cos_gap fo q v) - true_gap (rvs q) (rvs v)) <= E.
Proof. intro H. destruct (Tf j v H) as [Hl Tv]. apply (gap_accurate fm FM q v); auto. Qed.
Lemma pair_le p j v p' j' v' : f j = Some v -> f j' = Some v' -> p = (cos_gap fo q v, j) -> p' = (cos_gap fo q v', j') ->
  nearer fo p' p = false -> true_gap (rvs q) (rvs v) <= true_gap (rvs q) (rvs v') + 2 * E.
Proof.
  intros Hj Hj' -> -> H. destruct (gap_bound j v Hj) as [F1 E1]. destruct (gap_bound j' v' Hj') as [F2 E2].
  apply nearer_le in H; auto. cbn [fst] in H. apply Rabs_bounds in E1. apply Rabs_bounds in E2. lra.
Qed.
Lemma exact_ranked k ids ds : exact_nearest fo c f q k ids ds ->
  (forall a b i j v w, (a < b)%nat -> nth_error ids a = Some i -> nth_error ids b = Some j -> f i = Some v -> f j = Some w ->
     true_gap (rvs q) (rvs v) <= true_gap (rvs q) (rvs w) + 2 * E) /\
  (forall i j v w, In i ids -> ~ In j ids -> f i = Some v -> f j = Some w ->
     true_gap (rvs q) (rvs v) <= true_gap (rvs q) (rvs w) + 2 * E) /\
  (forall a i v, nth_error ids a = Some i -> f i = Some v -> exists d, nth_error ds a = Some d /\
     close_distance fm (knd c) d q v (dist_err fm (length q))).
Proof.
  intros (sc & raw & [Hnd Hsc] & Hl & (rest & Hp & Hlen & Hs & Hrest) & Eds).
  assert (Hin : forall p, In p (combine raw ids ++ rest) -> exists v, f (snd p) = Some v /\ fst p = cos_gap fo q v).
  { intros [d j] Hj. apply (Permutation_in _ (Permutation_sym Hp)) in Hj. apply Hsc in Hj. exact Hj. }
  assert (Huse : forall p j v, In p (combine raw ids ++ rest) -> snd p = j -> f j = Some v -> p = (cos_gap fo q v, j)).
  { intros [d i] j v Hj Es Hf. destruct (Hin _ Hj) as (v' & E1 & E2). cbn in *. subst. congruence. }
  split; [|split].
  - intros a b i j v w Hab Ha Hb Hv Hw.
    destruct (combine_nth raw ids a i Hl Ha) as (da & _ & Ca). destruct (combine_nth raw ids b j Hl Hb) as (db & _ & Cb).
    pose proof (sorted_nth _ _ Hs a b _ _ Hab Ca Cb) as H. apply nth_error_In in Ca. apply nth_error_In in Cb.
    eapply pair_le; [exact Hv|exact Hw| | |exact H].
    + apply Huse; auto. apply in_or_app. now left.
    + apply Huse; auto. apply in_or_app. now left.
  - intros i j v w Hi Hj Hv Hw. destruct (in_combine_nth raw ids i Hl Hi) as (d & Hd).
    assert (Hj' : In (cos_gap fo q w, j) rest).
    { assert (In (cos_gap fo q w, j) sc) by (apply Hsc; eauto). apply (Permutation_in _ Hp) in H. apply in_app_or in H.
      destruct H as [H|H]; [|exact H]. apply in_combine_r in H. contradiction. }
    eapply pair_le; [exact Hv|exact Hw| |reflexivity|exact (Hrest _ _ Hd Hj')].
    apply Huse; auto. apply in_or_app. now left.
  - intros a i v Ha Hv. destruct (combine_nth raw ids a i Hl Ha) as (da & Ra & Ca). exists (reported fo c da).
    split; [rewrite Eds; now apply map_nth_error|]. apply nth_error_In in Ca.
    assert (Ep : (da, i) = (cos_gap fo q v, i)) by (apply Huse; auto; apply in_or_app; now left). injection Ep as ->.
    destruct (Tf i v Hv) as [Hlv Tv]. apply (distance_accurate c q v); auto.
Qed.
End Rank.
End Acc.

(** ** Vectors of small integers *)
Lemma int_real z : (Z.abs z <= 1048576)%Z -> fin fmt32 (s_of_Z z) /\ rv fmt32 (s_of_Z z) = IZR z.
Proof.
  intro H. cbn [fin rv fmt32]. unfold s_of_Z. pose proof (binary_normalize_correct 24 128 eq_refl eq_refl mode_NE z 0 false) as C. cbv zeta in C.
  assert (G : generic_format radix2 (FLT_exp (-149) 24) (F2R (Float radix2 z 0))).
  { apply generic_format_FLT. exists (Float radix2 z 0); [reflexivity| |cbn; lia]. cbn [Fnum]. change (radix2 ^ 24)%Z with 16777216%Z. lia. }
  assert (Ez : F2R (Float radix2 z 0) = IZR z) by (unfold F2R; cbn; lra).
  assert (Er : round radix2 (SpecFloat.fexp 24 128) (round_mode mode_NE) (F2R (Float radix2 z 0)) = IZR z).
  { rewrite <- Ez. apply round_generic; [exact _|]. exact G. }
  rewrite Er in C. rewrite Rlt_bool_true in C; [tauto|].
  apply Rle_lt_trans with (IZR 1048576); [rewrite <- abs_IZR; apply IZR_le; exact H|]. change 1048576%Z with (2 ^ 20)%Z.
  change (IZR (2 ^ 20)) with (bpow radix2 20). apply bpow_lt. lia.
Qed.
Lemma fv_real l : Forall (fun z => (Z.abs z <= 1048576)%Z) l -> map (rv fmt32) (fv l) = map IZR l.
Proof.
  intro H. unfold fv. rewrite map_map. apply map_ext_in. intros z Hz. rewrite Forall_forall in H. now apply int_real, H.
Qed.
Lemma rdot_ints l : rdot (map IZR l) (map IZR l) = IZR (fold_right (fun z s => z * z + s)%Z 0%Z l).
Proof. induction l as [|z l IH]; cbn [map rdot fold_right]; [reflexivity|]. now rewrite IH, plus_IZR, mult_IZR. Qed.
Lemma fv_tame l : (length l <= 1000)%nat -> forallb (fun z => (Z.abs z <=? 1048576)%Z) l = true -> (1 <=? fold_right (fun z s => z * z + s)%Z 0%Z l)%Z = true ->
  tame fmt32 (fv l).
Proof.
  intros Hl Hb H1. assert (Hf : Forall (fun z => (Z.abs z <= 1048576)%Z) l).
  { apply Forall_forall. intros z Hz. rewrite forallb_forall in Hb. specialize (Hb z Hz). lia. }
  unfold tame. rewrite fv_real by exact Hf. unfold fv. rewrite map_length. split; [|split].
  - apply le_INR in Hl. rewrite (INR_IZR_INZ 1000) in Hl. change (Z.of_nat 1000) with 1000%Z in Hl. cbn [pow]. lra.
  - apply Forall_map. eapply Forall_impl; [|exact Hf]. intros z Hz. destruct (int_real z Hz) as [F E]. split; [exact F|]. rewrite E, <- abs_IZR.
    apply IZR_le in Hz. cbn [pow]. lra.
  - unfold rlen. rewrite rdot_ints. apply Z.leb_le in H1. apply IZR_le in H1.
    apply Rle_trans with (sqrt 1); [rewrite sqrt_1; cbn [pow]; lra|]. apply sqrt_le_1; lra.
Qed.
