(** How the split nodes of a built index divide their items: by the sign of an inner
    product, and never very unevenly. *)
From Verif Require Import Base Flt Layout Rng Alloc Prog Imbalance Dist Build Index Spec ForestSpec Lib LayoutProof FltProof MemProof
  StoreProof RoundProof TreeProof BuildProof ForestProof BuildSpec AfterProof.
From Coq Require Import Permutation Reals Lra.
From Flocq Require Import IEEE754.Binary IEEE754.Bits.
Close Scope R_scope.
Open Scope N_scope.

(** ** Signs *)
Lemma zero_div fo n : is_float fo -> flt fo (f0 fo) n = true -> fdiv fo (f0 fo) n = f0 fo.
Proof.
  intros [-> | ->] H; cbn [fdiv flt f0 F fops32 fops64] in *;
  destruct n as [s|s|s pl e|s m e B]; try discriminate H; destruct s; try discriminate H; reflexivity.
Qed.
Lemma nil_factor_0 fo e : is_float fo -> nil_factor fo e -> e = f0 fo.
Proof.
  intros FL H. induction H as [|e n _ IH Hn].
  - destruct FL as [-> | ->]; [apply dec32_0|apply dec64_0].
  - rewrite IH. now apply zero_div.
Qed.
Lemma add_zero_sign fo x : is_float fo ->
  flt fo (f0 fo) (fadd fo x (fmul fo (f0 fo) (f0 fo))) = flt fo (f0 fo) x /\
  feq fo (fadd fo x (fmul fo (f0 fo) (f0 fo))) (f0 fo) = feq fo x (f0 fo).
Proof.
  intros [-> | ->]; cbn [fadd fmul flt feq f0 F fops32 fops64] in *;
  destruct x as [s|s|s pl e|s m e B]; try destruct s; split; reflexivity.
Qed.
Lemma eq_not_pos fo x : is_float fo -> feq fo x (f0 fo) = true -> flt fo (f0 fo) x = false.
Proof.
  intros [-> | ->] H; cbn [flt feq f0 F fops32 fops64] in *;
  destruct x as [s|s|s pl e|s m e B]; try destruct s; try discriminate H; reflexivity.
Qed.

(** ** What a node keeps of a plane *)
Lemma skipn_add {A} a : forall b (l : list A), skipn (a + b) l = skipn b (skipn a l).
Proof. induction a as [|a IH]; intros b l; [reflexivity|]. destruct l; cbn; [now rewrite skipn_nil|apply IH]. Qed.
Lemma nth_words k b : forall n bs, (k < n)%nat -> nth_error (words b n bs) k = Some (Base.le_dec (firstn b (skipn (k * b) bs))).
Proof.
  induction k as [|k IH]; intros [|n] bs H; try lia; cbn [words nth_error]; [reflexivity|].
  rewrite IH by lia. do 3 f_equal. cbn [Nat.mul]. now rewrite skipn_add.
Qed.
Lemma firstn_mid {A} n k a (l z : list A) : (k + n <= a)%nat -> (a <= length l)%nat ->
  firstn n (skipn k (firstn a l ++ z)) = firstn n (skipn k l).
Proof.
  intros H H2. rewrite skipn_app. rewrite firstn_length, Nat.min_l by lia. replace (k - a)%nat with 0%nat by lia. cbn [skipn].
  rewrite firstn_app, skipn_length, firstn_length, Nat.min_l by lia.
  replace (n - (a - k))%nat with 0%nat by lia. cbn [firstn]. rewrite app_nil_r.
  rewrite skipn_firstn_comm, firstn_firstn. f_equal. lia.
Qed.

Section S.
Variable fo : FOps.
Variable c : Cfg.
Hypothesis OK : CfgOK fo c.
Hypothesis FL : is_float fo.
Notation NSZ := (nodeSize fo c).
Notation K := (maxK fo c).
Notation V := (list (F fo)).

Lemma dec_0 : dec fo 0 = f0 fo.
Proof. destruct FL as [-> | ->]; [apply dec32_0|apply dec64_0]. Qed.
Lemma kept_plane bs w : lenN w = vlen c -> kept fo c bs w -> keeps_plane fo c bs w.
Proof.
  intros Hw H. pose proof (fb_pos _ _ OK) as Hfb. unfold kept in H. unfold keeps_plane, keeps_part, n_vec. rewrite H.
  pose proof (lenN_enc_vec fo w) as Le. rewrite Hw in Le. unfold lenN in Le.
  set (A := N.to_nat (vlen c - off_vec fo c)). split; intros k Hk.
  - assert (Hkv : k < vlen c) by nia.
    assert (E : nth_error w (N.to_nat k) = nth_error (dec_vec fo c (enc_vec fo w ++ [])) (N.to_nat k))
      by (now rewrite (dec_enc_vec fo c OK)).
    rewrite E, app_nil_r. unfold dec_vec. rewrite !nth_error_map, !nth_words by lia. cbn [option_map]. do 3 f_equal.
    apply firstn_mid; unfold A; nia.
  - intros Hkv. unfold dec_vec. rewrite nth_error_map, nth_words by lia. cbn [option_map]. f_equal.
    rewrite skipn_app, (skipn_all2 (firstn A _)) by (rewrite firstn_length; unfold A; nia). cbn [app].
    rewrite skipn_rep, firstn_rep; [rewrite le_dec_zeros; apply dec_0|].
    rewrite firstn_length, Nat.min_l by (unfold A; nia). unfold A. nia.
Qed.
Lemma zero_plane bs : sub (off_vec fo c) (vlen c * fbytes fo) bs = repeat 0 (N.to_nat (vlen c * fbytes fo)) ->
  keeps_plane fo c bs (repeat (f0 fo) (N.to_nat (vlen c))).
Proof.
  intro H. pose proof (fb_pos _ _ OK) as Hfb. unfold keeps_plane, keeps_part, n_vec. rewrite H, dec_vec_zeros.
  assert (E : forall k, k < vlen c -> nth_error (map (dec fo) (repeat 0 (N.to_nat (vlen c)))) (N.to_nat k) = Some (f0 fo)).
  { intros k Hk. rewrite nth_error_map. rewrite nth_error_repeat by lia. cbn [option_map]. now rewrite dec_0. }
  split; intros k Hk; [|auto]. rewrite E by nia. now rewrite nth_error_repeat by nia.
Qed.

Lemma normalize_unit (u : V) : s_vec fo (normalize fo c (mkSN fo (f0 fo) (f0 fo) u)) = unit_vec fo u.
Proof. unfold normalize, unit_vec. cbn [s_vec]. unfold norm. rewrite inner_dot. destruct (flt fo _ _); reflexivity. Qed.
Lemma margin_inner m (y : V) x : s_dot fo m = f0 fo -> lenN y = vlen c -> margin fo c m y = Ok x ->
  flt fo (f0 fo) x = flt fo (f0 fo) (inner fo (s_vec fo m) y) /\ feq fo x (f0 fo) = feq fo (inner fo (s_vec fo m) y) (f0 fo).
Proof.
  intros He Hy H. unfold margin in H. destruct (lenN y =? 0); [discriminate|]. destruct (lenN y <? vlen c); [discriminate|].
  rewrite firstn_all2 in H by (unfold lenN in Hy; lia). injection H as <-. rewrite inner_dot. destruct (knd c); [auto|].
  rewrite He. now apply add_zero_sign.
Qed.
Lemma zero_factor bs e : knd c = DotProduct -> factor_kept fo c bs e -> nil_factor fo e -> n_dot fo c bs = f0 fo.
Proof.
  intros Ek H He. destruct (H Ek) as (k & Hk & E). apply nil_factor_0 in He; [|exact FL]. subst e.
  assert (Z : enc_f fo (f0 fo) = repeat 0 (N.to_nat (fbytes fo))) by (destruct FL as [-> | ->]; vm_compute; reflexivity).
  unfold n_dot, dec_f. rewrite E, Z, firstn_rep by exact Hk. rewrite <- repeat_app, le_dec_zeros. apply dec_0.
Qed.
(** ** The means of TwoMeans *)
Lemma scratch_part bs : lenN bs = NSZ -> keeps_part fo c (n_vec fo c bs) (n_vec fo c (copy_to_scratch fo c bs)).
Proof.
  intro Hl. pose proof (nodeSize_eq _ _ OK) as Hn. pose proof (fb_pos _ _ OK) as Hfb. unfold lenN in Hl.
  set (A := N.to_nat (vlen c - off_vec fo c)). set (B := sub (off_vec fo c) (vlen c * fbytes fo) bs).
  assert (LB : length B = N.to_nat (vlen c * fbytes fo)) by (unfold B, sub; rewrite firstn_length, skipn_length; lia).
  assert (E : sub (off_vec fo c) (vlen c * fbytes fo) (copy_to_scratch fo c bs) =
    firstn A B ++ repeat 0 (N.to_nat (vlen c * fbytes fo - (vlen c - off_vec fo c)))).
  { unfold B, A, copy_to_scratch. rewrite Nat.min_l by nia. unfold sub.
    rewrite skipn_app, firstn_length, Nat.min_l by nia. rewrite skipn_rep.
    rewrite firstn_app, skipn_length, firstn_length, Nat.min_l by nia.
    rewrite skipn_firstn_comm, firstn_firstn, firstn_firstn. f_equal.
    - f_equal. nia.
    - rewrite firstn_rep by nia. f_equal. nia. }
  unfold n_vec. rewrite E. fold B. unfold keeps_part, dec_vec. split; intros k Hk.
  - rewrite !nth_error_map, !nth_words by nia. cbn [option_map]. do 3 f_equal. apply firstn_mid; unfold A; nia.
  - intros Hkv. rewrite nth_error_map, nth_words by lia. cbn [option_map]. f_equal.
    rewrite skipn_app, (skipn_all2 (firstn A B)) by (rewrite firstn_length; unfold A; nia). cbn [app].
    rewrite skipn_rep, firstn_rep; [rewrite le_dec_zeros; apply dec_0|].
    rewrite firstn_length, Nat.min_l by (unfold A; nia). unfold A. nia.
Qed.
Lemma vec_norm x : s_vec fo (init_node fo c (normalize fo c x)) = unit_vec fo (s_vec fo x).
Proof. unfold init_node, normalize, unit_vec, norm. rewrite inner_dot. destruct (flt fo _ _), (knd c); reflexivity. Qed.
Lemma centroid_mean (I : list N -> Prop) (P : V -> Prop) : (forall bs, I bs -> lenN bs = NSZ /\ P (n_vec fo c bs)) ->
  forall n x, centroid fo c I n x -> running_mean fo c P n (s_vec fo x).
Proof.
  intros H n x. induction 1 as [bs Hb|n p bs Hp IH Hb Hn].
  - destruct (H bs Hb) as [Hl HP]. rewrite vec_norm. cbn [snode_of s_vec].
    apply (rm_first fo c P (n_vec fo c bs)); [exact HP|apply lenN_n_vec|now apply scratch_part].
  - destruct (H bs Hb) as [Hl HP]. unfold centroid_step.
    replace (s_vec fo (init_node fo c _)) with
      (zip fo (fun a b => fdiv fo (fadd fo (fmul fo a (fofN fo n)) (fdiv fo b (norm fo (n_vec fo c bs)))) (fofN fo (n + 1))) (s_vec fo p) (n_vec fo c bs)).
    + apply rm_next; [exact IH|exact HP|unfold norm; now rewrite inner_dot|exact Hn].
    + unfold init_node. destruct (knd c); reflexivity.
Qed.
Lemma tcut_plane n im f bs xs ys : (forall j x, f j = Some x -> lenN x = vlen c /\ n_vec fo c (im j) = x) ->
  (forall j, j < n -> n_desc c (im j) = 1 -> f j <> None /\ lenN (im j) = NSZ) ->
  tcut fo c n im bs xs ys -> plane_cut fo c f bs xs ys.
Proof.
  intros Hf Hi [_ [(m & Hm & Hk & Hd & Hn & _ & D)|(Hz & Hd & _)]].
  - split; [intro Ek; now apply (zero_factor bs (s_dot fo m))|]. exists (s_vec fo m). split; [exact Hm|]. split; [now apply kept_plane|].
    destruct D as [D|((_ & p & q & Hp & Hq & Eu) & D1 & D2)]; [left; exact D|right]. split.
    + destruct Hp as (i & Hi1 & Hp). destruct Hq as (k & Hk1 & Hq). exists (s_vec fo p), (s_vec fo q), i, k.
      assert (G : forall b, is_item fo c n im (xs ++ ys) b -> lenN b = NSZ /\ exists j, In j (xs ++ ys) /\ f j = Some (n_vec fo c b)).
      { intros b (j & Hj & Hjn & Hjd & ->). destruct (Hi j Hjn Hjd) as [H1 H2]. destruct (f j) as [x|] eqn:Ex; [|congruence].
        destruct (Hf j x Ex) as [_ Hx].
        assert (Es : sub 0 NSZ (im j) = im j) by (unfold sub; cbn [N.to_nat skipn]; apply firstn_all2; unfold lenN in H2; lia).
        rewrite Es. split; [exact H2|]. exists j. split; [exact Hj|]. now rewrite Hx. }
      split; [eapply centroid_mean; [exact G|exact Hp]|]. split; [eapply centroid_mean; [exact G|exact Hq]|].
      split; [exact Hi1|]. split; [exact Hk1|]. rewrite Eu. apply normalize_unit.
    + apply nil_factor_0 in Hn; [|exact FL]. split; intros j x Hj Hx; destruct (Hf j x Hx) as [Hl Hv].
      * destruct (D1 j Hj) as (mm & E1 & E2). rewrite Hv in E1. destruct (margin_inner m x mm Hn Hl E1) as [S1 S2].
        rewrite S1, S2 in E2. destruct E2 as [E2|E2]; [now apply eq_not_pos|exact E2].
      * destruct (D2 j Hj) as (mm & E1 & E2). rewrite Hv in E1. destruct (margin_inner m x mm Hn Hl E1) as [S1 S2].
        rewrite S1, S2 in E2. tauto.
  - split; [intros _; unfold n_dot, dec_f; rewrite Hd, le_dec_zeros; apply dec_0|].
    exists (repeat (f0 fo) (N.to_nat (vlen c))). split; [unfold lenN; rewrite repeat_length; lia|].
    split; [now apply zero_plane|now left].
Qed.
End S.

(** ** Balance *)
Lemma usable_balanced l r : l < 2 ^ 64 -> r < 2 ^ 64 -> split_usable l r = true ->
  1000 * l <= 992 * (l + r) /\ 1000 * r <= 992 * (l + r).
Proof.
  intros Hl Hr U. destruct (usable_nonempty l r Hl Hr U) as [Nl Nr].
  unfold split_usable in U. apply (is_leb _ _ _ _ (is_imbalance l r Hl Hr) is_099) in U.
  pose proof bound_099 as B99.
  pose proof (Rmax_l (frac l r) (rd (1 - frac l r))) as M1. pose proof (Rmax_r (frac l r) (rd (1 - frac l r))) as M2.
  destruct (frac_parts l r Hl Hr) as (Ha & Hd & Hs). cbv zeta in Ha, Hd, Hs.
  pose proof eps9_bound as He. pose proof (rd_N l Hl) as Rl. pose proof (N_real r Hr) as Br. pose proof (N_real l Hl) as Bl.
  pose proof (frac_range l r Hl Hr) as Fr. unfold frac in *.
  set (d := rd (rd (rd (IZR (Z.of_N l)) + rd (IZR (Z.of_N r))) + eps9)) in *.
  assert (L1 : (1 <= IZR (Z.of_N l))%R) by (apply IZR_le; lia).
  assert (R1 : (1 <= IZR (Z.of_N r))%R) by (apply IZR_le; lia).
  set (L := IZR (Z.of_N l)) in *. set (Q := IZR (Z.of_N r)) in *. set (a := rd L) in *. set (q := (a / d)%R) in *.
  assert (Hdp : (0 < d)%R) by lra.
  assert (Hq : (q * d = a)%R) by (unfold q; field; lra).
  assert (U1 : (rd q <= 0.991)%R) by lra.
  assert (U2 : (0.0089 <= rd q)%R).
  { destruct (Rle_or_lt (1 / 10000000000) (1 - rd q)) as [H|H]; [|lra].
    pose proof (rd_close _ H). lra. }
  assert (Hq0 : (1 / 10000000000 <= q)%R).
  { destruct (Rle_or_lt (1 / 10000000000) q) as [H|H]; [exact H|].
    pose proof (rd_mono q (1 / 10000000000) ltac:(lra)). pose proof (rd_close (1 / 10000000000) ltac:(lra)). lra. }
  pose proof (rd_close q Hq0) as Cq.
  assert (Q1 : (q <= 0.99101)%R) by lra. assert (Q2 : (0.00889 <= q)%R) by lra.
  assert (A1 : (a <= 0.99101 * d)%R) by (rewrite <- Hq; apply Rmult_le_compat_r; lra).
  assert (A2 : (0.00889 * d <= a)%R) by (rewrite <- Hq; apply Rmult_le_compat_r; lra).
  split; apply N2Z.inj_le; apply le_IZR; rewrite !N2Z.inj_mul, N2Z.inj_add, !mult_IZR, plus_IZR; fold L Q;
    change (IZR (Z.of_N 1000)) with 1000%R; change (IZR (Z.of_N 992)) with 992%R; lra.
Qed.

Section B.
Variable fo : FOps.
Variable c : Cfg.
Hypothesis OK : CfgOK fo c.
Notation NSZ := (nodeSize fo c).
Notation K := (maxK fo c).

Lemma divided_reach C v ni i xs : divided fo c C v ni i xs -> exists m, reach fo c v ni i xs m.
Proof.
  induction 1 as [i xs H|i l r bs xs ys Hs _ _ _ [m Hm] _ [n Hn]].
  - exists 1%nat. now apply re_leaf.
  - exists (S (m + n)). eapply re_split; eauto.
Qed.
Lemma tcut_balanced n im bs xs ys a b : a < n -> b < n -> n_desc c (im a) = 1 -> n_desc c (im b) = 1 -> a <> b ->
  lenN xs < 2 ^ 64 -> lenN ys < 2 ^ 64 -> tcut fo c n im bs xs ys -> balanced xs ys.
Proof.
  intros Ha Hb Da Db Hab Hx Hy [_ [(m & _ & _ & _ & _ & U & _)|(_ & _ & H1)]].
  - now apply usable_balanced.
  - destruct Hab. now apply H1.
Qed.
Lemma divided_balanced n im v ni i xs a b : a < n -> b < n -> n_desc c (im a) = 1 -> n_desc c (im b) = 1 -> a <> b ->
  divided fo c (tcut fo c n im) v ni i xs -> lenN xs < 2 ^ 64 ->
  divided fo c (fun _ xs ys => balanced xs ys) v ni i xs.
Proof.
  intros Ha Hb Da Db Hab. induction 1 as [i xs H|i l r bs xs ys Hs Hr' Hc Hl IHl Hr IHr]; intro Hn; [now apply dv_leaf|].
  rewrite lenN_app in Hn. eapply dv_split; [exact Hs|exact Hr'| |apply IHl; lia|apply IHr; lia].
  eapply (tcut_balanced n im bs xs ys a b); auto; lia.
Qed.

(** Splits shrink: after [d] of them at most 0.992^d of the items are left. *)
Lemma splits_fun v i l r l' r' : splits fo c v i l r -> splits fo c v i l' r' -> l = l' /\ r = r'.
Proof. intros H H'. inversion H; inversion H'; subst. assert (bs0 = bs) by congruence. subst. split; congruence. Qed.
Lemma split_not_leaf v ni i l r xs : splits fo c v i l r -> lists_items fo c v ni i xs -> False.
Proof.
  intros H H'. pose proof (maxK_ge2 _ _ OK). inversion H; inversion H'; subst; assert (bs0 = bs) by congruence; subst; lia.
Qed.
Lemma shrink d x n : 1000 ^ N.of_nat d <= 992 ^ N.of_nat d * x -> 1000 * x <= 992 * n ->
  1000 ^ N.of_nat (S d) <= 992 ^ N.of_nat (S d) * n.
Proof.
  intros H1 H2. rewrite Nat2N.inj_succ, !N.pow_succ_r'.
  apply N.le_trans with (1000 * (992 ^ N.of_nat d * x)); [now apply N.mul_le_mono_l|].
  replace (1000 * (992 ^ N.of_nat d * x)) with (992 ^ N.of_nat d * (1000 * x)) by ring.
  replace (992 * 992 ^ N.of_nat d * n) with (992 ^ N.of_nat d * (992 * n)) by ring.
  now apply N.mul_le_mono_l.
Qed.
Lemma depth_bound v ni i d j : descends fo c v i d j -> forall xs,
  divided fo c (fun _ xs ys => balanced xs ys) v ni i xs -> 1 <= lenN xs ->
  1000 ^ N.of_nat d <= 992 ^ N.of_nat d * lenN xs.
Proof.
  induction 1 as [i|i l r d j Hs Hd IH|i l r d j Hs Hd IH]; intros xs Dv Hx.
  - change (N.of_nat 0) with 0. rewrite !N.pow_0_r. lia.
  - inversion Dv as [? ? Hl|? l' r' bs ys zs Hs' _ Hb D1 D2]; subst; [destruct (split_not_leaf _ _ _ _ _ _ Hs Hl)|].
    destruct (splits_fun _ _ _ _ _ _ Hs Hs') as [<- <-]. rewrite lenN_app in *. unfold balanced in Hb.
    apply shrink with (lenN ys); [apply IH; [exact D1|lia]|lia].
  - inversion Dv as [? ? Hl|? l' r' bs ys zs Hs' _ Hb D1 D2]; subst; [destruct (split_not_leaf _ _ _ _ _ _ Hs Hl)|].
    destruct (splits_fun _ _ _ _ _ _ Hs Hs') as [<- <-]. rewrite lenN_app in *. unfold balanced in Hb.
    apply shrink with (lenN zs); [apply IH; [exact D2|lia]|lia].
Qed.
(** 0.992^87 < 1/2. *)
Lemma depth_log d n : 1000 ^ N.of_nat d <= 992 ^ N.of_nat d * n -> 2 ^ (N.of_nat d / 87) <= n.
Proof.
  set (m := N.of_nat d). intro H. pose proof (N.div_mod' m 87) as E.
  set (q := m / 87) in *. set (r := m mod 87) in *. rewrite E in H. rewrite !N.pow_add_r, !N.pow_mul_r in H.
  assert (B : 2 * 992 ^ 87 <= 1000 ^ 87) by (apply N.leb_le; vm_compute; reflexivity).
  assert (P : (2 * 992 ^ 87) ^ q <= (1000 ^ 87) ^ q) by now apply N.pow_le_mono_l.
  assert (R : 992 ^ r <= 1000 ^ r) by (apply N.pow_le_mono_l; lia).
  rewrite N.pow_mul_l in P.
  assert (Z1 : 0 < (992 ^ 87) ^ q) by (apply N.neq_0_lt_0; apply N.pow_nonzero; apply N.pow_nonzero; lia).
  assert (Z2 : 0 < 992 ^ r) by (apply N.neq_0_lt_0; apply N.pow_nonzero; lia).
  set (A := (992 ^ 87) ^ q) in *. set (A' := (1000 ^ 87) ^ q) in *. set (X := 992 ^ r) in *. set (X' := 1000 ^ r) in *. set (T := 2 ^ q) in *.
  apply (N.mul_le_mono_pos_l T n (A * X)); [nia|].
  apply N.le_trans with (A' * X'); [|lia]. apply N.le_trans with (A' * X); [|now apply N.mul_le_mono_l].
  replace (A * X * T) with (T * A * X) by ring. now apply N.mul_le_mono_r.
Qed.
End B.
