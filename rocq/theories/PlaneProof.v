(** The planes that Build stores consist of finite numbers of size at most 2. *)
From Verif Require Import Base Flt Layout Rng Alloc Prog Imbalance Dist Build Index Spec ForestSpec RealSpec OrderSpec Lib LayoutProof FltProof
  MemProof StoreProof TreeProof BuildProof ForestProof BuildSpec AfterProof CutProof AccProof VecProof SmallProof.
From Coq Require Import Permutation Reals Lra.
From Flocq Require Import IEEE754.Binary IEEE754.Bits.
Close Scope R_scope. Open Scope N_scope.

Lemma Forall_first {A} (P : A -> Prop) n : forall l, Forall P l -> Forall P (firstn n l).
Proof. induction n as [|n IH]; intros [|a l] H; try constructor; inversion H; auto. Qed.
Lemma Forall_skip {A} (P : A -> Prop) n : forall l, Forall P l -> Forall P (skipn n l).
Proof. induction n as [|n IH]; intros [|a l] H; auto. inversion H; cbn; auto. Qed.
(** Words of a list of bytes that is cut off: read as before, or with a zero last byte. *)
Lemma le_dec_tail l z : Base.le_dec (l ++ repeat 0 z) = Base.le_dec l.
Proof. induction l as [|b l IH]; cbn [app Base.le_dec]; [apply le_dec_zeros|]. now rewrite IH. Qed.
Lemma words_zeros w k : forall n m, In w (words k n (repeat 0 m)) -> w = 0.
Proof.
  induction n as [|n IH]; intros m H; [destruct H|]. cbn [words] in H. destruct H as [<-|H].
  - rewrite firstn_repeat0. apply le_dec_zeros.
  - rewrite skipn_rep in H. eapply IH; exact H.
Qed.
Lemma words_cut w k : (1 <= k)%nat -> forall n bs A m, Forall is_byte bs -> length bs = (n * k)%nat -> (n * k <= A + m)%nat ->
  In w (words k n (firstn A bs ++ repeat 0 m)) -> In w (words k n bs) \/ w < 256 ^ N.of_nat (k - 1).
Proof.
  intro Hk. assert (P : 0 < 256 ^ N.of_nat (k - 1)) by (apply N.neq_0_lt_0, N.pow_nonzero; lia).
  induction n as [|n IH]; intros bs A m Hb Hl Hm H; [destruct H|]. cbn [words] in *.
  destruct (Nat.le_gt_cases k A) as [Hc|Hc].
  - assert (E : firstn A bs = firstn k bs ++ firstn (A - k) (skipn k bs)).
    { rewrite <- (firstn_skipn k bs) at 1. rewrite firstn_app, firstn_firstn, firstn_length. rewrite Nat.min_r by lia. f_equal. f_equal. cbn in Hl. lia. }
    rewrite E, <- app_assoc in H. assert (Lk : length (firstn k bs) = k) by (rewrite firstn_length; cbn in Hl; lia).
    rewrite firstn_app_exact, skipn_app_exact in H by (now rewrite Lk).
    destruct H as [<-|H]; [left; left; reflexivity|]. apply IH in H; [destruct H; auto; left; right; assumption| | |].
    + now apply Forall_skip.
    + rewrite skipn_length. cbn in Hl. lia.
    + cbn in Hm. lia.
  - right. destruct H as [<-|H].
    + rewrite firstn_app, firstn_firstn, firstn_length, Nat.min_r by lia. rewrite firstn_repeat0, le_dec_tail.
      eapply N.lt_le_trans; [apply le_dec_bound; now apply Forall_first|]. apply N.pow_le_mono_r; [lia|]. unfold lenN. rewrite firstn_length. lia.
    + rewrite skipn_app, skipn_all2 in H by (rewrite firstn_length; lia). cbn [app] in H. rewrite skipn_rep in H.
      apply words_zeros in H. lia.
Qed.

Section P.
Variable fm : Fmt.
Hypothesis FM : is_fmt fm.
Notation fo := (ops fm).
Variable c : Cfg.
Hypothesis OK : CfgOK fo c.
Hypothesis Hlen : vlen c <= 2 ^ 20.
Notation NSZ := (nodeSize fo c).
Notation V := (list (F fo)).
Notation small := (small fm).
Lemma FL : is_float fo.
Proof. destruct FM as [-> | ->]; [left|right]; reflexivity. Qed.
Lemma len_ok (v : V) : lenN v = vlen c -> (INR (length v) <= 2 ^ 20)%R.
Proof.
  intro H. replace (2 ^ 20)%R with (IZR (2 ^ 20)) by (cbn [pow]; cbn; lra). rewrite INR_IZR_INZ. apply IZR_le. unfold lenN in H. lia.
Qed.
Lemma len_vec bs : lenN (n_vec fo c bs) = vlen c.
Proof. apply lenN_n_vec. Qed.

Lemma cut_small b A l m : (1 <= b)%R -> Forall is_byte l -> lenN l = vlen c * fbytes fo -> (N.to_nat (vlen c * fbytes fo) <= A + m)%nat ->
  Forall (small b) (dec_vec fo c l) -> Forall (small b) (dec_vec fo c (firstn A l ++ repeat 0 m)).
Proof.
  intros Hb Hl Hn Hm H. pose proof (fb_pos _ _ OK) as Hfb. unfold dec_vec in *. apply Forall_forall. intros x Hx. apply in_map_iff in Hx. destruct Hx as (w & <- & Hw).
  apply words_cut in Hw; [|lia|exact Hl|unfold lenN in Hn; lia|lia]. destruct Hw as [Hw|Hw].
  - rewrite Forall_forall in H. apply H. now apply in_map.
  - apply (small_le fm 1 b); [exact Hb|]. apply (dec_tiny fm FM). replace (2 ^ (8 * (fbytes fo - 1))) with (256 ^ N.of_nat (N.to_nat (fbytes fo) - 1)); [exact Hw|].
    change 256 with (2 ^ 8). rewrite <- N.pow_mul_r. f_equal. lia.
Qed.
Lemma enc_bytes (v : V) : Forall is_byte (enc_vec fo v).
Proof. unfold enc_vec. induction v as [|a v IH]; cbn [flat_map]; [constructor|]. apply Forall_app. split; [apply le_enc_bytes|exact IH]. Qed.
Lemma zero_small b n : (1 <= b)%R -> Forall (small b) (repeat (f0 fo) n).
Proof.
  intro H. apply Forall_forall. intros x Hx. apply repeat_spec in Hx. subst x. destruct (l_0 fm (fmt_laws fm FM)) as [F0 E0].
  split; [exact F0|]. rewrite E0, Rabs_R0. lra.
Qed.

(** ** Items and scratch copies *)
Record good (bs : list N) : Prop := mkGood {
  gd_len : lenN bs = NSZ;
  gd_bytes : Forall is_byte (sub (off_vec fo c) (vlen c * fbytes fo) bs);
  gd_small : Forall (small (2 ^ 20)) (n_vec fo c bs)
}.
Lemma good_item n (f : N -> option V) j : (forall j w, f j = Some w -> lenN w = vlen c /\ Forall (small (2 ^ 20)) w) ->
  good (sub 0 NSZ (pre_image fo c n (fun j => image_of fo c (f j)) j)).
Proof.
  intro Hf. assert (Hf' : forall j w, f j = Some w -> lenN w = vlen c) by (intros; eapply Hf; eauto).
  pose proof (image_bytes fo c OK n f j Hf') as IB. pose proof (ib_len _ _ _ _ IB) as Hl. pose proof (nodeSize_eq _ _ OK) as Hs.
  assert (Es : sub 0 NSZ (pre_image fo c n (fun j => image_of fo c (f j)) j) = pre_image fo c n (fun j => image_of fo c (f j)) j).
  { unfold sub. cbn [N.to_nat skipn]. apply firstn_all2. unfold lenN in Hl. lia. }
  rewrite Es. assert (Hi : lenN (image_of fo c (f j)) = NSZ).
  { unfold lenN. rewrite length_image_of; [lia|exact OK|]. intros v E. eapply Hf; eauto. }
  constructor; [exact Hl| |].
  - rewrite (pre_image_vec fo c OK) by exact Hi. destruct (f j) as [w|] eqn:E; cbn [image_of].
    + rewrite (sub_item_vec fo c OK); [apply enc_bytes|eapply Hf'; eauto|apply repeat_length].
    + unfold zeros. rewrite sub_zeros by lia. apply Forall_forall. intros x Hx. apply repeat_spec in Hx. subst x. reflexivity.
  - rewrite (ib_vec _ _ _ _ IB). destruct (f j) as [w|] eqn:E; [eapply Hf; eauto|].
    replace (map (dec fo) (repeat 0 (N.to_nat (vlen c)))) with (repeat (f0 fo) (N.to_nat (vlen c))); [apply zero_small; cbn [pow]; lra|].
    rewrite <- (dec_0 fo c OK FL). symmetry. generalize (N.to_nat (vlen c)). intro k. induction k as [|k IH]; cbn; [reflexivity|]. now rewrite IH.
Qed.
Lemma scratch_vec bs : lenN bs = NSZ -> sub (off_vec fo c) (vlen c * fbytes fo) (copy_to_scratch fo c bs) =
  firstn (N.to_nat (vlen c - off_vec fo c)) (sub (off_vec fo c) (vlen c * fbytes fo) bs) ++
  repeat 0 (N.to_nat (vlen c * fbytes fo - (vlen c - off_vec fo c))).
Proof.
  intro Hl. pose proof (nodeSize_eq _ _ OK) as Hn. pose proof (fb_pos _ _ OK) as Hfb. unfold lenN in Hl.
  unfold copy_to_scratch. rewrite Nat.min_l by nia. unfold sub.
  rewrite skipn_app, firstn_length, Nat.min_l by nia. rewrite skipn_rep.
  rewrite firstn_app, skipn_length, firstn_length, Nat.min_l by nia.
  rewrite skipn_firstn_comm, firstn_firstn, firstn_firstn. f_equal.
  - f_equal. nia.
  - rewrite firstn_rep by nia. f_equal. nia.
Qed.
Lemma scratch_small bs : good bs -> Forall (small (2 ^ 20)) (n_vec fo c (copy_to_scratch fo c bs)).
Proof.
  intros [Hl Hb Hs]. pose proof (nodeSize_eq _ _ OK) as Hn. unfold n_vec. rewrite scratch_vec by exact Hl. apply cut_small; [cbn [pow]; lra|exact Hb| |lia|exact Hs].
  unfold sub, lenN in *. rewrite firstn_length, skipn_length. lia.
Qed.
Lemma normalize_vec x : s_vec fo (normalize fo c x) = unit_vec fo (s_vec fo x).
Proof. unfold normalize, unit_vec, norm. rewrite inner_dot. destruct (flt fo _ _); reflexivity. Qed.
Lemma init_vec x : s_vec fo (init_node fo c x) = s_vec fo x.
Proof. unfold init_node. destruct (knd c); reflexivity. Qed.

(** ** Centroids and planes *)
Lemma zip_small (g : F fo -> F fo -> F fo) b (P Q : F fo -> Prop) : (forall x y, P x -> Q y -> small b (g x y)) ->
  forall v w, Forall P v -> Forall Q w -> Forall (small b) (map (fun xy => g (fst xy) (snd xy)) (combine v w)).
Proof.
  intros H v. induction v as [|x v IH]; intros w Hv Hw; [constructor|]. destruct w as [|y w]; [constructor|].
  inversion Hv; inversion Hw; subst. cbn [combine map fst snd]. constructor; auto.
Qed.
Lemma centroid_small (I : list N -> Prop) n p : (forall bs, I bs -> good bs) -> centroid fo c I n p ->
  1 <= n /\ (n <= 1000 -> Forall (small 2) (s_vec fo p)).
Proof.
  intros HI. induction 1 as [bs Hb|n p bs Hp [IH1 IH] Hb Hn].
  - split; [lia|]. intros _. rewrite init_vec, normalize_vec. apply (unit_small fm FM). cbn [snode_of s_vec].
    eapply (small_moderate fm (2 ^ 20)); [lra|apply len_ok, len_vec|apply scratch_small; auto].
  - split; [lia|]. intro Hk. unfold centroid_step. rewrite init_vec. cbn [s_vec].
    assert (M : moderate fm (n_vec fo c bs)) by (eapply (small_moderate fm (2 ^ 20)); [lra|apply len_ok, len_vec|apply gd_small; auto]).
    unfold norm in *. rewrite <- inner_dot in *. set (nn := fsqrt fo (inner fo (n_vec fo c bs) (n_vec fo c bs))) in *.
    pose proof (part_small fm FM _ M Hn) as PS. fold nn in PS.
    apply (zip_small (fun a b => fdiv fo (fadd fo (fmul fo a (fofN fo n)) (fdiv fo b nn)) (fofN fo (n + 1))) 2 (small 2) (fun b => small 2 (fdiv fo b nn))).
    + intros x y Hx Hy. apply (step_small fm FM); auto. lia.
    + apply IH. lia.
    + exact PS.
Qed.
Lemma plane_small (I : list N -> Prop) m : (forall bs, I bs -> good bs) -> made fo c I m -> Forall (small 2) (s_vec fo m).
Proof.
  intros HI (_ & p & q & Mp & Mq & ->). rewrite normalize_vec. cbn [s_vec]. apply (unit_small fm FM).
  pose proof (apart_len fo c _ _ _ Mp Mq) as Hl. destruct Mp as (i & Hi & Hp). destruct Mq as (j & Hj & Hq).
  eapply (small_moderate fm 4); [cbn [pow]; lra|apply len_ok, Hl|].
  apply (zip_small (fsub fo) 4 (small 2) (small 2)); [intros; now apply (sub_small fm FM)| |].
  - apply (centroid_small _ _ _ HI Hp). lia.
  - apply (centroid_small _ _ _ HI Hq). lia.
Qed.
Lemma tcut_small n im bs xs ys : (forall j, j < n -> good (sub 0 NSZ (im j))) ->
  tcut fo c n im bs xs ys -> Forall (small 2) (n_vec fo c bs) /\ (knd c = DotProduct -> n_dot fo c bs = f0 fo).
Proof.
  intros HI [_ [(m & Hm & Hk & Hd & Hn & _ & D)|(Hz & Hd & _)]].
  - split; [|intro Ek; now apply (zero_factor fo c OK FL bs (s_dot fo m))].
    assert (S : Forall (small 2) (s_vec fo m)).
    { destruct D as [D|(D & _)]; [rewrite D; apply zero_small; lra|]. eapply plane_small; [|exact D]. intros b (j & _ & Hj & _ & ->). now apply HI. }
    unfold n_vec. rewrite Hk. apply cut_small; [lra|apply enc_bytes|rewrite lenN_enc_vec, Hm; apply N.mul_comm|lia|].
    rewrite <- (app_nil_r (enc_vec fo (s_vec fo m))), (dec_enc_vec fo c OK) by exact Hm. exact S.
  - split; [|intros _; unfold n_dot, dec_f; rewrite Hd, le_dec_zeros; apply (dec_0 fo c OK FL)].
    unfold n_vec. rewrite Hz, dec_vec_zeros.
    replace (map (dec fo) (repeat 0 (N.to_nat (vlen c)))) with (repeat (f0 fo) (N.to_nat (vlen c))); [apply zero_small; lra|].
    rewrite <- (dec_0 fo c OK FL). symmetry. generalize (N.to_nat (vlen c)). intro k. induction k as [|k IH]; cbn; [reflexivity|]. now rewrite IH.
Qed.

(** ** Side values *)
Lemma fin_finite x : fin fm x -> finite fo x.
Proof.
  revert x. clear OK. destruct FM as [-> | ->]; cbn [ops fin fmt32 fmt64 F fops32 fops64]; intros [s|s|s pl e|s m e B] H; try discriminate H;
    split; destruct s; reflexivity.
Qed.
Lemma side_finite bs q : Forall (small 2) (n_vec fo c bs) -> (knd c = DotProduct -> n_dot fo c bs = f0 fo) ->
  moderate fm q -> lenN q = vlen c -> finite fo (side_value fo c bs q).
Proof.
  intros Hs Hd Mq Hq.
  assert (M : moderate fm (n_vec fo c bs)) by (eapply (small_moderate fm 2); [cbn [pow]; lra|apply len_ok, len_vec|exact Hs]).
  assert (El : length (n_vec fo c bs) = length q) by (pose proof (len_vec bs) as H; unfold lenN in *; lia).
  pose proof (bounded_dot fm _ _ M Mq El) as HB.
  assert (Hn : (INR (length (n_vec fo c bs)) <= 1048576)%R) by (destruct M as [H _]; replace (2 ^ 20)%R with 1048576%R in H by (cbn [pow]; lra); exact H).
  destruct (dot_bounded fm FM _ _ _ (bounded_fin fm FM _ M) (bounded_fin fm FM _ Mq) Hn El HB ltac:(lra)) as [Fi _].
  unfold side_value. destruct (knd c) eqn:Ek; [now apply fin_finite|]. rewrite (Hd eq_refl).
  apply fin_finite. revert Fi. generalize (inner fo (n_vec fo c bs) q). intro x. clear - FM. intro Fi.
  revert x Fi; destruct FM as [-> | ->]; cbn [ops fin fmt32 fmt64 fadd fmul f0 fops32 fops64 F]; intros x Fi;
    destruct x as [s|s|s pl e|s m e B]; try discriminate; try destruct s; reflexivity.
Qed.
End P.

(** Every split node below a divided node is divided. *)
Lemma divided_below fo c (OK : CfgOK fo c) C v ni i d j : descends fo c v i d j -> forall xs, divided fo c C v ni i xs ->
  forall l r bs, splits fo c v j l r -> vread v (addr fo c j) (nodeSize fo c) = Ok bs -> exists ys zs, C bs ys zs.
Proof.
  induction 1 as [i|i l r d j Hs Hd IH|i l r d j Hs Hd IH]; intros xs Dv l0 r0 bs Hsj Hb;
  inversion Dv as [? ? Hl|? l' r' bs' ys zs Hs' Hb' HC D1 D2]; subst.
  - destruct (split_not_leaf fo c OK _ _ _ _ _ _ Hsj Hl).
  - assert (bs' = bs) by congruence. subst. eauto.
  - destruct (split_not_leaf fo c OK _ _ _ _ _ _ Hs Hl).
  - destruct (splits_fun fo c _ _ _ _ _ _ Hs Hs') as [<- <-]. eauto.
  - destruct (split_not_leaf fo c OK _ _ _ _ _ _ Hs Hl).
  - destruct (splits_fun fo c _ _ _ _ _ _ Hs Hs') as [<- <-]. eauto.
Qed.
