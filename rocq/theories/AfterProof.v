(** Items and trees as a query finds them, wherever the node memory lies. *)
From Verif Require Import Base Flt Layout Rng Sorts Alloc Prog Dist Build Policy Index Search Spec ForestSpec BuildSpec Lib LayoutProof FltProof MemProof
  StoreProof SortsProof NumProof SearchProof QueryProof PolicyProof ConcProof TreeProof BuildProof ForestProof.
From Coq Require Import Permutation.
From Flocq Require Import IEEE754.Binary IEEE754.Bits.
Open Scope N_scope.

(** ** Zero times anything is not positive *)
Lemma zero_mul_not_pos fo x y : is_float fo -> feq fo x (f0 fo) = true -> flt fo (f0 fo) (fmul fo x y) = false.
Proof.
  intros [-> | ->] H; cbn [feq flt fmul f0 fops32 fops64] in *.
  - destruct x as [s|s|s pl e|s m e B]; [|destruct s; discriminate H|discriminate H|destruct s; discriminate H].
    destruct y as [t|t|t pl e|t m e B]; cbn; destruct s; try destruct t; reflexivity.
  - destruct x as [s|s|s pl e|s m e B]; [|destruct s; discriminate H|discriminate H|destruct s; discriminate H].
    destruct y as [t|t|t pl e|t m e B]; cbn; destruct s; try destruct t; reflexivity.
Qed.
Lemma zero_not_pos fo : is_float fo -> flt fo (f0 fo) (f0 fo) = false.
Proof. intros [-> | ->]; reflexivity. Qed.
Lemma zero_eq fo : is_float fo -> feq fo (dec fo 0) (f0 fo) = true.
Proof. intros [-> | ->]; [rewrite dec32_0|rewrite dec64_0]; reflexivity. Qed.

Section S.
Variable fo : FOps.
Variable c : Cfg.
Hypothesis OK : CfgOK fo c.
Notation NSZ := (nodeSize fo c).
Notation K := (maxK fo c).
Notation simg := (snode_img fo c).
Notation V := (list (F fo)).

(** A node whose cached norm, if any, is right. *)
Definition norm_right (x : snode fo) : Prop :=
  s_norm fo x = dot fo (s_vec fo x) (s_vec fo x) \/ feq fo (s_norm fo x) (f0 fo) = true.
Lemma inner_dot q : forall v, inner fo q v = dot fo q v.
Proof.
  unfold inner, dot. generalize (f0 fo). induction q as [|x q IH]; intros a [|y v]; cbn; auto.
Qed.
Lemma distance_gap x y : is_float fo -> norm_right x -> norm_right y ->
  distance fo x y = cos_gap fo (s_vec fo x) (s_vec fo y).
Proof.
  intros FL Hx Hy. unfold distance, cos_gap. rewrite !inner_dot.
  assert (Ex : (if feq fo (s_norm fo x) (f0 fo) then dot fo (s_vec fo x) (s_vec fo x) else s_norm fo x) = dot fo (s_vec fo x) (s_vec fo x)).
  { destruct Hx as [H|H]; [|now rewrite H]. rewrite H. match goal with |- (if ?b then _ else _) = _ => destruct b end; reflexivity. }
  assert (Ey : (if feq fo (s_norm fo y) (f0 fo) then dot fo (s_vec fo y) (s_vec fo y) else s_norm fo y) = dot fo (s_vec fo y) (s_vec fo y)).
  { destruct Hy as [H|H]; [|now rewrite H]. rewrite H. match goal with |- (if ?b then _ else _) = _ => destruct b end; reflexivity. }
  rewrite Ex, Ey. cbv zeta. destruct (feq fo (dot fo (s_vec fo x) (s_vec fo x)) (f0 fo)) eqn:E; [|reflexivity].
  rewrite (zero_not_pos fo FL), (zero_mul_not_pos fo _ _ FL E). reflexivity.
Qed.
Lemma sub_zeros o len n : o + len <= N.of_nat n -> sub o len (repeat 0 n) = repeat 0 (N.to_nat len).
Proof.
  intro H. unfold sub.
  assert (Hz : forall k n, skipn k (repeat 0 n) = repeat 0 (n - k)).
  { induction k as [|k IHk]; intros [|m]; cbn; auto. }
  assert (Hf : forall k n, (k <= n)%nat -> firstn k (repeat 0 n) = repeat 0 k).
  { induction k as [|k IHk]; intros [|m] Hk; cbn; auto; try lia. f_equal. apply IHk. lia. }
  rewrite Hz, Hf by lia. reflexivity.
Qed.
Lemma le_dec_zeros n : le_dec (repeat 0 n) = 0.
Proof. induction n as [|n IH]; cbn; [reflexivity|]. now rewrite IH. Qed.
Lemma query_node_ok vec : is_float fo -> lenN vec = vlen c ->
  exists qn, query_node fo c vec = Ok qn /\ s_vec fo qn = vec /\ norm_right qn.
Proof.
  intros FL Hv. unfold query_node. replace (vlen c <? lenN vec) with false by lia.
  assert (Hs : skipn (length vec) (s_vec fo (zero_snode fo c)) = []).
  { apply skipn_all2. unfold zero_snode, snode_of, s_vec, n_vec, dec_vec. rewrite map_length.
    assert (Hw : forall n k bs, length (words k n bs) = n) by (induction n; intros; cbn; auto).
    rewrite Hw. unfold lenN in Hv. lia. }
  rewrite Hs, app_nil_r. eexists. split; [reflexivity|]. unfold init_node, norm_right. destruct (knd c); cbn [s_vec s_norm].
  - split; [reflexivity|]. now left.
  - split; [reflexivity|]. right. unfold zero_snode, snode_of, s_norm, n_norm, dec_f.
    pose proof (norm_before_dot _ _ OK). pose proof (off_vec_ge _ _ OK). pose proof (nodeSize_eq _ _ OK).
    rewrite sub_zeros by (rewrite N2Nat.id; nia). rewrite le_dec_zeros. now apply zero_eq.
Qed.

(** ** The bytes of an item node *)
Record item_bytes (o : option V) (bs : list N) : Prop := mkIB {
  ib_len : lenN bs = NSZ;
  ib_desc : n_desc c bs = match o with Some _ => 1 | None => 0 end;
  ib_vec : n_vec fo c bs = match o with Some w => w | None => map (dec fo) (repeat 0 (N.to_nat (vlen c))) end;
  ib_norm : is_float fo -> norm_right (snode_of fo c bs)
}.
Lemma sub_item_vec v db : lenN v = vlen c -> length db = N.to_nat (fbytes fo) ->
  sub (off_vec fo c) (vlen c * fbytes fo) (item_image fo c v db) = enc_vec fo v.
Proof.
  intros Hv Hd. unfold item_image, sub. rewrite app_assoc. rewrite skipn_app_exact.
  - apply firstn_all2. rewrite length_enc_vec. unfold lenN in Hv. lia.
  - rewrite app_length, length_enc_ix.
    pose proof (off_dot_ge _ _ OK). pose proof (norm_before_dot _ _ OK). unfold off_children in *.
    pose proof (off_vec_ge _ _ OK). pose proof (off_vec_eq fo c) as Ho.
    destruct (knd c); rewrite app_length, ?length_enc_f, ?repeat_length, ?Hd; lia.
Qed.
Lemma dec_vec_zeros : dec_vec fo c (repeat 0 (N.to_nat (vlen c * fbytes fo))) = map (dec fo) (repeat 0 (N.to_nat (vlen c))).
Proof.
  unfold dec_vec. replace (N.to_nat (vlen c * fbytes fo)) with (N.to_nat (vlen c) * N.to_nat (fbytes fo))%nat by lia.
  f_equal. generalize (N.to_nat (fbytes fo)) as k. generalize (N.to_nat (vlen c)) as n. clear.
  induction n as [|n IH]; intro k; [reflexivity|]. cbn [words repeat Nat.mul].
  rewrite repeat_app, firstn_app_exact, skipn_app_exact by apply repeat_length.
  now rewrite le_dec_zeros, IH.
Qed.
Lemma image_bytes n (f : N -> option V) i : (forall j w, f j = Some w -> lenN w = vlen c) ->
  item_bytes (f i) (pre_image fo c n (fun j => image_of fo c (f j)) i).
Proof.
  intro Hf. pose proof (nodeSize_eq _ _ OK) as Hs. pose proof (off_dot_ge _ _ OK). pose proof (norm_before_dot _ _ OK) as Hn0.
  pose proof (off_vec_ge _ _ OK). pose proof (off_vec_eq fo c) as Ho. pose proof (fb_pos _ _ OK).
  assert (Hl : lenN (image_of fo c (f i)) = NSZ).
  { unfold lenN. rewrite length_image_of; [lia|exact OK|]. intros v E. eapply Hf; eauto. }
  assert (Hv : n_vec fo c (pre_image fo c n (fun j => image_of fo c (f j)) i) =
     match f i with Some w => w | None => map (dec fo) (repeat 0 (N.to_nat (vlen c))) end).
  { unfold n_vec. rewrite (pre_image_vec fo c OK) by exact Hl. destruct (f i) as [w|] eqn:E; cbn [image_of].
    - rewrite sub_item_vec; [|eapply Hf; eauto|apply repeat_length]. rewrite <- (app_nil_r (enc_vec fo w)).
      apply dec_enc_vec; [exact OK|]. eapply Hf; eauto.
    - unfold zeros. rewrite sub_zeros by lia. apply dec_vec_zeros. }
  constructor.
  - apply (pre_image_len fo c OK). exact Hl.
  - rewrite (pre_image_desc fo c OK) by exact Hl. apply (image_desc fo c OK).
  - exact Hv.
  - intro FL. unfold norm_right. cbn [snode_of s_norm s_vec]. rewrite Hv.
    assert (Hsub : sub (off_children c) (fbytes fo) (pre_image fo c n (fun j => image_of fo c (f j)) i) =
       sub (off_children c) (fbytes fo) (image_of fo c (f i))).
    { unfold pre_image. destruct (knd c) eqn:Ek; [reflexivity|]. pose proof (dot_fits fo c OK Ek).
      rewrite sub_splice_disj; [reflexivity| |]; rewrite (lenN_enc_f fo); lia. }
    unfold n_norm. rewrite Hsub. destruct (f i) as [w|] eqn:E; cbn [image_of].
    + unfold item_image. destruct (knd c) eqn:Ek.
      * left. unfold sub. rewrite skipn_app_exact by (rewrite length_enc_ix; unfold off_children; reflexivity).
        rewrite <- app_assoc, firstn_app_exact by apply length_enc_f. now apply (dec_enc_f fo c OK).
      * right. unfold sub. rewrite skipn_app_exact by (rewrite length_enc_ix; unfold off_children; reflexivity).
        unfold off_children in Hn0.
        rewrite <- app_assoc, firstn_app. rewrite repeat_length.
        replace (N.to_nat (fbytes fo) - N.to_nat (off_dot fo c - ixb c))%nat with 0%nat by lia. cbn [firstn]. rewrite app_nil_r.
        rewrite firstn_repeat0 by lia. unfold dec_f. rewrite le_dec_zeros. now apply zero_eq.
    + right. unfold zeros. rewrite sub_zeros by lia. unfold dec_f. rewrite le_dec_zeros. now apply zero_eq.
Qed.

(** ** The trees below the roots *)
Definition no_holes (f : N -> option V) (n : N) : Prop := forall i, i < n -> f i <> None.
Record tree_lists (v : option buf) (ni : N) (f : N -> option V) (r : N) (xs : list N) (m : nat) : Prop := mkTL {
  tl_reach : reach fo c v ni r xs m;
  tl_size : (m <= 2 * N.to_nat ni + 1)%nat;
  tl_len : lenN xs <= ni;
  tl_in : forall j, In j xs -> j < ni;
  tl_all : forall j w, f j = Some w -> In j xs;
  tl_exact : K < ni \/ no_holes f ni -> NoDup xs /\ forall j, In j xs -> f j <> None
}.
Record forest (v : option buf) (ni : N) (roots : list N) (f : N -> option V) : Prop := mkForest {
  fr_item : forall i, i < ni -> exists bs, vread v (addr fo c i) NSZ = Ok bs /\ item_bytes (f i) bs;
  fr_ext : forall i w, f i = Some w -> i < ni /\ lenN w = vlen c;
  fr_tree : forall r, In r roots -> exists xs m, tree_lists v ni f r xs m
}.

Lemma in_present f n i : In i (present fo f n) <-> i < n /\ f i <> None.
Proof.
  unfold present. rewrite filter_In, in_rangeN. destruct (f i); intuition congruence.
Qed.
Lemma NoDup_present f n : NoDup (present fo f n).
Proof. apply NoDup_filter, NoDup_rangeN. Qed.
Lemma present_full f n : no_holes f n -> lenN (present fo f n) = n.
Proof.
  intro H. unfold present. assert (G : forall l, (forall i, In i l -> i < n) -> filter (fun i => match f i with Some _ => true | None => false end) l = l).
  { induction l as [|i l IH]; intro Hl; cbn [filter]; [reflexivity|]. pose proof (H i (Hl i (or_introl eq_refl))).
    destruct (f i); [|congruence]. f_equal. apply IH. intros j Hj. apply Hl. now right. }
  rewrite G; [|intros i Hi; now apply in_rangeN]. unfold lenN. rewrite length_rangeN. lia.
Qed.

Lemma after_item v ix f plan ix' i : items_inv fo c ix f -> after_build fo c ix f plan ix' -> agrees fo c ix' v -> i < n_items ix ->
  exists bs, vread v (addr fo c i) NSZ = Ok bs /\ item_bytes (f i) bs.
Proof.
  intros I B Hag Hi. exists (simg (ib ix') i). split.
  - apply Hag. pose proof (bt_ni _ _ _ _ _ _ B). lia.
  - rewrite (bt_img _ _ _ _ _ _ B i Hi). apply image_bytes. apply (ii_len _ _ _ _ I).
Qed.
(** Trees that are one bucket need no room for the links of a cut. *)
Lemma after_forest_view_any v ix f plan ix' : 3 * ixb c <= vlen c \/ n_items ix <= K -> items_inv fo c ix f -> after_build fo c ix f plan ix' ->
  agrees fo c ix' v -> forest v (n_items ix') (rootsN (ib ix')) f.
Proof.
  intros Hv I B Hag. rewrite (bt_items _ _ _ _ _ _ B). constructor.
  - intros i Hi. eapply after_item; eauto.
  - intros i w Hw. split; [eapply ii_ext; eauto|eapply ii_len; eauto].
  - intros r Hr. destruct (bt_trees _ _ _ _ _ _ B Hv r Hr) as (xs & m & Hre & Hm & Hx).
    specialize (Hre _ (Hag)). pose proof (present_le fo f (n_items ix)) as Hp.
    exists xs, m. destruct (K <? n_items ix) eqn:EK.
    + constructor; auto.
      * lia.
      * rewrite (perm_lenN _ _ Hx). unfold lenN. lia.
      * intros j Hj. apply (in_present f). eapply Permutation_in; eauto.
      * intros j w Hw. eapply Permutation_in; [symmetry; exact Hx|]. apply in_present. split; [|congruence]. eapply ii_ext; eauto.
      * intros _. split.
        -- eapply Permutation_NoDup; [symmetry; exact Hx|apply NoDup_present].
        -- intros j Hj. eapply (in_present f). eapply Permutation_in; eauto.
    + constructor; auto.
      * lia.
      * rewrite Hx. unfold lenN. rewrite app_length, repeat_length. unfold lenN. lia.
      * intros j Hj. rewrite Hx in Hj. apply in_app_or in Hj. destruct Hj as [Hj|Hj]; [now apply (in_present f)|].
        assert (Hne : (N.to_nat (n_items ix - lenN (present fo f (n_items ix))) <> 0)%nat) by (intro E; rewrite E in Hj; contradiction).
        apply repeat_spec in Hj. lia.
      * intros j w Hw. rewrite Hx. apply in_or_app. left. apply in_present. split; [|congruence]. eapply ii_ext; eauto.
      * intros [H|H]; [lia|]. rewrite present_full in Hx by exact H. rewrite N.sub_diag in Hx. cbn [N.to_nat repeat] in Hx.
        rewrite app_nil_r in Hx. rewrite Hx. split; [apply NoDup_present|]. intros j Hj. apply in_present in Hj. apply Hj.
Qed.

Lemma after_forest_view v ix f plan ix' : 3 * ixb c <= vlen c -> items_inv fo c ix f -> after_build fo c ix f plan ix' ->
  agrees fo c ix' v -> forest v (n_items ix') (rootsN (ib ix')) f.
Proof. intro Hv. apply after_forest_view_any. now left. Qed.
Lemma after_forest_any fs ix f plan ix' : 3 * ixb c <= vlen c \/ n_items ix <= K -> items_inv fo c ix f -> after_build fo c ix f plan ix' ->
  forest (view fs ix') (n_items ix') (rootsN (ib ix')) f.
Proof. intros Hv I B. eapply after_forest_view_any; eauto. eapply after_agrees; eauto. Qed.
Lemma after_forest fs ix f plan ix' : 3 * ixb c <= vlen c -> items_inv fo c ix f -> after_build fo c ix f plan ix' ->
  forest (view fs ix') (n_items ix') (rootsN (ib ix')) f.
Proof. intros Hv I B. eapply after_forest_view; eauto. eapply after_agrees; eauto. Qed.

Lemma get_item_forest fs ix f roots i : forest (view fs ix) (n_items ix) roots f -> i < n_items ix ->
  get_item fo c fs ix i = Ok (match f i with Some w => w | None => map (dec fo) (repeat 0 (N.to_nat (vlen c))) end).
Proof.
  intros H Hi. destruct (fr_item _ _ _ _ H i Hi) as (bs & Hr & B).
  rewrite (get_item_node fo c OK _ _ _ _ Hr). cbn [snode_of s_vec]. f_equal. apply B.
Qed.

Lemma reach_fun v ni r xs m : reach fo c v ni r xs m -> forall ys n, reach fo c v ni r ys n -> xs = ys /\ m = n.
Proof.
  pose proof (maxK_ge2 _ _ OK) as HK.
  induction 1 as [i xs Hl|i l r xs1 xs2 m1 m2 Hs H1 IH1 H2 IH2]; intros ys n Hr.
  - inversion Hr as [? ? Hl'|? l r ys1 ys2 ? ? Hs']; subst.
    + split; [|reflexivity]. inversion Hl; inversion Hl'; subst; congruence || (exfalso; intuition congruence) || idtac.
      * exfalso. assert (bs0 = bs) by congruence. subst. tauto.
      * exfalso. assert (bs0 = bs) by congruence. subst. tauto.
    + exfalso. inversion Hs'; subst. inversion Hl; subst; assert (bs0 = bs) by congruence; subst; lia.
  - inversion Hr as [? ? Hl'|? l' r' ys1 ys2 n1 n2 Hs' Hr1 Hr2]; subst.
    + exfalso. inversion Hs; subst. inversion Hl'; subst; assert (bs0 = bs) by congruence; subst; lia.
    + assert (l' = l /\ r' = r) as [-> ->] by (inversion Hs; inversion Hs'; subst; assert (bs0 = bs) by congruence; subst; split; congruence).
      destruct (IH1 _ _ Hr1) as [-> ->]. destruct (IH2 _ _ Hr2) as [-> ->]. auto.
Qed.

(** All trees together. *)
Lemma forest_lists v ni roots f : forest v ni roots f -> exists zs m, reach_all fo c v ni roots zs m /\
  lenN zs <= lenN roots * ni /\ (m <= length roots * (2 * N.to_nat ni + 1))%nat /\ (forall j, In j zs -> j < ni) /\
  (roots <> [] -> forall j w, f j = Some w -> In j zs).
Proof.
  intros [_ _ H]. induction roots as [|r roots IH].
  - exists [], 0%nat. split; [constructor|]. cbn. repeat split; try lia; contradiction.
  - destruct IH as (zs & m & H1 & H2 & H3 & H4 & H5); [intros; apply H; now right|].
    destruct (H r (or_introl eq_refl)) as (xs & n & T). exists (xs ++ zs), (n + m)%nat.
    split; [constructor; [apply T|exact H1]|]. pose proof (tl_len _ _ _ _ _ _ T). pose proof (tl_size _ _ _ _ _ _ T).
    rewrite lenN_app, lenN_cons. split; [lia|]. split; [cbn [length]; lia|]. split.
    + intros j Hj. apply in_app_or in Hj. destruct Hj; [eapply tl_in; eauto|auto].
    + intros _ j w Hw. apply in_or_app. left. eapply tl_all; eauto.
Qed.

Lemma item_dist_iff v ni roots f qn j d : is_float fo -> forest v ni roots f -> j < ni -> norm_right qn ->
  item_dist fo c v qn j d <-> exists w, f j = Some w /\ d = cos_gap fo (s_vec fo qn) w.
Proof.
  intros FL H Hj Hq. destruct (fr_item _ _ _ _ H j Hj) as (bs & Hr & B). pose proof (ib_desc _ _ B) as Hd.
  pose proof (distance_gap qn (snode_of fo c bs) FL Hq (ib_norm _ _ B FL)) as Hg. cbn [snode_of s_vec] in Hg.
  rewrite (ib_vec _ _ B) in Hg. split.
  - intros (bs' & H1 & H2 & ->). assert (bs' = bs) by congruence. subst bs'.
    destruct (f j) as [w|]; [|rewrite Hd in H2; discriminate]. exists w. split; [reflexivity|]. exact Hg.
  - intros (w & Hw & ->). rewrite Hw in *. exists bs. split; [exact Hr|]. split; [exact Hd|]. now symmetry.
Qed.

Section Q.
Variable sortIx : list N -> list N.
Variable sortPairs : list (F fo * N) -> list (F fo * N).
Hypothesis HsI : sort_slice N.ltb sortIx.
Hypothesis HsP : sort_slice (pair_less (flt fo) (feq fo)) sortPairs.
Notation query := (get_nns_by_vector fo c sortIx sortPairs).

Lemma forest_query fuel fs ix f q n inspect bc ids ds bc' : is_float fo ->
  forest (view fs ix) (n_items ix) (rootsN (ib ix)) f -> lenN q = vlen c ->
  query fuel fs ix q n inspect bc = Ok (ids, ds, bc') -> lenN (c_nns bc) < 2 ^ iw c ->
  NoDup ids /\ length ids = length ds /\ (length ids <= Z.to_nat n)%nat /\
  (forall k id, nth_error ids k = Some id -> exists w, f id = Some w /\ nth_error ds k = Some (vec_distance fo c q w)) /\
  (all_num fo f q -> exists raw, length raw = length ids /\ ds = map (normalized_distance fo c) raw /\
     (forall k id d, nth_error ids k = Some id -> nth_error raw k = Some d -> exists w, f id = Some w /\ d = cos_gap fo q w) /\
     sorted (pair_less (flt fo) (feq fo)) (combine raw ids)).
Proof.
  intros FL FO Hq E Hc.
  destruct (query_raw fo c sortIx sortPairs HsI HsP _ _ _ _ _ _ _ _ _ _ FL E Hc)
    as (ys & rest & qn & raw & Hqn & He & _ & Hnd & Hl & Hn & Hd & Hlr & Hin & Hs).
  destruct (query_node_ok q FL Hq) as (qn' & Hqn' & Hvec & Hnr). assert (qn' = qn) by congruence. subst qn'.
  destruct (forest_lists _ _ _ _ FO) as (zs & m & Hre & _ & _ & Hlt & _).
  assert (Hys : forall j, In j ys -> j < n_items ix).
  { destruct (expands_rest fo c _ _ _ _ _ (maxK_ge2 _ _ OK) He _ _ Hre) as (zs' & m' & _ & P).
    intros j Hj. apply Hlt. eapply Permutation_in; [symmetry; exact P|]. apply in_or_app. auto. }
  assert (Hraw : forall k id d, nth_error ids k = Some id -> nth_error raw k = Some d -> exists w, f id = Some w /\ d = cos_gap fo q w).
  { intros k id d H1 H2. destruct (Hin k id d H1 H2) as [H3 H4]. rewrite <- Hvec.
    eapply (item_dist_iff _ _ _ _ qn id d FL FO); eauto. }
  split; [exact Hnd|]. split; [exact Hl|]. split; [exact Hn|]. split.
  - intros k id Hk. assert (Hkl : (k < length raw)%nat) by (rewrite Hlr; apply nth_error_Some; congruence).
    destruct (nth_error raw k) as [d|] eqn:Ed; [|apply nth_error_None in Ed; lia].
    destruct (Hraw k id d Hk Ed) as (w & Hw & ->). exists w. split; [exact Hw|]. rewrite Hd, nth_error_map, Ed. reflexivity.
  - intro Hnum. exists raw. repeat (split; [assumption|]). apply Hs.
    intros j d Hj Hjd. eapply (item_dist_iff _ _ _ _ qn j d FL FO) in Hjd; eauto.
    destruct Hjd as (w & Hw & ->). rewrite Hvec. eapply Hnum; eauto.
Qed.

Lemma forest_exhaustive fuel fs ix f q n inspect bc ids ds bc' : is_float fo ->
  forest (view fs ix) (n_items ix) (rootsN (ib ix)) f -> rootsN (ib ix) <> [] -> lenN q = vlen c ->
  query fuel fs ix q n inspect bc = Ok (ids, ds, bc') -> lenN (c_nns bc) < 2 ^ iw c ->
  (Z.of_N (lenN (rootsN (ib ix)) * n_items ix) <= the_limit ix n inspect)%Z -> all_num fo f q ->
  exact_nearest fo c f q (Z.to_nat n) ids ds.
Proof.
  intros FL FO Hne Hq E Hc Hlim Hnum.
  destruct (forest_lists _ _ _ _ FO) as (zs & m & Hre & Hlz & _ & Hlt & Hall).
  destruct (query_exhaustive fo c sortIx sortPairs HsI HsP _ _ _ _ _ _ _ _ _ _ zs m FL (maxK_ge2 _ _ OK) E Hc Hre ltac:(lia)) as (qn & Hqn & Hn).
  destruct (query_node_ok q FL Hq) as (qn' & Hqn' & Hvec & Hnr). assert (qn' = qn) by congruence. subst qn'.
  assert (HD : forall j d, In j zs -> item_dist fo c (view fs ix) qn j d <-> exists w, f j = Some w /\ d = cos_gap fo q w).
  { intros j d Hj. rewrite <- Hvec. eapply item_dist_iff; eauto. }
  destruct Hn as (sc & raw & [Hnd Hsc] & Hl & Ht & Hds).
  { intros j d Hj Hd. apply HD in Hd; [|exact Hj]. destruct Hd as (w & Hw & ->). eapply Hnum; eauto. }
  exists sc, raw. split; [|auto]. split; [exact Hnd|]. intros d j. rewrite Hsc. split.
  - intros [H1 H2]. now apply HD.
  - intros (w & Hw & ->). assert (In j zs) by (eapply Hall; eauto). split; [assumption|]. apply HD; eauto.
Qed.

Lemma forest_total fuel fs ix f q n inspect bc : 
  forest (view fs ix) (n_items ix) (rootsN (ib ix)) f -> 1 <= vlen c -> lenN q = vlen c ->
  lenN (c_nns bc) < 2 ^ iw c -> length (c_dist bc) = length (c_nns bc) ->
  (length (rootsN (ib ix)) * (2 * N.to_nat (n_items ix) + 1) <= fuel)%nat ->
  (the_limit ix n inspect + Z.of_N K - 1 <= Z.of_N (lenN (c_nns bc)))%Z \/ lenN (rootsN (ib ix)) * n_items ix <= lenN (c_nns bc) ->
  exists ids ds bc', query fuel fs ix q n inspect bc = Ok (ids, ds, bc').
Proof.
  intros FO Hv Hq Hc Hd Hf Hroom. destruct (forest_lists _ _ _ _ FO) as (zs & m & Hre & Hlz & Hm & Hlt & Hall).
  apply (query_total fo c sortIx sortPairs HsI fuel fs ix q n inspect bc zs m (maxK_ge2 _ _ OK) Hq Hv Hc Hd Hre); [lia| |].
  - intros j Hj. destruct (fr_item _ _ _ _ FO j (Hlt j Hj)) as (bs & Hr & _). eauto.
  - destruct Hroom; [now left|right; lia].
Qed.
End Q.

(** ** Build calls *)
Lemma result_after h ix T nw fuel mfuel rfuel ix' : build_call fo c h ix T nw fuel mfuel ->
  build_result fo c ix T nw fuel mfuel rfuel ix' ->
  items_inv fo c ix (last_added h) /\ exists plan, after_build fo c ix (last_added h) plan ix' /\
    (T = -1 -> In (-1) plan)%Z /\ ((0 <= T)%Z -> Forall (fun t => (0 <= t)%Z) plan /\ sumZ plan = T) /\ length plan = nw.
Proof.
  intros B R. destruct (bc_added _ _ _ _ _ _ _ _ B) as (r & hint & Ea).
  pose proof (bc_hist _ _ _ _ _ _ _ _ B) as Hh. pose proof (bc_trees _ _ _ _ _ _ _ _ B) as HT.
  pose proof (bc_workers _ _ _ _ _ _ _ _ B) as Hw. pose proof (bc_small _ _ _ _ _ _ _ _ B) as Hb.
  destruct (start fo c OK (Some r) hint h ix Hh Ea) as (s0 & _ & I & _). split; [exact I|].
  destruct R as [[-> R]|(nworkers & ncpu & Hn & R)].
  - exists [T]. destruct (build_single_built fo c OK r hint h ix T fuel mfuel rfuel) as [(ix1 & E & A)|E]; auto; try apply B.
    + rewrite R in E. injection E as <-. split; [exact A|]. split; [intros ->; now left|]. split; [|reflexivity]. intro H. split; [repeat constructor; exact H|].
      cbn. lia.
    + congruence.
  - exists (map (trees_for_worker T nw) (seq 0 nw)). split; [|split; [|split]].
    + eapply (build_multi_built fo c OK); eauto; apply B.
    + intros ->. apply in_map_iff. exists 0%nat. split; [apply plan_auto|]. apply in_seq. lia.
    + intro H. split; [now apply plan_pos|]. apply plan_sum; assumption.
    + now rewrite map_length, seq_length.
Qed.
End S.
