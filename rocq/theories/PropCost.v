(** How many nodes a query looks at (C96). *)
From Verif Require Import Base Flt Layout Rng Sorts Alloc Prog Imbalance Dist Build Policy Index Search Spec ForestSpec BuildSpec RealSpec OrderSpec CostSpec
  Lib LayoutProof FltProof MemProof StoreProof SearchProof QueryProof TreeProof PolicyProof BuildProof ForestProof
  NumProof AfterProof CutProof SmallProof PlaneProof TopProof DistProof WholeProof RoomProof OwnProof OrderProof IOProof SameProof ReloadProof CostProof LoadedProof
  Concrete PropSearch PropForest PropWitness PropMore PropNum PropCut PropOrder PropPlane PropWhole PropReload PropRoom PropLoaded.
From Coq Require Import Permutation.
Open Scope N_scope.

Section S.
Variable fo : FOps.
Variable c : Cfg.
Hypothesis OK : CfgOK fo c.
Hypothesis Hv : 3 * ixb c <= vlen c.
Notation K := (maxK fo c).

Lemma balanced_both v ni i xs : divided fo c (fun _ xs ys => balanced xs ys) v ni i xs -> 1 <= lenN xs -> divided fo c (fun _ => both) v ni i xs.
Proof.
  induction 1 as [i xs H|i l r bs xs ys Hs Hr Hb Dl IHl Dr IHr]; intro Hx; [now apply dv_leaf|].
  rewrite lenN_app in Hx. unfold balanced in Hb. assert (1 <= lenN xs /\ 1 <= lenN ys) as [H1 H2] by lia.
  eapply dv_split; eauto. split; assumption.
Qed.
Lemma nodup_l {X} (x y : list X) : NoDup (x ++ y) -> NoDup x.
Proof. induction x as [|z x IH]; intro H; [constructor|]. inversion H as [|? ? Hni H']; subst. constructor; [|auto]. intro Hi. apply Hni, in_or_app. now left. Qed.
Lemma nodup_r {X} (x y : list X) : NoDup (x ++ y) -> NoDup y.
Proof. induction x as [|z x IH]; intro H; [exact H|]. inversion H; subst. auto. Qed.
Lemma nodup_children v ni i d j : descends fo c v i d j -> forall xs, divided fo c (fun _ => both) v ni i xs -> NoDup xs ->
  forall l r, splits fo c v j l r -> l <> r.
Proof.
  induction 1 as [i|i a b d j Hs Hd IH|i a b d j Hs Hd IH]; intros xs Dv ND l r Hs0.
  - inversion Dv as [? ? Hl|? l' r' bs ys zs Hs' _ Hb D1 D2]; subst; [exfalso; first [exact (split_not_leaf fo c OK _ _ _ _ _ _ Hs Hl)|exact (split_not_leaf fo c OK _ _ _ _ _ _ Hs0 Hl)]|].
    destruct (splits_fun fo c _ _ _ _ _ _ Hs0 Hs') as [<- <-]. intros ->.
    destruct (divided_reach _ _ _ _ _ _ _ D1) as [m1 R1]. destruct (divided_reach _ _ _ _ _ _ _ D2) as [m2 R2].
    destruct (reach_fun fo c OK _ _ _ _ _ R1 _ _ R2) as [<- _]. destruct Hb as [Hb _].
    destruct ys as [|y ys]; [rewrite lenN_nil in Hb; lia|]. inversion ND as [|? ? Hni _]; subst. apply Hni. apply in_or_app. right. now left.
  - inversion Dv as [? ? Hl|? l' r' bs ys zs Hs' _ Hb D1 D2]; subst; [exfalso; first [exact (split_not_leaf fo c OK _ _ _ _ _ _ Hs Hl)|exact (split_not_leaf fo c OK _ _ _ _ _ _ Hs0 Hl)]|].
    destruct (splits_fun fo c _ _ _ _ _ _ Hs Hs') as [<- <-]. eapply IH; eauto. eapply nodup_l; eauto.
  - inversion Dv as [? ? Hl|? l' r' bs ys zs Hs' _ Hb D1 D2]; subst; [exfalso; first [exact (split_not_leaf fo c OK _ _ _ _ _ _ Hs Hl)|exact (split_not_leaf fo c OK _ _ _ _ _ _ Hs0 Hl)]|].
    destruct (splits_fun fo c _ _ _ _ _ _ Hs Hs') as [<- <-]. eapply IH; eauto. eapply nodup_r; eauto.
Qed.

Variable h : list (N * list (F fo)).
Variables ix ix' : idx.
Variable T : Z.
Variables nw fuel mfuel rfuel : nat.
Hypothesis B : build_call fo c h ix T nw fuel mfuel.
Hypothesis R : build_result fo c ix T nw fuel mfuel rfuel ix'.
Variables a b : N.
Hypothesis Hab : a <> b.
Hypothesis Ha : last_added h a <> None.
Hypothesis Hb : last_added h b <> None.

Notation H := (N.to_nat (87 * (N.log2 (n_items ix') + 1))).

(** What the search relies on below a root: few levels, no empty leaf, and children with
    lesser numbers than their parent. *)
Definition root_ok (v : option buf) (ni r : N) (h : nat) : Prop :=
  height_le fo c v r h /\ (exists zs, divided fo c (fun _ => both) v ni r zs /\ 1 <= lenN zs) /\
  forall d i l r', descends fo c v r d i -> splits fo c v i l r' -> l < i /\ r' < i /\ l <> r'.

Lemma built_root plan v r : items_inv fo c ix (last_added h) -> after_build fo c ix (last_added h) plan ix' -> agrees fo c ix' v ->
  In r (rootsN (ib ix')) -> root_ok v (n_items ix) r H.
Proof.
  intros I A AG Hr. rewrite (bt_items _ _ _ _ _ _ A).
  destruct (bt_trees _ _ _ _ _ _ A (or_introl Hv) r Hr) as (xs & m & Hre & _ & Hx). specialize (Hre _ AG).
  destruct (bt_cuts _ _ _ _ _ _ A Hv r Hr) as (im & ys & Him & D). specialize (D _ AG).
  destruct (divided_reach _ _ _ _ _ _ _ D) as [k Hk].
  destruct (reach_fun fo c OK _ _ _ _ _ Hre _ _ Hk) as [<- _].
  pose proof (present_le fo (last_added h) (n_items ix)) as Hple.
  assert (Hp : forall i, last_added h i <> None -> i < n_items ix).
  { intros i Hi. destruct (last_added h i) as [w|] eqn:E; [|congruence]. exact (ii_ext _ _ _ _ I _ _ E). }
  assert (Hl : 1 <= lenN xs <= n_items ix).
  { assert (Hpa : In a (present fo (last_added h) (n_items ix))) by (apply in_present; auto).
    assert (1 <= lenN (present fo (last_added h) (n_items ix))) by (destruct (present fo (last_added h) (n_items ix)); [contradiction|rewrite lenN_cons; lia]).
    destruct (K <? n_items ix); [rewrite (perm_lenN _ _ Hx); unfold lenN in *; lia|]. rewrite Hx, lenN_app. unfold lenN in *. rewrite repeat_length. lia. }
  assert (Hd : forall i, last_added h i <> None -> i < n_items ix /\ n_desc c (im i) = 1).
  { intros i Hi. split; [auto|]. rewrite Him by auto.
    rewrite (ib_desc _ _ _ _ (image_bytes fo c OK (n_items ix) (last_added h) i (ii_len _ _ _ _ I))).
    destruct (last_added h i); [reflexivity|congruence]. }
  destruct (Hd a Ha) as [Ia Da]. destruct (Hd b Hb) as [Ib Db].
  assert (H64 : n_items ix < 2 ^ 64) by (pose proof (cap_ok_small fo c OK _ (ii_cap _ _ _ _ I)); pose proof (pow_iw_le fo c OK); lia).
  pose proof (divided_balanced fo c (n_items ix) im _ _ _ _ a b Ia Ib Da Db Hab D ltac:(lia)) as DB.
  pose proof (balanced_both _ _ _ _ DB ltac:(lia)) as DO.
  split; [|split; [exists xs; split; [exact DO|lia]|]].
  - intros d j De. assert (G : 2 ^ (N.of_nat d / 87) <= n_items ix).
    { apply depth_log. eapply N.le_trans; [eapply (depth_bound fo c OK); [exact De|exact DB|lia]|]. apply N.mul_le_mono_l. lia. }
    assert (Hq : N.of_nat d / 87 <= N.log2 (n_items ix)).
    { rewrite <- (N.log2_pow2 (N.of_nat d / 87)) by lia. now apply N.log2_le_mono. }
    pose proof (N.div_mod' (N.of_nat d) 87). pose proof (N.mod_lt (N.of_nat d) 87 ltac:(lia)). lia.
  - intros d i l r' De Hs. destruct (bt_order _ _ _ _ _ _ A Hv r Hr _ AG _ _ _ _ De Hs) as [H1 H2]. split; [exact H1|]. split; [exact H2|].
    destruct (N.ltb_spec K (n_items ix)) as [HK|HK].
    + eapply nodup_children; [exact De|exact DO| |exact Hs].
      eapply Permutation_NoDup; [symmetry; exact Hx|apply NoDup_present].
    + exfalso. destruct (bt_copies _ _ _ _ _ _ A) as (n & Hn & Hrn & _). pose proof (bt_range _ _ _ _ _ _ A r Hr) as Hrr.
      assert (E : n_desc c (snode_img fo c (ib ix') r) = n_items ix).
      { apply (bt_shape _ _ _ _ _ _ A ltac:(lia) r); [lia| |exact Hr]. specialize (Hrn r Hr). lia. }
      assert (NS : forall x y, splits fo c v r x y -> False).
      { intros x y [bs x' y' R1 K1 _]. rewrite AG in R1 by lia. injection R1 as <-. lia. }
      inversion De; subst; eauto.
Qed.
(** The same for a copy of a root. *)
Lemma copy_root v ni r0 r x y k : root_ok v ni r0 k -> r0 < r -> splits fo c v r0 x y -> splits fo c v r x y -> root_ok v ni r k.
Proof.
  intros (H1 & (zs & D & Hz) & H3) Hlt S0 S1. split; [|split].
  - intros d j De. inversion De as [|? a' b' d' ? Ss Hd|? a' b' d' ? Ss Hd]; subst; [lia| |];
      destruct (splits_fun fo c _ _ _ _ _ _ S1 Ss) as [<- <-]; eapply H1; [eapply de_left|eapply de_right]; eauto.
  - exists zs. split; [|exact Hz].
    inversion D as [? ? Hl|? l' r' bs ys ws Ss Hr Hc D1 D2]; subst; [exfalso; exact (split_not_leaf fo c OK _ _ _ _ _ _ S0 Hl)|].
    destruct (splits_fun fo c _ _ _ _ _ _ S0 Ss) as [<- <-]. destruct S1 as [bs1 x y R1 K1 C1].
    eapply dv_split; [econstructor; eauto|exact R1|exact Hc|exact D1|exact D2].
  - intros d i l r' De Ss. inversion De as [|? a' b' d' ? Ss' Hd|? a' b' d' ? Ss' Hd]; subst.
    + destruct (splits_fun fo c _ _ _ _ _ _ S1 Ss) as [<- <-]. destruct (H3 _ _ _ _ (de_here fo c v r0) S0) as (A1 & A2 & A3). lia.
    + destruct (splits_fun fo c _ _ _ _ _ _ S1 Ss') as [<- <-]. eapply H3; [eapply de_left; eauto|exact Ss].
    + destruct (splits_fun fo c _ _ _ _ _ _ S1 Ss') as [<- <-]. eapply H3; [eapply de_right; eauto|exact Ss].
Qed.

Lemma ok_looks (FL : is_float fo) v ni roots k q limit n : all_sides fo c (not_nan fo) v roots q -> NoDup roots ->
  (forall r, In r roots -> root_ok v ni r k) -> looks fo c v ni q limit (at_start fo roots) n ->
  (Z.of_nat n <= 2 * Z.max 0 limit + Z.of_nat k)%Z.
Proof.
  intros AS ND HR Lk. destruct (Z.le_gt_cases limit 0) as [Hl|Hl].
  { rewrite (looks_done fo c _ _ _ _ _ _ Lk Hl). lia. }
  assert (HO : forall r d i l r', In r roots -> descends fo c v r d i -> splits fo c v i l r' -> l < i /\ r' < i /\ l <> r').
  { intros r d i l r' Hr. destruct (HR r Hr) as (_ & _ & X). apply X. }
  pose proof (looks_forest fo c OK FL v ni q roots k AS HO _ roots eq_refl ND (incl_refl _)) as G.
  assert (HR' : forall r, In r roots -> height_le fo c v r k /\ exists zs, divided fo c (fun _ => both) v ni r zs /\ 1 <= lenN zs).
  { intros r Hr. destruct (HR r Hr) as (X1 & X2 & _). auto. }
  specialize (G HR' limit n Lk ltac:(lia)). lia.
Qed.
Lemma built_looks (FL : is_float fo) fs q limit n : all_sides fo c (not_nan fo) (view fs ix') (rootsN (ib ix')) q ->
  looks fo c (view fs ix') (n_items ix') q limit (at_start fo (rootsN (ib ix'))) n ->
  (Z.of_nat n <= 2 * Z.max 0 limit + 87 * (Z.of_N (N.log2 (n_items ix')) + 1))%Z.
Proof.
  intros AS Lk. destruct (result_after fo c OK _ _ _ _ _ _ _ _ B R) as (I & plan & A & _).
  pose proof (after_agrees fo c fs ix _ plan ix' A) as AG.
  assert (HR : forall r, In r (rootsN (ib ix')) -> root_ok (view fs ix') (n_items ix') r H).
  { intros r Hr. pose proof (built_root plan _ r I A AG Hr) as X. rewrite <- (bt_items _ _ _ _ _ _ A) in X. exact X. }
  pose proof (ok_looks FL _ _ _ H q limit n AS (bt_dup _ _ _ _ _ _ A) HR Lk). lia.
Qed.
(** After Save, or Save and Load. *)
Lemma loaded_looks (FL : is_float fo) fs2 ix2 q limit n : K < n_items ix -> rootsN (ib ix') <> [] ->
  loadedx fo c ix (last_added h) ix' fs2 ix2 -> all_sides fo c (not_nan fo) (view fs2 ix2) (rootsN (ib ix2)) q ->
  looks fo c (view fs2 ix2) (n_items ix2) q limit (at_start fo (rootsN (ib ix2))) n ->
  (Z.of_nat n <= 2 * Z.max 0 limit + 87 * (Z.of_N (N.log2 (n_items ix')) + 1))%Z.
Proof.
  intros HK Hne L AS Lk. destruct (result_after fo c OK _ _ _ _ _ _ _ _ B R) as (I & plan & A & _).
  assert (AG : agrees fo c ix' (view fs2 ix2)).
  { intros i Hi. apply (lx_into _ _ _ _ _ _ _ L). eapply v0_read; eauto. }
  assert (HR : forall r, In r (rootsN (ib ix2)) -> root_ok (view fs2 ix2) (n_items ix2) r H).
  { intros r Hr. rewrite (lx_items _ _ _ _ _ _ _ L). destruct (lx_roots _ _ _ _ _ _ _ L r Hr) as [Hr'|[r0 Hr']]; [eapply built_root; eauto|].
    destruct (ren_range fo c ix _ plan ix' A Hv HK Hne r0 r Hr') as (Hin & B1 & B2 & _).
    destruct (ren_splits fo c OK ix _ plan ix' A Hv HK Hne r0 r Hr') as (x & y & Sa & Sb).
    apply (sub_splits fo c _ _ _ _ _ (lx_into _ _ _ _ _ _ _ L)) in Sa. apply (sub_splits fo c _ _ _ _ _ (lx_into _ _ _ _ _ _ _ L)) in Sb.
    apply (copy_root _ _ r0 r x y); [eapply built_root; eauto| |exact Sa|exact Sb].
    destruct Hr' as (j & Hj & ->). destruct (bt_copies _ _ _ _ _ _ A) as (n0 & Hn & Hrn & _). specialize (Hrn r0 Hin). lia. }
  pose proof (ok_looks FL _ _ _ H q limit n AS (lx_dup _ _ _ _ _ _ _ L) HR Lk). lia.
Qed.
End S.

(** ** C28: not many more *)
(** A query stops at the first leaf that gives it enough, so it returns fewer items than
    it is to inspect plus the capacity of a leaf. *)
Theorem C28_at_most_a_leaf_more :
  forall fo c sortIx sortPairs, CfgOK fo c -> sort_slice N.ltb sortIx ->
  forall fuel fs ix vec n inspect bc ids ds bc',
  get_nns_by_vector fo c sortIx sortPairs fuel fs ix vec n inspect bc = Ok (ids, ds, bc') ->
  ids = [] \/ (Z.of_nat (length ids) < the_limit ix n inspect + Z.of_N (maxK fo c))%Z.
Proof. intros fo c sortIx sortPairs OK HI fuel fs ix vec n inspect bc ids ds bc' E. eapply query_few; eauto. Qed.
(** One entry to inspect, 20 items wanted: 9 are returned (the bound is 18). *)
Example C28_few_example :
  maxK fops32 (cA 16) = 18 /\ n_items fx_multi = 20 /\
  match query (cA 16) 100 no_files fx_multi exq_vec 20 1 (create_context fops32 fx_multi) with
  | Ok (ids, _, _) => length ids | Er _ => 0%nat end = 9%nat.
Proof. split; [vm_compute; reflexivity|]. split; [vm_compute; reflexivity|]. vm_compute. reflexivity. Qed.

(** ** C96 *)
(** Vectors of moderate size, at least two items.  A query that inspects [limit] entries
    looks at no more than 2 * limit + 87 * (log2 n + 1) nodes, however many trees there
    are .. *)
Theorem C96_query_looks_at_few_nodes :
  forall fm c, is_fmt fm -> CfgOK (ops fm) c -> 3 * ixb c <= vlen c -> vlen c <= 2 ^ 20 ->
  forall sortIx sortPairs,
  forall h ix T nw fuel mfuel rfuel ix', build_call (ops fm) c h ix T nw fuel mfuel ->
  build_result (ops fm) c ix T nw fuel mfuel rfuel ix' ->
  (forall i w, last_added h i = Some w -> moderate fm w) ->
  forall a b, a <> b -> last_added h a <> None -> last_added h b <> None ->
  forall qfuel fs q n inspect bc res, moderate fm q -> lenN q = vlen c ->
  get_nns_by_vector (ops fm) c sortIx sortPairs qfuel fs ix' q n inspect bc = Ok res ->
  exists k, looks (ops fm) c (view fs ix') (n_items ix') q (the_limit ix' n inspect) (at_start (ops fm) (rootsN (ib ix'))) k /\
    (Z.of_nat k <= 2 * Z.max 0 (the_limit ix' n inspect) + 87 * (Z.of_N (N.log2 (n_items ix')) + 1))%Z.
Proof.
  intros fm c FM OK Hv Hlen sortIx sortPairs h ix T nw fuel mfuel rfuel ix' B R HM a b Hab Ha Hb qfuel fs q n inspect bc res Mq Hq E.
  pose proof (sides_finite fm c FM OK Hv Hlen h ix T nw fuel mfuel rfuel ix' B R HM fs q Mq Hq) as FS.
  assert (NS : all_sides (ops fm) c (not_nan (ops fm)) (view fs ix') (rootsN (ib ix')) q).
  { intros r d i l r' bs H1 H2 H3 H4. apply (finite_num _ _ (fmt_is_float fm FM)). eapply FS; eauto. }
  destruct (query_looks (ops fm) c (fmt_is_float fm FM) sortIx sortPairs _ _ _ _ _ _ _ _ E NS) as (k & Hk & _ & _).
  exists k. split; [exact Hk|]. eapply (built_looks (ops fm) c OK Hv h ix ix' T nw fuel mfuel rfuel B R a b); eauto. now apply fmt_is_float.
Qed.
(** .. and its loop takes as many rounds: the result is there after that many. *)
Theorem C96_query_takes_few_rounds :
  forall fm c, is_fmt fm -> CfgOK (ops fm) c -> 3 * ixb c <= vlen c -> vlen c <= 2 ^ 20 ->
  forall sortIx sortPairs,
  forall h ix T nw fuel mfuel rfuel ix', build_call (ops fm) c h ix T nw fuel mfuel ->
  build_result (ops fm) c ix T nw fuel mfuel rfuel ix' ->
  (forall i w, last_added h i = Some w -> moderate fm w) ->
  forall a b, a <> b -> last_added h a <> None -> last_added h b <> None ->
  forall qfuel fs q n inspect bc res, moderate fm q -> lenN q = vlen c ->
  get_nns_by_vector (ops fm) c sortIx sortPairs qfuel fs ix' q n inspect bc = Ok res ->
  forall rounds, (2 * Z.max 0 (the_limit ix' n inspect) + 87 * (Z.of_N (N.log2 (n_items ix')) + 1) <= Z.of_nat rounds)%Z ->
  get_nns_by_vector (ops fm) c sortIx sortPairs rounds fs ix' q n inspect bc = Ok res.
Proof.
  intros fm c FM OK Hv Hlen sortIx sortPairs h ix T nw fuel mfuel rfuel ix' B R HM a b Hab Ha Hb qfuel fs q n inspect bc res Mq Hq E rounds Hr.
  pose proof (sides_finite fm c FM OK Hv Hlen h ix T nw fuel mfuel rfuel ix' B R HM fs q Mq Hq) as FS.
  assert (NS : all_sides (ops fm) c (not_nan (ops fm)) (view fs ix') (rootsN (ib ix')) q).
  { intros r d i l r' bs H1 H2 H3 H4. apply (finite_num _ _ (fmt_is_float fm FM)). eapply FS; eauto. }
  destruct (query_looks (ops fm) c (fmt_is_float fm FM) sortIx sortPairs _ _ _ _ _ _ _ _ E NS) as (k & Hk & _ & Hf).
  apply Hf. pose proof (built_looks (ops fm) c OK Hv h ix ix' T nw fuel mfuel rfuel B R a b Hab Ha Hb (fmt_is_float fm FM) fs q _ k NS Hk). lia.
Qed.
(** So on a context of the index's own every query over as many entries as items were
    added returns within that many rounds (as in C93). *)
Theorem C96_own_context_returns_soon :
  forall fm c, is_fmt fm -> CfgOK (ops fm) c -> 3 * ixb c <= vlen c -> vlen c <= 2 ^ 20 ->
  forall sortIx sortPairs, sort_slice N.ltb sortIx -> sort_slice (pair_less (flt (ops fm)) (feq (ops fm))) sortPairs ->
  forall h ix T nw fuel mfuel rfuel ix', build_call (ops fm) c h ix T nw fuel mfuel ->
  build_result (ops fm) c ix T nw fuel mfuel rfuel ix' ->
  (forall i w, last_added h i = Some w -> moderate fm w) ->
  forall added, NoDup added -> (forall i, In i added -> last_added h i <> None) -> (2 <= length added)%nat ->
  n_items ix <= maxK (ops fm) c \/ maxK (ops fm) c < N.of_nat (length added) ->
  forall fs q n inspect, moderate fm q -> lenN q = vlen c -> lenN (c_nns (create_context (ops fm) ix')) < 2 ^ iw c ->
  (the_limit ix' n inspect <= Z.of_nat (length added))%Z ->
  forall rounds, (2 * Z.max 0 (the_limit ix' n inspect) + 87 * (Z.of_N (N.log2 (n_items ix')) + 1) <= Z.of_nat rounds)%Z ->
  exists ids ds bc', get_nns_by_vector (ops fm) c sortIx sortPairs rounds fs ix' q n inspect (create_context (ops fm) ix') = Ok (ids, ds, bc').
Proof.
  intros fm c FM OK Hv Hlen sortIx sortPairs HI HP h ix T nw fuel mfuel rfuel ix' B R HM added ND Had H2 Hm fs q n inspect Mq Hq Hc Hlim rounds Hr.
  destruct (C93_inspecting_the_items_does_not_overflow fm c FM OK Hv Hlen sortIx sortPairs HI HP h ix T nw fuel mfuel rfuel ix' B R HM
              added ND Had Hm) with (qfuel := (length (rootsN (ib ix')) * (2 * N.to_nat (n_items ix) + 1))%nat) (fs := fs) (q := q) (n := n) (inspect := inspect)
    as (ids & ds & bc' & E); auto.
  destruct added as [|a [|b added]]; [cbn in H2; lia|cbn in H2; lia|].
  exists ids, ds, bc'.
  eapply (C96_query_takes_few_rounds fm c FM OK Hv Hlen sortIx sortPairs h ix T nw fuel mfuel rfuel ix' B R HM a b); eauto.
  - inversion ND as [|? ? Hni _]; subst. intros ->. apply Hni. now left.
  - apply Had. now left.
  - apply Had. right. now left.
Qed.

(** The same holds after Save, or Save and Load, of an index of more items than fit one
    leaf, though Load may find up to twice as many roots. *)
Theorem C96_few_rounds_after_reload :
  forall fm c, is_fmt fm -> CfgOK (ops fm) c -> 3 * ixb c <= vlen c -> vlen c <= 2 ^ 20 ->
  forall sortIx sortPairs,
  forall h ix T nw fuel mfuel rfuel ix', build_call (ops fm) c h ix T nw fuel mfuel ->
  build_result (ops fm) c ix T nw fuel mfuel rfuel ix' -> rootsN (ib ix') <> [] ->
  (forall i w, last_added h i = Some w -> moderate fm w) -> maxK (ops fm) c < n_items ix ->
  forall a b, a <> b -> last_added h a <> None -> last_added h b <> None ->
  forall fs fs2 ix2, from_file (ops fm) c fs ix' fs2 ix2 ->
  forall qfuel q n inspect bc res, moderate fm q -> lenN q = vlen c ->
  get_nns_by_vector (ops fm) c sortIx sortPairs qfuel fs2 ix2 q n inspect bc = Ok res ->
  forall rounds, (2 * Z.max 0 (the_limit ix2 n inspect) + 87 * (Z.of_N (N.log2 (n_items ix')) + 1) <= Z.of_nat rounds)%Z ->
  get_nns_by_vector (ops fm) c sortIx sortPairs rounds fs2 ix2 q n inspect bc = Ok res.
Proof.
  intros fm c FM OK Hv Hlen sortIx sortPairs h ix T nw fuel mfuel rfuel ix' B R Hne HM HK a b Hab Ha Hb fs fs2 ix2 FF qfuel q n inspect bc res Mq Hq E rounds Hr.
  destruct (result_after (ops fm) c OK _ _ _ _ _ _ _ _ B R) as (I & plan & A & _).
  destruct (from_file_loaded (ops fm) c fs ix _ plan ix' fs2 ix2 OK I A Hv HK Hne FF) as [L _].
  pose proof (sides_finite fm c FM OK Hv Hlen h ix T nw fuel mfuel rfuel ix' B R HM fs q Mq Hq) as FS.
  apply (loadedx_sides (ops fm) c OK (fmt_is_float fm FM) ix _ plan ix' A Hv HK Hne _ fs fs2 ix2 q L) in FS.
  assert (NS : all_sides (ops fm) c (not_nan (ops fm)) (view fs2 ix2) (rootsN (ib ix2)) q).
  { intros r d i l r' bs H1 H2 H3 H4. apply (finite_num _ _ (fmt_is_float fm FM)). eapply FS; eauto. }
  destruct (query_looks (ops fm) c (fmt_is_float fm FM) sortIx sortPairs _ _ _ _ _ _ _ _ E NS) as (k & Hk & _ & Hf).
  apply Hf. pose proof (loaded_looks (ops fm) c OK Hv h ix ix' T nw fuel mfuel rfuel B R a b Hab Ha Hb (fmt_is_float fm FM) fs2 ix2 q _ k HK Hne L NS Hk). lia.
Qed.

(** 20 items (a leaf has room for 18), 3 trees: inspecting one entry takes two rounds and
    not one; inspecting everything takes nine. *)
Example C96_example :
  build_call fops32 (cA 16) exq_items fx_ix 3 2 100 100 /\ build_result fops32 (cA 16) fx_ix 3 2 100 100 100 fx_multi /\
  (forall j v, last_added exq_items j = Some v -> moderate fmt32 v) /\ moderate fmt32 exq_vec /\
  match last_added exq_items 0 with Some _ => True | None => False end /\ match last_added exq_items 1 with Some _ => True | None => False end /\
  map (fun r => bits_of (query (cA 16) r no_files fx_multi exq_vec 1 1 (create_context fops32 fx_multi))) [1; 2; 3; 400]%nat =
    [Er OutOfFuel; Ok ([11], [1059343085]); Ok ([11], [1059343085]); Ok ([11], [1059343085])] /\
  map (fun r => bits_of (query (cA 16) r no_files fx_multi exq_vec 1 60 (create_context fops32 fx_multi))) [8; 9; 400]%nat =
    [Er OutOfFuel; Ok ([9], [1039756778]); Ok ([9], [1039756778])].
Proof.
  split; [apply fx_call; lia|]. split; [apply fx_multi_result|].
  split; [intros j v H; apply tame_moderate; now apply (exq_tame j v)|].
  split; [apply tame_moderate; apply fv_tame; [cbn; lia|vm_compute; reflexivity|vm_compute; reflexivity]|].
  split; [vm_compute; exact I|]. split; [vm_compute; exact I|]. split; vm_compute; reflexivity.
Qed.

Print Assumptions C96_query_looks_at_few_nodes.
Print Assumptions C96_query_takes_few_rounds.
Print Assumptions C96_own_context_returns_soon.
Print Assumptions C96_few_rounds_after_reload.
Print Assumptions C28_at_most_a_leaf_more.
