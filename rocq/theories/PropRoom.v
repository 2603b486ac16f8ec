(** Contexts of different sizes (C30), the room in the contexts an index creates (C93),
    and trees that share no nodes (C20). *)
From Verif Require Import Base Flt Layout Rng Sorts Alloc Prog Imbalance Dist Build Policy Index Search Spec ForestSpec BuildSpec RealSpec OrderSpec
  Lib LayoutProof FltProof MemProof StoreProof SearchProof QueryProof TreeProof PolicyProof BuildProof ForestProof
  NumProof AfterProof CutProof SmallProof PlaneProof TopProof DistProof WholeProof RoomProof OwnProof
  Concrete PropSearch PropForest PropWitness PropMore PropNum PropCut PropOrder PropPlane PropWhole.
From Coq Require Import Permutation.
Open Scope N_scope.

(** ** C30 *)
(** A query that returns with one context returns the same answer with any context that
    is at least as large .. *)
Theorem C30_larger_context_same_answer :
  forall fo c sortIx sortPairs, sort_slice N.ltb sortIx ->
  forall fuel fs ix vec n inspect b1 b2 ids ds b1',
  get_nns_by_vector fo c sortIx sortPairs fuel fs ix vec n inspect b1 = Ok (ids, ds, b1') ->
  lenN (c_nns b1) <= lenN (c_nns b2) -> lenN (c_nns b1) <= lenN (c_dist b2) -> lenN (c_nns b2) < 2 ^ iw c ->
  exists b2', get_nns_by_vector fo c sortIx sortPairs fuel fs ix vec n inspect b2 = Ok (ids, ds, b2').
Proof.
  intros fo c sortIx sortPairs HI fuel fs ix vec n inspect b1 b2 ids ds b1' E H1 H2 H3.
  eapply (query_more_room fo c sortIx sortPairs HI); eauto. lia.
Qed.
(** .. and the same answer with any other context with which it returns. *)
Theorem C30_answers_do_not_depend_on_the_context :
  forall fo c sortIx sortPairs, sort_slice N.ltb sortIx ->
  forall fuel fs ix vec n inspect b1 b2 ids1 ds1 b1' ids2 ds2 b2',
  get_nns_by_vector fo c sortIx sortPairs fuel fs ix vec n inspect b1 = Ok (ids1, ds1, b1') ->
  get_nns_by_vector fo c sortIx sortPairs fuel fs ix vec n inspect b2 = Ok (ids2, ds2, b2') ->
  lenN (c_nns b1) < 2 ^ iw c -> lenN (c_nns b2) < 2 ^ iw c ->
  ids1 = ids2 /\ ds1 = ds2.
Proof.
  intros fo c sortIx sortPairs HI fuel fs ix vec n inspect b1 b2 ids1 ds1 b1' ids2 ds2 b2' E1 E2 H1 H2.
  eapply (query_any_room fo c sortIx sortPairs HI); eauto.
Qed.
(** A context for 20 entries is enough for this query, one for 19 is not. *)
Definition ctx_of (n : nat) : ctx (F fops32) := mkCtx (repeat 7 n) (repeat (f1 fops32, 3) n).
Example C30_sizes_example :
  bits_of (query (cA 16) 100 no_files fx_single exq_vec 2 13 (ctx_of 20)) = Ok ([9; 12], [1039756778; 1057153137]) /\
  bits_of (query (cA 16) 100 no_files fx_single exq_vec 2 13 (ctx_of 1000)) = Ok ([9; 12], [1039756778; 1057153137]) /\
  bits_of (query (cA 16) 100 no_files fx_single exq_vec 2 13 (ctx_of 19)) = Er (Panic PIndex).
Proof. repeat split; vm_compute; reflexivity. Qed.

(** ** C93 *)
Lemma added_present fo c h ix added : NoDup added -> (forall i, In i added -> last_added h i <> None) -> items_inv fo c ix (last_added h) ->
  N.of_nat (length added) <= lenN (present fo (last_added h) (n_items ix)).
Proof.
  intros ND Had I. assert (X : (length added <= length (present fo (last_added h) (n_items ix)))%nat); [|unfold lenN; lia].
  apply NoDup_incl_length; [exact ND|]. intros i Hi. apply in_present. specialize (Had i Hi). split; [|exact Had].
  destruct (last_added h i) eqn:E; [|congruence]. eapply ii_ext; eauto.
Qed.
Lemma room_dist fo ix' : length (c_dist (create_context fo ix')) = length (c_nns (create_context fo ix')).
Proof. unfold create_context. cbn [c_nns c_dist]. now rewrite !repeat_length. Qed.

(** If leaves have room for 125 items (vectors of 123 or more float32 components), and
    either all items fit one leaf or more were added than do, no query on a context of
    the index's own ever runs out of room, however many entries it inspects. *)
Theorem C93_own_context_never_overflows :
  forall fo c, CfgOK fo c -> 3 * ixb c <= vlen c -> 125 <= maxK fo c ->
  forall sortIx sortPairs, sort_slice N.ltb sortIx -> sort_slice (pair_less (flt fo) (feq fo)) sortPairs ->
  forall h ix T nw fuel mfuel rfuel ix', build_call fo c h ix T nw fuel mfuel ->
  build_result fo c ix T nw fuel mfuel rfuel ix' ->
  forall added, NoDup added -> (forall i, In i added -> last_added h i <> None) ->
  n_items ix <= maxK fo c \/ maxK fo c < N.of_nat (length added) ->
  forall qfuel fs q n inspect, lenN q = vlen c -> lenN (c_nns (create_context fo ix')) < 2 ^ iw c ->
  (length (rootsN (ib ix')) * (2 * N.to_nat (n_items ix) + 1) <= qfuel)%nat ->
  exists ids ds bc', get_nns_by_vector fo c sortIx sortPairs qfuel fs ix' q n inspect (create_context fo ix') = Ok (ids, ds, bc').
Proof.
  intros fo c OK Hv H125 sortIx sortPairs HI HP h ix T nw fuel mfuel rfuel ix' B R added ND Had Hm qfuel fs q n inspect Hq Hc Hf.
  destruct (result_after fo c OK _ _ _ _ _ _ _ _ B R) as (I & plan & A & _).
  pose proof (room_dist fo ix') as Hd.
  destruct Hm as [Hm|Hm].
  - eapply (C31_built_index_returns fo c OK Hv sortIx sortPairs HI HP h ix T nw fuel mfuel rfuel ix' B R); eauto.
    right. eapply own_room_few; eauto.
  - pose proof (added_present fo c h ix added ND Had I) as Hp.
    pose proof (own_room_all fo c OK ix (last_added h) plan ix' I A Hv H125 ltac:(lia)) as Hroom.
    pose proof (after_forest fo c OK fs ix _ plan ix' Hv I A) as FO.
    pose proof (after_agrees fo c fs ix _ plan ix' A) as AG.
    pose proof (present_le fo (last_added h) (n_items ix)) as Hple.
    assert (G : forall rs, (forall r, In r rs -> In r (rootsN (ib ix'))) ->
      exists zs m, reach_all fo c (view fs ix') (n_items ix') rs zs m /\
        lenN zs = lenN rs * lenN (present fo (last_added h) (n_items ix)) /\ (m <= length rs * (2 * N.to_nat (n_items ix) + 1))%nat /\
        forall j, In j zs -> j < n_items ix').
    { induction rs as [|r rs IH]; intro Hin.
      - exists [], 0%nat. split; [constructor|]. rewrite lenN_nil. split; [reflexivity|]. split; [lia|]. intros j [].
      - destruct IH as (zs & m & Z1 & Z2 & Z3 & Z4); [intros; apply Hin; now right|].
        destruct (bt_trees _ _ _ _ _ _ A (or_introl Hv) r (Hin r (or_introl eq_refl))) as (xs & k & Hre & Hk & Hx).
        replace (maxK fo c <? n_items ix) with true in Hx by (unfold lenN in *; lia).
        exists (xs ++ zs), (k + m)%nat. rewrite (bt_items _ _ _ _ _ _ A) in *. split; [constructor; [exact (Hre _ AG)|exact Z1]|].
        split; [rewrite lenN_app, lenN_cons, (perm_lenN _ _ Hx); lia|]. split; [cbn [length]; lia|].
        intros j Hj. apply in_app_or in Hj. destruct Hj as [Hj|Hj]; [|auto]. apply (in_present fo (last_added h)). eapply Permutation_in; eauto. }
    destruct (G (rootsN (ib ix')) ltac:(auto)) as (zs & m & Z1 & Z2 & Z3 & Z4).
    eapply (C31_no_panic_with_room fo c sortIx sortPairs OK HI HP qfuel fs ix' q n inspect _ zs m); eauto.
    + pose proof (ixb_pos _ _ OK). lia.
    + lia.
    + intros j Hj. destruct (fr_item _ _ _ _ _ _ FO j (Z4 j Hj)) as (bs & Hr & _). eauto.
    + right. lia.
Qed.

(** For shorter vectors of moderate size: a query that inspects no more entries than
    items were added does not run out of room (if all items fit one leaf, or more were
    added than do). *)
Theorem C93_inspecting_the_items_does_not_overflow :
  forall fm c, is_fmt fm -> CfgOK (ops fm) c -> 3 * ixb c <= vlen c -> vlen c <= 2 ^ 20 ->
  forall sortIx sortPairs, sort_slice N.ltb sortIx -> sort_slice (pair_less (flt (ops fm)) (feq (ops fm))) sortPairs ->
  forall h ix T nw fuel mfuel rfuel ix', build_call (ops fm) c h ix T nw fuel mfuel ->
  build_result (ops fm) c ix T nw fuel mfuel rfuel ix' ->
  (forall i w, last_added h i = Some w -> moderate fm w) ->
  forall added, NoDup added -> (forall i, In i added -> last_added h i <> None) ->
  n_items ix <= maxK (ops fm) c \/ maxK (ops fm) c < N.of_nat (length added) ->
  forall qfuel fs q n inspect, moderate fm q -> lenN q = vlen c -> lenN (c_nns (create_context (ops fm) ix')) < 2 ^ iw c ->
  (length (rootsN (ib ix')) * (2 * N.to_nat (n_items ix) + 1) <= qfuel)%nat ->
  (the_limit ix' n inspect <= Z.of_nat (length added))%Z ->
  exists ids ds bc', get_nns_by_vector (ops fm) c sortIx sortPairs qfuel fs ix' q n inspect (create_context (ops fm) ix') = Ok (ids, ds, bc').
Proof.
  intros fm c FM OK Hv Hlen sortIx sortPairs HI HP h ix T nw fuel mfuel rfuel ix' B R HM added ND Had Hm qfuel fs q n inspect Mq Hq Hc Hf Hlim.
  destruct (result_after (ops fm) c OK _ _ _ _ _ _ _ _ B R) as (I & plan & A & _).
  pose proof (room_dist (ops fm) ix') as Hd. pose proof (added_present (ops fm) c h ix added ND Had I) as Hp.
  pose proof (after_forest (ops fm) c OK fs ix _ plan ix' Hv I A) as FO.
  pose proof (sides_finite fm c FM OK Hv Hlen h ix T nw fuel mfuel rfuel ix' B R HM fs q Mq Hq) as FS.
  destruct (list_eq_dec N.eq_dec (rootsN (ib ix')) []) as [Hnil|Hne].
  { eapply (C31_built_index_returns (ops fm) c OK Hv sortIx sortPairs HI HP h ix T nw fuel mfuel rfuel ix' B R); eauto.
    right. rewrite Hnil. unfold lenN. cbn [length]. lia. }
  destruct (least_root _ Hne) as (r0 & Hr0 & Hle).
  destruct (fr_tree _ _ _ _ _ _ FO r0 Hr0) as (zs & m & TL).
  pose proof (after_agrees (ops fm) c fs ix _ plan ix' A) as AG.
  destruct (bt_trees _ _ _ _ _ _ A (or_introl Hv) r0 Hr0) as (xs & k & Hre & Hk & Hx). specialize (Hre _ AG).
  pose proof (present_le (ops fm) (last_added h) (n_items ix)) as Hple.
  assert (xs = zs) as ->.
  { pose proof (tl_reach _ _ _ _ _ _ _ _ TL) as Ht. rewrite (bt_items _ _ _ _ _ _ A) in Ht.
    now destruct (reach_fun (ops fm) c OK _ _ _ _ _ Hre _ _ Ht) as [-> _]. }
  assert (Hz : lenN (present (ops fm) (last_added h) (n_items ix)) <= lenN zs <= lenN (c_nns (create_context (ops fm) ix'))).
  { destruct Hm as [Hm|Hm].
    - replace (maxK (ops fm) c <? n_items ix) with false in Hx by lia.
      assert (Lz : lenN zs = n_items ix).
      { rewrite Hx. unfold lenN in *. rewrite app_length, repeat_length. lia. }
      pose proof (own_room_few (ops fm) c OK ix (last_added h) plan ix' I A Hv Hm) as H.
      assert (1 <= lenN (rootsN (ib ix'))) by (destruct (rootsN (ib ix')); [congruence|rewrite lenN_cons; lia]).
      unfold lenN in *. nia.
    - replace (maxK (ops fm) c <? n_items ix) with true in Hx by (unfold lenN in *; lia).
      rewrite (perm_lenN _ _ Hx). split; [lia|]. eapply (own_room_items (ops fm) c OK ix (last_added h) plan ix'); eauto. lia. }
  assert (Hcap : n_items ix' + maxK (ops fm) c < 2 ^ iw c).
  { rewrite (bt_items _ _ _ _ _ _ A). pose proof (bt_cap _ _ _ _ _ _ A) as Hcap. unfold cap_ok in Hcap.
    pose proof (bt_range _ _ _ _ _ _ A r0 Hr0) as Hr. pose proof (cap_ok_ge (nn (ib ix'))) as H1.
    pose proof (maxK_fits _ _ OK) as H2. pose proof (ixb_pos _ _ OK).
    assert (H3 : (n_items ix + 1) * nodeSize (ops fm) c <= nn (ib ix') * 3 / 2 * nodeSize (ops fm) c) by (apply N.mul_le_mono_r; lia).
    nia. }
  eapply (first_tree_room (ops fm) c OK sortIx sortPairs HI) with (r0 := r0) (zs := zs) (m := m); eauto.
  - now apply fmt_is_float.
  - pose proof (ixb_pos _ _ OK). lia.
  - now rewrite (bt_items _ _ _ _ _ _ A).
  - lia.
  - lia.
Qed.

(** ** C90: the number of added items is enough *)
(** The same as [C90_inspecting_the_number_of_items_is_exact] with the number of items
    that were added for the highest index plus one. *)
Theorem C90_inspecting_the_added_items_is_exact :
  forall fm c, is_fmt fm -> CfgOK (ops fm) c -> 3 * ixb c <= vlen c -> vlen c <= 2 ^ 20 ->
  forall sortIx sortPairs, sort_slice N.ltb sortIx -> sort_slice (pair_less (flt (ops fm)) (feq (ops fm))) sortPairs ->
  forall h ix T nw fuel mfuel rfuel ix', build_call (ops fm) c h ix T nw fuel mfuel ->
  build_result (ops fm) c ix T nw fuel mfuel rfuel ix' -> rootsN (ib ix') <> [] ->
  (forall i w, last_added h i = Some w -> moderate fm w) ->
  forall added, NoDup added -> (forall i, last_added h i <> None -> In i added) -> maxK (ops fm) c < n_items ix ->
  forall qfuel fs q n inspect bc ids ds bc', moderate fm q -> lenN q = vlen c -> lenN (c_nns bc) < 2 ^ iw c ->
  get_nns_by_vector (ops fm) c sortIx sortPairs qfuel fs ix' q n inspect bc = Ok (ids, ds, bc') ->
  (Z.of_nat (length added) <= the_limit ix' n inspect)%Z ->
  all_num (ops fm) (last_added h) q ->
  exact_nearest (ops fm) c (last_added h) q (Z.to_nat n) ids ds.
Proof.
  intros fm c FM OK Hv Hlen sortIx sortPairs HI HP h ix T nw fuel mfuel rfuel ix' B R Hne HM added ND Had HK qfuel fs q n inspect bc ids ds bc' Mq Hq Hc E Hl Hnum.
  destruct (result_after (ops fm) c OK _ _ _ _ _ _ _ _ B R) as (I & plan & A & _).
  pose proof (after_forest (ops fm) c OK fs ix _ plan ix' Hv I A) as FO.
  pose proof (sides_finite fm c FM OK Hv Hlen h ix T nw fuel mfuel rfuel ix' B R HM fs q Mq Hq) as FS.
  eapply (forest_whole_of (ops fm) c OK (fmt_is_float fm FM) sortIx sortPairs HI HP); eauto.
  intros r xs m Hr TL. rewrite <- (bt_items _ _ _ _ _ _ A) in HK.
  destruct (tl_exact _ _ _ _ _ _ _ _ TL (or_introl HK)) as [NDx Hx].
  assert (X : (length xs <= length added)%nat); [|unfold lenN; lia].
  apply NoDup_incl_length; [exact NDx|]. intros j Hj. apply Had, Hx, Hj.
Qed.

(** Both together: inspecting as many entries as items were added, on a context of the
    index's own, always gives the exact nearest neighbours (more than fit one leaf were
    added, or all indices are used). *)
Theorem C93_exact_on_own_context :
  forall fm c, is_fmt fm -> CfgOK (ops fm) c -> 3 * ixb c <= vlen c -> vlen c <= 2 ^ 20 ->
  forall sortIx sortPairs, sort_slice N.ltb sortIx -> sort_slice (pair_less (flt (ops fm)) (feq (ops fm))) sortPairs ->
  forall h ix T nw fuel mfuel rfuel ix', build_call (ops fm) c h ix T nw fuel mfuel ->
  build_result (ops fm) c ix T nw fuel mfuel rfuel ix' -> rootsN (ib ix') <> [] ->
  (forall i w, last_added h i = Some w -> tame fm w) ->
  forall added, NoDup added -> (forall i, In i added <-> last_added h i <> None) ->
  maxK (ops fm) c < N.of_nat (length added) \/ n_items ix = N.of_nat (length added) ->
  forall qfuel fs q n, tame fm q -> lenN q = vlen c -> lenN (c_nns (create_context (ops fm) ix')) < 2 ^ iw c ->
  (length (rootsN (ib ix')) * (2 * N.to_nat (n_items ix) + 1) <= qfuel)%nat ->
  exists ids ds bc',
    get_nns_by_vector (ops fm) c sortIx sortPairs qfuel fs ix' q n (Z.of_nat (length added)) (create_context (ops fm) ix') = Ok (ids, ds, bc') /\
    exact_nearest (ops fm) c (last_added h) q (Z.to_nat n) ids ds.
Proof.
  intros fm c FM OK Hv Hlen sortIx sortPairs HI HP h ix T nw fuel mfuel rfuel ix' B R Hne HT added ND Had Hm qfuel fs q n Tq Hq Hc Hf.
  destruct (result_after (ops fm) c OK _ _ _ _ _ _ _ _ B R) as (I & plan & A & _).
  assert (HM : forall i w, last_added h i = Some w -> moderate fm w) by (intros i w Hi; apply tame_moderate; eauto).
  assert (NM : all_num (ops fm) (last_added h) q).
  { eapply (tame_all_num fm FM); [exact Tq|]. intros j v Hj. split; [|eauto]. pose proof (ii_len _ _ _ _ I _ _ Hj). unfold lenN in *. lia. }
  pose proof (tame_moderate _ _ Tq) as Mq.
  assert (Hlim : the_limit ix' n (Z.of_nat (length added)) = Z.of_nat (length added)).
  { unfold the_limit. destruct (Z.eqb_spec (Z.of_nat (length added)) (-1)); [lia|reflexivity]. }
  assert (Had' : forall i, In i added -> last_added h i <> None) by (intros i Hi; now apply Had).
  pose proof (added_present (ops fm) c h ix added ND Had' I) as Hp. pose proof (present_le (ops fm) (last_added h) (n_items ix)) as Hple.
  destruct (C93_inspecting_the_items_does_not_overflow fm c FM OK Hv Hlen sortIx sortPairs HI HP h ix T nw fuel mfuel rfuel ix' B R HM
              added ND Had') with (qfuel := qfuel) (fs := fs) (q := q) (n := n) (inspect := Z.of_nat (length added)) as (ids & ds & bc' & E); auto; [|lia|].
  { lia. }
  exists ids, ds, bc'. split; [exact E|].
  destruct (N.lt_ge_cases (maxK (ops fm) c) (n_items ix)) as [HK|HK].
  - eapply (C90_inspecting_the_added_items_is_exact fm c FM OK Hv Hlen sortIx sortPairs HI HP h ix T nw fuel mfuel rfuel ix' B R Hne HM added ND); eauto; [|lia].
    intros i Hi. now apply Had.
  - eapply (C90_inspecting_the_number_of_items_is_exact fm c FM OK Hv Hlen sortIx sortPairs HI HP h ix T nw fuel mfuel rfuel ix' B R Hne HM); eauto.
    unfold lenN in *. lia.
Qed.
(** 20 items (a leaf has room for 18), two workers and 3 trees, asking for the 5 nearest. *)
Example C93_exact_example :
  build_call fops32 (cA 16) exq_items fx_ix 3 2 100 100 /\ build_result fops32 (cA 16) fx_ix 3 2 100 100 100 fx_multi /\
  (forall j v, last_added exq_items j = Some v -> tame fmt32 v) /\ tame fmt32 exq_vec /\
  NoDup (rangeN 20) /\ (forall i, In i (rangeN 20) <-> match last_added exq_items i with Some _ => True | None => False end) /\
  maxK fops32 (cA 16) = 18 /\ lenN (c_nns (create_context fops32 fx_multi)) = 79 /\
  bits_of (query (cA 16) 123 no_files fx_multi exq_vec 5 20 (create_context fops32 fx_multi)) = Ok ([9; 12; 10; 8; 5], [1039756778; 1057153137; 1057620014; 1059031236; 1059343085]).
Proof.
  split; [apply fx_call; lia|]. split; [apply fx_multi_result|].
  split; [intros j v H; now apply (exq_tame j v)|]. split; [apply fv_tame; [cbn; lia|vm_compute; reflexivity|vm_compute; reflexivity]|].
  split; [apply NoDup_rangeN|]. split.
  - intro i. split.
    + intros Hi. vm_compute in Hi. repeat (destruct Hi as [<-|Hi]; [vm_compute; exact I|]). destruct Hi.
    + destruct (last_added exq_items i) eqn:E; [intros _|easy]. apply last_added_in in E. unfold exq_items in E.
      apply in_map_iff in E. destruct E as (j & [= <- _] & Hj). exact Hj.
  - repeat split; vm_compute; reflexivity.
Qed.

(** ** C20: no node above the items belongs to two trees *)
Theorem C20_trees_share_no_nodes :
  forall fo c, CfgOK fo c -> 3 * ixb c <= vlen c ->
  forall h ix T nw fuel mfuel rfuel ix', build_call fo c h ix T nw fuel mfuel ->
  build_result fo c ix T nw fuel mfuel rfuel ix' ->
  forall fs r r' d d' j, In r (rootsN (ib ix')) -> In r' (rootsN (ib ix')) ->
  descends fo c (view fs ix') r d j -> descends fo c (view fs ix') r' d' j -> n_items ix <= j -> r = r'.
Proof.
  intros fo c OK Hv h ix T nw fuel mfuel rfuel ix' B R fs r r' d d' j Hr Hr' D D' Hj.
  destruct (result_after fo c OK _ _ _ _ _ _ _ _ B R) as (I & plan & A & _).
  pose proof (after_agrees fo c fs ix _ plan ix' A) as AG.
  assert (Hit : forall i, i < n_items ix -> n_desc c (snode_img fo c (ib ix') i) <= 1).
  { intros i Hi. rewrite (item_desc fo c OK ix _ plan ix' I A Hv i Hi). destruct (last_added h i); lia. }
  assert (G : forall q e, In q (rootsN (ib ix')) -> descends fo c (view fs ix') q e j -> inside fo c (n_items ix) (ib ix') q j).
  { intros q e Hq De. eapply (descends_inside fo c OK (view fs ix') (ib ix') (n_items ix)); eauto.
    - exact (bt_ni _ _ _ _ _ _ A).
    - intros k Hk. now apply (bt_apart _ _ _ _ _ _ A Hv q q k Hq Hq). }
  eapply (bt_apart _ _ _ _ _ _ A Hv r r' j Hr Hr'); eauto.
Qed.
(** Node 23 is in the tree of root 25, so in none of the two others. *)
Example C20_trees_example :
  build_call fops32 (cA 16) exq_items fx_ix 3 1 100 100 /\ build_result fops32 (cA 16) fx_ix 3 1 100 100 100 fx_single /\
  length (rootsN (ib fx_single)) = 3%nat /\ In 25 (rootsN (ib fx_single)) /\ n_items fx_ix = 20 /\
  descends fops32 (cA 16) (view no_files fx_single) 25 1 23.
Proof.
  split; [apply fx_call; lia|]. split; [apply fx_single_result|]. split; [reflexivity|]. split; [apply C83_example|].
  split; [vm_compute; reflexivity|apply C83_example].
Qed.

(** ** Leaves with room for 126: 128 items in two trees *)
Definition rx_items : list (N * list (F fops32)) :=
  map (fun i => (i, pad 124 [Z.of_N i - 60; 3; Z.of_N (i * i mod 17)]%Z)) (rangeN 128).
Definition rx_ix : idx := Eval vm_compute in or_else (ix0 (cA 124)) (add_all fops32 (cA 124) (ix0 (cA 124)) rx_items).
Definition rx_built : idx := Eval vm_compute in or_else rx_ix (build_single fops32 (cA 124) 300 300 300 rx_ix 2).
Lemma rx_run : build_single fops32 (cA 124) 300 300 300 rx_ix 2 = Ok rx_built.
Proof. vm_compute. reflexivity. Qed.
Lemma rx_call : build_call fops32 (cA 124) rx_items rx_ix 2 1 300 300.
Proof.
  assert (Hn : n_items rx_ix = 128) by (vm_compute; reflexivity).
  constructor; rewrite ?Hn.
  - vm_compute. discriminate.
  - unfold hist_ok. apply Forall_forall. intros [i v] H. unfold rx_items in H. apply in_map_iff in H. destruct H as (j & H & Hj).
    injection H as <- <-. apply in_rangeN in Hj. cbn [fst snd]. split.
    + eapply cap_ok_mono with (n := 128); [lia|]. vm_compute. reflexivity.
    + unfold lenN. unfold pad, fv. rewrite map_length, app_length, repeat_length. reflexivity.
  - exists (kiss_new 0), 0. vm_compute. reflexivity.
  - lia.
  - lia.
  - lia.
  - eapply cap_ok_mono with (n := 1000); [|vm_compute; reflexivity]. unfold forest_room. cbn -[N.add N.mul]. lia.
  - unfold enough_fuel. lia.
Qed.
Example C93_example :
  build_call fops32 (cA 124) rx_items rx_ix 2 1 300 300 /\ build_result fops32 (cA 124) rx_ix 2 1 300 300 300 rx_built /\
  maxK fops32 (cA 124) = 126 /\ NoDup (rangeN 128) /\ length (rangeN 128) = 128%nat /\ length (rootsN (ib rx_built)) = 2%nat /\
  (forall i, In i (rangeN 128) -> exists v, In (i, v) rx_items).
Proof.
  split; [apply rx_call|]. split; [left; split; [reflexivity|apply rx_run]|]. split; [vm_compute; reflexivity|].
  split; [apply NoDup_rangeN|]. split; [vm_compute; reflexivity|]. split; [reflexivity|].
  intros i Hi. eexists. unfold rx_items. apply in_map_iff. now exists i.
Qed.

Print Assumptions C30_larger_context_same_answer.
Print Assumptions C30_answers_do_not_depend_on_the_context.
Print Assumptions C93_own_context_never_overflows.
Print Assumptions C93_inspecting_the_items_does_not_overflow.
Print Assumptions C93_exact_on_own_context.
Print Assumptions C90_inspecting_the_added_items_is_exact.
Print Assumptions C20_trees_share_no_nodes.
