(** Queries that inspect as many entries as there are items (C90), the room in the
    contexts an index creates (C31), and looking for values in Pairs (C91). *)
From Verif Require Import Base Flt Layout Rng Sorts Alloc Prog Imbalance Dist Build Policy Index Search Spec ForestSpec BuildSpec RealSpec OrderSpec
  Lib LayoutProof FltProof MemProof StoreProof SearchProof QueryProof PolicyProof BuildProof ForestProof
  NumProof AfterProof CutProof SmallProof PlaneProof TopProof DistProof WholeProof Concrete PropSearch PropForest PropWitness PropMore PropNum PropOrder PropPlane.
From Coq Require Import Reals Lra.
Close Scope R_scope. Open Scope N_scope.

(** ** C90 *)
(** In an index with at least one tree built from vectors of moderate size, a query that
    inspects as many entries as there are items gives the exact nearest neighbours. *)
Theorem C90_inspecting_the_number_of_items_is_exact :
  forall fm c, is_fmt fm -> CfgOK (ops fm) c -> 3 * ixb c <= vlen c -> vlen c <= 2 ^ 20 ->
  forall sortIx sortPairs, sort_slice N.ltb sortIx -> sort_slice (pair_less (flt (ops fm)) (feq (ops fm))) sortPairs ->
  forall h ix T nw fuel mfuel rfuel ix', build_call (ops fm) c h ix T nw fuel mfuel ->
  build_result (ops fm) c ix T nw fuel mfuel rfuel ix' -> rootsN (ib ix') <> [] ->
  (forall i w, last_added h i = Some w -> moderate fm w) ->
  forall qfuel fs q n inspect bc ids ds bc', moderate fm q -> lenN q = vlen c -> lenN (c_nns bc) < 2 ^ iw c ->
  get_nns_by_vector (ops fm) c sortIx sortPairs qfuel fs ix' q n inspect bc = Ok (ids, ds, bc') ->
  (Z.of_N (n_items ix) <= the_limit ix' n inspect)%Z ->
  all_num (ops fm) (last_added h) q ->
  exact_nearest (ops fm) c (last_added h) q (Z.to_nat n) ids ds.
Proof.
  intros fm c FM OK Hv Hlen sortIx sortPairs HI HP h ix T nw fuel mfuel rfuel ix' B R Hne HM qfuel fs q n inspect bc ids ds bc' Mq Hq Hc E Hl Hnum.
  destruct (result_after (ops fm) c OK _ _ _ _ _ _ _ _ B R) as (I & plan & A & _).
  pose proof (after_forest (ops fm) c OK fs ix _ plan ix' Hv I A) as FO. rewrite <- (bt_items _ _ _ _ _ _ A) in Hl.
  pose proof (sides_finite fm c FM OK Hv Hlen h ix T nw fuel mfuel rfuel ix' B R HM fs q Mq Hq) as FS.
  eapply (forest_whole (ops fm) c OK (fmt_is_float fm FM) sortIx sortPairs HI HP); eauto.
Qed.
(** So the answer to such a query does not depend on the trees: two indexes with the same
    items give the same ids and distances, whatever the number of trees, the number of
    workers, their schedule, the seeds and the contexts. *)
Theorem C90_answers_do_not_depend_on_the_trees :
  forall fm c, is_fmt fm -> CfgOK (ops fm) c -> 3 * ixb c <= vlen c -> vlen c <= 2 ^ 20 ->
  forall sortIx sortPairs, sort_slice N.ltb sortIx -> sort_slice (pair_less (flt (ops fm)) (feq (ops fm))) sortPairs ->
  forall h q, (forall j v, last_added h j = Some v -> tame fm v) -> tame fm q -> lenN q = vlen c ->
  forall ix1 T1 nw1 fuel1 mfuel1 rfuel1 ix1' ix2 T2 nw2 fuel2 mfuel2 rfuel2 ix2',
  build_call (ops fm) c h ix1 T1 nw1 fuel1 mfuel1 -> build_result (ops fm) c ix1 T1 nw1 fuel1 mfuel1 rfuel1 ix1' -> rootsN (ib ix1') <> [] ->
  build_call (ops fm) c h ix2 T2 nw2 fuel2 mfuel2 -> build_result (ops fm) c ix2 T2 nw2 fuel2 mfuel2 rfuel2 ix2' -> rootsN (ib ix2') <> [] ->
  forall n fs1 qfuel1 inspect1 bc1 ids1 ds1 bc1' fs2 qfuel2 inspect2 bc2 ids2 ds2 bc2',
  lenN (c_nns bc1) < 2 ^ iw c -> lenN (c_nns bc2) < 2 ^ iw c ->
  get_nns_by_vector (ops fm) c sortIx sortPairs qfuel1 fs1 ix1' q n inspect1 bc1 = Ok (ids1, ds1, bc1') ->
  get_nns_by_vector (ops fm) c sortIx sortPairs qfuel2 fs2 ix2' q n inspect2 bc2 = Ok (ids2, ds2, bc2') ->
  (Z.of_N (n_items ix1) <= the_limit ix1' n inspect1)%Z -> (Z.of_N (n_items ix2) <= the_limit ix2' n inspect2)%Z ->
  ids1 = ids2 /\ ds1 = ds2.
Proof.
  intros fm c FM OK Hv Hlen sortIx sortPairs HI HP h q Th Tq Hq.
  intros ix1 T1 nw1 fuel1 mfuel1 rfuel1 ix1' ix2 T2 nw2 fuel2 mfuel2 rfuel2 ix2' B1 R1 N1 B2 R2 N2.
  intros n fs1 qfuel1 inspect1 bc1 ids1 ds1 bc1' fs2 qfuel2 inspect2 bc2 ids2 ds2 bc2' W1 W2 E1 E2 L1 L2.
  destruct (result_after (ops fm) c OK _ _ _ _ _ _ _ _ B1 R1) as (I & _).
  assert (HM : forall i w, last_added h i = Some w -> moderate fm w) by (intros i w Hi; apply tame_moderate; eauto).
  assert (NM : all_num (ops fm) (last_added h) q).
  { eapply (tame_all_num fm FM); [exact Tq|]. intros j v Hj. split; [|eauto]. pose proof (ii_len _ _ _ _ I _ _ Hj). unfold lenN in *. lia. }
  pose proof (tame_moderate _ _ Tq) as Mq.
  eapply (exact_nearest_unique (ops fm) c (last_added h) q (Z.to_nat n)); [now apply fmt_is_float|exact NM| |].
  - exact (C90_inspecting_the_number_of_items_is_exact fm c FM OK Hv Hlen sortIx sortPairs HI HP h ix1 T1 nw1 fuel1 mfuel1 rfuel1 ix1' B1 R1 N1 HM
             qfuel1 fs1 q n inspect1 bc1 ids1 ds1 bc1' Mq Hq W1 E1 L1 NM).
  - exact (C90_inspecting_the_number_of_items_is_exact fm c FM OK Hv Hlen sortIx sortPairs HI HP h ix2 T2 nw2 fuel2 mfuel2 rfuel2 ix2' B2 R2 N2 HM
             qfuel2 fs2 q n inspect2 bc2 ids2 ds2 bc2' Mq Hq W2 E2 L2 NM).
Qed.
(** 20 items, 3 trees, built by one worker and by two: inspecting 20 entries gives the
    five nearest of all items, in both. *)
Example C90_example :
  build_call fops32 (cA 16) exq_items fx_ix 3 1 100 100 /\ build_result fops32 (cA 16) fx_ix 3 1 100 100 100 fx_single /\
  build_call fops32 (cA 16) exq_items fx_ix 3 2 100 100 /\ build_result fops32 (cA 16) fx_ix 3 2 100 100 100 fx_multi /\
  (forall j v, last_added exq_items j = Some v -> tame fmt32 v) /\ tame fmt32 exq_vec /\
  n_items fx_ix = 20 /\ length (rootsN (ib fx_single)) = 3%nat /\ length (rootsN (ib fx_multi)) = 3%nat /\
  bits_of (query (cA 16) 100 no_files fx_single exq_vec 5 20 (create_context fops32 fx_single)) = Ok ([9; 12; 10; 8; 5], [1039756778; 1057153137; 1057620014; 1059031236; 1059343085]) /\
  bits_of (query (cA 16) 100 no_files fx_multi exq_vec 5 20 (create_context fops32 fx_multi)) = Ok ([9; 12; 10; 8; 5], [1039756778; 1057153137; 1057620014; 1059031236; 1059343085]).
Proof.
  split; [apply fx_call; lia|]. split; [apply fx_single_result|]. split; [apply fx_call; lia|]. split; [apply fx_multi_result|].
  split; [intros j v H; now apply (exq_tame j v)|]. split; [apply fv_tame; [cbn; lia|vm_compute; reflexivity|vm_compute; reflexivity]|].
  repeat split; vm_compute; reflexivity.
Qed.

(** ** C31: the contexts an index creates *)
(** The context of a built index has room for all but one of the added items, and for at
    least one. *)
Theorem C31_context_size :
  forall fo c, CfgOK fo c ->
  forall h ix T nw fuel mfuel rfuel ix', build_call fo c h ix T nw fuel mfuel ->
  build_result fo c ix T nw fuel mfuel rfuel ix' ->
  forall added, NoDup added -> (forall i, In i added -> last_added h i <> None) ->
  (length added <= S (length (c_nns (create_context fo ix'))))%nat /\
  (added <> [] -> c_nns (create_context fo ix') <> []) /\
  length (c_dist (create_context fo ix')) = length (c_nns (create_context fo ix')).
Proof.
  intros fo c OK h ix T nw fuel mfuel rfuel ix' B R added ND Had.
  destruct (result_after fo c OK _ _ _ _ _ _ _ _ B R) as (I & plan & A & _).
  unfold create_context. cbn [c_nns c_dist]. rewrite !repeat_length.
  set (w := bm_weight fo c (n_items ix) (snode_img fo c (ib ix'))).
  assert (Wpos : forall i, (0 <= w i)%Z).
  { intro i. unfold w, bm_weight. destruct (_ && _); [lia|]. destruct (_ <=? _); lia. }
  assert (Hin : forall i, In i added -> i < nn (ib ix') /\ w i = 1%Z).
  { intros i Hi. specialize (Had i Hi). destruct (last_added h i) as [v|] eqn:Ev; [|congruence].
    pose proof (ii_ext _ _ _ _ I i v Ev) as Hlt. pose proof (bt_ni _ _ _ _ _ _ A). split; [lia|].
    unfold w, bm_weight. rewrite (bt_img _ _ _ _ _ _ A i Hlt).
    rewrite (pre_image_desc fo c OK) by (unfold lenN; rewrite (length_image_of fo c OK) by (intros; eapply ii_len; eauto); lia).
    rewrite (image_desc fo c OK), Ev.
    cbn [N.eqb Pos.eqb andb]. destruct (N.ltb_spec i (n_items ix)); [reflexivity|lia]. }
  assert (Hsum : forall l2, NoDup l2 -> (forall i, In i added -> In i l2) -> (Z.of_nat (length added) <= sumZ (map w l2))%Z).
  { clear Had. intros l2. revert added ND Hin. induction l2 as [|a l2 IH]; intros added ND Hin ND2 Hsub.
    - destruct added as [|x l]; [cbn; lia|]. destruct (Hsub x); now left.
    - inversion ND2; subst. cbn [map]. change (sumZ (w a :: map w l2)) with (w a + sumZ (map w l2))%Z.
      destruct (in_dec N.eq_dec a added) as [Ha|Ha].
      + destruct (in_split _ _ Ha) as (l1 & l3 & ->). apply NoDup_remove in ND. destruct ND as [ND Hn].
        assert (Hin' : forall i, In i (l1 ++ l3) -> i < nn (ib ix') /\ w i = 1%Z).
        { intros i Hi. apply Hin. apply in_app_or in Hi. apply in_or_app. cbn. tauto. }
        assert (X : (Z.of_nat (length (l1 ++ l3)) <= sumZ (map w l2))%Z).
        { apply IH; auto. intros i Hi. assert (i <> a) by (intros ->; contradiction).
          destruct (Hsub i) as [->|]; [|congruence|assumption]. apply in_app_or in Hi. apply in_or_app. cbn. tauto. }
        destruct (Hin a) as [_ Wa]; [apply in_or_app; cbn; tauto|]. rewrite app_length in *. cbn [length]. lia.
      + pose proof (Wpos a). assert (X : (Z.of_nat (length added) <= sumZ (map w l2))%Z); [|lia].
        apply IH; auto. intros i Hi. destruct (Hsub i Hi) as [->|]; [contradiction|assumption]. }
  specialize (Hsum (rangeN (nn (ib ix'))) (NoDup_rangeN _)).
  assert (X : (Z.of_nat (length added) <= sumZ (map w (rangeN (nn (ib ix')))))%Z).
  { apply Hsum. intros i Hi. apply in_rangeN. now apply Hin. }
  pose proof (bt_batch _ _ _ _ _ _ A) as Hb. fold w in Hb. unfold context_length.
  split; [destruct (Z.ltb_spec (batchMax ix') 1); lia|]. split; [|reflexivity].
  intros Hne E. apply (f_equal (@length N)) in E. rewrite repeat_length in E. cbn [length] in E.
  destruct added as [|x l]; [congruence|]. destruct (Hin x (or_introl eq_refl)) as [Hx _].
  destruct (Z.ltb_spec (batchMax ix') 1); lia.
Qed.
(** So a query with such a context returns if the entries it inspects and the size of a
    leaf together are not more than the added items. *)
Theorem C31_own_context_is_large_enough :
  forall fo c, CfgOK fo c -> 3 * ixb c <= vlen c ->
  forall sortIx sortPairs, sort_slice N.ltb sortIx -> sort_slice (pair_less (flt fo) (feq fo)) sortPairs ->
  forall h ix T nw fuel mfuel rfuel ix', build_call fo c h ix T nw fuel mfuel ->
  build_result fo c ix T nw fuel mfuel rfuel ix' ->
  forall added, NoDup added -> (forall i, In i added -> last_added h i <> None) ->
  forall qfuel fs q n inspect, lenN q = vlen c -> lenN (c_nns (create_context fo ix')) < 2 ^ iw c ->
  (length (rootsN (ib ix')) * (2 * N.to_nat (n_items ix) + 1) <= qfuel)%nat ->
  (the_limit ix' n inspect + Z.of_N (maxK fo c) <= Z.of_nat (length added))%Z ->
  exists ids ds bc', get_nns_by_vector fo c sortIx sortPairs qfuel fs ix' q n inspect (create_context fo ix') = Ok (ids, ds, bc').
Proof.
  intros fo c OK Hv sortIx sortPairs HI HP h ix T nw fuel mfuel rfuel ix' B R added ND Had qfuel fs q n inspect Hq Hc Hf Hl.
  destruct (C31_context_size fo c OK h ix T nw fuel mfuel rfuel ix' B R added ND Had) as (Hs & _ & Hd).
  eapply (C31_built_index_returns fo c OK Hv sortIx sortPairs HI HP h ix T nw fuel mfuel rfuel ix' B R); eauto.
  left. unfold lenN. lia.
Qed.
Example C31_own_context_example :
  build_call fops32 (cA 16) exq_items fx_ix 3 1 100 100 /\ build_result fops32 (cA 16) fx_ix 3 1 100 100 100 fx_single /\
  NoDup (rangeN 20) /\ (forall i, In i (rangeN 20) -> match last_added exq_items i with Some _ => True | None => False end) /\
  maxK fops32 (cA 16) = 18 /\ the_limit fx_single 5 2 = 2%Z.
Proof.
  split; [apply fx_call; lia|]. split; [apply fx_single_result|]. split; [apply NoDup_rangeN|]. split; [|split; reflexivity].
  intros i Hi. vm_compute in Hi. repeat (destruct Hi as [<-|Hi]; [vm_compute; exact I|]). destruct Hi.
Qed.

(** ** C91: ContainsFirst and ContainsSecond *)
Theorem C91_contains_second :
  forall (T : Type) (s : list (T * N)) (v : N), contains_by snd N.eqb s v = true <-> exists d, In (d, v) s.
Proof.
  intros T s v. unfold contains_by. rewrite existsb_exists. split.
  - intros ([d j] & H1 & H2). cbn [snd] in H2. apply N.eqb_eq in H2. subst j. eauto.
  - intros (d & H). exists (d, v). split; [exact H|]. apply N.eqb_refl.
Qed.
(** Firsts are compared as floats: what is found is a pair whose first equals the value,
    and a NaN is never found. *)
Lemma eq_not_nan fo : is_float fo -> forall d x : F fo, feq fo d x = true -> not_nan fo x.
Proof.
  intros [->| ->] d x.
  - intro H. apply num32_iff. unfold num32. destruct x; try reflexivity. destruct d as [[]|[]|? ? ?|[] ? ? ?]; cbn in H; discriminate.
  - intro H. apply num64_iff. unfold num64. destruct x; try reflexivity. destruct d as [[]|[]|? ? ?|[] ? ? ?]; cbn in H; discriminate.
Qed.
Theorem C91_contains_first :
  forall fo, is_float fo -> forall (s : list (F fo * N)) (x : F fo),
  (contains_by fst (feq fo) s x = true <-> exists d j, In (d, j) s /\ feq fo d x = true) /\
  (forall j, In (x, j) s -> not_nan fo x -> contains_by fst (feq fo) s x = true) /\
  (~ not_nan fo x -> contains_by fst (feq fo) s x = false).
Proof.
  intros fo FL s x.
  assert (A : contains_by fst (feq fo) s x = true <-> exists d j, In (d, j) s /\ feq fo d x = true).
  { unfold contains_by. rewrite existsb_exists. split.
    - intros ([d j] & H1 & H2). exists d, j. auto.
    - intros (d & j & H1 & H2). exists (d, j). auto. }
  split; [exact A|]. split.
  - intros j H1 H2. apply A. exists x, j. auto.
  - intro H. destruct (contains_by fst (feq fo) s x) eqn:E; [|reflexivity]. exfalso. apply H.
    pose proof (proj1 A eq_refl) as E'. destruct E' as (d & j & _ & Hd). now apply (eq_not_nan fo FL d).
Qed.
Example C91_example :
  contains_by snd N.eqb [(f1 fops32, 4); (f0 fops32, 2)] 2 = true /\ contains_by snd N.eqb [(f1 fops32, 4); (f0 fops32, 2)] 3 = false /\ contains_by fst (feq fops32) [(f1 fops32, 4); (fneg fops32 (f0 fops32), 2)] (f0 fops32) = true /\ contains_by fst (feq fops32) [(dec fops32 2143289344, 4)] (dec fops32 2143289344) = false.
Proof. repeat split; vm_compute; reflexivity. Qed.

Print Assumptions C90_inspecting_the_number_of_items_is_exact.
Print Assumptions C90_answers_do_not_depend_on_the_trees.
Print Assumptions C31_context_size.
Print Assumptions C31_own_context_is_large_enough.
Print Assumptions C91_contains_second.
Print Assumptions C91_contains_first.
