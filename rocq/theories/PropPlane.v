(** Build stores planes of finite numbers (C87); so the order of search (C85, C86) holds
    for every query on a built index with vectors of moderate size. *)
From Verif Require Import Base Flt Layout Rng Sorts Alloc Prog Imbalance Dist Build Policy Index Search Spec ForestSpec BuildSpec RealSpec OrderSpec
  Lib LayoutProof FltProof MemProof StoreProof SearchProof QueryProof PolicyProof BuildProof ForestProof
  AfterProof CutProof SmallProof PlaneProof DistProof Concrete PropSearch PropForest PropWitness PropNum PropOrder.
From Coq Require Import Reals Lra.
Close Scope R_scope. Open Scope N_scope.

(** ** C87 *)
(** If the added vectors have at most 2^20 components of size at most 2^20, every component
    of every stored plane is finite and at most 2 in size, and the side value of every such
    query vector is finite. *)
Theorem C87_planes_are_finite :
  forall fm c, is_fmt fm -> CfgOK (ops fm) c -> 3 * ixb c <= vlen c -> vlen c <= 2 ^ 20 ->
  forall h ix T nw fuel mfuel rfuel ix', build_call (ops fm) c h ix T nw fuel mfuel ->
  build_result (ops fm) c ix T nw fuel mfuel rfuel ix' ->
  (forall i w, last_added h i = Some w -> moderate fm w) ->
  forall fs r d i l r' bs, In r (rootsN (ib ix')) -> descends (ops fm) c (view fs ix') r d i ->
  splits (ops fm) c (view fs ix') i l r' -> vread (view fs ix') (addr (ops fm) c i) (nodeSize (ops fm) c) = Ok bs ->
  Forall (fun a => fin fm a /\ (Rabs (rv fm a) <= 2)%R) (n_vec (ops fm) c bs) /\
  forall q, moderate fm q -> lenN q = vlen c -> finite (ops fm) (side_value (ops fm) c bs q).
Proof.
  intros fm c FM OK Hv Hlen h ix T nw fuel mfuel rfuel ix' B R HM fs r d i l r' bs Hr Hd Hs Hb.
  destruct (result_after (ops fm) c OK _ _ _ _ _ _ _ _ B R) as (I & plan & A & _).
  pose proof (after_agrees (ops fm) c fs ix _ plan ix' A) as AG.
  destruct (bt_cuts _ _ _ _ _ _ A Hv r Hr) as (im & xs & Him & D). specialize (D _ AG).
  destruct (divided_below (ops fm) c OK _ _ _ _ _ _ Hd _ D _ _ _ Hs Hb) as (ys & zs & Cut).
  destruct (tcut_small fm FM c OK Hlen (n_items ix) im bs ys zs) as [S1 S2]; [|exact Cut|].
  - intros j Hj. rewrite Him by exact Hj. apply (good_item fm FM c OK Hlen). intros k w Hk. split; [eapply ii_len; eauto|]. apply (HM k w Hk).
  - split; [exact S1|]. intros q Mq Hq. now apply (side_finite fm FM c Hlen).
Qed.
Lemma sides_finite fm c : is_fmt fm -> CfgOK (ops fm) c -> 3 * ixb c <= vlen c -> vlen c <= 2 ^ 20 ->
  forall h ix T nw fuel mfuel rfuel ix', build_call (ops fm) c h ix T nw fuel mfuel ->
  build_result (ops fm) c ix T nw fuel mfuel rfuel ix' ->
  (forall i w, last_added h i = Some w -> moderate fm w) ->
  forall fs q, moderate fm q -> lenN q = vlen c -> all_sides (ops fm) c (finite (ops fm)) (view fs ix') (rootsN (ib ix')) q.
Proof.
  intros FM OK Hv Hlen h ix T nw fuel mfuel rfuel ix' B R HM fs q Mq Hq r d i l r' bs H1 H2 H3 H4.
  now apply (C87_planes_are_finite fm c FM OK Hv Hlen h ix T nw fuel mfuel rfuel ix' B R HM fs r d i l r' bs H1 H2 H3 H4).
Qed.

(** ** C85 and C86 for built indexes *)
(** In an index built from vectors of moderate size, a query that inspects at most as many
    entries as there are added items searches the tree with the least root number only. *)
Theorem C85_one_tree_is_searched_after_build :
  forall fm c, is_fmt fm -> CfgOK (ops fm) c -> 3 * ixb c <= vlen c -> vlen c <= 2 ^ 20 ->
  forall sortIx sortPairs, sort_slice N.ltb sortIx -> sort_slice (pair_less (flt (ops fm)) (feq (ops fm))) sortPairs ->
  forall h ix T nw fuel mfuel rfuel ix', build_call (ops fm) c h ix T nw fuel mfuel ->
  build_result (ops fm) c ix T nw fuel mfuel rfuel ix' ->
  (forall i w, last_added h i = Some w -> moderate fm w) ->
  forall qfuel fs q n inspect bc ids ds bc', moderate fm q -> lenN q = vlen c -> lenN (c_nns bc) < 2 ^ iw c ->
  get_nns_by_vector (ops fm) c sortIx sortPairs qfuel fs ix' q n inspect bc = Ok (ids, ds, bc') ->
  forall added, NoDup added -> (forall i, In i added -> last_added h i <> None) ->
  (the_limit ix' n inspect <= Z.of_nat (length added))%Z ->
  forall r0, In r0 (rootsN (ib ix')) -> (forall r, In r (rootsN (ib ix')) -> r0 <= r) ->
  exists ys qn, query_node (ops fm) c q = Ok qn /\
    visits (ops fm) c (view fs ix') (n_items ix') q (the_limit ix' n inspect) (at_start (ops fm) [r0]) ys /\
    (forall id, In id ids -> In id ys) /\
    ((forall j d, In j ys -> item_dist (ops fm) c (view fs ix') qn j d -> not_nan (ops fm) d) ->
     nearest (ops fm) c (view fs ix') qn (Z.to_nat n) ys ids ds).
Proof.
  intros fm c FM OK Hv Hlen sortIx sortPairs HI HP h ix T nw fuel mfuel rfuel ix' B R HM qfuel fs q n inspect bc ids ds bc' Mq Hq Hc E
    added ND Had Hlim r0 Hr Hle.
  pose proof (fmt_is_float fm FM) as FL.
  destruct (result_after (ops fm) c OK _ _ _ _ _ _ _ _ B R) as (I & plan & A & _).
  pose proof (after_forest (ops fm) c OK fs ix _ plan ix' Hv I A) as FO.
  pose proof (sides_finite fm c FM OK Hv Hlen h ix T nw fuel mfuel rfuel ix' B R HM fs q Mq Hq) as FS.
  destruct (fr_tree _ _ _ _ _ _ FO r0 Hr) as (xs & m & TL).
  eapply (C85_one_tree_is_searched (ops fm) c sortIx sortPairs OK FL HI HP); eauto.
  - exact (tl_reach _ _ _ _ _ _ _ _ TL).
  - apply Z.le_trans with (1 := Hlim). assert (length added <= length xs)%nat; [|unfold lenN; lia].
    apply NoDup_incl_length; [exact ND|]. intros i Hi. specialize (Had i Hi).
    destruct (last_added h i) as [w|] eqn:Ew; [|congruence]. eapply tl_all; eauto.
Qed.
(** In such an index, let the root with the least number be a split node and the query lie
    off its plane.  If the child on the other side lists as many entries as the query
    inspects, every item returned is from there. *)
Theorem C86_far_side_first_after_build :
  forall fm c, is_fmt fm -> CfgOK (ops fm) c -> 3 * ixb c <= vlen c -> vlen c <= 2 ^ 20 ->
  forall sortIx sortPairs, sort_slice N.ltb sortIx -> sort_slice (pair_less (flt (ops fm)) (feq (ops fm))) sortPairs ->
  forall h ix T nw fuel mfuel rfuel ix', build_call (ops fm) c h ix T nw fuel mfuel ->
  build_result (ops fm) c ix T nw fuel mfuel rfuel ix' ->
  (forall i w, last_added h i = Some w -> moderate fm w) ->
  forall qfuel fs q n inspect bc ids ds bc', moderate fm q -> lenN q = vlen c -> lenN (c_nns bc) < 2 ^ iw c ->
  get_nns_by_vector (ops fm) c sortIx sortPairs qfuel fs ix' q n inspect bc = Ok (ids, ds, bc') ->
  forall r0 l r bs, In r0 (rootsN (ib ix')) -> (forall r, In r (rootsN (ib ix')) -> r0 <= r) ->
  splits (ops fm) c (view fs ix') r0 l r -> vread (view fs ix') (addr (ops fm) c r0) (nodeSize (ops fm) c) = Ok bs ->
  forall far zs m, (flt (ops fm) (f0 (ops fm)) (side_value (ops fm) c bs q) = true /\ far = l \/
                    flt (ops fm) (side_value (ops fm) c bs q) (f0 (ops fm)) = true /\ far = r) ->
  reach (ops fm) c (view fs ix') (n_items ix') far zs m -> (the_limit ix' n inspect <= Z.of_N (lenN zs))%Z ->
  forall id, In id ids -> In id zs.
Proof.
  intros fm c FM OK Hv Hlen sortIx sortPairs HI HP h ix T nw fuel mfuel rfuel ix' B R HM qfuel fs q n inspect bc ids ds bc' Mq Hq Hc E.
  pose proof (sides_finite fm c FM OK Hv Hlen h ix T nw fuel mfuel rfuel ix' B R HM fs q Mq Hq) as FS.
  eapply (C86_far_side_first (ops fm) c sortIx sortPairs OK (fmt_is_float fm FM) HI HP); eauto.
Qed.

(** The build of [PropForest] with two workers: its vectors and the query vector are of
    moderate size, 20 distinct items were added and a query for 5 items inspects 15. *)
Lemma tame_moderate fm v : tame fm v -> moderate fm v.
Proof. intros (H1 & H2 & _). now split. Qed.
Example C87_example :
  build_call fops32 (cA 16) exq_items fx_ix 3 2 100 100 /\ build_result fops32 (cA 16) fx_ix 3 2 100 100 100 fx_multi /\
  (forall i w, last_added exq_items i = Some w -> moderate fmt32 w) /\ moderate fmt32 exq_vec /\
  (NoDup (rangeN 20) /\ (forall i, In i (rangeN 20) -> match last_added exq_items i with Some _ => True | None => False end) /\
   the_limit fx_multi 5 (-1) = 15%Z) /\ In 22 (rootsN (ib fx_multi)).
Proof.
  split; [apply fx_call; lia|]. split; [apply fx_multi_result|].
  split; [intros j v H; apply tame_moderate; now apply (exq_tame j v)|].
  split; [apply tame_moderate, fv_tame; [cbn; lia|vm_compute; reflexivity|vm_compute; reflexivity]|].
  split; [|vm_compute; tauto].
  split; [apply NoDup_rangeN|]. split; [|reflexivity].
  intros i Hi. vm_compute in Hi. repeat (destruct Hi as [<-|Hi]; [vm_compute; exact I|]). destruct Hi.
Qed.

Print Assumptions C87_planes_are_finite.
Print Assumptions C85_one_tree_is_searched_after_build.
Print Assumptions C86_far_side_first_after_build.
