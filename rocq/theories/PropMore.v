(** Queries compared with each other (C66, C67). *)
From Verif Require Import Base Flt Layout Rng Sorts Alloc Prog Dist Build Policy Index Search Spec ForestSpec BuildSpec
  Lib LayoutProof FltProof StoreProof SearchProof AfterProof Concrete MoreProof PropSearch PropForest.
Open Scope N_scope.

(** ** C66 *)
(** Asking for more results or inspecting more candidates never makes an answer worse:
    the second query ([n2] >= [n1] results, at least the candidates of the first) gives at
    least as many results, its k-th result is at least as near as the k-th result of the
    first, and every result of the first that belongs to the exact [n1] nearest is among
    its results.  The contexts may differ. *)
Theorem C66_more_inspection_is_no_worse :
  forall fo c, CfgOK fo c -> is_float fo -> 3 * ixb c <= vlen c ->
  forall sortIx sortPairs, sort_slice N.ltb sortIx -> sort_slice (pair_less (flt fo) (feq fo)) sortPairs ->
  forall h ix T nw fuel mfuel rfuel ix', build_call fo c h ix T nw fuel mfuel ->
  build_result fo c ix T nw fuel mfuel rfuel ix' ->
  forall fs q, lenN q = vlen c -> all_num fo (last_added h) q ->
  forall fuel1 n1 i1 bc1 ids1 ds1 bc1' fuel2 n2 i2 bc2 ids2 ds2 bc2',
  lenN (c_nns bc1) < 2 ^ iw c -> lenN (c_nns bc2) < 2 ^ iw c ->
  get_nns_by_vector fo c sortIx sortPairs fuel1 fs ix' q n1 i1 bc1 = Ok (ids1, ds1, bc1') ->
  get_nns_by_vector fo c sortIx sortPairs fuel2 fs ix' q n2 i2 bc2 = Ok (ids2, ds2, bc2') ->
  (n1 <= n2)%Z -> (the_limit ix' n1 i1 <= the_limit ix' n2 i2)%Z ->
  (length ids1 <= length ids2)%nat /\
  (forall k j1 j2 v1 v2, nth_error ids1 k = Some j1 -> nth_error ids2 k = Some j2 ->
     last_added h j1 = Some v1 -> last_added h j2 = Some v2 ->
     nearer fo (cos_gap fo q v1, j1) (cos_gap fo q v2, j2) = false) /\
  (forall idsE dsE, exact_nearest fo c (last_added h) q (Z.to_nat n1) idsE dsE ->
     forall j, In j ids1 -> In j idsE -> In j ids2).
Proof.
  intros fo c OK FL Hv sortIx sortPairs HI HP h ix T nw fuel mfuel rfuel ix' B R fs q Hq Hnum.
  intros fuel1 n1 i1 bc1 ids1 ds1 bc1' fuel2 n2 i2 bc2 ids2 ds2 bc2' W1 W2 E1 E2 Hn Hl.
  destruct (result_after fo c OK _ _ _ _ _ _ _ _ B R) as (I & plan & A & _).
  pose proof (after_forest fo c OK fs ix _ plan ix' Hv I A) as FO.
  destruct (forest_two fo c OK sortIx sortPairs HI HP _ _ _ _ _ _ _ _ _ _ _ _ _ _ _ _ _ _ FL FO Hq Hnum E1 W1 E2 W2 Hn Hl) as (H1 & H2 & H3 & _).
  auto.
Qed.

(** ** C67 *)
(** With the same number of candidates to inspect, a shorter answer is the beginning of
    a longer one. *)
Theorem C67_shorter_answer_is_a_prefix :
  forall fo c, CfgOK fo c -> is_float fo -> 3 * ixb c <= vlen c ->
  forall sortIx sortPairs, sort_slice N.ltb sortIx -> sort_slice (pair_less (flt fo) (feq fo)) sortPairs ->
  forall h ix T nw fuel mfuel rfuel ix', build_call fo c h ix T nw fuel mfuel ->
  build_result fo c ix T nw fuel mfuel rfuel ix' ->
  forall fs q, lenN q = vlen c -> all_num fo (last_added h) q ->
  forall fuel1 n1 i1 bc1 ids1 ds1 bc1' fuel2 n2 i2 bc2 ids2 ds2 bc2',
  lenN (c_nns bc1) < 2 ^ iw c -> lenN (c_nns bc2) < 2 ^ iw c ->
  get_nns_by_vector fo c sortIx sortPairs fuel1 fs ix' q n1 i1 bc1 = Ok (ids1, ds1, bc1') ->
  get_nns_by_vector fo c sortIx sortPairs fuel2 fs ix' q n2 i2 bc2 = Ok (ids2, ds2, bc2') ->
  (n1 <= n2)%Z -> the_limit ix' n1 i1 = the_limit ix' n2 i2 ->
  ids1 = firstn (Z.to_nat n1) ids2 /\ ds1 = firstn (Z.to_nat n1) ds2.
Proof.
  intros fo c OK FL Hv sortIx sortPairs HI HP h ix T nw fuel mfuel rfuel ix' B R fs q Hq Hnum.
  intros fuel1 n1 i1 bc1 ids1 ds1 bc1' fuel2 n2 i2 bc2 ids2 ds2 bc2' W1 W2 E1 E2 Hn Hl.
  destruct (result_after fo c OK _ _ _ _ _ _ _ _ B R) as (I & plan & A & _).
  pose proof (after_forest fo c OK fs ix _ plan ix' Hv I A) as FO.
  destruct (forest_two fo c OK sortIx sortPairs HI HP _ _ _ _ _ _ _ _ _ _ _ _ _ _ _ _ _ _ FL FO Hq Hnum E1 W1 E2 W2 Hn ltac:(lia)) as (_ & _ & _ & H).
  exact (H Hl).
Qed.

(** The build of [builds_meet_hypotheses]; one candidate asked for, then twenty. *)
Lemma last_added_in {V} (h : list (N * V)) i v : last_added h i = Some v -> In (i, v) h.
Proof.
  induction h as [|[j w] h IH]; cbn [last_added]; [discriminate|]. destruct (last_added h i) as [v'|].
  - intros [= ->]. right. now apply IH.
  - destruct (N.eqb_spec j i) as [->|]; [|discriminate]. intros [= ->]. now left.
Qed.
Lemma all_num_check fo h q : forallb (fun p => feq fo (cos_gap fo q (snd p)) (cos_gap fo q (snd p))) h = true ->
  all_num fo (last_added h) q.
Proof. intros H j v Hv. rewrite forallb_forall in H. exact (H _ (last_added_in _ _ _ Hv)). Qed.
Example C66_C67_example :
  all_num fops32 (last_added exq_items) exq_vec /\ lenN exq_vec = vlen (cA 16) /\ 3 * ixb (cA 16) <= vlen (cA 16) /\
  lenN (c_nns (create_context fops32 fx_single)) < 2 ^ iw (cA 16) /\
  bits_of (query (cA 16) 100 no_files fx_single exq_vec 3 1 (create_context fops32 fx_single)) = Ok ([11; 16; 19], [1059343085; 1061552392; 1063264321]) /\
  bits_of (query (cA 16) 100 no_files fx_single exq_vec 3 20 (create_context fops32 fx_single)) = Ok ([9; 12; 10], [1039756778; 1057153137; 1057620014]) /\
  bits_of (query (cA 16) 100 no_files fx_single exq_vec 5 20 (create_context fops32 fx_single)) = Ok ([9; 12; 10; 8; 5], [1039756778; 1057153137; 1057620014; 1059031236; 1059343085]).
Proof.
  split; [apply all_num_check; vm_compute; reflexivity|]. split; [reflexivity|]. split; [vm_compute; discriminate|]. split; [vm_compute; reflexivity|].
  split; [|split]; vm_compute; reflexivity.
Qed.

Print Assumptions C66_more_inspection_is_no_worse.
Print Assumptions C67_shorter_answer_is_a_prefix.
