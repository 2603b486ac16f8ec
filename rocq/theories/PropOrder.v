(** The order in which queries look at the forest (C84), and what follows for the items
    they can find: one tree at a time (C85), the far side first (C86). *)
From Verif Require Import Base Flt Layout Rng Sorts Alloc Prog Imbalance Dist Build Policy Index Search Spec ForestSpec BuildSpec OrderSpec
  Lib LayoutProof SearchProof QueryProof OrderProof Concrete PropSearch PropForest PropWitness.
Open Scope N_scope.

(** ** C84 *)
(** A query that returns has looked at the nodes in the order of [visits], least priority
    first, and returns the nearest of the items noted on the way. *)
Theorem C84_search_order :
  forall fo c sortIx sortPairs, is_float fo ->
  sort_slice N.ltb sortIx -> sort_slice (pair_less (flt fo) (feq fo)) sortPairs ->
  forall fuel fs ix vec n inspect bc ids ds bc',
  get_nns_by_vector fo c sortIx sortPairs fuel fs ix vec n inspect bc = Ok (ids, ds, bc') ->
  lenN (c_nns bc) < 2 ^ iw c ->
  all_sides fo c (not_nan fo) (view fs ix) (rootsN (ib ix)) vec ->
  exists ys qn, query_node fo c vec = Ok qn /\
    visits fo c (view fs ix) (n_items ix) vec (the_limit ix n inspect) (at_start fo (rootsN (ib ix))) ys /\
    (forall id, In id ids -> In id ys) /\
    ((forall j d, In j ys -> item_dist fo c (view fs ix) qn j d -> not_nan fo d) ->
     nearest fo c (view fs ix) qn (Z.to_nat n) ys ids ds).
Proof. intros. eapply query_visits; eauto. Qed.

(** ** C85 *)
(** If the tree with the least root number lists as many entries as the query inspects,
    the query looks at that tree only: it is the search of that tree alone, whatever the
    other trees are. *)
Theorem C85_one_tree_is_searched :
  forall fo c sortIx sortPairs, CfgOK fo c -> is_float fo ->
  sort_slice N.ltb sortIx -> sort_slice (pair_less (flt fo) (feq fo)) sortPairs ->
  forall fuel fs ix vec n inspect bc ids ds bc',
  get_nns_by_vector fo c sortIx sortPairs fuel fs ix vec n inspect bc = Ok (ids, ds, bc') ->
  lenN (c_nns bc) < 2 ^ iw c ->
  all_sides fo c (finite fo) (view fs ix) (rootsN (ib ix)) vec ->
  forall r0 zs m, In r0 (rootsN (ib ix)) -> (forall r, In r (rootsN (ib ix)) -> r0 <= r) ->
  reach fo c (view fs ix) (n_items ix) r0 zs m -> (the_limit ix n inspect <= Z.of_N (lenN zs))%Z ->
  exists ys qn, query_node fo c vec = Ok qn /\
    visits fo c (view fs ix) (n_items ix) vec (the_limit ix n inspect) (at_start fo [r0]) ys /\
    (forall id, In id ids -> In id ys) /\
    ((forall j d, In j ys -> item_dist fo c (view fs ix) qn j d -> not_nan fo d) ->
     nearest fo c (view fs ix) qn (Z.to_nat n) ys ids ds).
Proof.
  intros fo c sortIx sortPairs OK FL HI HP fuel fs ix vec n inspect bc ids ds bc' E Hc FS r0 zs m Hr Hle Hre Hz.
  assert (NS : all_sides fo c (not_nan fo) (view fs ix) (rootsN (ib ix)) vec).
  { intros r d i l r' bs H1 H2 H3 H4. apply (finite_num fo _ FL). eapply FS; eauto. }
  destruct (query_visits fo c FL sortIx sortPairs HI HP _ _ _ _ _ _ _ _ _ _ E Hc NS) as (ys & qn & Hq & Hv & Hi & Hn).
  exists ys, qn. split; [exact Hq|]. split; [|auto].
  eapply (first_tree fo c FL); eauto. exact (maxK_ge2 fo c OK).
Qed.

(** ** C86 *)
(** Let the root with the least number be a split node and the query lie off its plane.
    If the child on the other side of the plane lists as many entries as the query
    inspects, every item returned is from there. *)
Theorem C86_far_side_first :
  forall fo c sortIx sortPairs, CfgOK fo c -> is_float fo ->
  sort_slice N.ltb sortIx -> sort_slice (pair_less (flt fo) (feq fo)) sortPairs ->
  forall fuel fs ix vec n inspect bc ids ds bc',
  get_nns_by_vector fo c sortIx sortPairs fuel fs ix vec n inspect bc = Ok (ids, ds, bc') ->
  lenN (c_nns bc) < 2 ^ iw c ->
  all_sides fo c (finite fo) (view fs ix) (rootsN (ib ix)) vec ->
  forall r0 l r bs, In r0 (rootsN (ib ix)) -> (forall r, In r (rootsN (ib ix)) -> r0 <= r) ->
  splits fo c (view fs ix) r0 l r -> vread (view fs ix) (addr fo c r0) (nodeSize fo c) = Ok bs ->
  forall far zs m, (flt fo (f0 fo) (side_value fo c bs vec) = true /\ far = l \/ flt fo (side_value fo c bs vec) (f0 fo) = true /\ far = r) ->
  reach fo c (view fs ix) (n_items ix) far zs m -> (the_limit ix n inspect <= Z.of_N (lenN zs))%Z ->
  forall id, In id ids -> In id zs.
Proof.
  intros fo c sortIx sortPairs OK FL HI HP fuel fs ix vec n inspect bc ids ds bc' E Hc FS r0 l r bs Hr Hle Hs Hb far zs m Hf Hre Hz id Hid.
  assert (NS : all_sides fo c (not_nan fo) (view fs ix) (rootsN (ib ix)) vec).
  { intros r1 d i l1 r' bs1 H1 H2 H3 H4. apply (finite_num fo _ FL). eapply FS; eauto. }
  destruct (query_visits fo c FL sortIx sortPairs HI HP _ _ _ _ _ _ _ _ _ _ E Hc NS) as (ys & qn & Hq & Hv & Hi & Hn).
  eapply (far_side fo c FL sortPairs HP _ _ _ _ r0 (maxK_ge2 fo c OK) Hr Hle FS _ ys l r bs (side_value fo c bs vec) zs m Hv Hs Hb eq_refl far Hf Hre Hz).
  now apply Hi.
Qed.

(** The index of [C32_no_item_finds_itself] (24 items in two groups, one tree): a query
    for item 3 (an odd item) with 12 entries to inspect returns even items only. *)
Definition ox : idx := Eval vm_compute in or_else (ix0 (cA 16)) (built (cA 16) (map (fun i => (i, item24 i)) (rangeN 24)) 1).
Definition fin32 (x : F fops32) : bool := flt fops32 x (finf fops32) && flt fops32 (fneg fops32 x) (finf fops32).
Lemma fin32_finite v roots q : all_sides fops32 (cA 16) (fun x => fin32 x = true) v roots q -> all_sides fops32 (cA 16) (finite fops32) v roots q.
Proof. intros H r d i l r' bs H1 H2 H3 H4. specialize (H r d i l r' bs H1 H2 H3 H4). apply andb_prop in H. exact H. Qed.
Example C84_C85_C86_example :
  all_sides fops32 (cA 16) (finite fops32) (view no_files ox) (rootsN (ib ox)) (item24 3) /\
  rootsN (ib ox) = [26] /\ splits fops32 (cA 16) (view no_files ox) 26 24 25 /\
  (exists bs, vread (view no_files ox) (addr fops32 (cA 16) 26) (nodeSize fops32 (cA 16)) = Ok bs /\
     flt fops32 (side_value fops32 (cA 16) bs (item24 3)) (f0 fops32) = true) /\
  reach fops32 (cA 16) (view no_files ox) (n_items ox) 25 [0; 2; 4; 6; 8; 10; 12; 14; 16; 18; 20; 22] 1 /\
  reach fops32 (cA 16) (view no_files ox) (n_items ox) 24 [1; 3; 5; 7; 9; 11; 13; 15; 17; 19; 21; 23] 1 /\
  ask (cA 16) no_files ox (item24 3) 5 12 = Ok [14; 20; 18; 6; 16].
Proof.
  split; [apply fin32_finite, (check_sides_sound fops32 (cA 16) fin32 5); vm_compute; reflexivity|].
  split; [reflexivity|]. split; [eapply sp_intro; vm_compute; reflexivity|].
  split; [apply ok_intro; vm_compute; reflexivity|].
  split; [apply (listing_sound fops32 (cA 16) 5); vm_compute; reflexivity|].
  split; [apply (listing_sound fops32 (cA 16) 5); vm_compute; reflexivity|]. vm_compute. reflexivity.
Qed.
(** Three trees, 20 items: a query that inspects 15 entries looks at the tree of root 22
    only. *)
Example C85_example :
  all_sides fops32 (cA 16) (finite fops32) (view no_files fx_single) (rootsN (ib fx_single)) exq_vec /\
  rootsN (ib fx_single) = [22; 25; 28] /\
  (exists zs m, reach fops32 (cA 16) (view no_files fx_single) (n_items fx_single) 22 zs m /\ lenN zs = 20) /\
  the_limit fx_single 5 (-1) = 15%Z /\
  match get_nns_by_vector fops32 (cA 16) isortN isortP 1000 no_files fx_single exq_vec 5 (-1) (create_context fops32 fx_single) with
  | Ok (ids, _, _) => length ids = 5%nat | Er _ => False end.
Proof.
  split; [apply fin32_finite, (check_sides_sound fops32 (cA 16) fin32 5); vm_compute; reflexivity|].
  split; [reflexivity|]. split; [|split; [reflexivity|vm_compute; reflexivity]].
  eexists _, _. split; [apply (listing_sound fops32 (cA 16) 5); vm_compute; reflexivity|]. vm_compute. reflexivity.
Qed.

Print Assumptions C84_search_order.
Print Assumptions C85_one_tree_is_searched.
Print Assumptions C86_far_side_first.
