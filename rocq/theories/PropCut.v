(** How the trees that Build leaves behind divide the items: by planes through the origin
    (C82), and into halves neither of which is nearly everything, so that no tree is deep
    (C83); for both policies, every schedule and every random outcome. *)
From Verif Require Import Base Flt Layout Rng Sorts Alloc Prog Imbalance Dist Build Policy Index Search Spec ForestSpec BuildSpec
  Lib LayoutProof FltProof MemProof StoreProof SearchProof QueryProof PolicyProof BuildProof ForestProof
  AfterProof CutProof Concrete PropSearch PropForest.
Open Scope N_scope.

(** ** C82 *)
(** Below every root, every split node keeps (part of) a plane through the origin whose
    normal is the difference of two means of the items below the node, scaled to length 1, and divides the added items below it into those
    that do not lie on its positive side and those that do not lie on its negative side;
    unless its plane is all zero and the items were divided at random. *)
Theorem C82_items_divided_by_planes :
  forall fo c, CfgOK fo c -> is_float fo -> 3 * ixb c <= vlen c ->
  forall h ix T nw fuel mfuel rfuel ix', build_call fo c h ix T nw fuel mfuel ->
  build_result fo c ix T nw fuel mfuel rfuel ix' ->
  forall fs r, In r (rootsN (ib ix')) ->
  exists xs, divided fo c (plane_cut fo c (last_added h)) (view fs ix') (n_items ix') r xs /\
    forall i, last_added h i <> None -> In i xs.
Proof.
  intros fo c OK FL Hv h ix T nw fuel mfuel rfuel ix' B R fs r Hr.
  destruct (result_after fo c OK _ _ _ _ _ _ _ _ B R) as (I & plan & A & _).
  pose proof (after_forest fo c OK fs ix _ plan ix' Hv I A) as FO.
  pose proof (after_agrees fo c fs ix _ plan ix' A) as AG.
  destruct (bt_cuts _ _ _ _ _ _ A Hv r Hr) as (im & xs & Him & D). specialize (D _ AG).
  rewrite (bt_items _ _ _ _ _ _ A) in *. exists xs. split.
  - eapply divided_mono; [|exact D]. intros bs ys zs. apply (tcut_plane fo c OK FL).
    + intros j x Hj. pose proof (ii_len _ _ _ _ I _ _ Hj) as Hl. split; [exact Hl|].
      rewrite Him by (eapply ii_ext; eauto).
      rewrite (ib_vec _ _ _ _ (image_bytes fo c OK (n_items ix) (last_added h) j (ii_len _ _ _ _ I))), Hj. reflexivity.
    + intros j Hj. rewrite Him by exact Hj. pose proof (image_bytes fo c OK (n_items ix) (last_added h) j (ii_len _ _ _ _ I)) as IB.
      rewrite (ib_desc _ _ _ _ IB). intro Hd. split; [|apply (ib_len _ _ _ _ IB)]. intro E. rewrite E in Hd. discriminate Hd.
  - destruct (divided_reach _ _ _ _ _ _ _ D) as [m Hm].
    destruct (fr_tree _ _ _ _ _ _ FO r Hr) as (ys & k & TL).
    destruct (reach_fun fo c OK _ _ _ _ _ (tl_reach _ _ _ _ _ _ _ _ TL) _ _ Hm) as [<- _].
    intros i Hi. destruct (last_added h i) as [w|] eqn:E; [|congruence]. eapply tl_all; eauto.
Qed.
(** The second tree of the build of [PropForest]: its root splits the 20 items by a plane
    of which 1 of the 16 components is kept. *)
Example C82_example :
  In 25 (rootsN (ib fx_single)) /\ splits fops32 (cA 16) (view no_files fx_single) 25 24 23 /\
  reach fops32 (cA 16) (view no_files fx_single) 20 24 [8; 9; 10; 11; 12; 13; 14; 15; 16; 17; 18; 19] 1 /\
  reach fops32 (cA 16) (view no_files fx_single) 20 23 [0; 1; 2; 3; 4; 5; 6; 7] 1 /\
  (let* bs := vread (view no_files fx_single) (addr fops32 (cA 16) 25) (nodeSize fops32 (cA 16)) in
   Ok (bits (n_vec fops32 (cA 16) bs))) = Ok (3212752198 :: repeat 0 15).
Proof.
  split; [vm_compute; tauto|]. split.
  - eapply sp_intro; vm_compute; reflexivity.
  - split; [apply (listing_sound fops32 (cA 16) 5); vm_compute; reflexivity|].
    split; [apply (listing_sound fops32 (cA 16) 5); vm_compute; reflexivity|]. vm_compute. reflexivity.
Qed.

(** ** C83 *)
Section balance.
Variable fo : FOps. Variable c : Cfg.
Hypothesis OK : CfgOK fo c. Hypothesis Hv : 3 * ixb c <= vlen c.
Lemma balanced_roots h ix T nw fuel mfuel rfuel ix' : build_call fo c h ix T nw fuel mfuel ->
  build_result fo c ix T nw fuel mfuel rfuel ix' ->
  forall a b, a <> b -> last_added h a <> None -> last_added h b <> None ->
  forall fs r, In r (rootsN (ib ix')) ->
  exists xs, divided fo c (fun _ xs ys => balanced xs ys) (view fs ix') (n_items ix') r xs /\
    1 <= lenN xs <= n_items ix' /\ (forall i, last_added h i <> None -> In i xs).
Proof.
  intros B R a b Hab Fa Fb fs r Hr.
  destruct (result_after fo c OK _ _ _ _ _ _ _ _ B R) as (I & plan & A & _).
  pose proof (after_forest fo c OK fs ix _ plan ix' Hv I A) as FO.
  pose proof (after_agrees fo c fs ix _ plan ix' A) as AG.
  destruct (bt_cuts _ _ _ _ _ _ A Hv r Hr) as (im & xs & Him & D). specialize (D _ AG).
  rewrite (bt_items _ _ _ _ _ _ A) in *.
  destruct (divided_reach _ _ _ _ _ _ _ D) as [m Hm].
  destruct (fr_tree _ _ _ _ _ _ FO r Hr) as (ys & k & TL).
  destruct (reach_fun fo c OK _ _ _ _ _ (tl_reach _ _ _ _ _ _ _ _ TL) _ _ Hm) as [<- _].
  assert (All : forall i, last_added h i <> None -> In i ys).
  { intros i Hi. destruct (last_added h i) as [w|] eqn:E; [|congruence]. eapply tl_all; eauto. }
  pose proof (tl_len _ _ _ _ _ _ _ _ TL) as Hl.
  assert (Hx : forall i, last_added h i <> None -> i < n_items ix /\ n_desc c (im i) = 1).
  { intros i Hi. destruct (last_added h i) as [w|] eqn:E; [|congruence]. pose proof (ii_ext _ _ _ _ I _ _ E) as Hi'. split; [exact Hi'|].
    rewrite Him by exact Hi'.
    rewrite (ib_desc _ _ _ _ (image_bytes fo c OK (n_items ix) (last_added h) i (ii_len _ _ _ _ I))), E. reflexivity. }
  destruct (Hx a Fa) as [Ha Da]. destruct (Hx b Fb) as [Hb Db].
  assert (H64 : n_items ix < 2 ^ 64) by (pose proof (cap_ok_small fo c OK _ (ii_cap _ _ _ _ I)); pose proof (pow_iw_le fo c OK); lia).
  exists ys. split; [|split; [|exact All]].
  - eapply (divided_balanced fo c (n_items ix) im _ _ _ _ a b); eauto. lia.
  - split; [|exact Hl]. specialize (All a Fa). destruct ys; [contradiction|]. rewrite lenN_cons. lia.
Qed.
End balance.
(** If at least two items were added, no split node of any tree leaves more than 99.2 % of
    its items on one side. *)
Theorem C83_splits_are_balanced :
  forall fo c, CfgOK fo c -> 3 * ixb c <= vlen c ->
  forall h ix T nw fuel mfuel rfuel ix', build_call fo c h ix T nw fuel mfuel ->
  build_result fo c ix T nw fuel mfuel rfuel ix' ->
  forall a b, a <> b -> last_added h a <> None -> last_added h b <> None ->
  forall fs r, In r (rootsN (ib ix')) ->
  exists xs, divided fo c (fun _ xs ys => balanced xs ys) (view fs ix') (n_items ix') r xs /\
    forall i, last_added h i <> None -> In i xs.
Proof.
  intros. destruct (balanced_roots fo c H H0 h ix T nw fuel mfuel rfuel ix' H1 H2 a b H3 H4 H5 fs r H6) as (xs & D & _ & A).
  eauto.
Qed.
(** Hence the number of split nodes on the way from a root to any node is logarithmic in
    the number of items: at most 87 for every doubling. *)
Theorem C83_trees_are_shallow :
  forall fo c, CfgOK fo c -> 3 * ixb c <= vlen c ->
  forall h ix T nw fuel mfuel rfuel ix', build_call fo c h ix T nw fuel mfuel ->
  build_result fo c ix T nw fuel mfuel rfuel ix' ->
  forall a b, a <> b -> last_added h a <> None -> last_added h b <> None ->
  forall fs r, In r (rootsN (ib ix')) ->
  forall d j, descends fo c (view fs ix') r d j -> 2 ^ (N.of_nat d / 87) <= n_items ix'.
Proof.
  intros. destruct (balanced_roots fo c H H0 h ix T nw fuel mfuel rfuel ix' H1 H2 a b H3 H4 H5 fs r H6) as (xs & D & L & _).
  apply depth_log. eapply N.le_trans; [eapply (depth_bound fo c H); [exact H7|exact D|apply L]|].
  apply N.mul_le_mono_l, L.
Qed.
Example C83_example :
  last_added exq_items 0 <> None /\ last_added exq_items 1 <> None /\ In 25 (rootsN (ib fx_single)) /\
  descends fops32 (cA 16) (view no_files fx_single) 25 1 23.
Proof.
  assert (S : forall i, match last_added exq_items i with Some _ => true | None => false end = true -> last_added exq_items i <> None).
  { intros i H E. rewrite E in H. discriminate. }
  split; [apply S; vm_compute; reflexivity|]. split; [apply S; vm_compute; reflexivity|]. split; [vm_compute; tauto|].
  eapply de_right; [|apply de_here]. apply C82_example.
Qed.

Print Assumptions C82_items_divided_by_planes.
Print Assumptions C83_splits_are_balanced.
Print Assumptions C83_trees_are_shallow.
