(** The listing of an index that Save prints with verbose logging (C104). *)
From Verif Require Import Base Flt Layout Rng Sorts Alloc Prog Imbalance Dist Build Policy Index Search Dump Spec ForestSpec BuildSpec
  Lib LayoutProof FltProof MemProof StoreProof SearchProof QueryProof TreeProof PolicyProof BuildProof ForestProof
  NumProof AfterProof CutProof OwnProof CoverProof
  Concrete PropSearch PropForest PropRoom PropCover.
Open Scope N_scope.

Lemma dump_lists fo c v ni i xs : lists_items fo c v ni i xs -> ni <= i ->
  (length xs <> 1%nat /\ dump_node fo c v i = Ok (DInternal xs)) \/ (length xs = 1%nat /\ exists w, dump_node fo c v i = Ok (DLeaf w)).
Proof.
  intros [bs R D H|bs R D H] Hi; [lia|]. unfold dump_node, dump_bytes. rewrite R. cbn [rbind]. rewrite length_n_children.
  destruct (N.eqb_spec (n_desc c bs) 1) as [E|E].
  - right. split; [lia|eauto].
  - left. split; [lia|]. replace (n_desc c bs <=? maxK fo c) with true by lia. reflexivity.
Qed.
Lemma dump_splits fo c v i l r : CfgOK fo c -> splits fo c v i l r -> exists bs, vread v (addr fo c i) (nodeSize fo c) = Ok bs /\
  dump_node fo c v i = Ok (DSplit (n_norm fo c bs) (n_vec fo c bs)).
Proof.
  intros OK [bs l' r' R H C]. exists bs. split; [exact R|]. unfold dump_node, dump_bytes. rewrite R. cbn [rbind].
  pose proof (maxK_ge2 fo c OK). replace (n_desc c bs =? 1) with false by lia. replace (n_desc c bs <=? maxK fo c) with false by lia. reflexivity.
Qed.
Lemma reach_down fo c v ni i d j : CfgOK fo c -> descends fo c v i d j -> forall xs m, reach fo c v ni i xs m -> exists ys k, reach fo c v ni j ys k.
Proof.
  intros OK. pose proof (maxK_ge2 fo c OK) as HK. induction 1 as [i|i l r d j S1 D IH|i l r d j S1 D IH]; intros xs m Re; [eauto| |];
    (inversion Re as [i' xs' L|i' l' r' xs' ys' m' n' S2 R1 R2]; subst; [exfalso; eapply lists_not_splits; eauto|];
     destruct (SearchProof.splits_fun _ _ _ _ _ _ _ _ S1 S2) as [<- <-]; eauto).
Qed.

(** The line of an added item shows its vector; an index never added appears as an inner
    node without children. *)
Theorem C104_listing_shows_items :
  forall fo c, CfgOK fo c -> 3 * ixb c <= vlen c ->
  forall h ix T nw fuel mfuel rfuel ix', build_call fo c h ix T nw fuel mfuel ->
  build_result fo c ix T nw fuel mfuel rfuel ix' ->
  forall fs i, i < n_items ix ->
  dump_node fo c (view fs ix') i = Ok (match last_added h i with Some w => DLeaf w | None => DInternal [] end).
Proof.
  intros fo c OK Hv h ix T nw fuel mfuel rfuel ix' B R fs i Hi.
  destruct (result_after fo c OK _ _ _ _ _ _ _ _ B R) as (I & plan & A & _).
  pose proof (after_forest fo c OK fs ix _ plan ix' Hv I A) as FO. rewrite <- (bt_items _ _ _ _ _ _ A) in Hi.
  destruct (fr_item _ _ _ _ _ _ FO i Hi) as (bs & E & IB). unfold dump_node, dump_bytes. rewrite E. cbn [rbind].
  pose proof (ib_desc _ _ _ _ IB) as D. pose proof (ib_vec _ _ _ _ IB) as V. rewrite D. destruct (last_added h i) as [w|].
  - cbn [N.eqb Pos.eqb]. now rewrite V.
  - cbn [N.eqb]. pose proof (maxK_ge2 fo c OK). replace (0 <=? maxK fo c) with true by lia. reflexivity.
Qed.
(** The lines of the trees.  Every node of a tree that is not an item is a split node,
    shown as such, with the plane that queries compare with; or a leaf, shown with
    exactly the items it lists; only a leaf of one single item is shown like an item. *)
Theorem C104_listing_shows_trees :
  forall fo c, CfgOK fo c -> 3 * ixb c <= vlen c ->
  forall h ix T nw fuel mfuel rfuel ix', build_call fo c h ix T nw fuel mfuel ->
  build_result fo c ix T nw fuel mfuel rfuel ix' ->
  forall fs r d j, In r (rootsN (ib ix')) -> descends fo c (view fs ix') r d j -> n_items ix <= j ->
  (exists l r' bs, splits fo c (view fs ix') j l r' /\ vread (view fs ix') (addr fo c j) (nodeSize fo c) = Ok bs /\
     dump_node fo c (view fs ix') j = Ok (DSplit (n_norm fo c bs) (n_vec fo c bs))) \/
  (exists xs, lists_items fo c (view fs ix') (n_items ix') j xs /\
     ((length xs <> 1%nat /\ dump_node fo c (view fs ix') j = Ok (DInternal xs)) \/
      (length xs = 1%nat /\ exists w, dump_node fo c (view fs ix') j = Ok (DLeaf w)))).
Proof.
  intros fo c OK Hv h ix T nw fuel mfuel rfuel ix' B R fs r d j Hr D Hj.
  destruct (result_after fo c OK _ _ _ _ _ _ _ _ B R) as (I & plan & A & _).
  pose proof (after_forest fo c OK fs ix _ plan ix' Hv I A) as FO.
  destruct (fr_tree _ _ _ _ _ _ FO r Hr) as (xs & m & TL).
  destruct (reach_down _ _ _ _ _ _ _ OK D _ _ (tl_reach _ _ _ _ _ _ _ _ TL)) as (ys & k & Re).
  inversion Re as [i' xs' L|i' l' r' xs' ys' m' n' S2 R1 R2]; subst.
  - right. exists ys. split; [exact L|]. eapply dump_lists; [exact L|]. rewrite (bt_items _ _ _ _ _ _ A). exact Hj.
  - left. destruct (dump_splits _ _ _ _ _ _ OK S2) as (bs & E1 & E2). exists l', r', bs. auto.
Qed.
(** Save lists every node (the others than these are the copies of the roots, C100). *)
Theorem C104_save_lists_every_node :
  forall fo c, CfgOK fo c -> 3 * ixb c <= vlen c ->
  forall h ix T nw fuel mfuel rfuel ix', build_call fo c h ix T nw fuel mfuel ->
  build_result fo c ix T nw fuel mfuel rfuel ix' ->
  forall fs, exists ds, node_lines fo c fs ix' = Ok ds /\ lenN ds = nn (ib ix') /\
  forall i d, nth_error ds i = Some d <-> N.of_nat i < nn (ib ix') /\ dump_node fo c (view fs ix') (N.of_nat i) = Ok d.
Proof.
  intros fo c OK Hv h ix T nw fuel mfuel rfuel ix' B R fs.
  destruct (result_after fo c OK _ _ _ _ _ _ _ _ B R) as (I & plan & A & _).
  pose proof (after_agrees fo c fs ix _ plan ix' A) as AG.
  assert (G : forall is, (forall i, In i is -> i < nn (ib ix')) -> exists ds, dump_all fo c (view fs ix') is = Ok ds /\
    Forall2 (fun i d => dump_node fo c (view fs ix') i = Ok d) is ds).
  { induction is as [|i is IH]; intro H; [exists []; split; [reflexivity|constructor]|].
    destruct IH as (ds & E & F2); [intros k Hk; apply H; now right|]. cbn [dump_all].
    assert (E1 : exists d, dump_node fo c (view fs ix') i = Ok d).
    { unfold dump_node. rewrite (AG i (H i (or_introl eq_refl))). cbn [rbind]. eauto. }
    destruct E1 as (d & E1). rewrite E1, E. cbn [rbind]. exists (d :: ds). split; [reflexivity|]. now constructor. }
  destruct (G (rangeN (nn (ib ix')))) as (ds & E & F2); [intros i Hi; now apply in_rangeN|].
  exists ds. split; [exact E|]. assert (L : length (rangeN (nn (ib ix'))) = length ds) by (clear -F2; induction F2; cbn; congruence). rewrite length_rangeN in L. split; [unfold lenN; lia|].
  assert (P : forall is ds, Forall2 (fun i d => dump_node fo c (view fs ix') i = Ok d) is ds -> forall k d, nth_error ds k = Some d <->
    exists i, nth_error is k = Some i /\ dump_node fo c (view fs ix') i = Ok d).
  { clear. induction 1 as [|i d is ds H F IH]; intros k d'.
    - split; [destruct k; discriminate|]. intros (i & Hi & _). destruct k; discriminate.
    - destruct k as [|k]; cbn [nth_error]; [|apply IH]. split.
      + intros [= <-]. eauto.
      + intros (i' & [= <-] & E). congruence. }
  intros i d. rewrite (P _ _ F2). split.
  - intros (k & Hk & Ed). assert (Hl : (i < length (rangeN (nn (ib ix'))))%nat) by (apply nth_error_Some; congruence).
    rewrite length_rangeN in Hl. rewrite nth_error_rangeN in Hk by exact Hl. injection Hk as <-. split; [lia|exact Ed].
  - intros (Hl & Ed). exists (N.of_nat i). split; [|exact Ed]. apply nth_error_rangeN. lia.
Qed.

(** The listing of the twenty items in three trees: what kind each line is, with the number of children. *)
Definition dump_kind {fo} (d : dump fo) : N := match d with DLeaf _ => 1000 | DInternal l => lenN l | DSplit _ _ => 2000 end.
Example C104_example :
  build_call fops32 (cA 16) exq_items fx_ix 3 2 100 100 /\ build_result fops32 (cA 16) fx_ix 3 2 100 100 100 fx_multi /\
  match node_lines fops32 (cA 16) no_files fx_multi with
  | Ok ds => map dump_kind ds =
      repeat 1000 20 ++ [9; 11; 2000; 8; 12; 2000; 8; 12; 2000; 2000; 2000; 2000]
  | Er _ => False end.
Proof.
  split; [apply fx_call; lia|]. split; [apply fx_multi_result|]. vm_compute. reflexivity.
Qed.
Definition dump_children {fo} (d : dump fo) : option (list N) := match d with DInternal l => Some l | _ => None end.

(** The copies of the roots are not always shown right (they are cut off, C50): five
    items in one tree, the root and its copy. *)
Definition five_ix : idx := Eval vm_compute in or_else (ix0 (cA 16)) (add_all fops32 (cA 16) (ix0 (cA 16)) (firstn 5 exq_items)).
Theorem C104_copy_of_root_shown_wrong :
  add_all fops32 (cA 16) (ix0 (cA 16)) (firstn 5 exq_items) = Ok five_ix /\
  exists ix', build_single fops32 (cA 16) 100 100 100 five_ix 1 = Ok ix' /\ rootsN (ib ix') = [5] /\ nn (ib ix') = 7 /\
    match node_lines fops32 (cA 16) no_files ix' with
    | Ok ds => map dump_children (skipn 5 ds) = [Some [0; 1; 2; 3; 4]; Some [0; 1; 2; 0; 0]]
    | Er _ => False end.
Proof. split; [vm_compute; reflexivity|]. apply ok_intro. vm_compute. repeat split. Qed.

Print Assumptions C104_listing_shows_items.
Print Assumptions C104_listing_shows_trees.
Print Assumptions C104_save_lists_every_node.
Print Assumptions C104_copy_of_root_shown_wrong.
