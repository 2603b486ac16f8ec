(** No node of an index is wasted, and the exact size of contexts (C100). *)
From Verif Require Import Base Flt Layout Rng Sorts Alloc Prog Imbalance Dist Build Policy Index Search Spec ForestSpec BuildSpec RealSpec OrderSpec
  Lib LayoutProof FltProof MemProof StoreProof SearchProof QueryProof TreeProof PolicyProof BuildProof ForestProof
  NumProof AfterProof CutProof SmallProof PlaneProof TopProof IOProof SchedProof SameProof DistProof WholeProof RoomProof OwnProof CoverProof VisitProof ReloadProof LoadedProof
  Concrete PropSearch PropForest PropIO PropMore PropNum PropPlane PropCut PropOrder PropWhole PropReload PropRoom PropLoaded PropReroom.
From Coq Require Import Permutation.
Open Scope N_scope.

Lemma added_count fo c h ix added : NoDup added -> (forall i, In i added <-> last_added h i <> None) -> items_inv fo c ix (last_added h) ->
  length added = length (present fo (last_added h) (n_items ix)).
Proof.
  intros ND Had I. apply Permutation_length, NoDup_Permutation; [exact ND|apply NoDup_present|].
  intro i. rewrite (in_present fo), Had. split; [|tauto]. intro H. split; [|exact H].
  destruct (last_added h i) as [x|] eqn:E; [|congruence]. exact (ii_ext _ _ _ _ I i x E).
Qed.

(** ** Every node is an item, a node of exactly one tree or the copy of a root *)
Theorem C100_every_node_is_used :
  forall fo c, CfgOK fo c -> 3 * ixb c <= vlen c ->
  forall h ix T nw fuel mfuel rfuel ix', build_call fo c h ix T nw fuel mfuel ->
  build_result fo c ix T nw fuel mfuel rfuel ix' ->
  exists n, nn (ib ix') = n + lenN (rootsN (ib ix')) /\ n_items ix <= n /\
  forall fs,
  (forall j, n_items ix <= j < n -> exists r d, In r (rootsN (ib ix')) /\ descends fo c (view fs ix') r d j /\
     forall r' d', In r' (rootsN (ib ix')) -> descends fo c (view fs ix') r' d' j -> r' = r) /\
  (forall k r, nth_error (rootsN (ib ix')) k = Some r -> exists bs bs',
     vread (view fs ix') (addr fo c r) (nodeSize fo c) = Ok bs /\
     vread (view fs ix') (addr fo c (n + N.of_nat k)) (nodeSize fo c) = Ok bs' /\ sub 0 (vlen c) bs' = sub 0 (vlen c) bs).
Proof.
  intros fo c OK Hv h ix T nw fuel mfuel rfuel ix' B R.
  destruct (result_after fo c OK _ _ _ _ _ _ _ _ B R) as (I & plan & A & _).
  destruct (bt_copies _ _ _ _ _ _ A) as (n & En & Hr & _ & Hcp).
  destruct (nodes_split fo c ix (last_added h) plan ix' A Hv) as (n2 & En2 & Hn & _ & Hin & _). assert (n2 = n) as -> by lia.
  exists n. split; [exact En|]. split; [exact Hn|]. intro fs. pose proof (after_agrees fo c fs ix _ plan ix' A) as AG. split.
  - intros j Hj. destruct (Hin j Hj) as (r & Hr' & Hi). pose proof (known fo c ix (last_added h) plan ix' A Hv r Hr') as Hk.
    destruct (inside_descends fo c (view fs ix') (ib ix') (n_items ix) AG r j Hi Hk) as (d & D).
    exists r, d. split; [exact Hr'|]. split; [exact D|]. intros r' d' Hr2 D2.
    exact (C20_trees_share_no_nodes fo c OK Hv h ix T nw fuel mfuel rfuel ix' B R fs r' r d' d j Hr2 Hr' D2 D ltac:(lia)).
  - intros k r Hk. assert (Hr' : In r (rootsN (ib ix'))) by (eapply nth_error_In; eauto).
    assert (Hkl : N.of_nat k < lenN (rootsN (ib ix'))) by (assert ((k < length (rootsN (ib ix')))%nat) by (apply nth_error_Some; congruence); unfold lenN; lia).
    exists (snode_img fo c (ib ix') r), (snode_img fo c (ib ix') (n + N.of_nat k)).
    split; [apply AG; apply (bt_range _ _ _ _ _ _ A r Hr')|]. split; [apply AG; lia|].
    rewrite (Hcp (N.of_nat k) r) by now rewrite Nnat.Nat2N.id. apply (copy_sub fo c OK). lia.
Qed.

(** ** The size of contexts *)
(** More items than fit a leaf: at most one entry less than one for each added item and
    for each added item and tree, .. *)
Theorem C100_context_size_bound :
  forall fo c, CfgOK fo c -> 3 * ixb c <= vlen c ->
  forall h ix T nw fuel mfuel rfuel ix', build_call fo c h ix T nw fuel mfuel ->
  build_result fo c ix T nw fuel mfuel rfuel ix' ->
  forall added, NoDup added -> (forall i, In i added <-> last_added h i <> None) -> maxK fo c < lenN added ->
  lenN (c_nns (create_context fo ix')) + 1 <= (lenN (rootsN (ib ix')) + 1) * lenN added.
Proof.
  intros fo c OK Hv h ix T nw fuel mfuel rfuel ix' B R added ND Had HK.
  destruct (result_after fo c OK _ _ _ _ _ _ _ _ B R) as (I & plan & A & _).
  pose proof (added_count fo c h ix added ND Had I) as Hl.
  pose proof (room_le fo c OK ix (last_added h) plan ix' I A Hv) as H. unfold lenN in *. rewrite <- Hl in H. apply H. exact HK.
Qed.
(** .. and exactly that if leaves may have 125 items. *)
Theorem C100_context_size :
  forall fo c, CfgOK fo c -> 3 * ixb c <= vlen c -> 125 <= maxK fo c ->
  forall h ix T nw fuel mfuel rfuel ix', build_call fo c h ix T nw fuel mfuel ->
  build_result fo c ix T nw fuel mfuel rfuel ix' ->
  forall added, NoDup added -> (forall i, In i added <-> last_added h i <> None) -> maxK fo c < lenN added ->
  lenN (c_nns (create_context fo ix')) + 1 = (lenN (rootsN (ib ix')) + 1) * lenN added /\
  length (c_dist (create_context fo ix')) = length (c_nns (create_context fo ix')).
Proof.
  intros fo c OK Hv H125 h ix T nw fuel mfuel rfuel ix' B R added ND Had HK. split; [|now rewrite room_dist].
  destruct (result_after fo c OK _ _ _ _ _ _ _ _ B R) as (I & plan & A & _).
  pose proof (added_count fo c h ix added ND Had I) as Hl.
  pose proof (room_exact fo c OK ix (last_added h) plan ix' I A Hv H125) as H. unfold lenN in *. rewrite <- Hl in H. apply H. exact HK.
Qed.
(** Few items: a tree is one leaf, counted again as its copy. *)
Theorem C100_context_size_few :
  forall fo c, CfgOK fo c -> 3 * ixb c <= vlen c ->
  forall h ix T nw fuel mfuel rfuel ix', build_call fo c h ix T nw fuel mfuel ->
  build_result fo c ix T nw fuel mfuel rfuel ix' -> rootsN (ib ix') <> [] ->
  forall added, NoDup added -> (forall i, In i added <-> last_added h i <> None) -> 1 <= n_items ix <= maxK fo c ->
  lenN (c_nns (create_context fo ix')) + 1 = lenN added + 2 * lenN (rootsN (ib ix')) * n_items ix.
Proof.
  intros fo c OK Hv h ix T nw fuel mfuel rfuel ix' B R Hne added ND Had HK.
  destruct (result_after fo c OK _ _ _ _ _ _ _ _ B R) as (I & plan & A & _).
  pose proof (added_count fo c h ix added ND Had I) as Hl.
  pose proof (room_few fo c OK ix (last_added h) plan ix' I A Hv HK Hne) as H. unfold lenN in *. rewrite <- Hl in H. exact H.
Qed.

(** ** Load found more trees than were built *)
(** Every query that should inspect as much as one tree more than were built lists, and
    one entry per item, fails; .. *)
Theorem C100_more_trees_than_built_fail :
  forall fo c, CfgOK fo c -> 3 * ixb c <= vlen c ->
  forall sortIx sortPairs, sort_slice N.ltb sortIx ->
  forall h ix T nw fuel mfuel rfuel ix', build_call fo c h ix T nw fuel mfuel ->
  build_result fo c ix T nw fuel mfuel rfuel ix' -> rootsN (ib ix') <> [] ->
  forall added, NoDup added -> (forall i, In i added <-> last_added h i <> None) -> maxK fo c < lenN added ->
  forall fs fs2 ix2, from_file fo c fs ix' fs2 ix2 -> (length (rootsN (ib ix')) < length (rootsN (ib ix2)))%nat ->
  lenN (c_nns (create_context fo ix2)) < 2 ^ iw c ->
  forall qfuel q n inspect, (Z.of_N ((lenN (rootsN (ib ix')) + 1) * lenN added) <= the_limit ix2 n inspect)%Z ->
  forall r, get_nns_by_vector fo c sortIx sortPairs qfuel fs2 ix2 q n inspect (create_context fo ix2) <> Ok r.
Proof.
  intros fo c OK Hv sortIx sortPairs HI h ix T nw fuel mfuel rfuel ix' B R Hne added ND Had HK fs fs2 ix2 FF Hlen Hc qfuel q n inspect Hlim r E.
  destruct (result_after fo c OK _ _ _ _ _ _ _ _ B R) as (I & plan & A & _).
  pose proof (added_count fo c h ix added ND Had I) as Hl. pose proof (present_le fo (last_added h) (n_items ix)) as Hple.
  assert (HK' : maxK fo c < n_items ix) by (unfold lenN in *; lia).
  destruct (from_file_loaded fo c fs ix _ plan ix' fs2 ix2 OK I A Hv HK' Hne FF) as [L _].
  pose proof (lx_items _ _ _ _ _ _ _ L) as Hn. pose proof (lx_forest _ _ _ _ _ _ _ L) as FO.
  pose proof (C100_context_size_bound fo c OK Hv h ix T nw fuel mfuel rfuel ix' B R added ND Had HK) as Hroom.
  assert (Hcl : c_nns (create_context fo ix2) = c_nns (create_context fo ix')) by (unfold create_context; now rewrite (lx_room _ _ _ _ _ _ _ L)).
  assert (HK2 : maxK fo c < n_items ix2) by (rewrite Hn; exact HK').
  assert (G : forall rs, (forall r, In r rs -> In r (rootsN (ib ix2))) -> exists zs m, reach_all fo c (view fs2 ix2) (n_items ix2) rs zs m /\
    length zs = (length rs * length added)%nat).
  { induction rs as [|r1 rs IH]; intro Hin.
    - exists [], 0%nat. split; [constructor|reflexivity].
    - destruct IH as (zs & m & Z1 & Z2); [intros; apply Hin; now right|].
      destruct (fr_tree _ _ _ _ _ _ FO r1 (Hin r1 (or_introl eq_refl))) as (xs & k & TL).
      destruct (tl_exact _ _ _ _ _ _ _ _ TL (or_introl HK2)) as [NDx Hx].
      exists (xs ++ zs), (k + m)%nat. split; [constructor; [exact (tl_reach _ _ _ _ _ _ _ _ TL)|exact Z1]|].
      rewrite app_length, Z2. cbn [length Nat.mul].
      assert (X : length xs = length added); [|lia]. apply Permutation_length, NoDup_Permutation; [exact NDx|exact ND|].
      intro j. rewrite Had. split; [apply Hx|]. intro Hj. destruct (last_added h j) as [y|] eqn:Ey; [|congruence].
      exact (tl_all _ _ _ _ _ _ _ _ TL j y Ey). }
  destruct (G (rootsN (ib ix2)) (fun _ H => H)) as (zs & m & Z1 & Z2).
  unfold get_nns_by_vector in E. cbn zeta in E. apply rbind_ok in E. destruct E as ([cnt nns] & El & E).
  destruct (N.ltb_spec (lenN nns) cnt) as [|Hcnt]; [discriminate|].
  pose proof (loop_mono _ _ _ _ _ _ _ _ _ _ _ _ El) as [_ Hlen2].
  destruct (search_loop_expands fo c _ _ _ _ _ _ _ _ _ _ El) as (ys & rest & X1 & X2 & _ & X3); [unfold lenN in *; lia|exact Hc|].
  assert (Hcnt2 : cnt <= lenN (c_nns (create_context fo ix'))) by (rewrite <- Hcl; unfold lenN in *; lia).
  destruct X3 as [X3|X3].
  - change (the_limit ix2 n inspect <= Z.of_N cnt)%Z in X3. lia.
  - subst rest. pose proof (pushes_perm fo (rootsN (ib ix2)) pq_new) as Hq. cbn [map app pq_new] in Hq.
    destruct (reach_all_perm fo c _ _ _ _ (Permutation_sym Hq) _ _ Z1) as (zs2 & Z3 & P).
    destruct (expands_rest fo c _ _ _ _ _ (maxK_ge2 _ _ OK) X1 _ _ Z3) as (zs' & m' & Z4 & P2). inversion Z4; subst.
    rewrite app_nil_r in P2. apply Permutation_length in P. apply Permutation_length in P2. unfold lenN in *. nia.
Qed.
(** .. so do all that ask for as many as were added and leave the number to inspect to the
    library. *)
Theorem C100_asking_for_all_fails :
  forall fo c, CfgOK fo c -> 3 * ixb c <= vlen c ->
  forall sortIx sortPairs, sort_slice N.ltb sortIx ->
  forall h ix T nw fuel mfuel rfuel ix', build_call fo c h ix T nw fuel mfuel ->
  build_result fo c ix T nw fuel mfuel rfuel ix' -> rootsN (ib ix') <> [] ->
  forall added, NoDup added -> (forall i, In i added <-> last_added h i <> None) -> maxK fo c < lenN added ->
  forall fs fs2 ix2, from_file fo c fs ix' fs2 ix2 -> (length (rootsN (ib ix')) < length (rootsN (ib ix2)))%nat ->
  lenN (c_nns (create_context fo ix2)) < 2 ^ iw c ->
  forall qfuel q n, (Z.of_N (lenN added) <= n)%Z ->
  forall r, get_nns_by_vector fo c sortIx sortPairs qfuel fs2 ix2 q n (-1) (create_context fo ix2) <> Ok r.
Proof.
  intros fo c OK Hv sortIx sortPairs HI h ix T nw fuel mfuel rfuel ix' B R Hne added ND Had HK fs fs2 ix2 FF Hlen Hc qfuel q n Hn.
  eapply C100_more_trees_than_built_fail; eauto. unfold the_limit. cbn [Z.eqb Pos.eqb]. unfold lenN in *. nia.
Qed.

(** ** Examples *)
Lemma added_iff {V} (h : list (N * V)) i : In i (map fst h) <-> last_added h i <> None.
Proof.
  induction h as [|[j w] h IH]; cbn [last_added map fst]; [split; [intros []|congruence]|].
  destruct (last_added h i) as [v|]; [split; [discriminate|intros _; right; apply IH; discriminate]|].
  destruct (N.eqb_spec j i) as [->|Hne]; [split; [discriminate|now left]|]. split; [|congruence].
  intros [H|H]; [congruence|now apply IH].
Qed.
(** 20 items in three trees: the nodes from 20 on are the trees', the last three copies of
    the roots; node 23 is a child of root 25. *)
Example C100_used_example :
  build_call fops32 (cA 16) exq_items fx_ix 3 1 100 100 /\ build_result fops32 (cA 16) fx_ix 3 1 100 100 100 fx_single /\
  n_items fx_ix = 20 /\ rootsN (ib fx_single) = [22; 25; 28] /\ nn (ib fx_single) = 32 /\
  descends fops32 (cA 16) (view no_files fx_single) 25 1 23.
Proof.
  split; [apply fx_call; lia|]. split; [apply fx_single_result|]. split; [vm_compute; reflexivity|]. split; [vm_compute; reflexivity|].
  split; [vm_compute; reflexivity|]. apply C83_example.
Qed.
(** 128 items in two trees, room for 126 in a leaf: 3 * 128 - 1 entries. *)
Example C100_size_example :
  build_call fops32 (cA 124) rx_items rx_ix 2 1 300 300 /\ build_result fops32 (cA 124) rx_ix 2 1 300 300 300 rx_built /\
  maxK fops32 (cA 124) = 126 /\ NoDup (map fst rx_items) /\ (forall i, In i (map fst rx_items) <-> last_added rx_items i <> None) /\
  lenN (map fst rx_items) = 128 /\ lenN (c_nns (create_context fops32 rx_built)) = 383.
Proof.
  split; [apply rx_call|]. split; [left; split; [reflexivity|apply rx_run]|]. split; [vm_compute; reflexivity|].
  split; [replace (map fst rx_items) with (rangeN 128) by (vm_compute; reflexivity); apply NoDup_rangeN|]. split; [apply added_iff|].
  split; vm_compute; reflexivity.
Qed.
(** Two workers, two trees, 20 items: after Save there are three trees, and a context still has
    room for less than 60 entries. *)
Example C100_fail_example :
  build_call fops32 (cA 16) exq_items fx_ix 2 2 100 100 /\ build_result fops32 (cA 16) fx_ix 2 2 100 100 100 io_multi /\
  rootsN (ib io_multi) <> [] /\ maxK fops32 (cA 16) = 18 /\ NoDup (map fst exq_items) /\
  (forall i, In i (map fst exq_items) <-> last_added exq_items i <> None) /\ lenN (map fst exq_items) = 20 /\
  exists ix2 fs2, from_file fops32 (cA 16) no_files io_multi fs2 ix2 /\
    length (rootsN (ib io_multi)) = 2%nat /\ length (rootsN (ib ix2)) = 3%nat /\ lenN (c_nns (create_context fops32 ix2)) = 59.
Proof.
  split; [apply fx_call; lia|]. split; [apply io_multi_result|]. split; [vm_compute; discriminate|]. split; [vm_compute; reflexivity|].
  split; [replace (map fst exq_items) with (rangeN 20) by (vm_compute; reflexivity); apply NoDup_rangeN|]. split; [apply added_iff|].
  split; [vm_compute; reflexivity|].
  assert (H : match save fops32 (cA 16) GCMem OsOk no_files io_multi 7 with
              | Ok (ix2, fs2, None) => length (rootsN (ib ix2)) = 3%nat /\ lenN (c_nns (create_context fops32 ix2)) = 59
              | _ => False end) by (vm_compute; split; reflexivity).
  destruct (save fops32 (cA 16) GCMem OsOk no_files io_multi 7) as [[[ix2 fs2] [e|]]|e] eqn:E; try contradiction.
  exists ix2, fs2. destruct H as [H1 H2]. split; [exists GCMem, 7, ix2; split; [exact E|now left]|]. split; [vm_compute; reflexivity|]. now split.
Qed.

(** Ten items (room for 18 in a leaf), two trees: 10 + 2 * 2 * 10 - 1 entries. *)
Definition cv_items : list (N * list (F fops32)) := firstn 10 exq_items.
Definition cv_ix : idx := Eval vm_compute in or_else (ix0 (cA 16)) (add_all fops32 (cA 16) (ix0 (cA 16)) cv_items).
Definition cv_built : idx := Eval vm_compute in or_else cv_ix (build_single fops32 (cA 16) 100 100 100 cv_ix 2).
Example C100_few_example :
  build_call fops32 (cA 16) cv_items cv_ix 2 1 100 100 /\ build_result fops32 (cA 16) cv_ix 2 1 100 100 100 cv_built /\
  rootsN (ib cv_built) <> [] /\ n_items cv_ix = 10 /\ maxK fops32 (cA 16) = 18 /\ NoDup (map fst cv_items) /\
  (forall i, In i (map fst cv_items) <-> last_added cv_items i <> None) /\ lenN (map fst cv_items) = 10 /\
  lenN (c_nns (create_context fops32 cv_built)) = 49.
Proof.
  assert (Hn : n_items cv_ix = 10) by (vm_compute; reflexivity). split.
  { constructor; rewrite ?Hn.
    - vm_compute. discriminate.
    - unfold hist_ok. apply Forall_forall. intros [i v] H. unfold cv_items in H.
      assert (H' : In (i, v) exq_items) by (rewrite <- (firstn_skipn 10 exq_items); apply in_or_app; now left).
      unfold exq_items in H'. apply in_map_iff in H'. destruct H' as (j & H' & Hj).
      injection H' as <- <-. apply in_rangeN in Hj. cbn [fst snd]. split.
      + eapply cap_ok_mono with (n := 20); [lia|]. vm_compute. reflexivity.
      + unfold lenN. unfold pad, fv. rewrite map_length, app_length, repeat_length. reflexivity.
    - exists (kiss_new 0), 0. vm_compute. reflexivity.
    - lia.
    - lia.
    - lia.
    - eapply cap_ok_mono with (n := 1000); [|vm_compute; reflexivity]. unfold forest_room. cbn [Z.eqb]. lia.
    - unfold enough_fuel. lia. }
  split; [left; split; [reflexivity|vm_compute; reflexivity]|]. split; [vm_compute; discriminate|]. split; [exact Hn|]. split; [vm_compute; reflexivity|].
  split; [replace (map fst cv_items) with (rangeN 10) by (vm_compute; reflexivity); apply NoDup_rangeN|]. split; [apply added_iff|].
  split; vm_compute; reflexivity.
Qed.

Print Assumptions C100_every_node_is_used.
Print Assumptions C100_context_size_bound.
Print Assumptions C100_context_size.
Print Assumptions C100_context_size_few.
Print Assumptions C100_more_trees_than_built_fail.
Print Assumptions C100_asking_for_all_fails.
