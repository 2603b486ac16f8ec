(** Save and Load of built indexes (C47, C48, C61). *)
From Verif Require Import Base Flt Layout Rng Sorts Alloc Prog Dist Build Policy Index Search Spec ForestSpec BuildSpec
  Lib LayoutProof FltProof MemProof StoreProof SearchProof QueryProof PolicyProof BuildProof ForestProof TopProof
  AfterProof IOProof SchedProof Concrete PropSearch PropForest.
From Coq Require Import Permutation.
Open Scope N_scope.

(** ** C47 *)
(** One worker, more items than fit a bucket, at least three of them added, at least one
    tree: Save succeeds, and the index it leaves (loaded from the file it wrote), as well
    as any index that loads that file with either allocator, has the same items and the
    same trees, in reverse order. *)
Theorem C47_save_load_keeps_items_and_trees :
  forall fo c, CfgOK fo c -> 3 * ixb c <= vlen c ->
  forall h ix T fuel mfuel rfuel ix', build_call fo c h ix T 1 fuel mfuel ->
  build_result fo c ix T 1 fuel mfuel rfuel ix' ->
  maxK fo c < n_items ix -> 3 <= lenN (present fo (last_added h) (n_items ix)) -> rootsN (ib ix') <> [] ->
  forall k fs fl, exists ix2 fs2, save fo c k OsOk fs ix' fl = Ok (ix2, fs2, None) /\
    (forall g, g <> fl -> fs2 g = fs g) /\
    same_items fo c fs ix' fs2 ix2 /\ Forall2 (same_tree fo c fs ix' fs2 ix2) (rev (rootsN (ib ix'))) (rootsN (ib ix2)) /\
    forall k3 ix0, rnd (ib ix0) <> None -> exists ix3, load fo c k3 fs2 ix0 fl = Ok (ix3, None) /\
      same_items fo c fs ix' fs2 ix3 /\ Forall2 (same_tree fo c fs ix' fs2 ix3) (rev (rootsN (ib ix'))) (rootsN (ib ix3)).
Proof.
  intros fo c OK Hv h ix T fuel mfuel rfuel ix' B R HK H3 Hne k fs fl.
  destruct (result_after fo c OK _ _ _ _ _ _ _ _ B R) as (I & plan & A & _ & _ & Hl).
  destruct (save_ok fo c OK ix _ plan ix' I A Hv HK Hne k fs fl) as (ix2 & fs2 & E & Ho & (L1 & _ & L2 & _) & L).
  exists ix2, fs2. split; [exact E|]. split; [exact Ho|]. split; [exact L1|]. split; [now apply L2|].
  intros k3 ix0 H0. destruct (L k3 ix0 H0) as (ix3 & E3 & M1 & _ & M2 & _). exists ix3. auto.
Qed.
(** Any number of workers and any number of added items: the trees that a load finds are
    those that were built, possibly some of them twice, and none is lost. *)
Theorem C61_reload_any_workers :
  forall fo c, CfgOK fo c -> 3 * ixb c <= vlen c ->
  forall h ix T nw fuel mfuel rfuel ix', build_call fo c h ix T nw fuel mfuel ->
  build_result fo c ix T nw fuel mfuel rfuel ix' ->
  maxK fo c < n_items ix -> rootsN (ib ix') <> [] ->
  forall k fs fl, exists ix2 fs2, save fo c k OsOk fs ix' fl = Ok (ix2, fs2, None) /\
    same_items fo c fs ix' fs2 ix2 /\
    lenN (rootsN (ib ix')) <= lenN (rootsN (ib ix2)) <= 2 * lenN (rootsN (ib ix')) /\
    (forall r2, In r2 (rootsN (ib ix2)) -> exists r, In r (rootsN (ib ix')) /\ same_tree fo c fs ix' fs2 ix2 r r2) /\
    (forall r, In r (rootsN (ib ix')) -> exists r2, In r2 (rootsN (ib ix2)) /\ same_tree fo c fs ix' fs2 ix2 r r2).
Proof.
  intros fo c OK Hv h ix T nw fuel mfuel rfuel ix' B R HK Hne k fs fl.
  destruct (result_after fo c OK _ _ _ _ _ _ _ _ B R) as (I & plan & A & _).
  destruct (save_ok fo c OK ix _ plan ix' I A Hv HK Hne k fs fl) as (ix2 & fs2 & E & _ & (L1 & L2 & _ & L3 & L4 & _) & _).
  exists ix2, fs2. auto 10.
Qed.

(** With several workers the number of trees can indeed change.  Two workers, one tree
    each: worker 0 has published its tree's root node (22) but not yet appended it to the
    list of roots when worker 1 runs to its end.  The list of roots is then [25; 22], the
    last tree node is root 25, and Load takes it for a third tree. *)
Definition io_end : list (prog unit) * bst :=
  go (cA 16) never 3000 0 (go (cA 16) never 3000 1 (go (cA 16) never 300 0
    (build_workers fops32 (cA 16) fx_ix fx_s0 2 2 100 100 100, fx_s0))).
Definition io_end_state : bst := Eval vm_compute in snd io_end.
Lemma io_end_eq : io_end = (map (fun _ => Ret tt) (map (trees_for_worker 2 2) (seq 0 2)), io_end_state).
Proof. vm_compute. reflexivity. Qed.
Definition io_multi : idx := Eval vm_compute in or_else fx_ix (build_post fops32 (cA 16) fx_ix io_end_state).
Lemma io_multi_result : build_result fops32 (cA 16) fx_ix 2 2 100 100 100 io_multi.
Proof.
  right. exists 2%Z, 8. split; [reflexivity|].
  exists (map (trees_for_worker 2 2) (seq 0 2)), fx_s0, (map (fun _ => Ret tt) (map (trees_for_worker 2 2) (seq 0 2))), io_end_state.
  split; [vm_compute; reflexivity|]. split; [reflexivity|]. split.
  - rewrite <- io_end_eq. unfold io_end. eapply steps_trans; [eapply steps_trans|]; apply go_sound.
  - split; [reflexivity|]. vm_compute. reflexivity.
Qed.
Theorem C61_two_workers_extra_tree :
  exists ix', build_call fops32 (cA 16) exq_items fx_ix 2 2 100 100 /\ build_result fops32 (cA 16) fx_ix 2 2 100 100 100 ix' /\
    rootsN (ib ix') = [25; 22] /\
    exists ix2 fs2, save fops32 (cA 16) GCMem OsOk no_files ix' 7 = Ok (ix2, fs2, None) /\ rootsN (ib ix2) = [27; 26; 25].
Proof.
  exists io_multi. split; [apply fx_call; lia|]. split; [apply io_multi_result|]. split; [vm_compute; reflexivity|].
  assert (H : match save fops32 (cA 16) GCMem OsOk no_files io_multi 7 with
              | Ok (ix2, fs2, None) => rootsN (ib ix2) = [27; 26; 25] | _ => False end) by (vm_compute; reflexivity).
  revert H. generalize (save fops32 (cA 16) GCMem OsOk no_files io_multi 7). intros [[[ix2 fs2] [e|]]|e] H; try contradiction.
  exists ix2, fs2. auto 10.
Qed.
(** The hypotheses of C47 are met by the three-tree index of [PropForest]. *)
Example C47_example :
  build_call fops32 (cA 16) exq_items fx_ix 3 1 100 100 /\ build_result fops32 (cA 16) fx_ix 3 1 100 100 100 fx_single /\
  3 * ixb (cA 16) <= vlen (cA 16) /\ maxK fops32 (cA 16) < n_items fx_ix /\
  3 <= lenN (present fops32 (last_added exq_items) (n_items fx_ix)) /\ rootsN (ib fx_single) = [22; 25; 28] /\
  match save fops32 (cA 16) MmapMem OsOk no_files fx_single 7 with
  | Ok (ix2, fs2, None) => rootsN (ib ix2) = [31; 30; 29] /\ n_items ix2 = 20
  | _ => False end.
Proof.
  split; [apply fx_call; lia|]. split; [apply fx_single_result|]. split; [vm_compute; discriminate|].
  split; [vm_compute; reflexivity|]. split; [vm_compute; discriminate|]. split; [vm_compute; reflexivity|].
  vm_compute. split; reflexivity.
Qed.

(** ** C48 *)
(** An exhaustive query (every tree searched to the end, a context with room for that)
    gives the same answer before and after Save, and after any later Load of the file. *)
Theorem C48_exhaustive_queries_survive_reload :
  forall fo c, CfgOK fo c -> is_float fo -> 3 * ixb c <= vlen c ->
  forall sortIx sortPairs, sort_slice N.ltb sortIx -> sort_slice (pair_less (flt fo) (feq fo)) sortPairs ->
  forall h ix T nw fuel mfuel rfuel ix', build_call fo c h ix T nw fuel mfuel ->
  build_result fo c ix T nw fuel mfuel rfuel ix' ->
  maxK fo c < n_items ix -> rootsN (ib ix') <> [] ->
  forall k fs fl, exists ix2 fs2, save fo c k OsOk fs ix' fl = Ok (ix2, fs2, None) /\
  forall k3 ix0 ix3, load fo c k3 fs2 ix0 fl = Ok (ix3, None) ->
  forall q n inspect bc qfuel, lenN q = vlen c -> all_num fo (last_added h) q ->
  (2 * Z.of_N (lenN (rootsN (ib ix')) * n_items ix) <= inspect)%Z ->
  2 * (lenN (rootsN (ib ix')) * n_items ix) <= lenN (c_nns bc) < 2 ^ iw c -> length (c_dist bc) = length (c_nns bc) ->
  (2 * length (rootsN (ib ix')) * (2 * N.to_nat (n_items ix) + 1) <= qfuel)%nat ->
  exists ids ds, exact_nearest fo c (last_added h) q (Z.to_nat n) ids ds /\
    answer fo (get_nns_by_vector fo c sortIx sortPairs qfuel fs ix' q n inspect bc) = Ok (ids, ds) /\
    answer fo (get_nns_by_vector fo c sortIx sortPairs qfuel fs2 ix2 q n inspect bc) = Ok (ids, ds) /\
    answer fo (get_nns_by_vector fo c sortIx sortPairs qfuel fs2 ix3 q n inspect bc) = Ok (ids, ds).
Proof.
  intros fo c OK FL Hv sortIx sortPairs HI HP h ix T nw fuel mfuel rfuel ix' B R HK Hne k fs fl.
  destruct (result_after fo c OK _ _ _ _ _ _ _ _ B R) as (I & plan & A & _).
  destruct (save_ok fo c OK ix _ plan ix' I A Hv HK Hne k fs fl) as (ix2 & fs2 & E & _ & L2 & L).
  exists ix2, fs2. split; [exact E|]. intros k3 ix0 ix3 E3 q n inspect bc qfuel Hq Hnum Hins Hc Hd Hf.
  assert (Hr0 : rnd (ib ix0) <> None).
  { intro X. unfold load, close in E3. rewrite X in E3. discriminate. }
  destruct (L k3 ix0 Hr0) as (ix3' & E3' & L3). rewrite E3 in E3'. injection E3' as <-.
  pose proof (after_forest fo c OK fs ix _ plan ix' Hv I A) as FO.
  pose proof (ixb_pos _ _ OK) as Hixb.
  assert (G : forall fsx ixx, forest fo c (view fsx ixx) (n_items ixx) (rootsN (ib ixx)) (last_added h) -> n_items ixx = n_items ix ->
    lenN (rootsN (ib ix')) <= lenN (rootsN (ib ixx)) <= 2 * lenN (rootsN (ib ix')) ->
    exists ids ds, exact_nearest fo c (last_added h) q (Z.to_nat n) ids ds /\
      answer fo (get_nns_by_vector fo c sortIx sortPairs qfuel fsx ixx q n inspect bc) = Ok (ids, ds)).
  { intros fsx ixx FX Hn [Hlo Hhi].
    assert (Hlim : the_limit ixx n inspect = inspect) by (unfold the_limit; replace (inspect =? -1)%Z with false by lia; reflexivity).
    destruct (forest_total fo c OK sortIx sortPairs HI qfuel fsx ixx (last_added h) q n inspect bc FX) as (ids & ds & bc' & Eq); try lia.
    - rewrite Hn. unfold lenN in *. nia.
    - right. rewrite Hn. nia.
    - exists ids, ds. split; [|rewrite Eq; reflexivity].
      eapply (forest_exhaustive fo c OK sortIx sortPairs HI HP) with (ix := ixx); eauto; [|lia|rewrite Hlim, Hn; nia].
      intro X. rewrite X, lenN_nil in Hlo. destruct (rootsN (ib ix')); [congruence|]. rewrite lenN_cons in Hlo. lia. }
  destruct L2 as (S2 & N2 & _ & _ & _ & F2). destruct L3 as (S3 & N3 & _ & _ & _ & F3).
  destruct (G fs ix' FO (bt_items _ _ _ _ _ _ A) ltac:(lia)) as (i1 & d1 & X1 & Y1).
  destruct (G fs2 ix2 F2 ltac:(rewrite (si_count _ _ _ _ _ _ S2); apply A) N2) as (i2 & d2 & X2 & Y2).
  destruct (G fs2 ix3 F3 ltac:(rewrite (si_count _ _ _ _ _ _ S3); apply A) N3) as (i3 & d3 & X3 & Y3).
  destruct (exact_nearest_unique _ _ _ _ _ _ _ _ _ FL Hnum X1 X2) as [<- <-].
  destruct (exact_nearest_unique _ _ _ _ _ _ _ _ _ FL Hnum X1 X3) as [<- <-].
  exists i1, d1. auto.
Qed.
(** The index that gains a tree, before and after. *)
Example C48_example :
  let bc := mkCtx (repeat 0 200) (repeat (f0 fops32, 0) 200) in
  maxK fops32 (cA 16) < n_items fx_ix /\ rootsN (ib io_multi) = [25; 22] /\ lenN exq_vec = vlen (cA 16) /\
  (forallb (fun i => match last_added exq_items i with
                     | Some v => feq fops32 (cos_gap fops32 exq_vec v) (cos_gap fops32 exq_vec v) | None => true end) (rangeN 20) = true) /\
  ids (get_nns_by_vector fops32 (cA 16) isortN isortP 400 no_files io_multi exq_vec 5 120 bc) = Ok [9; 12; 10; 8; 5] /\
  match save fops32 (cA 16) GCMem OsOk no_files io_multi 7 with
  | Ok (ix2, fs2, None) =>
      ids (get_nns_by_vector fops32 (cA 16) isortN isortP 400 fs2 ix2 exq_vec 5 120 bc) = Ok [9; 12; 10; 8; 5]
  | _ => False end.
Proof. vm_compute. repeat split. Qed.

Print Assumptions C47_save_load_keeps_items_and_trees.
Print Assumptions C61_reload_any_workers.
Print Assumptions C61_two_workers_extra_tree.
Print Assumptions C48_exhaustive_queries_survive_reload.
