(** The entries that a query notes are determined (C84); an index built by one worker
    answers every query alike before and after Save and Load (C92). *)
From Verif Require Import Base Flt Layout Rng Sorts Alloc Prog Imbalance Dist Build Policy Index Search Spec ForestSpec BuildSpec RealSpec OrderSpec
  Lib LayoutProof FltProof MemProof StoreProof SearchProof QueryProof PolicyProof BuildProof ForestProof TopProof
  AfterProof IOProof SameProof DistProof OrderProof VisitProof ReloadProof Concrete PropSearch PropForest PropIO PropNum PropPlane.
From Coq Require Import Reals Sorted.
Close Scope R_scope. Open Scope N_scope.

(** ** C84 *)
(** The order of search of [C84_search_order] leaves no choice: the entries noted, in
    their order, depend on the forest, the query vector and the limit only. *)
Theorem C84_order_is_determined :
  forall fo c, CfgOK fo c -> is_float fo ->
  forall v ni q roots limit ys ys', all_sides fo c (not_nan fo) v roots q ->
  visits fo c v ni q limit (at_start fo roots) ys -> visits fo c v ni q limit (at_start fo roots) ys' -> ys' = ys.
Proof. intros fo c OK FL v ni q roots limit ys ys'. exact (visits_determined fo c FL (maxK_ge2 fo c OK) v ni q roots limit ys ys'). Qed.

(** ** C92 *)
Lemma sub_splits fo c v w i l r : sub_view v w -> splits fo c v i l r -> splits fo c w i l r.
Proof. intros S H. destruct H as [bs l r R1 K1 C1]. econstructor; eauto. Qed.
Lemma sub_descends fo c v w i d j : sub_view v w -> descends fo c v i d j -> descends fo c w i d j.
Proof.
  intros S H. induction H as [i|i l r d j Hs Hd IH|i l r d j Hs Hd IH]; [apply de_here|eapply de_left|eapply de_right]; eauto using sub_splits.
Qed.
(** One worker, more items than fit a bucket, at least three of them added, at least one
    tree; a query vector with finite side values, a context with room for the query.  The
    query, whatever number of entries it inspects, gives the same ids and distances before
    Save, after Save, and after any later Load of the file. *)
Theorem C92_queries_survive_reload :
  forall fo c, CfgOK fo c -> is_float fo -> 3 * ixb c <= vlen c ->
  forall sortIx sortPairs, sort_slice N.ltb sortIx -> sort_slice (pair_less (flt fo) (feq fo)) sortPairs ->
  forall h ix T fuel mfuel rfuel ix', build_call fo c h ix T 1 fuel mfuel ->
  build_result fo c ix T 1 fuel mfuel rfuel ix' ->
  maxK fo c < n_items ix -> 3 <= lenN (present fo (last_added h) (n_items ix)) -> rootsN (ib ix') <> [] ->
  forall k fs fl, exists ix2 fs2, save fo c k OsOk fs ix' fl = Ok (ix2, fs2, None) /\
  forall k3 ix0 ix3, load fo c k3 fs2 ix0 fl = Ok (ix3, None) ->
  forall q n inspect bc qfuel, lenN q = vlen c -> all_sides fo c (finite fo) (view fs ix') (rootsN (ib ix')) q ->
  lenN (c_nns bc) < 2 ^ iw c -> length (c_dist bc) = length (c_nns bc) ->
  (the_limit ix' n inspect + Z.of_N (maxK fo c) - 1 <= Z.of_N (lenN (c_nns bc)))%Z \/
    lenN (rootsN (ib ix')) * n_items ix <= lenN (c_nns bc) ->
  (length (rootsN (ib ix')) * (2 * N.to_nat (n_items ix) + 1) <= qfuel)%nat ->
  exists ids ds,
    answer fo (get_nns_by_vector fo c sortIx sortPairs qfuel fs ix' q n inspect bc) = Ok (ids, ds) /\
    answer fo (get_nns_by_vector fo c sortIx sortPairs qfuel fs2 ix2 q n inspect bc) = Ok (ids, ds) /\
    answer fo (get_nns_by_vector fo c sortIx sortPairs qfuel fs2 ix3 q n inspect bc) = Ok (ids, ds).
Proof.
  intros fo c OK FL Hv sortIx sortPairs HI HP h ix T fuel mfuel rfuel ix' B R HK H3 Hne k fs fl.
  destruct (result_after fo c OK _ _ _ _ _ _ _ _ B R) as (I & plan & A & _ & _ & Hpl).
  destruct (reload_save fo c OK ix _ plan ix' I A Hv HK Hne k fs fl Hpl H3) as (ix2 & fs2 & E & L2 & L).
  exists ix2, fs2. split; [exact E|]. intros k3 ix0 ix3 E3 q n inspect bc qfuel Hq AS Hw Hd Hroom Hf.
  assert (Hr0 : rnd (ib ix0) <> None).
  { intro X. unfold load, close in E3. rewrite X in E3. discriminate. }
  destruct (L k3 ix0 Hr0) as (ix3' & E3' & L3). rewrite E3 in E3'. injection E3' as <-.
  destruct (save_ok fo c OK ix _ plan ix' I A Hv HK Hne k fs fl) as (ix2' & fs2' & E' & _ & (_ & _ & _ & _ & _ & F2) & M).
  rewrite E in E'. injection E' as <- <-. destruct (M k3 ix0 Hr0) as (ix3' & E3' & (_ & _ & _ & _ & _ & F3)).
  rewrite E3 in E3'. injection E3' as <-.
  pose proof (after_forest fo c OK fs ix _ plan ix' Hv I A) as F1.
  pose proof (ixb_pos _ _ OK) as Hixb. pose proof (bt_items _ _ _ _ _ _ A) as N1.
  destruct (forest_total fo c OK sortIx sortPairs HI qfuel fs ix' _ q n inspect bc F1 ltac:(lia) Hq Hw Hd) as (ids & ds & bc1 & Q1); [now rewrite N1|now rewrite N1|].
  destruct (nodes_view_sub fo c fs ix _ plan ix' A) as [Sub|X].
  2:{ pose proof (n_ge fo c ix _ plan ix' A Hv HK Hne). lia. }
  assert (AS0 : all_sides fo c (finite fo) (nodes_view fo c ix') (rootsN (ib ix')) q).
  { intros r d i l r' bs H1 H2 H4 H5. eapply AS; eauto using sub_splits, sub_descends. }
  assert (G : forall ixx, reloaded fo c ix ix' fs2 ixx -> forest fo c (view fs2 ixx) (n_items ixx) (rootsN (ib ixx)) (last_added h) ->
    answer fo (get_nns_by_vector fo c sortIx sortPairs qfuel fs2 ixx q n inspect bc) = Ok (ids, ds)).
  { intros ixx LX FX. pose proof LX as (NX & RX & SX).
    assert (Lr : length (rootsN (ib ixx)) = length (rootsN (ib ix'))) by (rewrite RX; unfold copies; apply length_down).
    destruct (forest_total fo c OK sortIx sortPairs HI qfuel fs2 ixx _ q n inspect bc FX ltac:(lia) Hq Hw Hd) as (ids2 & ds2 & bc2 & Q2).
    - rewrite NX, Lr. exact Hf.
    - rewrite NX. unfold the_limit, lenN in *. rewrite Lr. exact Hroom.
    - destruct (reload_query fo c OK FL ix _ plan ix' I A Hv HK Hne q AS0 (bt_up _ _ _ _ _ _ A Hpl) sortIx sortPairs HI
        _ _ _ _ _ _ _ _ _ _ _ _ _ NX RX SX Hw Q1 Q2) as [-> ->]. now rewrite Q2. }
  exists ids, ds. split; [now rewrite Q1|]. split; apply G; assumption.
Qed.
(** So it is for every query vector and every index of vectors of moderate size. *)
Theorem C92_queries_survive_reload_moderate :
  forall fm c, is_fmt fm -> CfgOK (ops fm) c -> 3 * ixb c <= vlen c -> vlen c <= 2 ^ 20 ->
  forall sortIx sortPairs, sort_slice N.ltb sortIx -> sort_slice (pair_less (flt (ops fm)) (feq (ops fm))) sortPairs ->
  forall h ix T fuel mfuel rfuel ix', build_call (ops fm) c h ix T 1 fuel mfuel ->
  build_result (ops fm) c ix T 1 fuel mfuel rfuel ix' ->
  (forall i w, last_added h i = Some w -> moderate fm w) ->
  maxK (ops fm) c < n_items ix -> 3 <= lenN (present (ops fm) (last_added h) (n_items ix)) -> rootsN (ib ix') <> [] ->
  forall k fs fl, exists ix2 fs2, save (ops fm) c k OsOk fs ix' fl = Ok (ix2, fs2, None) /\
  forall k3 ix0 ix3, load (ops fm) c k3 fs2 ix0 fl = Ok (ix3, None) ->
  forall q n inspect bc qfuel, lenN q = vlen c -> moderate fm q ->
  lenN (c_nns bc) < 2 ^ iw c -> length (c_dist bc) = length (c_nns bc) ->
  (the_limit ix' n inspect + Z.of_N (maxK (ops fm) c) - 1 <= Z.of_N (lenN (c_nns bc)))%Z \/
    lenN (rootsN (ib ix')) * n_items ix <= lenN (c_nns bc) ->
  (length (rootsN (ib ix')) * (2 * N.to_nat (n_items ix) + 1) <= qfuel)%nat ->
  exists ids ds,
    answer (ops fm) (get_nns_by_vector (ops fm) c sortIx sortPairs qfuel fs ix' q n inspect bc) = Ok (ids, ds) /\
    answer (ops fm) (get_nns_by_vector (ops fm) c sortIx sortPairs qfuel fs2 ix2 q n inspect bc) = Ok (ids, ds) /\
    answer (ops fm) (get_nns_by_vector (ops fm) c sortIx sortPairs qfuel fs2 ix3 q n inspect bc) = Ok (ids, ds).
Proof.
  intros fm c FM OK Hv Hlen sortIx sortPairs HI HP h ix T fuel mfuel rfuel ix' B R HM HK H3 Hne k fs fl.
  destruct (C92_queries_survive_reload (ops fm) c OK (fmt_is_float fm FM) Hv sortIx sortPairs HI HP h ix T fuel mfuel rfuel ix' B R HK H3 Hne k fs fl)
    as (ix2 & fs2 & E & L). exists ix2, fs2. split; [exact E|]. intros k3 ix0 ix3 E3 q n inspect bc qfuel Hq Mq Hw Hd Hroom Hf.
  apply (L k3 ix0 ix3 E3 q n inspect bc qfuel); auto.
  exact (sides_finite fm c FM OK Hv Hlen h ix T 1 fuel mfuel rfuel ix' B R HM fs q Mq Hq).
Qed.

(** The three-tree index of [PropForest], one worker: a query for 3 items that inspects
    4 entries only (so some items are missed), before and after Save. *)
Definition rl_bc : ctx (F fops32) := mkCtx (repeat 0 200) (repeat (f0 fops32, 0) 200).
Example C92_example :
  build_call fops32 (cA 16) exq_items fx_ix 3 1 100 100 /\ build_result fops32 (cA 16) fx_ix 3 1 100 100 100 fx_single /\
  (forall i w, last_added exq_items i = Some w -> moderate fmt32 w) /\ moderate fmt32 exq_vec /\
  maxK fops32 (cA 16) < n_items fx_ix /\ 3 <= lenN (present fops32 (last_added exq_items) (n_items fx_ix)) /\
  rootsN (ib fx_single) = [22; 25; 28] /\
  ids (get_nns_by_vector fops32 (cA 16) isortN isortP 400 no_files fx_single exq_vec 3 4 rl_bc) = Ok [11; 16; 19] /\
  match save fops32 (cA 16) MmapMem OsOk no_files fx_single 7 with
  | Ok (ix2, fs2, None) => ids (get_nns_by_vector fops32 (cA 16) isortN isortP 400 fs2 ix2 exq_vec 3 4 rl_bc) = Ok [11; 16; 19]
  | _ => False end.
Proof.
  split; [apply fx_call; lia|]. split; [apply fx_single_result|].
  split; [intros j v H; apply tame_moderate; now apply (exq_tame j v)|].
  split; [apply tame_moderate, fv_tame; [cbn; lia|vm_compute; reflexivity|vm_compute; reflexivity]|].
  split; [vm_compute; reflexivity|]. split; [vm_compute; discriminate|]. split; [vm_compute; reflexivity|].
  split; [vm_compute; reflexivity|]. vm_compute. reflexivity.
Qed.
(** With two workers the order of the trees can change, and another one appear: then the
    answers change.  Same vectors, two trees, two workers: GetNnsByVector for 3 items with
    the default number of entries to inspect. *)
Theorem C92_two_workers_answers_change :
  exists ix', build_call fops32 (cA 16) exq_items fx_ix 2 2 100 100 /\ build_result fops32 (cA 16) fx_ix 2 2 100 100 100 ix' /\
    ids (get_nns_by_vector fops32 (cA 16) isortN isortP 400 no_files ix' exq_vec 3 (-1) rl_bc) = Ok [11; 16; 19] /\
    exists ix2 fs2, save fops32 (cA 16) GCMem OsOk no_files ix' 7 = Ok (ix2, fs2, None) /\
      ids (get_nns_by_vector fops32 (cA 16) isortN isortP 400 fs2 ix2 exq_vec 3 (-1) rl_bc) = Ok [9; 12; 10].
Proof.
  exists io_multi. split; [apply fx_call; lia|]. split; [apply io_multi_result|]. split; [vm_compute; reflexivity|].
  assert (H : match save fops32 (cA 16) GCMem OsOk no_files io_multi 7 with
              | Ok (ix2, fs2, None) => ids (get_nns_by_vector fops32 (cA 16) isortN isortP 400 fs2 ix2 exq_vec 3 (-1) rl_bc) = Ok [9; 12; 10]
              | _ => False end) by (vm_compute; reflexivity).
  revert H. generalize (save fops32 (cA 16) GCMem OsOk no_files io_multi 7). intros [[[ix2 fs2] [e|]]|e] H; try contradiction.
  exists ix2, fs2. auto.
Qed.

Print Assumptions C84_order_is_determined.
Print Assumptions C92_queries_survive_reload.
Print Assumptions C92_queries_survive_reload_moderate.
Print Assumptions C92_two_workers_answers_change.
