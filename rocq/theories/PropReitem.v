(** Queries by item after Save and Load (C92). *)
From Verif Require Import Base Flt Layout Rng Sorts Alloc Prog Imbalance Dist Build Policy Index Search Spec ForestSpec BuildSpec RealSpec OrderSpec
  Lib LayoutProof FltProof MemProof StoreProof SearchProof QueryProof TreeProof PolicyProof BuildProof ForestProof
  NumProof AccProof AfterProof CutProof SmallProof PlaneProof TopProof IOProof SameProof DistProof WholeProof RoomProof OwnProof ReloadProof LoadedProof SelfProof
  Concrete PropSearch PropForest PropIO PropMore PropNum PropPlane PropWhole PropReload PropRoom PropLoaded PropSelf.
Open Scope N_scope.

(** ** C92 *)
(** GetNnsByItem, under the conditions of [C92_queries_survive_reload_moderate]. *)
Theorem C92_item_queries_survive_reload :
  forall fm c, is_fmt fm -> CfgOK (ops fm) c -> 3 * ixb c <= vlen c -> vlen c <= 2 ^ 20 ->
  forall sortIx sortPairs, sort_slice N.ltb sortIx -> sort_slice (pair_less (flt (ops fm)) (feq (ops fm))) sortPairs ->
  forall h ix T fuel mfuel rfuel ix', build_call (ops fm) c h ix T 1 fuel mfuel ->
  build_result (ops fm) c ix T 1 fuel mfuel rfuel ix' ->
  (forall i w, last_added h i = Some w -> moderate fm w) ->
  maxK (ops fm) c < n_items ix -> 3 <= lenN (present (ops fm) (last_added h) (n_items ix)) -> rootsN (ib ix') <> [] ->
  forall k fs fl, exists ix2 fs2, save (ops fm) c k OsOk fs ix' fl = Ok (ix2, fs2, None) /\
  forall k3 ix0 ix3, load (ops fm) c k3 fs2 ix0 fl = Ok (ix3, None) ->
  forall j n inspect bc qfuel, last_added h j <> None ->
  lenN (c_nns bc) < 2 ^ iw c -> length (c_dist bc) = length (c_nns bc) ->
  (the_limit ix' n inspect + Z.of_N (maxK (ops fm) c) - 1 <= Z.of_N (lenN (c_nns bc)))%Z \/
    lenN (rootsN (ib ix')) * n_items ix <= lenN (c_nns bc) ->
  (length (rootsN (ib ix')) * (2 * N.to_nat (n_items ix) + 1) <= qfuel)%nat ->
  exists ids ds,
    answer (ops fm) (get_nns_by_item (ops fm) c sortIx sortPairs qfuel fs ix' j n inspect bc) = Ok (ids, ds) /\
    answer (ops fm) (get_nns_by_item (ops fm) c sortIx sortPairs qfuel fs2 ix2 j n inspect bc) = Ok (ids, ds) /\
    answer (ops fm) (get_nns_by_item (ops fm) c sortIx sortPairs qfuel fs2 ix3 j n inspect bc) = Ok (ids, ds).
Proof.
  intros fm c FM OK Hv Hlen sortIx sortPairs HI HP h ix T fuel mfuel rfuel ix' B R HM HK H3 Hne k fs fl.
  destruct (C92_queries_survive_reload_moderate fm c FM OK Hv Hlen sortIx sortPairs HI HP h ix T fuel mfuel rfuel ix' B R HM HK H3 Hne k fs fl)
    as (ix2 & fs2 & E & L). exists ix2, fs2. split; [exact E|]. intros k3 ix0 ix3 E3 j n inspect bc qfuel Hj Hw Hd Hroom Hf.
  destruct (last_added h j) as [q|] eqn:Ej; [|congruence]. pose proof (len_of fm c OK h ix ix' T 1 fuel mfuel rfuel B R j q Ej) as Lq.
  assert (G : forall fsq ixq, ixq = ix' \/ from_file (ops fm) c fs ix' fsq ixq -> get_item (ops fm) c fsq ixq j = Ok q).
  { intros fsq ixq H. eapply (exhaustive_item fm c OK Hv h ix ix' T 1%nat fuel mfuel rfuel B R Hne []); [|exact Ej].
    left. split; [exact HK|]. split; [|cbn; apply Z.le_refl]. destruct H as [->|H]; [now left|right; eauto]. }
  assert (F2 : from_file (ops fm) c fs ix' fs2 ix2) by (exists k, fl, ix2; auto).
  assert (F3 : from_file (ops fm) c fs ix' fs2 ix3) by (exists k, fl, ix2; split; [exact E|right; eauto]).
  rewrite (C34_by_item_is_by_vector (ops fm) c sortIx sortPairs qfuel fs ix' j q) by (apply G; now left).
  rewrite (C34_by_item_is_by_vector (ops fm) c sortIx sortPairs qfuel fs2 ix2 j q) by (apply G; now right).
  rewrite (C34_by_item_is_by_vector (ops fm) c sortIx sortPairs qfuel fs2 ix3 j q) by (apply G; now right).
  exact (L k3 ix0 ix3 E3 q n inspect bc qfuel Lq (HM j q Ej) Hw Hd Hroom Hf).
Qed.
Example C92_item_example :
  last_added exq_items 12 <> None /\
  ids (get_nns_by_item fops32 (cA 16) isortN isortP 400 no_files fx_single 12 3 4 rl_bc) = Ok [11; 16; 19] /\
  match save fops32 (cA 16) MmapMem OsOk no_files fx_single 7 with
  | Ok (ix2, fs2, None) => ids (get_nns_by_item fops32 (cA 16) isortN isortP 400 fs2 ix2 12 3 4 rl_bc) = Ok [11; 16; 19]
  | _ => False end.
Proof.
  split.
  - intro X. assert (Y : match last_added exq_items 12 with Some _ => true | None => false end = true) by (vm_compute; reflexivity).
    rewrite X in Y. discriminate.
  - split; vm_compute; reflexivity.
Qed.
Print Assumptions C92_item_queries_survive_reload.
