(** Properties of the index that Build leaves behind, for both policies, every schedule
    and every random outcome (C07, C08, C10, C12, C22), and of queries on it (C24, C25,
    C27, C31, C34 from the additions to the answer). *)
From Verif Require Import Base Flt Layout Rng Sorts Alloc Prog Imbalance Dist Build Policy Index Search Spec ForestSpec BuildSpec
  Lib LayoutProof FltProof MemProof StoreProof SearchProof QueryProof RoundProof PolicyProof BuildProof ForestProof
  AfterProof DrawProof SchedProof Concrete PropSearch.
From Coq Require Import Permutation Sorted.
Open Scope N_scope.

(** ** A concrete build with each policy *)
(** The 20 items of [exq_items] (vectors of length 16, so that 20 do not fit a bucket). *)
Definition or_else {A} (d : A) (r : res A) : A := match r with Ok x => x | Er _ => d end.
(** [Eval vm_compute]: the definitions below are values, so that later checks need not
    repeat the computation. *)
Definition fx_ix : idx := Eval vm_compute in or_else (ix0 (cA 16)) (add_all fops32 (cA 16) (ix0 (cA 16)) exq_items).
Lemma fx_call T nw : (-1 <= T <= 4)%Z -> (0 < nw <= 4)%nat -> build_call fops32 (cA 16) exq_items fx_ix T nw 100 100.
Proof.
  intros HT Hw. assert (Hn : n_items fx_ix = 20) by (vm_compute; reflexivity).
  constructor; rewrite ?Hn.
  - vm_compute. discriminate.
  - unfold hist_ok. apply Forall_forall. intros [i v] H. unfold exq_items in H. apply in_map_iff in H. destruct H as (j & H & Hj).
    injection H as <- <-. apply in_rangeN in Hj. cbn [fst snd]. split.
    + eapply cap_ok_mono with (n := 20); [lia|]. vm_compute. reflexivity.
    + unfold lenN. unfold pad, fv. rewrite map_length, app_length, repeat_length. reflexivity.
  - exists (kiss_new 0), 0. vm_compute. reflexivity.
  - lia.
  - lia.
  - lia.
  - eapply cap_ok_mono with (n := 1000); [|vm_compute; reflexivity]. unfold forest_room. destruct (T =? -1)%Z; nia.
  - unfold enough_fuel. lia.
Qed.
Definition fx_single : idx := Eval vm_compute in or_else fx_ix (build_single fops32 (cA 16) 100 100 100 fx_ix 3).
Lemma fx_single_run : build_single fops32 (cA 16) 100 100 100 fx_ix 3 = Ok fx_single.
Proof. vm_compute. reflexivity. Qed.
Lemma fx_single_result : build_result fops32 (cA 16) fx_ix 3 1 100 100 100 fx_single.
Proof. left. split; [reflexivity|]. apply fx_single_run. Qed.
(** Two workers, three trees: worker 1 starts and runs until it draws, then worker 0
    runs to its end, then worker 1. *)
Definition fx_s0 : bst := Eval vm_compute in or_else (ib fx_ix) (build_pre fops32 (cA 16) fx_ix).
Definition fx_end : list (prog unit) * bst :=
  go (cA 16) never 3000 1 (go (cA 16) never 3000 0 (go (cA 16) drawing 3000 1
    (build_workers fops32 (cA 16) fx_ix fx_s0 3 2 100 100 100, fx_s0))).
Definition fx_end_state : bst := Eval vm_compute in snd fx_end.
Lemma fx_end_eq : fx_end = (map (fun _ => Ret tt) (map (trees_for_worker 3 2) (seq 0 2)), fx_end_state).
Proof. vm_compute. reflexivity. Qed.
Definition fx_multi : idx := Eval vm_compute in or_else fx_ix (build_post fops32 (cA 16) fx_ix fx_end_state).
Lemma fx_multi_result : build_result fops32 (cA 16) fx_ix 3 2 100 100 100 fx_multi.
Proof.
  right. exists 2%Z, 8. split; [reflexivity|].
  exists (map (trees_for_worker 3 2) (seq 0 2)), fx_s0, (map (fun _ => Ret tt) (map (trees_for_worker 3 2) (seq 0 2))), fx_end_state.
  split; [vm_compute; reflexivity|]. split; [reflexivity|]. split.
  - rewrite <- fx_end_eq. unfold fx_end. eapply steps_trans; [eapply steps_trans|]; apply go_sound.
  - split; [reflexivity|]. vm_compute. reflexivity.
Qed.
Example builds_meet_hypotheses :
  build_call fops32 (cA 16) exq_items fx_ix 3 1 100 100 /\ build_result fops32 (cA 16) fx_ix 3 1 100 100 100 fx_single /\
  build_call fops32 (cA 16) exq_items fx_ix 3 2 100 100 /\ build_result fops32 (cA 16) fx_ix 3 2 100 100 100 fx_multi.
Proof.
  split; [apply fx_call; lia|]. split; [apply fx_single_result|]. split; [apply fx_call; lia|]. apply fx_multi_result.
Qed.

(** ** C07 *)
Theorem C07_build_keeps_items :
  forall fo c, CfgOK fo c ->
  forall h ix T nw fuel mfuel rfuel ix', build_call fo c h ix T nw fuel mfuel ->
  build_result fo c ix T nw fuel mfuel rfuel ix' ->
  n_items ix' = n_items ix /\
  (forall fs i, i < n_items ix -> exists v, get_item fo c fs ix i = Ok v /\ get_item fo c fs ix' i = Ok v) /\
  (forall fs i v, last_added h i = Some v -> get_item fo c fs ix' i = Ok v).
Proof.
  intros fo c OK h ix T nw fuel mfuel rfuel ix' B R.
  destruct (result_after fo c OK _ _ _ _ _ _ _ _ B R) as (I & plan & A & _).
  assert (G : forall fs i, i < n_items ix -> get_item fo c fs ix' i =
    Ok (match last_added h i with Some v => v | None => map (dec fo) (repeat 0 (N.to_nat (vlen c))) end)).
  { intros fs i Hi. destruct (after_item fo c OK (view fs ix') ix _ plan ix' i I A (after_agrees fo c fs ix _ plan ix' A) Hi) as (bs & Hr & IB).
    rewrite (get_item_node fo c OK _ _ _ _ Hr). cbn [snode_of s_vec]. f_equal. apply IB. }
  split; [apply A|]. split.
  - intros fs i Hi. rewrite (G fs i Hi), (get_item_spec fo c OK ix _ fs i I Hi). eauto.
  - intros fs i v Hv. rewrite G, Hv by (eapply ii_ext; eauto). reflexivity.
Qed.

(** ** C08 *)
(** Every tree of a built index lists every added item exactly once and nothing else,
    when the index is larger than one bucket or has no holes.  The node copied by
    CopyNode must contain the whole header: 3 index words <= vectorLength bytes. *)
Theorem C08_every_tree_lists_every_item_once :
  forall fo c, CfgOK fo c -> 3 * ixb c <= vlen c ->
  forall h ix T nw fuel mfuel rfuel ix', build_call fo c h ix T nw fuel mfuel ->
  build_result fo c ix T nw fuel mfuel rfuel ix' ->
  maxK fo c < n_items ix \/ (forall i, i < n_items ix -> last_added h i <> None) ->
  forall fs r, In r (rootsN (ib ix')) ->
  exists xs m, reach fo c (view fs ix') (n_items ix') r xs m /\
    NoDup xs /\ (forall i, In i xs <-> last_added h i <> None) /\
    (forall ys k, reach fo c (view fs ix') (n_items ix') r ys k -> ys = xs).
Proof.
  intros fo c OK Hv h ix T nw fuel mfuel rfuel ix' B R Hh fs r Hr.
  destruct (result_after fo c OK _ _ _ _ _ _ _ _ B R) as (I & plan & A & _).
  pose proof (after_forest fo c OK fs ix _ plan ix' Hv I A) as FO.
  destruct (fr_tree _ _ _ _ _ _ FO r Hr) as (xs & m & TL). exists xs, m.
  destruct (tl_exact _ _ _ _ _ _ _ _ TL) as [H1 H2]; [rewrite (bt_items _ _ _ _ _ _ A); exact Hh|].
  split; [apply TL|]. split; [exact H1|]. split.
  - intro i. split; [apply H2|]. intro Hi. destruct (last_added h i) as [w|] eqn:E; [|congruence]. eapply tl_all; eauto.
  - intros ys k Hy. symmetry. eapply (reach_fun fo c OK); [apply TL|exact Hy].
Qed.
(** Without that condition (an index that fits one bucket and has holes) still every
    added item is listed by every tree and nothing but slots of the index is. *)
Theorem C08_small_index_with_holes :
  forall fo c, CfgOK fo c -> 3 * ixb c <= vlen c ->
  forall h ix T nw fuel mfuel rfuel ix', build_call fo c h ix T nw fuel mfuel ->
  build_result fo c ix T nw fuel mfuel rfuel ix' ->
  forall fs r, In r (rootsN (ib ix')) ->
  exists xs m, reach fo c (view fs ix') (n_items ix') r xs m /\ lenN xs <= n_items ix /\
    (forall i, last_added h i <> None -> In i xs) /\ (forall i, In i xs -> i < n_items ix).
Proof.
  intros fo c OK Hv h ix T nw fuel mfuel rfuel ix' B R fs r Hr.
  destruct (result_after fo c OK _ _ _ _ _ _ _ _ B R) as (I & plan & A & _).
  pose proof (after_forest fo c OK fs ix _ plan ix' Hv I A) as FO.
  destruct (fr_tree _ _ _ _ _ _ FO r Hr) as (xs & m & TL). exists xs, m. rewrite <- (bt_items _ _ _ _ _ _ A).
  split; [apply TL|]. split; [apply TL|]. split; [|apply TL].
  intros i Hi. destruct (last_added h i) as [w|] eqn:E; [|congruence]. eapply tl_all; eauto.
Qed.
(** The condition is needed: items 0 and 2 added, slot 1 never; the only tree lists
    item 0 twice. *)
Theorem C08_hole_repeats_item_0 :
  exists ix, built (cA 12) [(0, pad 12 [1]%Z); (2, pad 12 [2]%Z)] 1 = Ok ix /\
    exists r, rootsN (ib ix) = [r] /\ reach fops32 (cA 12) (view no_files ix) (n_items ix) r [0; 2; 0] 1.
Proof.
  apply ok_intro2 with (Q := fun ix => match rootsN (ib ix) with
    | [r] => listing fops32 (cA 12) 5 (view no_files ix) (n_items ix) r = Some ([0; 2; 0], 1%nat) | _ => False end).
  - vm_compute. reflexivity.
  - intros ix H. destruct (rootsN (ib ix)) as [|r [|? ?]]; try contradiction. exists r. split; [reflexivity|].
    eapply listing_sound. exact H.
Qed.

(** ** C10 *)
Theorem C10_exact_number_of_trees :
  forall fo c, CfgOK fo c ->
  forall h ix T nw fuel mfuel rfuel ix', build_call fo c h ix T nw fuel mfuel -> (0 <= T)%Z ->
  build_result fo c ix T nw fuel mfuel rfuel ix' ->
  Z.of_N (lenN (rootsN (ib ix'))) = T /\ NoDup (rootsN (ib ix')).
Proof.
  intros fo c OK h ix T nw fuel mfuel rfuel ix' B HT R.
  destruct (result_after fo c OK _ _ _ _ _ _ _ _ B R) as (I & plan & A & _ & P & _).
  destruct (P HT) as [P1 P2]. split; [|apply A]. rewrite (bt_count _ _ _ _ _ _ A P1). exact P2.
Qed.
(** The shares of the workers in exact arithmetic. *)
Theorem C10_shares_add_up :
  forall t n, (0 <= t)%Z -> (0 < n)%nat -> (t + Z.of_nat n < 2 ^ 53)%Z ->
  sumZ (map (trees_for_worker t n) (seq 0 n)) = t.
Proof. exact plan_sum. Qed.
Example C10_example :
  lenN (rootsN (ib fx_single)) = 3 /\ lenN (rootsN (ib fx_multi)) = 3 /\
  map (trees_for_worker 10 4) (seq 0 4) = [2; 2; 3; 3]%Z.
Proof. split; [|split]; vm_compute; reflexivity. Qed.

(** ** C12 *)
(** With the automatic tree count, apart from the items and the copies of the roots at
    the end the node memory holds at least as many nodes as there are items. *)
Theorem C12_automatic_count_reached :
  forall fo c, CfgOK fo c ->
  forall h ix nw fuel mfuel rfuel ix', build_call fo c h ix (-1) nw fuel mfuel ->
  build_result fo c ix (-1) nw fuel mfuel rfuel ix' ->
  n_items ix <= nn (ib ix') - n_items ix - lenN (rootsN (ib ix')) /\
  (n_items ix <> 0 -> rootsN (ib ix') <> []).
Proof.
  intros fo c OK h ix nw fuel mfuel rfuel ix' B R.
  destruct (result_after fo c OK _ _ _ _ _ _ _ _ B R) as (I & plan & A & P & _). specialize (P eq_refl).
  destruct (bt_copies _ _ _ _ _ _ A) as (n & H1 & _ & H2 & _). specialize (H2 P). split; [lia|].
  intro Hn. apply (bt_auto _ _ _ _ _ _ A); [lia|exact P].
Qed.
(** Five one-dimensional items (three fit a bucket). *)
Definition auto_items : list (N * list (F fops32)) := map (fun i => (i, fv [Z.of_N i + 1]%Z)) [2; 1; 0; 3; 4].
Definition auto_ix : idx := or_else (ix0 (cA 1)) (add_all fops32 (cA 1) (ix0 (cA 1)) auto_items).
Definition auto_built : idx := or_else auto_ix (build_single fops32 (cA 1) 10 10 100 auto_ix (-1)).
Example C12_example :
  build_call fops32 (cA 1) auto_items auto_ix (-1) 1 10 10 /\
  build_result fops32 (cA 1) auto_ix (-1) 1 10 10 100 auto_built /\
  lenN (rootsN (ib auto_built)) = 2 /\ nn (ib auto_built) = 13.
Proof.
  assert (Hn : n_items auto_ix = 5) by (vm_compute; reflexivity).
  split; [|split; [left; split; [reflexivity|vm_compute; reflexivity]|split; vm_compute; reflexivity]].
  constructor; rewrite ?Hn.
  - vm_compute. discriminate.
  - unfold hist_ok, auto_items. cbn [map]. repeat (constructor; [split; vm_compute; reflexivity|]). constructor.
  - exists (kiss_new 0), 0. vm_compute. reflexivity.
  - lia.
  - lia.
  - lia.
  - vm_compute. reflexivity.
  - vm_compute. lia.
Qed.

(** ** C22 *)
(** A split whose imbalance is accepted has two non-empty sides. *)
Theorem C22_accepted_split_has_two_sides :
  forall l r, l < 2 ^ 64 -> r < 2 ^ 64 -> split_usable l r = true -> l <> 0 /\ r <> 0.
Proof. exact usable_nonempty. Qed.
Theorem C22_good_split_is_usable :
  forall l r, l < 2 ^ 64 -> r < 2 ^ 64 -> split_good l r = true -> split_usable l r = true.
Proof. exact good_usable. Qed.
(** Whatever the state of the randomising loop, the next round can end it: there are
    numbers the generator may draw (at most one per node) after which the sizes are
    acceptable. *)
Theorem C22_randomising_can_end :
  forall fo c, CfgOK fo c ->
  forall fuel nodes m cur, 2 <= lenN nodes < 2 ^ 64 ->
  exists ds m' lr, (length ds <= length nodes)%nat /\ Forall (fun d => d < 2 ^ iw c) ds /\
    drawn (randomise fo c (S fuel) nodes m cur) ds = Some (m', lr) /\
    split_usable (lenN (fst lr)) (lenN (snd lr)) = true.
Proof.
  intros fo c OK fuel nodes m cur Hn. destruct (randomise_ends fo c fuel nodes m cur Hn) as (bits & m' & lr & H1 & H2 & H3).
  exists (map bit bits), m', lr. split; [now rewrite map_length|]. split; [|auto].
  apply Forall_forall. intros d Hd. apply in_map_iff in Hd. destruct Hd as (b & <- & _). apply bit_lt. apply OK.
Qed.
(** The recursion of makeTree is not deeper than the number of items: with [mfuel] as
    small as that, Build fails in no way but by the bound on random retries. *)
Theorem C22_depth_below_items :
  forall fo c, CfgOK fo c ->
  forall h ix T fuel rfuel, build_call fo c h ix T 1 fuel (Nat.max 1 (N.to_nat (n_items ix))) ->
  forall e, build_single fo c fuel (Nat.max 1 (N.to_nat (n_items ix))) rfuel ix T = Er e -> e = Unlucky.
Proof.
  intros fo c OK h ix T fuel rfuel B e E. destruct (bc_added _ _ _ _ _ _ _ _ B) as (r & hint & Ea).
  destruct (build_single_built fo c OK r hint h ix T fuel (Nat.max 1 (N.to_nat (n_items ix))) rfuel) as [(ix1 & E1 & _)|E1]; try apply B; [exact Ea| |]; congruence.
Qed.
Example C22_example :
  split_usable 1 99 = false /\ split_usable 1 98 = true /\ split_good 1 19 = false /\ split_good 1 18 = true /\
  split_usable 0 5 = false /\ split_usable 5 0 = false.
Proof. vm_compute. repeat split. Qed.
Example C22_depth_example :
  build_call fops32 (cA 16) exq_items fx_ix 3 1 100 (Nat.max 1 (N.to_nat (n_items fx_ix))).
Proof.
  assert (Hn : n_items fx_ix = 20) by (vm_compute; reflexivity). destruct (fx_call 3 1) as [H1 H2 H3 H4 H5 H6 H7 H8]; [lia|lia|].
  constructor; auto. rewrite Hn. unfold enough_fuel. lia.
Qed.

(** ** C24, C25: from the additions to the answer *)
(** On an index that was filled by [h] and built, every query with a vector of the right
    length that returns gives distinct ids of added items, at most numReturn, each with
    the distance of its vector to the query, in the order of (distance before
    normalisation, id). *)
Theorem C24_C25_built_index :
  forall fo c, CfgOK fo c -> is_float fo -> 3 * ixb c <= vlen c ->
  forall sortIx sortPairs, sort_slice N.ltb sortIx -> sort_slice (pair_less (flt fo) (feq fo)) sortPairs ->
  forall h ix T nw fuel mfuel rfuel ix', build_call fo c h ix T nw fuel mfuel ->
  build_result fo c ix T nw fuel mfuel rfuel ix' ->
  forall qfuel fs q n inspect bc ids ds bc', lenN q = vlen c -> lenN (c_nns bc) < 2 ^ iw c ->
  get_nns_by_vector fo c sortIx sortPairs qfuel fs ix' q n inspect bc = Ok (ids, ds, bc') ->
  NoDup ids /\ length ids = length ds /\ (Z.of_nat (length ids) <= Z.max 0 n)%Z /\
  (forall k id, nth_error ids k = Some id ->
     exists v, last_added h id = Some v /\ nth_error ds k = Some (vec_distance fo c q v)) /\
  (all_num fo (last_added h) q ->
   sorted (nearer fo)
     (map (fun id => (match last_added h id with Some v => cos_gap fo q v | None => f0 fo end, id)) ids)).
Proof.
  intros fo c OK FL Hv sortIx sortPairs HI HP h ix T nw fuel mfuel rfuel ix' B R qfuel fs q n inspect bc ids ds bc' Hq Hc E.
  destruct (result_after fo c OK _ _ _ _ _ _ _ _ B R) as (I & plan & A & _).
  pose proof (after_forest fo c OK fs ix _ plan ix' Hv I A) as FO.
  destruct (forest_query fo c OK sortIx sortPairs HI HP _ _ _ _ _ _ _ _ _ _ _ FL FO Hq E Hc) as (H1 & H2 & H3 & H4 & H5).
  split; [exact H1|]. split; [exact H2|]. split; [lia|]. split; [exact H4|]. intro Hnum.
  destruct (H5 Hnum) as (raw & Hl & _ & Hr & Hs).
  assert (Ec : combine raw ids = map (fun id => (match last_added h id with Some v => cos_gap fo q v | None => f0 fo end, id)) ids).
  { clear - Hl Hr. revert raw Hl Hr. induction ids as [|id ids IH]; intros [|d raw] Hl Hr; try discriminate; [reflexivity|].
    cbn [combine map]. destruct (Hr 0%nat id d eq_refl eq_refl) as (w & -> & ->). f_equal. apply IH; [injection Hl; auto|].
    intros k id' d' G1 G2. apply (Hr (S k) id' d' G1 G2). }
  rewrite <- Ec. exact Hs.
Qed.
(** ** C27: exhaustive inspection finds the exact nearest neighbours *)
Theorem C27_built_index_exact :
  forall fo c, CfgOK fo c -> is_float fo -> 3 * ixb c <= vlen c ->
  forall sortIx sortPairs, sort_slice N.ltb sortIx -> sort_slice (pair_less (flt fo) (feq fo)) sortPairs ->
  forall h ix T nw fuel mfuel rfuel ix', build_call fo c h ix T nw fuel mfuel ->
  build_result fo c ix T nw fuel mfuel rfuel ix' -> rootsN (ib ix') <> [] ->
  forall qfuel fs q n inspect bc ids ds bc', lenN q = vlen c -> lenN (c_nns bc) < 2 ^ iw c ->
  (Z.of_N (lenN (rootsN (ib ix')) * n_items ix) <= the_limit ix' n inspect)%Z ->
  get_nns_by_vector fo c sortIx sortPairs qfuel fs ix' q n inspect bc = Ok (ids, ds, bc') ->
  all_num fo (last_added h) q ->
  exact_nearest fo c (last_added h) q (Z.to_nat n) ids ds.
Proof.
  intros fo c OK FL Hv sortIx sortPairs HI HP h ix T nw fuel mfuel rfuel ix' B R Hne qfuel fs q n inspect bc ids ds bc' Hq Hc Hl E Hnum.
  destruct (result_after fo c OK _ _ _ _ _ _ _ _ B R) as (I & plan & A & _).
  pose proof (after_forest fo c OK fs ix _ plan ix' Hv I A) as FO. rewrite <- (bt_items _ _ _ _ _ _ A) in Hl.
  eapply (forest_exhaustive fo c OK sortIx sortPairs HI HP); eauto.
Qed.
(** ** C31: a query on a built index returns if its context has room *)
Theorem C31_built_index_returns :
  forall fo c, CfgOK fo c -> 3 * ixb c <= vlen c ->
  forall sortIx sortPairs, sort_slice N.ltb sortIx -> sort_slice (pair_less (flt fo) (feq fo)) sortPairs ->
  forall h ix T nw fuel mfuel rfuel ix', build_call fo c h ix T nw fuel mfuel ->
  build_result fo c ix T nw fuel mfuel rfuel ix' ->
  forall qfuel fs q n inspect bc, lenN q = vlen c -> lenN (c_nns bc) < 2 ^ iw c -> length (c_dist bc) = length (c_nns bc) ->
  (length (rootsN (ib ix')) * (2 * N.to_nat (n_items ix) + 1) <= qfuel)%nat ->
  (the_limit ix' n inspect + Z.of_N (maxK fo c) - 1 <= Z.of_N (lenN (c_nns bc)))%Z \/
    lenN (rootsN (ib ix')) * n_items ix <= lenN (c_nns bc) ->
  exists ids ds bc', get_nns_by_vector fo c sortIx sortPairs qfuel fs ix' q n inspect bc = Ok (ids, ds, bc').
Proof.
  intros fo c OK Hv sortIx sortPairs HI HP h ix T nw fuel mfuel rfuel ix' B R qfuel fs q n inspect bc Hq Hc Hd Hf Hroom.
  destruct (result_after fo c OK _ _ _ _ _ _ _ _ B R) as (I & plan & A & _).
  pose proof (after_forest fo c OK fs ix _ plan ix' Hv I A) as FO. rewrite <- (bt_items _ _ _ _ _ _ A) in *.
  eapply (forest_total fo c OK sortIx sortPairs HI); eauto. pose proof (ixb_pos _ _ OK). lia.
Qed.
(** ** C34 *)
(** GetNnsByItem is GetNnsByVector of what GetItem returns, and of the vector that was
    last added under that index. *)
Theorem C34_by_item_is_by_vector :
  forall fo c sortIx sortPairs qfuel fs ix i v n inspect bc, get_item fo c fs ix i = Ok v ->
  get_nns_by_item fo c sortIx sortPairs qfuel fs ix i n inspect bc =
  get_nns_by_vector fo c sortIx sortPairs qfuel fs ix v n inspect bc.
Proof. intros fo c sortIx sortPairs qfuel fs ix i v n inspect bc E. unfold get_nns_by_item. rewrite E. reflexivity. Qed.
Theorem C34_by_item_uses_added_vector :
  forall fo c, CfgOK fo c ->
  forall h ix T nw fuel mfuel rfuel ix', build_call fo c h ix T nw fuel mfuel ->
  build_result fo c ix T nw fuel mfuel rfuel ix' ->
  forall sortIx sortPairs qfuel fs i v n inspect bc, last_added h i = Some v ->
  get_nns_by_item fo c sortIx sortPairs qfuel fs ix' i n inspect bc =
  get_nns_by_vector fo c sortIx sortPairs qfuel fs ix' v n inspect bc.
Proof.
  intros fo c OK h ix T nw fuel mfuel rfuel ix' B R sortIx sortPairs qfuel fs i v n inspect bc Hi.
  apply C34_by_item_is_by_vector. eapply C07_build_keeps_items; eauto.
Qed.
(** The same queries on the index of the two-worker build, with a context of its own:
    an exhaustive one (3 trees of 20 items) for the five nearest. *)
Example queries_example :
  match get_nns_by_vector fops32 (cA 16) isortN isortP 1000 no_files fx_multi exq_vec 5 60 (create_context fops32 fx_multi),
        get_nns_by_item fops32 (cA 16) isortN isortP 1000 no_files fx_multi 9 5 60 (create_context fops32 fx_multi) with
  | Ok (ids, _, _), Ok (ids2, _, _) => ids = [9; 12; 10; 8; 5] /\ nth_error ids2 0 = Some 9
  | _, _ => False
  end.
Proof. vm_compute. repeat split. Qed.

Print Assumptions C07_build_keeps_items.
Print Assumptions C08_every_tree_lists_every_item_once.
Print Assumptions C08_small_index_with_holes.
Print Assumptions C08_hole_repeats_item_0.
Print Assumptions C10_exact_number_of_trees.
Print Assumptions C10_shares_add_up.
Print Assumptions C12_automatic_count_reached.
Print Assumptions C22_accepted_split_has_two_sides.
Print Assumptions C22_good_split_is_usable.
Print Assumptions C22_randomising_can_end.
Print Assumptions C22_depth_below_items.
Print Assumptions C24_C25_built_index.
Print Assumptions C27_built_index_exact.
Print Assumptions C31_built_index_returns.
Print Assumptions C34_by_item_is_by_vector.
Print Assumptions C34_by_item_uses_added_vector.
