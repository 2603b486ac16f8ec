(** Other coordinates for the same vectors: signs changed in some coordinates, zero
    coordinates added (C111). *)
From Verif Require Import Base Flt Layout Rng Sorts Alloc Prog Imbalance Dist Build Policy Index Search Spec ForestSpec BuildSpec RealSpec OrderSpec MirrorSpec
  Lib LayoutProof FltProof MemProof StoreProof SearchProof QueryProof TreeProof PolicyProof BuildProof ForestProof
  NumProof AccProof AfterProof CutProof SmallProof PlaneProof TopProof IOProof SameProof DistProof WholeProof RoomProof OwnProof ReloadProof LoadedProof SelfProof MirrorProof
  Concrete PropSearch PropForest PropIO PropMore PropNum PropPlane PropWhole PropReload PropRoom PropLoaded PropSelf PropScale.
From Coq Require Import Reals Lra Lia.
Close Scope R_scope.
Open Scope N_scope.

(** The second history adds the same items, their vectors in the new coordinates. *)
Definition same_embedded (fo : FOps) (m : list coord) (h1 h2 : list (N * list (F fo))) : Prop :=
  forall j, last_added h2 j = option_map (embed fo m) (last_added h1 j).
Lemma added_embed fo m (h : list (N * list (F fo))) : same_embedded fo m h (map (fun iv => (fst iv, embed fo m (snd iv))) h).
Proof.
  intro j. induction h as [|[i v] h IH]; [reflexivity|]. cbn [map fst snd last_added]. rewrite IH.
  destruct (last_added h j); [reflexivity|]. cbn [option_map]. now destruct (i =? j).
Qed.

(** ** C111 *)
(** GetDistance, for all floats, also NaN and infinities. *)
Theorem C111_distances_in_other_coordinates :
  forall fo, is_float fo -> forall c1 c2, CfgOK fo c1 -> CfgOK fo c2 -> 3 * ixb c1 <= vlen c1 -> 3 * ixb c2 <= vlen c2 -> knd c2 = knd c1 ->
  forall h1 ix1 T1 nw1 fuel1 mfuel1 rfuel1 ix1', build_call fo c1 h1 ix1 T1 nw1 fuel1 mfuel1 ->
  build_result fo c1 ix1 T1 nw1 fuel1 mfuel1 rfuel1 ix1' ->
  forall h2 ix2 T2 nw2 fuel2 mfuel2 rfuel2 ix2', build_call fo c2 h2 ix2 T2 nw2 fuel2 mfuel2 ->
  build_result fo c2 ix2 T2 nw2 fuel2 mfuel2 rfuel2 ix2' ->
  forall m, same_embedded fo m h1 h2 ->
  forall fs1 fs2 i j, last_added h1 i <> None -> last_added h1 j <> None ->
  exists d, get_distance fo c1 fs1 ix1' i j = Ok d /\ get_distance fo c2 fs2 ix2' i j = Ok d.
Proof.
  intros fo FL c1 c2 OK1 OK2 Hv1 Hv2 HK h1 ix1 T1 nw1 fuel1 mfuel1 rfuel1 ix1' B1 R1 h2 ix2 T2 nw2 fuel2 mfuel2 rfuel2 ix2' B2 R2 m SE fs1 fs2 i j Hi Hj.
  destruct (last_added h1 i) as [x|] eqn:X1; [|congruence]. destruct (last_added h1 j) as [y|] eqn:Y1; [|congruence].
  pose proof (SE i) as X2. pose proof (SE j) as Y2. rewrite X1 in X2. rewrite Y1 in Y2. cbn [option_map] in X2, Y2.
  exists (vec_distance fo c1 x y). split; [exact (C74_distance_after_build fo c1 OK1 FL Hv1 h1 ix1 T1 nw1 fuel1 mfuel1 rfuel1 ix1' B1 R1 fs1 i j x y X1 Y1)|].
  rewrite (C74_distance_after_build fo c2 OK2 FL Hv2 h2 ix2 T2 nw2 fuel2 mfuel2 rfuel2 ix2' B2 R2 fs2 i j _ _ X2 Y2).
  f_equal. unfold vec_distance, reported. rewrite HK. rewrite gap_embed; [reflexivity|exact FL|].
  destruct (result_after fo c1 OK1 _ _ _ _ _ _ _ _ B1 R1) as (I & _).
  pose proof (ii_len _ _ _ _ I _ _ X1) as L1. pose proof (ii_len _ _ _ _ I _ _ Y1) as L2. unfold lenN in *. lia.
Qed.
(** An index of padded vectors gives the distances of the vectors, however short they are. *)
Theorem C111_padded_vectors_keep_their_distances :
  forall fo, is_float fo -> forall c, CfgOK fo c -> 3 * ixb c <= vlen c ->
  forall h ix T nw fuel mfuel rfuel ix', build_call fo c h ix T nw fuel mfuel -> build_result fo c ix T nw fuel mfuel rfuel ix' ->
  forall m i j x y, last_added h i = Some (embed fo m x) -> last_added h j = Some (embed fo m y) -> length x = length y ->
  forall fs, get_distance fo c fs ix' i j = Ok (vec_distance fo c x y).
Proof.
  intros fo FL c OK Hv h ix T nw fuel mfuel rfuel ix' B R m i j x y X Y Hl fs.
  rewrite (C74_distance_after_build fo c OK FL Hv h ix T nw fuel mfuel rfuel ix' B R fs i j _ _ X Y). f_equal. unfold vec_distance. f_equal. now apply gap_embed.
Qed.
(** Exhaustive queries. *)
Theorem C111_answers_in_other_coordinates :
  forall fm, is_fmt fm -> forall c1 c2, CfgOK (ops fm) c1 -> CfgOK (ops fm) c2 -> 3 * ixb c1 <= vlen c1 -> 3 * ixb c2 <= vlen c2 -> knd c2 = knd c1 ->
  vlen c1 <= 2 ^ 20 -> vlen c2 <= 2 ^ 20 ->
  forall sortIx sortPairs, sort_slice N.ltb sortIx -> sort_slice (pair_less (flt (ops fm)) (feq (ops fm))) sortPairs ->
  forall h1 ix1 T1 nw1 fuel1 mfuel1 rfuel1 ix1', build_call (ops fm) c1 h1 ix1 T1 nw1 fuel1 mfuel1 ->
  build_result (ops fm) c1 ix1 T1 nw1 fuel1 mfuel1 rfuel1 ix1' -> rootsN (ib ix1') <> [] ->
  forall h2 ix2 T2 nw2 fuel2 mfuel2 rfuel2 ix2', build_call (ops fm) c2 h2 ix2 T2 nw2 fuel2 mfuel2 ->
  build_result (ops fm) c2 ix2 T2 nw2 fuel2 mfuel2 rfuel2 ix2' -> rootsN (ib ix2') <> [] ->
  forall m, same_embedded (ops fm) m h1 h2 -> (forall j v, last_added h1 j = Some v -> tame fm v) ->
  forall added, NoDup added -> (forall i, In i added <-> last_added h1 i <> None) ->
  forall q, tame fm q -> lenN q = vlen c1 -> lenN (embed (ops fm) m q) = vlen c2 ->
  forall n fs1 ixq1 qfuel1 inspect1 bc1 ids1 ds1 bc1', lenN (c_nns bc1) < 2 ^ iw c1 ->
  get_nns_by_vector (ops fm) c1 sortIx sortPairs qfuel1 fs1 ixq1 q n inspect1 bc1 = Ok (ids1, ds1, bc1') ->
  exhaustive (ops fm) c1 ix1 ix1' added fs1 ixq1 (the_limit ixq1 n inspect1) ->
  forall fs2 ixq2 qfuel2 inspect2 bc2 ids2 ds2 bc2', lenN (c_nns bc2) < 2 ^ iw c2 ->
  get_nns_by_vector (ops fm) c2 sortIx sortPairs qfuel2 fs2 ixq2 (embed (ops fm) m q) n inspect2 bc2 = Ok (ids2, ds2, bc2') ->
  exhaustive (ops fm) c2 ix2 ix2' added fs2 ixq2 (the_limit ixq2 n inspect2) ->
  ids2 = ids1 /\ ds2 = ds1.
Proof.
  intros fm FM c1 c2 OK1 OK2 Hv1 Hv2 HK Hlen1 Hlen2 sortIx sortPairs HI HP h1 ix1 T1 nw1 fuel1 mfuel1 rfuel1 ix1' B1 R1 Hne1 h2 ix2 T2 nw2 fuel2 mfuel2 rfuel2 ix2' B2 R2 Hne2
    m SE TM added ND Had q Tq Q1 Q2 n fs1 ixq1 qfuel1 inspect1 bc1 ids1 ds1 bc1' Hc1 E1 X1 fs2 ixq2 qfuel2 inspect2 bc2 ids2 ds2 bc2' Hc2 E2 X2.
  destruct (result_after (ops fm) c1 OK1 _ _ _ _ _ _ _ _ B1 R1) as (I1 & _). destruct (result_after (ops fm) c2 OK2 _ _ _ _ _ _ _ _ B2 R2) as (I2 & _).
  assert (HL : forall l : list (F (ops fm)), lenN l = vlen c2 -> (INR (length l) <= 2 ^ 20)%R).
  { intros l Hl. replace (2 ^ 20)%R with (INR (N.to_nat (2 ^ 20))) by (rewrite INR_IZR_INZ; rewrite N_nat_Z; cbn; lra). apply le_INR. unfold lenN in Hl. lia. }
  assert (TM2 : forall i w, last_added h2 i = Some w -> tame fm w).
  { intros i w H. pose proof (ii_len _ _ _ _ I2 _ _ H) as LW. rewrite (SE i) in H. destruct (last_added h1 i) as [v|] eqn:X; [|discriminate].
    cbn [option_map] in H. injection H as <-. apply (tame_embed fm FM); [eauto|now apply HL]. }
  assert (Had2 : forall i, In i added <-> last_added h2 i <> None).
  { intro i. rewrite Had, (SE i). destruct (last_added h1 i); cbn; split; congruence. }
  assert (Tq2 : tame fm (embed (ops fm) m q)) by (apply (tame_embed fm FM); [exact Tq|now apply HL]).
  pose proof (exhaustive_exact fm c1 FM OK1 Hv1 Hlen1 sortIx sortPairs HI HP h1 ix1 ix1' T1 nw1 fuel1 mfuel1 rfuel1 B1 R1 Hne1 TM added ND Had
    fs1 ixq1 qfuel1 q n inspect1 bc1 ids1 ds1 bc1' X1 Tq Q1 Hc1 E1) as N1.
  pose proof (exhaustive_exact fm c2 FM OK2 Hv2 Hlen2 sortIx sortPairs HI HP h2 ix2 ix2' T2 nw2 fuel2 mfuel2 rfuel2 B2 R2 Hne2 TM2 added ND Had2
    fs2 ixq2 qfuel2 _ n inspect2 bc2 ids2 ds2 bc2' X2 Tq2 Q2 Hc2 E2) as N2.
  assert (N1' : exact_nearest (ops fm) c2 (last_added h2) (embed (ops fm) m q) (Z.to_nat n) ids1 ds1).
  { destruct N1 as (sc & raw & GS & Hr1 & Hr2 & Hr3). exists sc, raw. split; [|split; [exact Hr1|split; [exact Hr2|]]].
    - revert GS. apply gaps_transfer. intro j. rewrite (SE j). destruct (last_added h1 j) as [x|] eqn:A1; cbn [option_map]; [|exact I].
      apply gap_embed; [now apply fmt_is_float|]. pose proof (ii_len _ _ _ _ I1 _ _ A1) as LX. unfold lenN in *. lia.
    - rewrite Hr3. apply map_ext. intro d. unfold reported. now rewrite HK. }
  eapply (exact_nearest_unique (ops fm) c2 (last_added h2) (embed (ops fm) m q) (Z.to_nat n)); [now apply fmt_is_float| |exact N2|exact N1'].
  eapply num_of; eauto.
Qed.

(** ** Example: the 20 items of [exq_items] (16 components) with a zero component added and
    the signs of two components changed. *)
Definition mi_map : list coord := [Flip; Zero; Keep; Flip].
Definition mi_items : list (N * list (F fops32)) := map (fun iv => (fst iv, embed fops32 mi_map (snd iv))) exq_items.
Definition mi_ix : idx := Eval vm_compute in or_else (ix0 (cA 17)) (add_all fops32 (cA 17) (ix0 (cA 17)) mi_items).
Definition mi_built : idx := Eval vm_compute in or_else mi_ix (build_single fops32 (cA 17) 100 100 100 mi_ix 2).
Lemma mi_call : build_call fops32 (cA 17) mi_items mi_ix 2 1 100 100.
Proof.
  assert (Hn : n_items mi_ix = 20) by (vm_compute; reflexivity). constructor; rewrite ?Hn.
  - vm_compute. discriminate.
  - unfold hist_ok. apply Forall_forall. intros [i v] H.
    change mi_items with (map (fun i => (i, embed fops32 mi_map (fv (sc_ints i)))) (rangeN 20)) in H. apply in_map_iff in H. destruct H as (j & H & Hj).
    injection H as <- <-. apply in_rangeN in Hj. cbn [fst snd]. split.
    + eapply cap_ok_mono with (n := 20); [lia|]. vm_compute. reflexivity.
    + reflexivity.
  - exists (kiss_new 0), 0. vm_compute. reflexivity.
  - lia.
  - lia.
  - lia.
  - eapply cap_ok_mono with (n := 1000); [vm_compute; discriminate|vm_compute; reflexivity].
  - unfold enough_fuel. lia.
Qed.
Example C111_example :
  build_call fops32 (cA 16) exq_items fx_ix 3 1 100 100 /\ build_result fops32 (cA 16) fx_ix 3 1 100 100 100 fx_single /\
  build_call fops32 (cA 17) mi_items mi_ix 2 1 100 100 /\ build_result fops32 (cA 17) mi_ix 2 1 100 100 100 mi_built /\
  same_embedded fops32 mi_map exq_items mi_items /\ lenN (embed fops32 mi_map exq_vec) = 17 /\
  (forall j v, last_added exq_items j = Some v -> tame fmt32 v) /\ tame fmt32 exq_vec /\
  exhaustive fops32 (cA 16) fx_ix fx_single (rangeN 20) no_files fx_single (the_limit fx_single 3 20) /\
  exhaustive fops32 (cA 17) mi_ix mi_built (rangeN 20) no_files mi_built (the_limit mi_built 3 20) /\
  bits_of (query (cA 16) 400 no_files fx_single exq_vec 3 20 (create_context fops32 fx_single)) = Ok ([9; 12; 10], [1039756778; 1057153137; 1057620014]) /\
  bits_of (query (cA 17) 400 no_files mi_built (embed fops32 mi_map exq_vec) 3 20 (create_context fops32 mi_built)) = Ok ([9; 12; 10], [1039756778; 1057153137; 1057620014]).
Proof.
  split; [apply fx_call; lia|]. split; [apply fx_single_result|]. split; [apply mi_call|].
  split; [left; split; [reflexivity|vm_compute; reflexivity]|]. split; [apply added_embed|]. split; [reflexivity|].
  split; [intros j v H; exact (proj2 (exq_tame j v H))|]. split; [apply fv_tame; [cbn; lia|vm_compute; reflexivity|vm_compute; reflexivity]|].
  split; [left; split; [vm_compute; reflexivity|]; split; [now left|vm_compute; discriminate]|].
  split; [left; split; [vm_compute; reflexivity|]; split; [now left|vm_compute; discriminate]|].
  split; vm_compute; reflexivity.
Qed.
(** Padding vectors of 3 components to 16. *)
Example C111_padding_example : forall i, i < 20 ->
  last_added exq_items i = Some (embed fops32 (repeat Keep 3 ++ repeat Zero 13) (fv (firstn 3 (sc_ints i)))).
Proof.
  intros i Hi. change exq_items with (map (fun i => (i, fv (sc_ints i))) (rangeN 20)). rewrite (twenty (fun i => fv (sc_ints i))).
  replace (i <? 20) with true by lia. reflexivity.
Qed.
Print Assumptions C111_distances_in_other_coordinates.
Print Assumptions C111_padded_vectors_keep_their_distances.
Print Assumptions C111_answers_in_other_coordinates.
