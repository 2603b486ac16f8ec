(** Item numbers that are not those of items (C107). *)
From Verif Require Import Base Flt Layout Rng Sorts Alloc Prog Dist Build Policy Index Search Spec ForestSpec BuildSpec
  Lib LayoutProof MemProof StoreProof QueryProof TreeProof BuildProof ForestProof AfterProof LoadProof
  Concrete PropForest PropBucket.
Open Scope N_scope.

Section S.
Variable fo : FOps.
Variable c : Cfg.
Hypothesis OK : CfgOK fo c.
Notation NSZ := (nodeSize fo c).

Lemma node_parts : exists m, NSZ = m * fbytes fo.
Proof.
  pose proof (fl_bytes _ (ok_fl _ _ OK)) as Hb. rewrite (nodeSize_eq _ _ OK). unfold off_vec, off_dot, align.
  set (a := (3 * ixb c + fbytes fo - 1) / fbytes fo). destruct (knd c); [exists (a + vlen c)|exists (a + 1 + vlen c)]; lia.
Qed.
Lemma range_parts : 2 ^ iw c = 2 ^ iw c / fbytes fo * fbytes fo.
Proof.
  pose proof (fl_bytes _ (ok_fl _ _ OK)) as Hb. unfold iw.
  destruct (ok_ixb _ _ OK) as [E|E]; rewrite E; destruct Hb as [H|H]; rewrite H; vm_compute; reflexivity.
Qed.
Lemma addr_repeats i k : addr fo c (i + k * (2 ^ iw c / fbytes fo)) = addr fo c i.
Proof.
  destruct node_parts as (m & Hm). unfold addr, tix, wrap.
  replace ((i + k * (2 ^ iw c / fbytes fo)) * NSZ) with (i * NSZ + k * m * (2 ^ iw c / fbytes fo * fbytes fo)) by (rewrite Hm; ring).
  rewrite <- range_parts. apply N.mod_add. apply N.pow_nonzero. discriminate.
Qed.
End S.

(** ** C107 *)
(** Numbers that differ by a multiple of a quarter (float32) or an eighth (float64) of
    the range of the index type stand for the same item. *)
Theorem C107_item_numbers_repeat :
  forall fo c, CfgOK fo c -> forall fs ix i j k m,
  let period := 2 ^ iw c / fbytes fo in
  get_item fo c fs ix (i + k * period) = get_item fo c fs ix i /\
  get_distance fo c fs ix (i + k * period) (j + m * period) = get_distance fo c fs ix i j /\
  forall sortIx sortPairs fuel n inspect bc,
    get_nns_by_item fo c sortIx sortPairs fuel fs ix (i + k * period) n inspect bc = get_nns_by_item fo c sortIx sortPairs fuel fs ix i n inspect bc.
Proof.
  intros fo c OK fs ix i j k m period. subst period.
  assert (G : get_item fo c fs ix (i + k * (2 ^ iw c / fbytes fo)) = get_item fo c fs ix i) by (unfold get_item; now rewrite addr_repeats).
  split; [exact G|]. split; [unfold get_distance, node_fields; now rewrite !addr_repeats|]. intros. unfold get_nns_by_item. now rewrite G.
Qed.
(** After Build every node passes for an item: no call tells that a number below the
    number of nodes is not that of an item. *)
Theorem C107_every_node_passes_for_an_item :
  forall fo c, CfgOK fo c ->
  forall h ix T nw fuel mfuel rfuel ix', build_call fo c h ix T nw fuel mfuel -> build_result fo c ix T nw fuel mfuel rfuel ix' ->
  forall fs i, i < nn (ib ix') ->
  (exists v, get_item fo c fs ix' i = Ok v /\ lenN v = vlen c /\
     forall sortIx sortPairs qfuel n inspect bc,
       get_nns_by_item fo c sortIx sortPairs qfuel fs ix' i n inspect bc = get_nns_by_vector fo c sortIx sortPairs qfuel fs ix' v n inspect bc) /\
  forall j, j < nn (ib ix') -> exists d, get_distance fo c fs ix' i j = Ok d.
Proof.
  intros fo c OK h ix T nw fuel mfuel rfuel ix' B R fs i Hi.
  destruct (result_after fo c OK _ _ _ _ _ _ _ _ B R) as (I & plan & A & _).
  pose proof (after_agrees fo c fs _ _ _ _ A) as AG. split.
  - pose proof (get_item_node fo c OK fs ix' i _ (AG i Hi)) as G. eexists. split; [exact G|]. split.
    + cbn [snode_of s_vec]. unfold n_vec, dec_vec, lenN. rewrite map_length, length_words. lia.
    + intros. unfold get_nns_by_item. now rewrite G.
  - intros j Hj. unfold get_distance, node_fields. rewrite (AG i Hi), (AG j Hj). cbn [rbind]. eauto.
Qed.
(** In a loaded index exactly the numbers below the number of nodes in the file can be
    read; the next ones lead to memory that is not part of the index. *)
Theorem C107_loaded_bounds :
  forall fo c, CfgOK fo c -> forall k fs a f bs a', fs f = Some bs -> load fo c k fs a f = Ok (a', None) ->
  forall i, i * nodeSize fo c < 2 ^ iw c ->
  (i < lenN bs / nodeSize fo c -> exists v, get_item fo c fs a' i = Ok v /\ lenN v = vlen c) /\
  (lenN bs / nodeSize fo c <= i -> get_item fo c fs a' i = Er Fault /\ forall j, get_distance fo c fs a' i j = Er Fault).
Proof.
  intros fo c OK k fs a f bs a' Hf E i Hi. pose proof (load_view fo c _ _ _ _ _ _ Hf E fs (or_introl Hf)) as Hv.
  destruct (load_ok_gives fo c _ _ _ _ _ _ Hf E) as (_ & _ & _ & Hm & _). pose proof (nodeSize_pos fo c OK) as Hp.
  assert (Hs : lenN bs = nodeSize fo c * (lenN bs / nodeSize fo c)) by (apply N.div_exact; lia).
  pose proof (nodeSize_eq _ _ OK) as He. set (q := lenN bs / nodeSize fo c) in *.
  unfold get_item, get_distance, node_fields. rewrite Hv. cbn [vread]. unfold addr. rewrite (tix_small c (i * nodeSize fo c)) by exact Hi.
  unfold bread, buf_of_bytes. cbn [bsize]. split; intro H.
  - replace (i * nodeSize fo c + off_vec fo c + vlen c * fbytes fo <=? lenN bs) with true by nia. cbn [rbind]. eexists. split; [reflexivity|].
    unfold dec_vec, lenN. rewrite map_length, length_words. lia.
  - split.
    + replace (i * nodeSize fo c + off_vec fo c + vlen c * fbytes fo <=? lenN bs) with false by nia. reflexivity.
    + intro j. replace (i * nodeSize fo c + nodeSize fo c <=? lenN bs) with false by nia. reflexivity.
Qed.
(** The index of the README has 23 nodes but 3 items: its nodes 3 to 22 have vectors,
    and neighbours; 2^30 is item 0. *)
Example C107_example :
  n_items rm_built = 3 /\ nn (ib rm_built) = 23 /\ 2 ^ iw (cA 3) / fbytes fops32 = 2 ^ 30 /\
  rbits (get_item fops32 (cA 3) no_files rm_built 3) = Ok [2; 0; 0] /\
  ids (get_nns_by_item fops32 (cA 3) isortN isortP 100 no_files rm_built 3 3 (-1) (create_context fops32 rm_built)) = Ok [0; 1; 2] /\
  rbits (get_item fops32 (cA 3) no_files rm_built (2 ^ 30)) = rbits (get_item fops32 (cA 3) no_files rm_built 0).
Proof. vm_compute. repeat split. Qed.
Print Assumptions C107_item_numbers_repeat.
Print Assumptions C107_every_node_passes_for_an_item.
Print Assumptions C107_loaded_bounds.
