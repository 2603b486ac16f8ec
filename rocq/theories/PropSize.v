(** How large an index gets (C98). *)
From Verif Require Import Base Flt Layout Rng Sorts Alloc Prog Dist Build Policy Index Search Lib Spec ForestSpec BuildSpec
  LayoutProof StoreProof BuildProof ForestProof AfterProof IOProof SizeProof Concrete PropItems PropSearch PropForest.

(** ** C98 *)
(** [T] trees over [n] indices: at least two and at most [n] + 1 nodes for each tree. *)
Theorem C98_number_of_nodes :
  forall fo c, CfgOK fo c -> forall h ix T nw fuel mfuel rfuel ix', build_call fo c h ix T nw fuel mfuel ->
  build_result fo c ix T nw fuel mfuel rfuel ix' -> (0 <= T)%Z ->
  n_items ix + 2 * Z.to_N T <= nn (ib ix') <= n_items ix + Z.to_N T * (N.max 1 (n_items ix) + 1).
Proof.
  intros fo c OK h ix T nw fuel mfuel rfuel ix' B R HT.
  destruct (result_after fo c OK _ _ _ _ _ _ _ _ B R) as (I & plan & A & _ & P & _). destruct (P HT) as [P1 P2].
  pose proof (bt_count _ _ _ _ _ _ A P1) as Hc. rewrite P2 in Hc.
  pose proof (result_size fo c OK _ _ _ _ _ _ _ _ B R) as [H1 H2]. unfold forest_room in H2.
  replace (T =? -1)%Z with false in H2 by lia. nia.
Qed.
(** The automatic tree count: at most two nodes per index and worker, and a copy of every
    root. *)
Theorem C98_number_of_nodes_automatic :
  forall fo c, CfgOK fo c -> forall h ix nw fuel mfuel rfuel ix', build_call fo c h ix (-1) nw fuel mfuel ->
  build_result fo c ix (-1) nw fuel mfuel rfuel ix' ->
  2 * n_items ix <= nn (ib ix') <= n_items ix + 4 * N.of_nat nw * n_items ix.
Proof.
  intros fo c OK h ix nw fuel mfuel rfuel ix' B R.
  destruct (result_after fo c OK _ _ _ _ _ _ _ _ B R) as (I & plan & A & P & _). specialize (P eq_refl).
  destruct (bt_copies _ _ _ _ _ _ A) as (n & H3 & _ & H4 & _). specialize (H4 P).
  pose proof (result_size fo c OK _ _ _ _ _ _ _ _ B R) as [H1 H2]. unfold forest_room in H2.
  replace (-1 =? -1)%Z with true in H2 by lia. lia.
Qed.
(** Save writes those nodes and nothing else. *)
Theorem C98_file_size :
  forall fo c, CfgOK fo c -> forall h ix T nw fuel mfuel rfuel ix', build_call fo c h ix T nw fuel mfuel ->
  build_result fo c ix T nw fuel mfuel rfuel ix' ->
  forall k fs fl ix2 fs2 e, save fo c k OsOk fs ix' fl = Ok (ix2, fs2, e) ->
  exists bs, fs2 fl = Some bs /\ lenN bs = nn (ib ix') * nodeSize fo c /\
    ((0 <= T)%Z -> lenN bs <= (n_items ix + Z.to_N T * (N.max 1 (n_items ix) + 1)) * nodeSize fo c).
Proof.
  intros fo c OK h ix T nw fuel mfuel rfuel ix' B R k fs fl ix2 fs2 e E.
  destruct (result_after fo c OK _ _ _ _ _ _ _ _ B R) as (I & plan & A & _).
  destruct (saved_length fo c ix _ plan ix' A k fs fl ix2 fs2 e E) as (bs & H1 & H2). exists bs. split; [exact H1|]. split; [exact H2|].
  intro HT. pose proof (C98_number_of_nodes fo c OK _ _ _ _ _ _ _ _ B R HT). rewrite H2. apply N.mul_le_mono_r. lia.
Qed.
(** Three trees over twenty items. *)
Example C98_example :
  build_call fops32 (cA 16) exq_items fx_ix 3 2 100 100 /\ build_result fops32 (cA 16) fx_ix 3 2 100 100 100 fx_multi /\
  n_items fx_ix = 20 /\ nn (ib fx_multi) = 32 /\ nodeSize fops32 (cA 16) = 76 /\
  match save fops32 (cA 16) GCMem OsOk no_files fx_multi 7 with
  | Ok (_, fs, e) => (option_map (@lenN N) (fs 7), e)
  | Er _ => (None, None)
  end = (Some 2432, None).
Proof.
  split; [apply fx_call; lia|]. split; [apply fx_multi_result|]. vm_compute. repeat split.
Qed.

Print Assumptions C98_number_of_nodes.
Print Assumptions C98_number_of_nodes_automatic.
Print Assumptions C98_file_size.
