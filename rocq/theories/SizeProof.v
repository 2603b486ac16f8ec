(** How many nodes a build makes, and how long a saved file is. *)
From Verif Require Import Base Flt Layout Rng Sorts Alloc Prog Dist Build Policy Index Search Lib Spec ForestSpec BuildSpec
  LayoutProof MemProof StoreProof BuildProof ForestProof AfterProof IOProof.

Section S.
Variable fo : FOps.
Variable c : Cfg.
Hypothesis OK : CfgOK fo c.
Notation NSZ := (nodeSize fo c).

Lemma result_size h ix T nw fuel mfuel rfuel ix' : build_call fo c h ix T nw fuel mfuel ->
  build_result fo c ix T nw fuel mfuel rfuel ix' ->
  n_items ix + 2 * lenN (rootsN (ib ix')) <= nn (ib ix') <=
  n_items ix + forest_room (n_items ix) T (N.of_nat nw) + lenN (rootsN (ib ix')).
Proof.
  intros B R.
  assert (exists plan, after_build fo c ix (last_added h) plan ix' /\ plan_need ix plan = forest_room (n_items ix) T (N.of_nat nw)) as (plan & A & E).
  { destruct (bc_added _ _ _ _ _ _ _ _ B) as (r & hint & Ea).
    pose proof (bc_hist _ _ _ _ _ _ _ _ B) as Hh. pose proof (bc_trees _ _ _ _ _ _ _ _ B) as HT.
    pose proof (bc_workers _ _ _ _ _ _ _ _ B) as Hw. pose proof (bc_small _ _ _ _ _ _ _ _ B) as Hb.
    destruct R as [[-> R]|(nworkers & ncpu & Hn & R)].
    - exists [T]. destruct (build_single_built fo c OK r hint h ix T fuel mfuel rfuel) as [(ix1 & E & A)|E]; auto; try apply B; [|congruence].
      rewrite R in E. injection E as <-. split; [exact A|]. now apply plan_need_single.
    - exists (map (trees_for_worker T nw) (seq 0 nw)). split; [|now apply plan_need_multi].
      eapply (build_multi_built fo c OK); eauto; apply B. }
  pose proof (bt_size _ _ _ _ _ _ A) as Hs. rewrite E in Hs. split; [|exact Hs].
  destruct (bt_copies _ _ _ _ _ _ A) as (n & En & Hr & _).
  assert (L : (length (rootsN (ib ix')) <= length (seq (N.to_nat (n_items ix)) (N.to_nat n - N.to_nat (n_items ix))))%nat).
  { rewrite <- (map_length N.to_nat). apply NoDup_incl_length.
    - apply FinFun.Injective_map_NoDup; [intros a b; lia|apply A].
    - intros x Hx. apply in_map_iff in Hx. destruct Hx as (r & <- & Hx). apply in_seq.
      pose proof (bt_range _ _ _ _ _ _ A r Hx). pose proof (Hr r Hx). lia. }
  rewrite seq_length in L. unfold lenN in *. destruct (rootsN (ib ix')) as [|r0 l] eqn:E0.
  - pose proof (bt_ni _ _ _ _ _ _ A). cbn [length]. lia.
  - pose proof (bt_range _ _ _ _ _ _ A r0) as H0. rewrite E0 in H0. specialize (H0 (or_introl eq_refl)).
    pose proof (Hr r0 (or_introl eq_refl)). lia.
Qed.

Lemma saved_length ix f plan ix' : after_build fo c ix f plan ix' ->
  forall k fs fl ix2 fs2 e, save fo c k OsOk fs ix' fl = Ok (ix2, fs2, e) ->
  exists bs, fs2 fl = Some bs /\ lenN bs = nn (ib ix') * NSZ.
Proof.
  intros A k fs fl ix2 fs2 e E. unfold save in E. destruct (bt_flags _ _ _ _ _ _ A) as (_ & Hbu & _). rewrite Hbu in E. cbn [negb] in E.
  assert (Hsm : nn (ib ix') * NSZ < 2 ^ iw c).
  { pose proof (bt_cap _ _ _ _ _ _ A) as H. unfold cap_ok in H. pose proof (cap_ok_ge (nn (ib ix'))). nia. }
  rewrite tix_small in E by exact Hsm. destruct (N.eqb_spec (nn (ib ix') * NSZ) 0) as [Z|NZ].
  - destruct (load fo c k _ ix' fl) as [[ix3 e3]|]; [|discriminate]. cbn [rbind] in E. injection E as _ <- _.
    exists []. unfold fs_set. rewrite N.eqb_refl, Z. auto.
  - assert (0 < nn (ib ix')) by nia. pose proof (bt_ns _ _ _ _ _ _ A) as Hns.
    destruct (wf_arena _ _ _ (bt_wf _ _ _ _ _ _ A) ltac:(lia)) as (b & Hb & Hm & Hsz).
    rewrite (view_arena (fs_set fs fl (Some [])) ix' b Hb) in E. cbn [vread] in E. rewrite bread_ok in E by nia.
    destruct (load fo c k _ ix' fl) as [[ix3 e3]|]; [|discriminate]. cbn [rbind] in E. injection E as _ <- _.
    eexists. unfold fs_set. rewrite N.eqb_refl. split; [reflexivity|]. apply lenN_mread.
Qed.
End S.
