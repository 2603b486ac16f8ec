(** Indexes with the same items build the same forest, whatever their memory layout. *)
From Verif Require Import Base Flt Layout Rng Sorts Alloc Prog Imbalance Dist Build Policy Index Search Spec ForestSpec BuildSpec
  Lib LayoutProof MemProof StoreProof ActsProof MiscProof PolicyProof ConcProof TreeProof BuildProof RelProof SearchProof QueryProof
  ForestProof TopProof AfterProof.
From Coq Require Import Permutation.
Open Scope N_scope.

Section S.
Variable fo : FOps.
Variable c : Cfg.
Hypothesis OK : CfgOK fo c.
Notation NSZ := (nodeSize fo c).
Notation K := (maxK fo c).
Notation simg := (snode_img fo c).
Notation V := (list (F fo)).
Notation less := (pair_less (flt fo) (feq fo)).

(** ** Building *)
Lemma same_count ix1 ix2 f1 f2 : items_inv fo c ix1 f1 -> items_inv fo c ix2 f2 -> (forall i, f2 i = f1 i) ->
  n_items ix2 = n_items ix1.
Proof.
  intros I1 I2 H. pose proof (ii_last _ _ _ _ I1) as L1. pose proof (ii_last _ _ _ _ I2) as L2.
  assert (A : n_items ix1 <= n_items ix2).
  { destruct L1 as [L1|L1]; [lia|]. destruct (f1 (n_items ix1 - 1)) as [v|] eqn:E; [|congruence].
    pose proof (ii_ext _ _ _ _ I2 (n_items ix1 - 1) v ltac:(now rewrite H)). lia. }
  assert (B : n_items ix2 <= n_items ix1).
  { destruct L2 as [L2|L2]; [lia|]. destruct (f2 (n_items ix2 - 1)) as [v|] eqn:E; [|congruence].
    rewrite H in E. pose proof (ii_ext _ _ _ _ I1 (n_items ix2 - 1) v E). lia. }
  lia.
Qed.

(** Equal images give equal bytes. *)
Lemma images_bytes m m' : (forall i, node_at fo c m' i = node_at fo c m i) -> forall off len, mread m' off len = mread m off len.
Proof.
  intros H off len. apply mread_ext. intros k _. generalize (off + k). intro a.
  assert (Hp : NSZ <> 0) by (pose proof (nodeSize_pos fo c OK); lia).
  pose proof (N.div_mod' a NSZ) as Ha. rewrite (N.mul_comm NSZ) in Ha. rewrite Ha.
  apply (mread_ext_get m' m (a / NSZ * NSZ) (a / NSZ * NSZ) (N.to_nat NSZ)); [apply H|]. rewrite N2Nat.id. now apply N.mod_lt.
Qed.

(** A view reaches no further than the other. *)
Definition sub_view (v w : option buf) : Prop := forall off len bs, vread v off len = Ok bs -> vread w off len = Ok bs.
(** The nodes of a built index, and nothing behind them. *)
Definition nodes_view (ix : idx) : option buf := Some (mkBuf (nn (ib ix) * NSZ) (smem (ib ix))).

Lemma nodes_view_sub fs ix f plan ix' : after_build fo c ix f plan ix' -> sub_view (nodes_view ix') (view fs ix') \/ nn (ib ix') = 0.
Proof.
  intro B. destruct (N.eq_0_gt_0_cases (nn (ib ix'))) as [H|H]; [now right|left].
  pose proof (bt_ns _ _ _ _ _ _ B) as Hns. destruct (wf_arena _ _ _ (bt_wf _ _ _ _ _ _ B) ltac:(lia)) as (b & Hb & Hm & Hs).
  intros off len bs. rewrite (view_arena fs ix' b Hb). unfold nodes_view. cbn [vread]. unfold bread. cbn [bsize bdata].
  destruct (N.leb_spec (off + len) (nn (ib ix') * NSZ)); [|discriminate]. intros [= <-].
  replace (off + len <=? bsize b) with true by nia. now rewrite Hm.
Qed.
Lemma nodes_view_agrees ix f plan ix' : after_build fo c ix f plan ix' -> agrees fo c ix' (nodes_view ix').
Proof.
  intros B i Hi. unfold nodes_view. cbn [vread]. unfold bread. cbn [bsize bdata].
  rewrite (cap_ok_addr fo c (nn (ib ix')) i (bt_cap _ _ _ _ _ _ B)) by lia.
  replace (_ <=? _) with true by nia. reflexivity.
Qed.

Lemma started_alike ix1 ix2 f1 f2 s0 t0 : items_inv fo c ix1 f1 -> items_inv fo c ix2 f2 -> (forall i, f2 i = f1 i) ->
  started fo c ix1 f1 s0 -> started fo c ix2 f2 t0 -> rnd (ib ix1) <> None -> rnd (ib ix2) = rnd (ib ix1) ->
  alike fo c (n_items ix1) (simg s0) s0 t0.
Proof.
  intros I1 I2 H S1 S2 R1 R2. pose proof (same_count _ _ _ _ I1 I2 H) as Hn.
  pose proof (st_inv _ _ _ _ _ S1 0%nat (fun _ => 0) R1) as V1.
  pose proof (st_inv _ _ _ _ _ S2 0%nat (fun _ => 0) ltac:(congruence)) as V2.
  assert (N1 : nn s0 = n_items ix1).
  { rewrite (iv_nn _ _ _ _ _ _ _ V1), (st_owner _ _ _ _ _ S1). cbn. lia. }
  assert (N2 : nn t0 = n_items ix1).
  { rewrite (iv_nn _ _ _ _ _ _ _ V2), (st_owner _ _ _ _ _ S2). cbn. lia. }
  pose proof (iv_le _ _ _ _ _ _ _ V1). pose proof (iv_le _ _ _ _ _ _ _ V2).
  constructor; try lia.
  - apply (iv_wf _ _ _ _ _ _ _ V1).
  - apply (iv_wf _ _ _ _ _ _ _ V2).
  - now rewrite (st_roots _ _ _ _ _ S1), (st_roots _ _ _ _ _ S2).
  - now rewrite (st_rnd _ _ _ _ _ S1), (st_rnd _ _ _ _ _ S2).
  - intro i. destruct (N.lt_ge_cases i (n_items ix1)) as [Hi|Hi].
    + rewrite (st_img _ _ _ _ _ S1 i Hi), (st_img _ _ _ _ _ S2 i) by lia. rewrite Hn.
      apply pre_image_ext. intro j. now rewrite H.
    + rewrite (iv_zero _ _ _ _ _ _ _ V1), (iv_zero _ _ _ _ _ _ _ V2) by lia. reflexivity.
  - auto.
Qed.

Lemma same_after ix1 ix2 f1 f2 s0 t0 plan s1 t1 : items_inv fo c ix1 f1 -> items_inv fo c ix2 f2 -> (forall i, f2 i = f1 i) ->
  started fo c ix1 f1 s0 -> started fo c ix2 f2 t0 -> rnd (ib ix1) <> None -> rnd (ib ix2) = rnd (ib ix1) ->
  cap_ok fo c (n_items ix1 + 2 * plan_need ix1 plan) -> 1 <= vlen c ->
  grown fo c ix1 s0 plan s1 -> grown fo c ix2 t0 plan t1 -> alike fo c (n_items ix1) (simg s0) s1 t1 ->
  exists a b, build_post fo c ix1 s1 = Ok a /\ build_post fo c ix2 t1 = Ok b /\ same_index fo c a b.
Proof.
  intros I1 I2 H S1 S2 R1 R2 Hcap Hv G1 G2 L. pose proof (same_count _ _ _ _ I1 I2 H) as Hn.
  pose proof (gr_inv _ _ _ _ _ _ G1) as V1. pose proof (gr_inv _ _ _ _ _ _ G2) as V2.
  assert (B1 : lenN (rootsN s1) <= lenN (owner s1)) by (eapply roots_le_owner; eauto; apply (ii_last _ _ _ _ I1)).
  assert (B2 : lenN (owner s1) <= plan_need ix1 plan) by (eapply owner_le; eauto; apply (ii_last _ _ _ _ I1)).
  pose proof (iv_nn _ _ _ _ _ _ _ V1) as N1.
  assert (Hr : rootsN t1 = rootsN s1) by (unfold rootsN; now rewrite (lk_roots _ _ _ _ _ _ L)).
  assert (C1 : cap_ok fo c (nn s1 + lenN (rootsN s1))) by (eapply cap_ok_mono; [|exact Hcap]; lia).
  assert (C2 : cap_ok fo c (nn t1 + lenN (rootsN t1))) by (rewrite Hr, (lk_nn _ _ _ _ _ _ L); exact C1).
  assert (Q1 : forall r, In r (rootsN s1) -> r < nn s1).
  { intros r Hin. eapply roots_range in Hin; [apply Hin|..]; eauto; apply (ii_last _ _ _ _ I1). }
  assert (Q2 : forall r, In r (rootsN t1) -> r < nn t1) by (intros r; rewrite Hr, (lk_nn _ _ _ _ _ _ L); apply Q1).
  destruct (build_post_run fo c OK ix1 s1 (iv_wf _ _ _ _ _ _ _ V1) (iv_le _ _ _ _ _ _ _ V1) (iv_zero _ _ _ _ _ _ _ V1) Q1 C1)
    as (a & E1 & _ & W1 & A2 & A3 & A4 & A5 & A6 & A7 & A8).
  destruct (build_post_run fo c OK ix2 t1 (iv_wf _ _ _ _ _ _ _ V2) (iv_le _ _ _ _ _ _ _ V2) (iv_zero _ _ _ _ _ _ _ V2) Q2 C2)
    as (b & E2 & _ & W2 & D2 & D3 & D4 & D5 & D6 & D7 & D8).
  eexists _, _. split; [exact E1|]. split; [exact E2|].
  assert (Hnn : nn b = nn a) by (rewrite D2, A2, Hr; f_equal; apply L).
  assert (Him : forall i, simg b i = simg a i).
  { intro i. destruct (N.lt_ge_cases i (nn s1)) as [Hi|Hi].
    - rewrite A6, D6 by (rewrite ?(lk_nn _ _ _ _ _ _ L); exact Hi). apply L.
    - destruct (N.lt_ge_cases i (nn a)) as [Hj|Hj]; [|rewrite A8, D8 by lia; reflexivity].
      destruct (nth_error (rootsN s1) (N.to_nat (i - nn s1))) as [r|] eqn:En.
      + pose proof (A7 _ _ En) as Ea. replace (nn s1 + (i - nn s1)) with i in Ea by lia. rewrite Ea.
        rewrite <- Hr in En. pose proof (D7 _ _ En) as Eb. rewrite (lk_nn _ _ _ _ _ _ L) in Eb.
        replace (nn s1 + (i - nn s1)) with i in Eb by lia. rewrite Eb. unfold copy_image. now rewrite (lk_img _ _ _ _ _ _ L).
      + apply nth_error_None in En. unfold lenN in *. lia. }
  constructor; cbn [ib n_items batchMax iloaded ibuilt].
  - exact Hn.
  - exact Hnn.
  - unfold rootsN. rewrite A4, D4, (lk_roots _ _ _ _ _ _ L). reflexivity.
  - rewrite Hn, Hnn. do 2 f_equal. apply map_ext. intro i. unfold bm_weight. now rewrite Him.
  - rewrite A5, D5. apply L.
  - now rewrite (ii_loaded _ _ _ _ I1), (ii_loaded _ _ _ _ I2).
  - intros fs off len Hpos Ho.
    destruct (wf_arena _ _ _ W1 ltac:(lia)) as (u & Hu & Mu & Su). destruct (wf_arena _ _ _ W2 ltac:(lia)) as (w & Hw & Mw & Sw).
    assert (X1 : forall n m l bu im, view fs (mkIdx a n m l bu im) = Some u) by (intros; now apply view_arena).
    assert (X2 : forall n m l bu im, view fs (mkIdx b n m l bu im) = Some w) by (intros; now apply view_arena).
    rewrite X1, X2. cbn [vread].
    rewrite !bread_ok by nia. f_equal. rewrite <- Mu, <- Mw. apply images_bytes. exact Him.
Qed.

Lemma build_same h1 h2 ix1 ix2 T fuel mfuel rfuel : build_call fo c h1 ix1 T 1 fuel mfuel -> build_call fo c h2 ix2 T 1 fuel mfuel ->
  (forall i, last_added h2 i = last_added h1 i) -> rnd (ib ix2) = rnd (ib ix1) ->
  (build_single fo c fuel mfuel rfuel ix1 T = Er Unlucky /\ build_single fo c fuel mfuel rfuel ix2 T = Er Unlucky) \/
  exists a b, build_single fo c fuel mfuel rfuel ix1 T = Ok a /\ build_single fo c fuel mfuel rfuel ix2 T = Ok b /\ same_index fo c a b.
Proof.
  intros B1 B2 H HR.
  destruct (bc_added _ _ _ _ _ _ _ _ B1) as (r1 & hint1 & Ea1). destruct (bc_added _ _ _ _ _ _ _ _ B2) as (r2 & hint2 & Ea2).
  destruct (start fo c OK _ _ _ _ (bc_hist _ _ _ _ _ _ _ _ B1) Ea1) as (s0 & E1 & I1 & _ & R1 & S1).
  destruct (start fo c OK _ _ _ _ (bc_hist _ _ _ _ _ _ _ _ B2) Ea2) as (t0 & E2 & I2 & _ & R2 & S2).
  pose proof (same_count _ _ _ _ I1 I2 H) as Hn.
  pose proof (bc_trees _ _ _ _ _ _ _ _ B1) as HT. pose proof (bc_vlen _ _ _ _ _ _ _ _ B1) as Hv.
  pose proof (bc_room _ _ _ _ _ _ _ _ B1) as Hc. change (N.of_nat 1) with 1 in Hc.
  destruct (bc_fuel _ _ _ _ _ _ _ _ B1) as (F1 & F2 & F3).
  assert (Hr1 : rnd (ib ix1) <> None) by congruence.
  assert (P1 : plan_need ix1 [T] = forest_room (n_items ix1) T 1) by now apply plan_need_single.
  assert (P2 : plan_need ix2 [T] = forest_room (n_items ix1) T 1) by (rewrite <- Hn; now apply plan_need_single).
  pose proof (started_alike _ _ _ _ _ _ I1 I2 H S1 S2 Hr1 HR) as L0.
  unfold build_single. rewrite E1, E2. cbn [rbind]. rewrite (st_rnd _ _ _ _ _ S1), (st_rnd _ _ _ _ _ S2), HR, R1, Hn.
  assert (G1 : (exists s1, run c 0 (thread_build fo c (n_items ix1) fuel mfuel rfuel (nth 0 [T] 0%Z) 0) s0 = Ok (tt, s1) /\
     (length [T] = 1%nat -> grown fo c ix1 s0 [T] s1)) \/
     run c 0 (thread_build fo c (n_items ix1) fuel mfuel rfuel (nth 0 [T] 0%Z) 0) s0 = Er Unlucky).
  { eapply grown_single; eauto; try congruence.
    - apply (ii_last _ _ _ _ I1).
    - rewrite P1. eapply cap_ok_mono; [|exact Hc]. lia.
    - split; [lia|]. split; [lia|]. constructor; [lia|constructor]. }
  assert (G2 : (exists s1, run c 0 (thread_build fo c (n_items ix2) fuel mfuel rfuel (nth 0 [T] 0%Z) 0) t0 = Ok (tt, s1) /\
     (length [T] = 1%nat -> grown fo c ix2 t0 [T] s1)) \/
     run c 0 (thread_build fo c (n_items ix2) fuel mfuel rfuel (nth 0 [T] 0%Z) 0) t0 = Er Unlucky).
  { eapply grown_single; eauto; try congruence.
    - apply (ii_last _ _ _ _ I2).
    - rewrite P2, Hn. eapply cap_ok_mono; [|exact Hc]. lia.
    - split; [lia|]. split; [lia|]. constructor; [lia|constructor]. }
  cbn [nth] in G1, G2. rewrite Hn in G2.
  assert (N0 : nn s0 = n_items ix1).
  { pose proof (st_inv _ _ _ _ _ S1 0%nat (fun _ => 0) Hr1) as V1.
    rewrite (iv_nn _ _ _ _ _ _ _ V1), (st_owner _ _ _ _ _ S1). cbn. lia. }
  assert (RT : rel fo c (n_items ix1) (simg s0) (thread_build fo c (n_items ix1) fuel mfuel rfuel T 0)
     (thread_build fo c (n_items ix1) fuel mfuel rfuel T 0) s0 t0
     (fun _ s' _ => nn s' <= n_items ix1 + 2 * forest_room (n_items ix1) T 1)).
  { apply rel_thread; auto.
    - destruct (ii_last _ _ _ _ I1) as [H0|H0]; [left; lia|]. destruct (N.le_gt_cases (n_items ix1) K); [now left|].
      right. exists (n_items ix1 - 1). split; [lia|]. fold (n_desc c (simg s0 (n_items ix1 - 1))).
      rewrite (st_desc _ _ _ _ _ S1) by lia. destruct (last_added h1 (n_items ix1 - 1)); [lia|congruence].
    - lia.
    - unfold loop_room. rewrite N0. unfold forest_room. destruct (T =? -1)%Z; [lia|]. rewrite Z.sub_0_r. lia. }
  unfold rel in RT.
  destruct G1 as [(s1 & Es & G1)|Es]; destruct G2 as [(t1 & Et & G2)|Et]; rewrite Es, Et in *; cbn [rbind].
  - right. destruct RT as (_ & L & _).
    apply (same_after ix1 ix2 _ _ s0 t0 [T] s1 t1 I1 I2 H S1 S2 Hr1 HR); auto. now rewrite P1.
  - contradiction.
  - contradiction.
  - left. auto.
Qed.

(** ** Queries see no more than the nodes *)
Section Q.
Variables v w : option buf.
Variable ni : N.
Hypothesis Hsub : sub_view v w.
Definition grounded (r : N) : Prop := exists xs m, reach fo c v ni r xs m.

Lemma grounded_read r : grounded r -> exists bs, vread v (addr fo c r) NSZ = Ok bs /\ vread w (addr fo c r) NSZ = Ok bs /\
  ((n_desc c bs =? 1) && (r <? ni) = false -> (n_desc c bs <=? K) = false ->
   grounded (nth 0 (n_children c 2 bs) 0) /\ grounded (nth 1 (n_children c 2 bs) 0)).
Proof.
  pose proof (maxK_ge2 fo c OK) as HK.
  intros (xs & m & H). inversion H as [? ? Hl|? l r' ys zs m1 n1 Hs H1 H2]; subst.
  - destruct Hl as [bs R1 D1 L1|bs R1 L1 D1]; exists bs; (split; [exact R1|]); (split; [now apply Hsub|]); lia.
  - destruct Hs as [bs l r' R1 D1 C1]. exists bs. split; [exact R1|]. split; [now apply Hsub|]. intros _ _.
    rewrite C1. cbn [nth]. split; red; eauto.
Qed.

Lemma loop_same fuel : forall vec limit q cnt nns, Forall grounded (map snd q) ->
  search_loop fo c fuel w ni vec limit q cnt nns = search_loop fo c fuel v ni vec limit q cnt nns.
Proof.
  induction fuel as [|fu IH]; intros vec limit q cnt nns Hq; [reflexivity|]. rewrite !search_loop_S.
  destruct (_ && _) eqn:Es; [|reflexivity].
  destruct (pq_top q) as [[d i]|] eqn:Et; [|reflexivity].
  assert (Hne : q <> []) by (intros ->; discriminate).
  destruct (pq_pop_any less q Hne) as (x1 & q1 & Ep & Et1 & Hp). rewrite Et in Et1. injection Et1 as <-.
  rewrite Ep. cbn [rbind]. apply (Permutation_map snd) in Hp. cbn [map snd] in Hp.
  rewrite Hp in Hq. inversion Hq as [|? ? Hi Hq1]; subst.
  destruct (grounded_read i Hi) as (bs & E1 & E2 & Hch). rewrite E1, E2. cbn [rbind]. cbn zeta.
  destruct ((n_desc c bs =? 1) && (i <? ni)) eqn:Ei.
  - destruct (lenN nns <=? cnt); [reflexivity|]. destruct (put_at nns cnt [i]); [|reflexivity]. cbn [rbind]. now apply IH.
  - destruct (n_desc c bs <=? K) eqn:Ek.
    + destruct (put_at nns _ _); [|reflexivity]. cbn [rbind]. now apply IH.
    + destruct (margin _ _ _ _); [|reflexivity]. cbn [rbind]. destruct (Hch eq_refl eq_refl) as [G0 G1]. apply IH.
      rewrite (Permutation_map snd (pq_push_perm less _ _)). cbn [map snd]. constructor; [exact G0|].
      rewrite (Permutation_map snd (pq_push_perm less _ _)). cbn [map snd]. constructor; [exact G1|exact Hq1].
Qed.
Lemma score_same qn : forall l last, (forall j, In j l -> exists bs, vread v (addr fo c j) NSZ = Ok bs) ->
  score fo c w qn last l = score fo c v qn last l.
Proof.
  induction l as [|j l IH]; intros last H; cbn [score]; [reflexivity|].
  destruct (match last with Some x => j =? x | None => false end); [apply IH; intros; apply H; now right|].
  destruct (H j (or_introl eq_refl)) as (bs & Hb). rewrite Hb, (Hsub _ _ _ Hb). cbn [rbind].
  rewrite IH by (intros; apply H; now right). reflexivity.
Qed.
End Q.

Variable sortIx : list N -> list N.
Variable sortPairs : list (F fo * N) -> list (F fo * N).
Hypothesis HsI : sort_slice N.ltb sortIx.

Lemma query_sub fuel fs1 ix1 fs2 ix2 v f vec n inspect bc : forest fo c v (n_items ix1) (rootsN (ib ix1)) f ->
  n_items ix2 = n_items ix1 -> rootsN (ib ix2) = rootsN (ib ix1) ->
  sub_view v (view fs1 ix1) -> sub_view v (view fs2 ix2) -> lenN (c_nns bc) < 2 ^ iw c ->
  get_nns_by_vector fo c sortIx sortPairs fuel fs2 ix2 vec n inspect bc =
  get_nns_by_vector fo c sortIx sortPairs fuel fs1 ix1 vec n inspect bc.
Proof.
  intros FO Hn Hr S1 S2 Hw. unfold get_nns_by_vector. rewrite Hn, Hr. cbn zeta.
  set (limit := (if (inspect =? -1)%Z then _ else _)). set (q0 := fold_left _ _ _).
  assert (Hq : Forall (grounded v (n_items ix1)) (map snd q0)).
  { unfold q0. rewrite pushes_perm. cbn [map app pq_new]. apply Forall_forall. intros r Hin.
    destruct (fr_tree _ _ _ _ _ _ FO r Hin) as (xs & m & T). exists xs, m. apply T. }
  rewrite (loop_same v _ _ S1 _ _ _ _ _ _ Hq), (loop_same v _ _ S2 _ _ _ _ _ _ Hq).
  destruct (search_loop fo c fuel v (n_items ix1) vec limit q0 0 (c_nns bc)) as [[cnt nns]|e] eqn:El; [|reflexivity].
  cbn [rbind]. destruct (N.ltb_spec (lenN nns) cnt) as [|Hcnt]; [reflexivity|].
  destruct (query_node fo c vec) as [qn|]; [|reflexivity]. cbn [rbind].
  assert (Hc : forall j, In j (sortIx (firstn (N.to_nat cnt) nns)) -> exists bs, vread v (addr fo c j) NSZ = Ok bs).
  { pose proof (loop_mono _ _ _ _ _ _ _ _ _ _ _ _ El) as [_ Hlen].
    assert (Hll : lenN nns = lenN (c_nns bc)) by (unfold lenN; lia).
    destruct (search_loop_expands _ _ _ _ _ _ _ _ _ _ _ _ El) as (ys & rest & Hx & _ & Hf & _); [lia|lia|].
    cbn [firstn N.to_nat app] in Hf. rewrite Hf. intros j Hj.
    assert (Hj' : In j ys) by (eapply Permutation_in; [apply (proj1 HsI)|exact Hj]).
    destruct (forest_lists fo c v _ _ f FO) as (zs & m & Hre & _ & _ & Hlt & _).
    assert (Hp : Permutation (rootsN (ib ix1)) (map snd q0)).
    { unfold q0. rewrite pushes_perm. reflexivity. }
    destruct (reach_all_perm _ _ _ _ _ _ Hp _ _ Hre) as (zs1 & Hre1 & Hz1).
    destruct (expands_rest fo c _ _ _ _ _ (maxK_ge2 fo c OK) Hx _ _ Hre1) as (zs' & m' & _ & Hpz).
    assert (Hin : In j zs).
    { eapply Permutation_in; [symmetry; exact Hz1|]. eapply Permutation_in; [symmetry; exact Hpz|]. apply in_or_app. now left. }
    destruct (fr_item _ _ _ _ _ _ FO j (Hlt j Hin)) as (bs & Hb & _). eauto. }
  rewrite (score_same v _ S1 _ _ _ Hc), (score_same v _ S2 _ _ _ Hc). reflexivity.
Qed.

(** ** The two built indexes *)
Lemma both_built h1 h2 ix1 ix2 T fuel mfuel rfuel a b : build_call fo c h1 ix1 T 1 fuel mfuel -> build_call fo c h2 ix2 T 1 fuel mfuel ->
  (forall i, last_added h2 i = last_added h1 i) -> rnd (ib ix2) = rnd (ib ix1) ->
  build_single fo c fuel mfuel rfuel ix1 T = Ok a -> build_single fo c fuel mfuel rfuel ix2 T = Ok b ->
  same_index fo c a b /\ items_inv fo c ix1 (last_added h1) /\
  (exists plan, after_build fo c ix1 (last_added h1) plan a) /\ (exists plan, after_build fo c ix2 (last_added h2) plan b).
Proof.
  intros B1 B2 H HR E1 E2.
  destruct (build_same _ _ _ _ _ _ _ rfuel B1 B2 H HR) as [[E _]|(a' & b' & E1' & E2' & SX)]; [congruence|].
  rewrite E1 in E1'. rewrite E2 in E2'. injection E1' as <-. injection E2' as <-. split; [exact SX|].
  assert (X1 : build_result fo c ix1 T 1 fuel mfuel rfuel a) by (left; auto).
  assert (X2 : build_result fo c ix2 T 1 fuel mfuel rfuel b) by (left; auto).
  destruct (result_after fo c OK _ _ _ _ _ _ _ _ B1 X1) as (I1 & p1 & A1 & _).
  destruct (result_after fo c OK _ _ _ _ _ _ _ _ B2 X2) as (I2 & p2 & A2 & _). eauto.
Qed.

Lemma same_query fuel fs ix f plan a b vec n inspect bc : 3 * ixb c <= vlen c -> items_inv fo c ix f -> after_build fo c ix f plan a ->
  same_index fo c a b -> lenN (c_nns bc) < 2 ^ iw c ->
  get_nns_by_vector fo c sortIx sortPairs fuel fs b vec n inspect bc =
  get_nns_by_vector fo c sortIx sortPairs fuel fs a vec n inspect bc.
Proof.
  intros Hv I A SX Hw. destruct (N.eq_0_gt_0_cases (nn (ib a))) as [Hz|Hp].
  - assert (Hr : rootsN (ib a) = []).
    { destruct (rootsN (ib a)) as [|r rs] eqn:Er; [reflexivity|]. pose proof (bt_range _ _ _ _ _ _ A r) as Hr. rewrite Er in Hr.
      specialize (Hr (or_introl eq_refl)). lia. }
    unfold get_nns_by_vector. rewrite (sx_roots _ _ _ _ SX), (sx_items _ _ _ _ SX), Hr. cbn zeta. cbn [fold_left].
    rewrite !(no_work fo c) by auto. cbn [rbind]. destruct (_ <? _); [reflexivity|].
    change (firstn (N.to_nat 0) (c_nns bc)) with (@nil N). rewrite (sortIx_nil _ HsI). reflexivity.
  - destruct (nodes_view_sub fs _ _ _ _ A) as [S1|H0]; [|lia].
    eapply query_sub; [eapply after_forest_view; eauto; eapply nodes_view_agrees; eauto|apply SX|apply SX|exact S1| |exact Hw].
    intros off len bs Hb. rewrite (sx_bytes _ _ _ _ SX); [now apply S1|exact Hp|]. revert Hb. unfold nodes_view. cbn [vread]. unfold bread. cbn [bsize].
    destruct (N.leb_spec (off + len) (nn (ib a) * NSZ)); [auto|discriminate].
Qed.
End S.

(** ** Saving *)
Section L.
Variable fo : FOps.
Variable c : Cfg.
Hypothesis OK : CfgOK fo c.
Notation NSZ := (nodeSize fo c).

Definition load_outcome (r1 r2 : res (idx * option ioerr)) : Prop :=
  match r1, r2 with
  | Ok (a, e1), Ok (b, e2) => e1 = e2 /\ same_index fo c a b
  | Er e1, Er e2 => e1 = e2
  | _, _ => False
  end.
Lemma close_same a b : rnd (ib b) = rnd (ib a) -> batchMax b = batchMax a -> ibuilt b = ibuilt a ->
  match close a, close b with
  | Ok a', Ok b' => same_index fo c a' b' /\ rnd (ib a') = rnd (ib b') /\ batchMax b' = batchMax a' /\ ibuilt b' = ibuilt a'
  | Er e1, Er e2 => e1 = e2
  | _, _ => False
  end.
Proof.
  intros Hr Hb Hu. unfold close. rewrite Hr. destruct (rnd (ib a)); [|reflexivity]. cbn. split; [|auto].
  constructor; cbn; auto.
Qed.
Lemma load_same k fs a b f : rnd (ib b) = rnd (ib a) -> batchMax b = batchMax a -> ibuilt b = ibuilt a ->
  load_outcome (load fo c k fs a f) (load fo c k fs b f).
Proof.
  intros Hr Hb Hu. unfold load. pose proof (close_same a b Hr Hb Hu) as H1.
  destruct (close a) as [a0|], (close b) as [b0|]; try contradiction; cbn [rbind]; [|exact H1].
  destruct H1 as (SX & Hr0 & Hb0 & Hu0). destruct (im_open k fs f) as [[im|e]|e]; cbn [rbind]; [| |reflexivity].
  - destruct (negb _).
    + pose proof (close_same a0 b0 (eq_sym Hr0) Hb0 Hu0) as H2. destruct (close a0) as [a1|], (close b0) as [b1|]; try contradiction; cbn.
      * split; [reflexivity|apply H2].
      * exact H2.
    + destruct (scan_roots _ _ _ _ _ _) as [[roots m]|]; cbn [rbind]; [|reflexivity].
      destruct (drop_duplicate_root _ _ _ _) as [roots'|]; cbn [rbind]; [|reflexivity].
      destruct (batch_max _ _ _ _ _ _) as [bm|]; cbn [rbind]; [|reflexivity]. cbn. split; [reflexivity|].
      constructor; cbn; auto.
  - cbn. auto.
Qed.

Definition save_outcome (r1 r2 : res (idx * files * option ioerr)) : Prop :=
  match r1, r2 with
  | Ok (a, fs1, e1), Ok (b, fs2, e2) => e1 = e2 /\ fs1 = fs2 /\ same_index fo c a b
  | Er e1, Er e2 => e1 = e2
  | _, _ => False
  end.
Lemma save_same k os fs f a b : same_index fo c a b -> cap_ok fo c (nn (ib a)) -> imemory a = None -> imemory b = None ->
  save_outcome (save fo c k os fs a f) (save fo c k os fs b f).
Proof.
  intros SX Hc M1 M2. unfold save. destruct (sx_flags _ _ _ _ SX) as [_ ->].
  destruct (ibuilt a) eqn:Eb; cbn [negb]; [|cbn; auto].
  rewrite (sx_nodes _ _ _ _ SX). rewrite M1, M2.
  pose proof (cap_ok_ge (nn (ib a))) as Hge. unfold cap_ok in Hc. rewrite tix_small by nia.
  assert (Hv : (if nn (ib a) * NSZ =? 0 then Ok [] else vread (view (fs_set fs f (Some [])) b) 0 (nn (ib a) * NSZ)) =
               (if nn (ib a) * NSZ =? 0 then Ok [] else vread (view (fs_set fs f (Some [])) a) 0 (nn (ib a) * NSZ))).
  { destruct (N.eqb_spec (nn (ib a) * NSZ) 0); [reflexivity|]. apply (sx_bytes _ _ _ _ SX); [nia|lia]. }
  rewrite Hv. destruct os; [|cbn; auto|].
  - destruct (if nn (ib a) * NSZ =? 0 then Ok [] else vread (view (fs_set fs f (Some [])) a) 0 (nn (ib a) * NSZ)) as [bs|]; [|reflexivity].
    pose proof (load_same k (fs_set fs f (Some bs)) a b f (sx_rnd _ _ _ _ SX) (sx_batch _ _ _ _ SX) (proj2 (sx_flags _ _ _ _ SX))) as HL.
    destruct (load fo c k (fs_set fs f (Some bs)) a f) as [[a' e1]|], (load fo c k (fs_set fs f (Some bs)) b f) as [[b' e2]|];
      cbn in *; try contradiction; intuition.
  - destruct (if nn (ib a) * NSZ =? 0 then Ok [] else vread (view (fs_set fs f (Some [])) a) 0 (nn (ib a) * NSZ)) as [bs|]; [|reflexivity]. cbn. auto.
Qed.
End L.

(** ** Memory-mapped and copied files *)
Section M.
Variable fo : FOps.
Variable c : Cfg.

Lemma mmap_view fs f bs : fs f = Some bs -> im_view fs (mkIM MmapMem f (lenN bs) []) = im_view fs (mkIM GCMem f (lenN bs) bs).
Proof.
  intro H. unfold im_view. cbn [im_kind im_file im_size im_copy]. rewrite H. f_equal. apply firstn_all2. unfold lenN. lia.
Qed.
Lemma load_kinds fs ix f bs : fs f = Some bs -> bs <> [] ->
  match load fo c GCMem fs ix f, load fo c MmapMem fs ix f with
  | Ok (a, e1), Ok (b, e2) => e1 = e2 /\ n_items b = n_items a /\ nn (ib b) = nn (ib a) /\ rootsN (ib b) = rootsN (ib a) /\
      batchMax b = batchMax a /\ iloaded b = iloaded a /\ ibuilt b = ibuilt a /\ rnd (ib b) = rnd (ib a) /\
      forall fs', fs' f = Some bs -> view fs' b = view fs' a
  | Er e1, Er e2 => e1 = e2
  | _, _ => False
  end.
Proof.
  intros H Hne. unfold load. destruct (close ix) as [ix0|] eqn:Ec; cbn [rbind]; [|reflexivity].
  assert (Hb : base (ib ix0) = None /\ imemory ix0 = None).
  { unfold close in Ec. destruct (rnd (ib ix)); [|discriminate]. injection Ec as <-. auto. }
  unfold im_open. rewrite H. destruct bs as [|x bs']; [congruence|]. cbn [rbind im_size].
  destruct (negb _).
  - destruct (close ix0) as [ix1|]; cbn [rbind]; [|reflexivity]. auto 10.
  - rewrite (mmap_view _ _ _ H).
    destruct (scan_roots _ _ _ _ _ _) as [[roots m]|]; cbn [rbind]; [|reflexivity].
    destruct (drop_duplicate_root _ _ _ _) as [roots'|]; cbn [rbind]; [|reflexivity].
    destruct (batch_max _ _ _ _ _ _) as [bm|]; cbn [rbind]; [|reflexivity].
    repeat (split; [reflexivity|]). intros fs' H'. unfold view. cbn [ib base imemory]. f_equal. now apply mmap_view.
Qed.
End M.

(** Answers depend on the index only through its counts, roots and bytes. *)
Lemma query_by_view fo c sortIx sortPairs fuel fs1 ix1 fs2 ix2 vec n inspect bc :
  n_items ix2 = n_items ix1 -> rootsN (ib ix2) = rootsN (ib ix1) -> view fs2 ix2 = view fs1 ix1 ->
  get_nns_by_vector fo c sortIx sortPairs fuel fs2 ix2 vec n inspect bc = get_nns_by_vector fo c sortIx sortPairs fuel fs1 ix1 vec n inspect bc.
Proof. intros H1 H2 H3. unfold get_nns_by_vector. now rewrite H1, H2, H3. Qed.
Lemma getters_by_view fo c fs1 ix1 fs2 ix2 : view fs2 ix2 = view fs1 ix1 ->
  (forall i, get_item fo c fs2 ix2 i = get_item fo c fs1 ix1 i) /\
  (forall i j, get_distance fo c fs2 ix2 i j = get_distance fo c fs1 ix1 i j).
Proof. intro H. unfold get_item, get_distance, node_fields. rewrite H. auto. Qed.

(** ** Histories *)
Lemma last_added_none {V} (h : list (N * V)) i : ~ In i (map fst h) -> last_added h i = None.
Proof.
  induction h as [|[j w] h IH]; cbn [last_added map fst]; intro H; [reflexivity|].
  rewrite IH by (intro X; apply H; now right). destruct (N.eqb_spec j i); [|reflexivity]. exfalso. apply H. now left.
Qed.
Lemma last_added_once {V} (h : list (N * V)) i v : NoDup (map fst h) -> last_added h i = Some v <-> In (i, v) h.
Proof.
  induction h as [|[j w] h IH]; cbn [last_added map fst]; intro H; [split; [discriminate|contradiction]|].
  inversion H as [|? ? Hn Hd]; subst. specialize (IH Hd). destruct (last_added h i) as [x|] eqn:E.
  - rewrite IH. split; [now right|]. intros [[= -> ->]|X]; [|exact X]. apply (last_added_none h) in Hn. congruence.
  - destruct (N.eqb_spec j i) as [->|Hj].
    + split; [intros [= ->]; now left|]. intros [[= ->]|X]; [reflexivity|]. apply IH in X. discriminate.
    + split; [discriminate|]. intros [[= -> ->]|X]; [congruence|]. apply IH in X. discriminate.
Qed.
Lemma last_added_perm {V} (h h' : list (N * V)) : NoDup (map fst h) -> Permutation h h' -> forall i, last_added h' i = last_added h i.
Proof.
  intros Hd Hp i. assert (Hd' : NoDup (map fst h')) by (eapply Permutation_NoDup; [apply Permutation_map; exact Hp|exact Hd]).
  destruct (last_added h i) as [v|] eqn:E.
  - apply last_added_once in E; [|exact Hd]. apply last_added_once; [exact Hd'|]. eapply Permutation_in; eauto.
  - destruct (last_added h' i) as [v|] eqn:E'; [|reflexivity]. apply last_added_once in E'; [|exact Hd'].
    apply (Permutation_in (l' := h)) in E'; [|now symmetry]. apply (last_added_once h i v Hd) in E'. congruence.
Qed.
