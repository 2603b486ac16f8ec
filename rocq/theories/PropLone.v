(** Indexes that cannot be saved: all their nodes have the same number of descendants (C108). *)
From Verif Require Import Base Flt Layout Rng Sorts Alloc Prog Dist Build Policy Index Search Spec ForestSpec BuildSpec
  Lib LayoutProof MemProof StoreProof QueryProof TreeProof PolicyProof BuildProof ForestProof AfterProof IOProof LoadProof BucketProof
  Concrete PropForest PropSize.
Open Scope N_scope.

Section S.
Variable fo : FOps.
Variable c : Cfg.
Hypothesis OK : CfgOK fo c.
Notation NSZ := (nodeSize fo c).

(** Node [i] of a file. *)
Definition file_node (bs : list N) (i : N) : list N := sub (i * NSZ) NSZ bs.

Section F.
Variable bs : list N.
Variables n m : N.
Hypothesis Hlen : lenN bs = n * NSZ.
Hypothesis Hroom : (n + 1) * NSZ <= 2 ^ iw c.
Hypothesis Hsame : forall i, i < n -> n_desc c (file_node bs i) = m.
Notation vw := (Some (buf_of_bytes bs)).

Lemma pow_pos : 2 ^ iw c <> 0.
Proof. apply N.pow_nonzero. discriminate. Qed.
Lemma file_desc i : i < n -> exists w, vread vw (addr fo c i) (ixb c) = Ok w /\ le_dec w = m.
Proof.
  intro Hi. pose proof (nodeSize_ge fo c OK) as Hn. unfold addr. rewrite (tix_small c (i * NSZ)) by nia. cbn [vread].
  assert (Hr : i * NSZ + ixb c <= lenN bs) by nia. eexists. split; [apply bread_ok; exact Hr|]. rewrite <- (Hsame i Hi).
  unfold n_desc, file_node. f_equal. cbn [buf_of_bytes bdata].
  replace (i * NSZ) with (0 + i * NSZ) at 1 by lia. rewrite mread_mwrite_within by lia.
  unfold sub. cbn [N.to_nat skipn]. rewrite firstn_firstn. f_equal. lia.
Qed.
Lemma file_before : vread vw (addr fo c (2 ^ iw c - 1)) (ixb c) = Er Fault.
Proof.
  pose proof pow_pos as Hp. pose proof (nodeSize_pos fo c OK) as Hs. pose proof (ixb_pos _ _ OK) as Hi.
  assert (E : addr fo c (2 ^ iw c - 1) = 2 ^ iw c - NSZ).
  { unfold addr, tix, wrap. replace ((2 ^ iw c - 1) * NSZ) with (2 ^ iw c - NSZ + (NSZ - 1) * 2 ^ iw c) by nia.
    rewrite N.mod_add by exact Hp. apply N.mod_small. nia. }
  rewrite E. cbn [vread]. unfold bread, buf_of_bytes. cbn [bsize]. now replace (_ <=? lenN bs) with false by nia.
Qed.
Lemma scan_falls_off : forall i fuel mo acc, N.of_nat i < n -> (i + 2 <= fuel)%nat -> mo = None \/ mo = Some m ->
  scan_roots fo c fuel vw (N.of_nat i) mo acc = Er Fault.
Proof.
  pose proof pow_pos as Hp. pose proof (nodeSize_pos fo c OK) as Hs.
  assert (Hnp : n < 2 ^ iw c) by nia.
  induction i as [|i IH]; intros fuel mo acc Hi Hf Hm; (destruct fuel as [|fuel]; [lia|]); cbn [scan_roots];
    destruct (file_desc _ Hi) as (w & Ew & Hw); rewrite Ew; cbn [rbind]; rewrite Hw;
    replace (match mo with None => true | Some m' => m =? m' end) with true by (destruct Hm as [->| ->]; [reflexivity|symmetry; apply N.eqb_refl]).
  - destruct fuel as [|fuel]; [lia|]. cbn [scan_roots].
    replace (tix c (N.of_nat 0 + 2 ^ iw c - 1)) with (2 ^ iw c - 1) by (symmetry; apply tix_small; lia). now rewrite file_before.
  - replace (tix c (N.of_nat (S i) + 2 ^ iw c - 1)) with (N.of_nat i).
    + apply IH; [lia|lia|now right].
    + unfold tix, wrap. replace (N.of_nat (S i) + 2 ^ iw c - 1) with (N.of_nat i + 1 * 2 ^ iw c) by lia.
      rewrite N.mod_add by exact Hp. symmetry. apply N.mod_small. lia.
Qed.
Lemma load_falls_off k fs a fl : 0 < n -> fs fl = Some bs -> rnd (ib a) <> None -> load fo c k fs a fl = Er Fault.
Proof.
  intros Hn Hf Hr. unfold load. assert (E1 : exists a1, close a = Ok a1) by (unfold close; destruct (rnd (ib a)); [eauto|congruence]).
  destruct E1 as (a1 & E1). rewrite E1. cbn [rbind]. pose proof (nodeSize_pos fo c OK) as Hs. pose proof pow_pos as Hp.
  assert (Hopen : im_open k fs fl = Ok (inl (mkIM k fl (lenN bs) (match k with GCMem => bs | MmapMem => [] end)))).
  { unfold im_open. rewrite Hf. destruct bs as [|b l]; [rewrite lenN_nil in Hlen; nia|reflexivity]. }
  rewrite Hopen. cbn [rbind im_size]. rewrite Hlen at 1. rewrite N.mod_mul by lia. cbn [N.eqb negb].
  rewrite (file_view k fs fl bs Hf), (tix_small c (lenN bs)) by nia. rewrite Hlen at 1 2. rewrite N.div_mul by lia.
  replace (tix c (n + 2 ^ iw c - 1)) with (N.of_nat (N.to_nat (n - 1))).
  - rewrite scan_falls_off; [reflexivity|lia|lia|now left].
  - unfold tix, wrap. replace (n + 2 ^ iw c - 1) with (n - 1 + 1 * 2 ^ iw c) by lia.
    rewrite N.mod_add by exact Hp. rewrite N.mod_small by nia. lia.
Qed.
End F.

(** What Save writes. *)
Lemma save_loads ix f plan ix' k fs fl : after_build fo c ix f plan ix' -> 0 < nn (ib ix') ->
  exists bs, lenN bs = nn (ib ix') * NSZ /\ (forall i, i < nn (ib ix') -> file_node bs i = snode_img fo c (ib ix') i) /\
  save fo c k OsOk fs ix' fl = let* (ix2, e) := load fo c k (fs_set fs fl (Some bs)) ix' fl in Ok (ix2, fs_set fs fl (Some bs), e).
Proof.
  intros A Hn. pose proof (bt_ns _ _ _ _ _ _ A) as Hns. pose proof (nodeSize_pos fo c OK) as Hs.
  pose proof (bt_cap _ _ _ _ _ _ A) as Hc. unfold cap_ok in Hc. pose proof (cap_ok_ge (nn (ib ix'))) as Hg.
  destruct (wf_arena _ _ _ (bt_wf _ _ _ _ _ _ A) ltac:(lia)) as (b & Hb & Hm & Hsz).
  exists (mread (bdata b) 0 (N.to_nat (nn (ib ix') * NSZ))). split; [unfold lenN; rewrite length_mread; lia|]. split.
  - intros i Hi. unfold file_node, snode_img, node_at, sub. rewrite Hm, skipn_mread by nia. rewrite firstn_mread by nia. f_equal. lia.
  - unfold save. destruct (bt_flags _ _ _ _ _ _ A) as (_ & Hbu & _). rewrite Hbu. cbn [negb].
    rewrite tix_small by nia. replace (nn (ib ix') * NSZ =? 0) with false by nia.
    rewrite (view_arena _ _ b Hb). cbn [vread]. rewrite bread_ok by nia. reflexivity.
Qed.
End S.

(** ** C108 *)
(** A file whose nodes all have the same number of descendants makes Load read memory
    that does not belong to the file. *)
Theorem C108_uniform_file_cannot_be_loaded :
  forall fo c, CfgOK fo c -> forall bs n m, 0 < n -> lenN bs = n * nodeSize fo c -> (n + 1) * nodeSize fo c <= 2 ^ iw c ->
  (forall i, i < n -> n_desc c (file_node fo c bs i) = m) ->
  forall k fs a fl, fs fl = Some bs -> rnd (ib a) <> None -> load fo c k fs a fl = Er Fault.
Proof. intros. eapply load_falls_off; eauto. Qed.

Lemma uniform_not_saved fo c : CfgOK fo c -> forall ix f plan ix' m, after_build fo c ix f plan ix' -> 2 <= nn (ib ix') ->
  (forall i, i < nn (ib ix') -> n_desc c (snode_img fo c (ib ix') i) = m) ->
  forall k fs fl, save fo c k OsOk fs ix' fl = Er Fault.
Proof.
  intros OK ix f plan ix' m A Hn Hs k fs fl. destruct (save_loads fo c OK ix f plan ix' k fs fl A ltac:(lia)) as (bs & H1 & H2 & E). rewrite E.
  rewrite (load_falls_off fo c OK bs (nn (ib ix')) m H1); [reflexivity| | |lia|unfold fs_set; now rewrite N.eqb_refl|apply (bt_rnd _ _ _ _ _ _ A)].
  - pose proof (bt_cap _ _ _ _ _ _ A) as Hc. unfold cap_ok in Hc.
    assert (nn (ib ix') + 1 <= nn (ib ix') * 3 / 2) by (apply N.div_le_lower_bound; lia). nia.
  - intros i Hi. rewrite H2 by exact Hi. now apply Hs.
Qed.
Lemma item_count fo c : CfgOK fo c -> forall ix f plan ix' i, items_inv fo c ix f -> after_build fo c ix f plan ix' -> i < n_items ix -> f i <> None ->
  n_desc c (snode_img fo c (ib ix') i) = 1.
Proof.
  intros OK ix f plan ix' i I A Hi Hf. rewrite (bt_img _ _ _ _ _ _ A) by exact Hi.
  rewrite (ib_desc _ _ _ _ (image_bytes fo c OK (n_items ix) f i (ii_len _ _ _ _ I))). destruct (f i); [reflexivity|congruence].
Qed.
(** An index of one item cannot be saved, however long its vector is and however it is
    built. *)
Theorem C108_one_item_cannot_be_saved :
  forall fo c, CfgOK fo c ->
  forall h ix T nw fuel mfuel rfuel ix', build_call fo c h ix T nw fuel mfuel -> build_result fo c ix T nw fuel mfuel rfuel ix' ->
  n_items ix = 1 -> rootsN (ib ix') <> [] ->
  forall k fs fl, save fo c k OsOk fs ix' fl = Er Fault.
Proof.
  intros fo c OK h ix T nw fuel mfuel rfuel ix' B R H1 Hne k fs fl.
  destruct (result_after fo c OK _ _ _ _ _ _ _ _ B R) as (I & plan & A & _). pose proof (maxK_ge2 fo c OK) as HK2.
  assert (HK : n_items ix <= maxK fo c) by lia. pose proof (bc_vlen _ _ _ _ _ _ _ _ B) as Hv.
  pose proof (all_nodes fo c ix _ plan ix' A HK) as Hn.
  assert (HR : 1 <= lenN (rootsN (ib ix'))) by (destruct (rootsN (ib ix')); [congruence|rewrite lenN_cons; lia]).
  apply (uniform_not_saved fo c OK ix _ plan ix' 1 A); [lia|]. intros i Hi. destruct (N.eq_dec i 0) as [->|H0].
  - apply (item_count fo c OK ix _ plan ix' 0 I A); [lia|]. destruct (ii_last _ _ _ _ I) as [X|X]; [lia|]. now rewrite H1 in X.
  - rewrite <- H1. apply (node_count fo c OK ix _ plan ix' A HK); [exact Hv|lia|exact Hi].
Qed.
(** Nor can an index without trees, if every number below [n_items] was added. *)
Theorem C108_no_trees_cannot_be_saved :
  forall fo c, CfgOK fo c ->
  forall h ix nw fuel mfuel rfuel ix', build_call fo c h ix 0 nw fuel mfuel -> build_result fo c ix 0 nw fuel mfuel rfuel ix' ->
  2 <= n_items ix -> (forall i, i < n_items ix -> last_added h i <> None) ->
  forall k fs fl, save fo c k OsOk fs ix' fl = Er Fault.
Proof.
  intros fo c OK h ix nw fuel mfuel rfuel ix' B R H2 Hall k fs fl.
  destruct (result_after fo c OK _ _ _ _ _ _ _ _ B R) as (I & plan & A & _).
  pose proof (C98_number_of_nodes fo c OK _ _ _ _ _ _ _ _ B R ltac:(lia)) as Hn. cbn [Z.to_N] in Hn.
  apply (uniform_not_saved fo c OK ix _ plan ix' 1 A); [lia|]. intros i Hi. apply (item_count fo c OK ix _ plan ix' i I A); [lia|apply Hall; lia].
Qed.
(** Building with no workers also gives an index without trees, whatever the number of
    trees asked for. *)
Lemma zero_after fo c : CfgOK fo c -> forall r hint h ix, 1 <= vlen c -> hist_ok fo c h -> add_all fo c (new_index fo c (Some r) hint) h = Ok ix ->
  cap_ok fo c (n_items ix) ->
  forall fuel mfuel rfuel T ncpu ix', build_multi fo c fuel mfuel rfuel ix T 0 ncpu ix' ->
  items_inv fo c ix (last_added h) /\ after_build fo c ix (last_added h) [] ix' /\ nn (ib ix') = n_items ix.
Proof.
  intros OK r hint h ix Hv Hh Ea Hc fuel mfuel rfuel T ncpu ix' (plan & s0 & ps & s1 & B1 & B2 & B3 & B4 & B5).
  destruct (start fo c OK (Some r) hint h ix Hh Ea) as (s0' & E0 & I & Hn & Hr & ST).
  rewrite B1 in E0. injection E0 as <-. cbn in B2. injection B2 as <-. split; [exact I|].
  destruct (built_intro fo c OK ix (last_added h) s0 [] s1) as (ix1 & E1 & B); auto.
  - congruence.
  - change (plan_need ix []) with 0. now replace (n_items ix + 2 * 0) with (n_items ix) by lia.
  - eapply (grown_multi fo c OK) with (fuel := S (S (N.to_nat (n_items ix)))) (mfuel := S (S (N.to_nat (n_items ix)))) (rfuel := 0%nat) (ps := ps); eauto; try congruence.
    + apply (ii_last _ _ _ _ I).
    + change (plan_need ix []) with 0. now replace (n_items ix + 0) with (n_items ix) by lia.
    + split; [lia|]. split; [lia|]. constructor.
  - rewrite B5 in E1. injection E1 as <-. split; [exact B|].
    destruct (bt_copies _ _ _ _ _ _ B) as (n & Hnn & _). pose proof (bt_size _ _ _ _ _ _ B) as Hsz.
    pose proof (bt_count _ _ _ _ _ _ B (Forall_nil _)) as Hcn. cbn in Hcn. pose proof (bt_ni _ _ _ _ _ _ B) as Hni.
    change (plan_need ix []) with 0 in Hsz. lia.
Qed.
Theorem C108_zero_workers_cannot_be_saved :
  forall fo c, CfgOK fo c -> 1 <= vlen c ->
  forall r hint h ix, hist_ok fo c h -> add_all fo c (new_index fo c (Some r) hint) h = Ok ix ->
  cap_ok fo c (n_items ix) -> 2 <= n_items ix -> (forall i, i < n_items ix -> last_added h i <> None) ->
  forall fuel mfuel rfuel T ncpu ix', build_multi fo c fuel mfuel rfuel ix T 0 ncpu ix' ->
  forall k fs fl, save fo c k OsOk fs ix' fl = Er Fault.
Proof.
  intros fo c OK Hv r hint h ix Hh Ea Hc H2 Hall fuel mfuel rfuel T ncpu ix' R k fs fl.
  destruct (zero_after fo c OK r hint h ix Hv Hh Ea Hc _ _ _ _ _ _ R) as (I & A & Hn).
  apply (uniform_not_saved fo c OK ix _ [] ix' 1 A); [lia|]. intros i Hi. apply (item_count fo c OK ix _ [] ix' i I A); [lia|apply Hall; lia].
Qed.
(** One item and four trees; and three items and no tree. *)
Definition one_item : list (N * list (F fops32)) := [(0, fv [1; 2; 3]%Z)].
Definition one_ix : idx := Eval vm_compute in or_else (ix0 (cA 3)) (add_all fops32 (cA 3) (ix0 (cA 3)) one_item).
Definition one_built : idx := Eval vm_compute in or_else one_ix (build_single fops32 (cA 3) 20 20 20 one_ix 4).
Definition three : list (N * list (F fops32)) := [(0, fv [1; 2; 3]%Z); (1, fv [0; 1; 1]%Z); (2, fv [5; 0; 0]%Z)].
Definition three_ix : idx := Eval vm_compute in or_else (ix0 (cA 3)) (add_all fops32 (cA 3) (ix0 (cA 3)) three).
Definition three_built : idx := Eval vm_compute in or_else three_ix (build_single fops32 (cA 3) 20 20 20 three_ix 0).
Example C108_example :
  build_call fops32 (cA 3) one_item one_ix 4 1 20 20 /\ build_result fops32 (cA 3) one_ix 4 1 20 20 20 one_built /\
  n_items one_ix = 1 /\ lenN (rootsN (ib one_built)) = 4 /\
  build_call fops32 (cA 3) three three_ix 0 1 20 20 /\ build_result fops32 (cA 3) three_ix 0 1 20 20 20 three_built /\
  n_items three_ix = 3 /\ forall i, i < 3 -> last_added three i <> None.
Proof.
  assert (Hn : n_items one_ix = 1) by (vm_compute; reflexivity). assert (Hm : n_items three_ix = 3) by (vm_compute; reflexivity).
  split; [|split; [left; split; [reflexivity|vm_compute; reflexivity]|split; [exact Hn|split; [vm_compute; reflexivity|
    split; [|split; [left; split; [reflexivity|vm_compute; reflexivity]|split; [exact Hm|]]]]]]].
  1,2: constructor; rewrite ?Hn, ?Hm; [vm_compute; discriminate| |exists (kiss_new 0), 0; vm_compute; reflexivity|lia|lia|lia|vm_compute; reflexivity|vm_compute; lia].
  - unfold hist_ok, one_item. repeat (constructor; [split; vm_compute; reflexivity|]). constructor.
  - unfold hist_ok, three. repeat (constructor; [split; vm_compute; reflexivity|]). constructor.
  - intros i Hi. assert (H : i = 0 \/ i = 1 \/ i = 2) by lia. destruct H as [->|[->| ->]]; cbn; discriminate.
Qed.
Definition three_pre : bst := Eval vm_compute in match build_pre fops32 (cA 3) three_ix with Ok s => s | Er _ => ib three_ix end.
Definition three_zero : idx := Eval vm_compute in or_else three_ix (build_post fops32 (cA 3) three_ix three_pre).
Example C108_zero_example :
  hist_ok fops32 (cA 3) three /\ add_all fops32 (cA 3) (ix0 (cA 3)) three = Ok three_ix /\
  cap_ok fops32 (cA 3) (n_items three_ix) /\ build_multi fops32 (cA 3) 20 20 20 three_ix 5 0 8 three_zero.
Proof.
  split; [unfold hist_ok, three; repeat (constructor; [split; vm_compute; reflexivity|]); constructor|].
  split; [vm_compute; reflexivity|]. split; [vm_compute; reflexivity|].
  exists [], three_pre, [], three_pre. split; [vm_compute; reflexivity|]. split; [reflexivity|]. split; [apply pss_refl|].
  split; [reflexivity|vm_compute; reflexivity].
Qed.
Print Assumptions C108_uniform_file_cannot_be_loaded.
Print Assumptions C108_one_item_cannot_be_saved.
Print Assumptions C108_zero_workers_cannot_be_saved.
Print Assumptions C108_no_trees_cannot_be_saved.
