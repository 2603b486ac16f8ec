(** Indexes whose items fit one bucket, such as the one of the README (C106). *)
From Verif Require Import Base Flt Layout Rng Sorts Alloc Prog Imbalance Dist Build Policy Index Search Spec ForestSpec BuildSpec
  Lib LayoutProof FltProof MemProof SortsProof StoreProof SearchProof QueryProof TreeProof PolicyProof BuildProof ForestProof
  NumProof AfterProof TopProof MoreProof IOProof WholeProof OwnProof BucketProof
  Concrete PropSearch PropForest PropIO PropNum PropLoaded.
From Coq Require Import Permutation.
Open Scope N_scope.

Section S.
Variable fo : FOps.
Variable c : Cfg.
Hypothesis FL : is_float fo.
Hypothesis OK : CfgOK fo c.
Variable sortIx : list N -> list N.
Variable sortPairs : list (F fo * N) -> list (F fo * N).
Hypothesis HI : sort_slice N.ltb sortIx.
Hypothesis HP : sort_slice (pair_less (flt fo) (feq fo)) sortPairs.
Variables (h : list (N * list (F fo))) (ix ix' : idx) (T : Z) (nw fuel mfuel rfuel : nat).
Hypothesis B : build_call fo c h ix T nw fuel mfuel.
Hypothesis R : build_result fo c ix T nw fuel mfuel rfuel ix'.
Hypothesis HK : n_items ix <= maxK fo c.
Notation query := (get_nns_by_vector fo c sortIx sortPairs).

Lemma no_trees_forest fs2 ix2 f : items_inv fo c ix f -> forall plan, after_build fo c ix f plan ix' ->
  agrees fo c ix' (view fs2 ix2) -> n_items ix2 = n_items ix -> forest fo c (view fs2 ix2) (n_items ix2) [] f.
Proof.
  intros I plan A AG E. rewrite E. constructor; [intros i Hi; eapply after_item; eauto| |contradiction].
  intros i w Hw. split; [eapply ii_ext; eauto|eapply ii_len; eauto].
Qed.
Lemma small_exact qfuel fs q n inspect bc ids ds bc' : rootsN (ib ix') <> [] -> lenN q = vlen c -> lenN (c_nns bc) < 2 ^ iw c ->
  query qfuel fs ix' q n inspect bc = Ok (ids, ds, bc') -> (0 < the_limit ix' n inspect)%Z -> all_num fo (last_added h) q ->
  exact_nearest fo c (last_added h) q (Z.to_nat n) ids ds.
Proof.
  intros Hne Hq Hc E Hl Hnum. destruct (result_after fo c OK _ _ _ _ _ _ _ _ B R) as (I & plan & A & _).
  pose proof (after_agrees fo c fs _ _ _ _ A) as AG. pose proof (bt_items _ _ _ _ _ _ A) as Eni.
  pose proof (fun r Hr => bt_leaf _ _ _ _ _ _ A HK r Hr _ AG) as Hls.
  destruct (least_root _ Hne) as (r0 & H1 & H2).
  eapply (buckets_exact fo c OK sortIx sortPairs HI HP _ _ _ _ _ _ _ _ _ _ _ r0); try eassumption.
  - eapply no_trees_forest; eauto.
  - intros r Hr. eexists. split; [rewrite Eni; apply Hls, Hr|]. intros j Hj. rewrite Eni. eapply full_in; eauto.
  - rewrite Eni. apply Hls, H1.
  - intros j w Hj. eapply full_all; eauto.
Qed.
Lemma small_returns qfuel fs q n inspect bc : lenN q = vlen c ->
  length (c_nns bc) = length (c_nns (create_context fo ix')) -> length (c_dist bc) = length (c_nns bc) ->
  (length (rootsN (ib ix')) <= qfuel)%nat -> exists ids ds bc', query qfuel fs ix' q n inspect bc = Ok (ids, ds, bc').
Proof.
  intros Hq Hn Hd Hf. destruct (result_after fo c OK _ _ _ _ _ _ _ _ B R) as (I & plan & A & _).
  pose proof (after_agrees fo c fs _ _ _ _ A) as AG. pose proof (bt_items _ _ _ _ _ _ A) as Eni.
  pose proof (fun r Hr => bt_leaf _ _ _ _ _ _ A HK r Hr _ AG) as Hls. pose proof (bc_vlen _ _ _ _ _ _ _ _ B) as Hv.
  apply (buckets_total fo c OK sortIx sortPairs HI) with (m := n_items ix); try assumption.
  - intros i Hi. destruct (after_item fo c OK _ _ _ _ _ i I A AG) as (bs & E & _); [lia|eauto].
  - intros r Hr. eexists. split; [rewrite Eni; apply Hls, Hr|]. split; [eapply full_len; eauto|]. intros j Hj. rewrite Eni. eapply full_in; eauto.
  - unfold lenN. rewrite Hn. eapply (small_room_fits fo c OK ix); eauto.
  - destruct (N.eq_dec (n_items ix) 0) as [H0|H0]; [rewrite H0; lia|].
    destruct (rootsN (ib ix')) as [|a l] eqn:Er; [cbn; lia|].
    pose proof (small_room fo c OK ix _ plan ix' I A HK Hv) as H. rewrite Er in H. specialize (H H0).
    unfold lenN in *. rewrite Hn. lia.
Qed.

Section L.
Hypothesis H2 : 2 <= n_items ix.
Variables fs fs2 : files.
Variable ix2 : idx.
Hypothesis FF : from_file fo c fs ix' fs2 ix2.
Lemma from_small plan : items_inv fo c ix (last_added h) -> after_build fo c ix (last_added h) plan ix' -> rootsN (ib ix') <> [] ->
  small_loaded fo c ix ix' fs2 ix2.
Proof.
  intros I A Hne. destruct FF as (k & fl & ixs & E & H). pose proof (bc_vlen _ _ _ _ _ _ _ _ B) as Hv.
  destruct (small_reload fo c OK ix _ plan ix' I A HK Hv Hne k fs fl ixs fs2 None H2 E) as (_ & S & L).
  destruct H as [->|(k3 & ix0 & E3)]; [exact S|]. now destruct (L _ _ _ _ E3) as [_ S3].
Qed.
Lemma small_loaded_exact qfuel q n inspect bc ids ds bc' : 2 <= lenN (rootsN (ib ix')) -> lenN q = vlen c -> lenN (c_nns bc) < 2 ^ iw c ->
  query qfuel fs2 ix2 q n inspect bc = Ok (ids, ds, bc') -> (0 < the_limit ix2 n inspect)%Z -> all_num fo (last_added h) q ->
  exact_nearest fo c (last_added h) q (Z.to_nat n) ids ds.
Proof.
  intros HR Hq Hc E Hl Hnum. destruct (result_after fo c OK _ _ _ _ _ _ _ _ B R) as (I & plan & A & _).
  assert (Hne : rootsN (ib ix') <> []) by (intro X; rewrite X in HR; cbn in HR; lia).
  pose proof (from_small plan I A Hne) as S. pose proof (bc_vlen _ _ _ _ _ _ _ _ B) as Hv.
  destruct (sl_lists fo c OK ix _ plan ix' A HK Hv Hne fs2 ix2 H2 S) as [L1 L2]. destruct (L2 HR) as (r0 & L3 & L4 & L5).
  eapply (buckets_exact fo c OK sortIx sortPairs HI HP _ _ _ _ _ _ _ _ _ _ _ r0); try eassumption.
  - eapply no_trees_forest; eauto; apply S.
  - intros r Hr. destruct (L1 r Hr) as (xs & X1 & _ & X3). eauto.
  - intros j w Hj. eapply full_all; eauto.
Qed.
Lemma small_loaded_returns qfuel q n inspect bc : rootsN (ib ix') <> [] -> lenN q = vlen c ->
  length (c_nns bc) = length (c_nns (create_context fo ix2)) -> length (c_dist bc) = length (c_nns bc) ->
  (2 * length (rootsN (ib ix')) <= qfuel)%nat -> exists ids ds bc', query qfuel fs2 ix2 q n inspect bc = Ok (ids, ds, bc').
Proof.
  intros Hne Hq Hn Hd Hf. destruct (result_after fo c OK _ _ _ _ _ _ _ _ B R) as (I & plan & A & _).
  pose proof (from_small plan I A Hne) as S. pose proof (bc_vlen _ _ _ _ _ _ _ _ B) as Hv.
  destruct (sl_lists fo c OK ix _ plan ix' A HK Hv Hne fs2 ix2 H2 S) as [L1 _].
  destruct (sl_roots _ _ _ _ _ _ S) as (k & E & Hk). pose proof (sl_items _ _ _ _ _ _ S) as Eni.
  assert (Hlen : length (rootsN (ib ix2)) = k) by (rewrite E; apply length_down).
  assert (Hroom : lenN (c_nns bc) = lenN (c_nns (create_context fo ix'))).
  { unfold lenN. rewrite Hn. unfold create_context, context_length. rewrite (sl_batch _ _ _ _ _ _ S), (sl_nodes _ _ _ _ _ _ S). reflexivity. }
  apply (buckets_total fo c OK sortIx sortPairs HI) with (m := n_items ix); try assumption.
  - intros i Hi. destruct (after_item fo c OK _ _ _ _ _ i I A (sl_view _ _ _ _ _ _ S)) as (bs & E' & _); [lia|eauto].
  - rewrite Hroom. eapply (small_room_fits fo c OK ix); eauto.
  - unfold lenN in Hk. lia.
  - pose proof (small_room fo c OK ix _ plan ix' I A HK Hv ltac:(lia)) as H.
    rewrite Hroom. eapply N.le_trans; [|exact H]. apply N.mul_le_mono_r. unfold lenN in *. lia.
Qed.
End L.
End S.

(** ** C106 *)
(** When all ids are below the bucket size, every query that inspects anything gives the
    nearest items, whatever the length of the vectors. *)
Theorem C106_small_index_is_exact :
  forall fo c, is_float fo -> CfgOK fo c ->
  forall sortIx sortPairs, sort_slice N.ltb sortIx -> sort_slice (pair_less (flt fo) (feq fo)) sortPairs ->
  forall h ix T nw fuel mfuel rfuel ix', build_call fo c h ix T nw fuel mfuel ->
  build_result fo c ix T nw fuel mfuel rfuel ix' -> n_items ix <= maxK fo c -> rootsN (ib ix') <> [] ->
  forall qfuel fs q n inspect bc ids ds bc', lenN q = vlen c -> lenN (c_nns bc) < 2 ^ iw c ->
  get_nns_by_vector fo c sortIx sortPairs qfuel fs ix' q n inspect bc = Ok (ids, ds, bc') ->
  (0 < the_limit ix' n inspect)%Z -> all_num fo (last_added h) q ->
  exact_nearest fo c (last_added h) q (Z.to_nat n) ids ds.
Proof. intros. eapply small_exact; eauto. Qed.
(** And every query with a context of the index returns. *)
Theorem C106_small_index_returns :
  forall fo c, is_float fo -> CfgOK fo c ->
  forall sortIx sortPairs, sort_slice N.ltb sortIx ->
  forall h ix T nw fuel mfuel rfuel ix', build_call fo c h ix T nw fuel mfuel ->
  build_result fo c ix T nw fuel mfuel rfuel ix' -> n_items ix <= maxK fo c ->
  forall qfuel fs q n inspect bc, lenN q = vlen c ->
  length (c_nns bc) = length (c_nns (create_context fo ix')) -> length (c_dist bc) = length (c_nns bc) ->
  (length (rootsN (ib ix')) <= qfuel)%nat ->
  exists ids ds bc', get_nns_by_vector fo c sortIx sortPairs qfuel fs ix' q n inspect bc = Ok (ids, ds, bc').
Proof. intros. eapply small_returns; eauto. Qed.
(** After Save and Load the same holds, if the index has two trees and two ids. *)
Theorem C106_saved_small_index_is_exact :
  forall fo c, is_float fo -> CfgOK fo c ->
  forall sortIx sortPairs, sort_slice N.ltb sortIx -> sort_slice (pair_less (flt fo) (feq fo)) sortPairs ->
  forall h ix T nw fuel mfuel rfuel ix', build_call fo c h ix T nw fuel mfuel ->
  build_result fo c ix T nw fuel mfuel rfuel ix' -> n_items ix <= maxK fo c -> 2 <= n_items ix -> 2 <= lenN (rootsN (ib ix')) ->
  forall fs fs2 ix2, from_file fo c fs ix' fs2 ix2 ->
  forall qfuel q n inspect bc ids ds bc', lenN q = vlen c -> lenN (c_nns bc) < 2 ^ iw c ->
  get_nns_by_vector fo c sortIx sortPairs qfuel fs2 ix2 q n inspect bc = Ok (ids, ds, bc') ->
  (0 < the_limit ix2 n inspect)%Z -> all_num fo (last_added h) q ->
  exact_nearest fo c (last_added h) q (Z.to_nat n) ids ds.
Proof. intros. eapply small_loaded_exact; eauto. Qed.
Theorem C106_saved_small_index_returns :
  forall fo c, is_float fo -> CfgOK fo c ->
  forall sortIx sortPairs, sort_slice N.ltb sortIx ->
  forall h ix T nw fuel mfuel rfuel ix', build_call fo c h ix T nw fuel mfuel ->
  build_result fo c ix T nw fuel mfuel rfuel ix' -> n_items ix <= maxK fo c -> 2 <= n_items ix -> rootsN (ib ix') <> [] ->
  forall fs fs2 ix2, from_file fo c fs ix' fs2 ix2 ->
  forall qfuel q n inspect bc, lenN q = vlen c ->
  length (c_nns bc) = length (c_nns (create_context fo ix2)) -> length (c_dist bc) = length (c_nns bc) ->
  (2 * length (rootsN (ib ix')) <= qfuel)%nat ->
  exists ids ds bc', get_nns_by_vector fo c sortIx sortPairs qfuel fs2 ix2 q n inspect bc = Ok (ids, ds, bc').
Proof. intros. eapply small_loaded_returns; eauto. Qed.

(** ** The README *)
(** README.md:23-44: three items of three numbers, ten trees. *)
Definition rm_items : list (N * list (F fops32)) := [(0, fv [0; 0; 1]%Z); (1, fv [0; 1; 0]%Z); (2, fv [1; 0; 0]%Z)].
Definition rm_ix : idx := Eval vm_compute in or_else (ix0 (cA 3)) (add_all fops32 (cA 3) (ix0 (cA 3)) rm_items).
Definition rm_built : idx := Eval vm_compute in or_else rm_ix (build_single fops32 (cA 3) 20 20 20 rm_ix 10).
Definition rm_query : list (F fops32) := fv [3; 2; 1]%Z.
Lemma rm_result : build_result fops32 (cA 3) rm_ix 10 1 20 20 20 rm_built.
Proof. left. split; [reflexivity|]. vm_compute. reflexivity. Qed.
Lemma rm_call nw fuel mfuel : (0 < nw <= 1024)%nat -> (20 <= fuel)%nat -> (20 <= mfuel)%nat ->
  build_call fops32 (cA 3) rm_items rm_ix 10 nw fuel mfuel.
Proof.
  intros Hw Hf Hm. assert (Hn : n_items rm_ix = 3) by (vm_compute; reflexivity). constructor; rewrite ?Hn.
  - vm_compute. discriminate.
  - unfold hist_ok, rm_items. repeat (constructor; [split; vm_compute; reflexivity|]). constructor.
  - exists (kiss_new 0), 0. vm_compute. reflexivity.
  - lia.
  - lia.
  - lia.
  - unfold forest_room. cbn [Z.eqb]. vm_compute. reflexivity.
  - unfold enough_fuel. lia.
Qed.

Lemma rm_float : is_float fops32.
Proof. now left. Qed.
Lemma rm_num : all_num fops32 (last_added rm_items) rm_query.
Proof.
  intros j v Hj. cbn [last_added rm_items] in Hj.
  destruct (2 =? j); [injection Hj as <-; vm_compute; reflexivity|].
  destruct (1 =? j); [injection Hj as <-; vm_compute; reflexivity|].
  destruct (0 =? j); [injection Hj as <-; vm_compute; reflexivity|discriminate].
Qed.
Lemma rm_exact : exists ds, exact_nearest fops32 (cA 3) (last_added rm_items) rm_query 3 [2; 1; 0] ds.
Proof.
  assert (E : ask (cA 3) no_files rm_built rm_query 3 (-1) = Ok [2; 1; 0]) by (vm_compute; reflexivity).
  unfold ask in E. set (bc := create_context fops32 rm_built) in E.
  destruct (query (cA 3) 1000 no_files rm_built rm_query 3 (-1) bc) as [[[x ds] bc']|] eqn:Eq; [|discriminate].
  cbn in E. injection E as ->. exists ds.
  refine (C106_small_index_is_exact fops32 (cA 3) rm_float (cA_ok 3 ltac:(lia)) isortN isortP
    (isort_is_sort_slice _) (isort_is_sort_slice _) rm_items rm_ix 10 1 20 20 20 rm_built (rm_call 1 20 20 ltac:(lia) ltac:(lia) ltac:(lia)) rm_result _ _
    1000 no_files rm_query 3 (-1) bc [2; 1; 0] ds bc' _ _ Eq _ rm_num); vm_compute; reflexivity || discriminate.
Qed.
(** The answer that README.md promises comes with any number of processors, any
    schedule of the workers and any sort functions, and also after Save and Load. *)
Theorem C106_readme_example :
  forall sortIx sortPairs, sort_slice N.ltb sortIx -> sort_slice (pair_less (flt fops32) (feq fops32)) sortPairs ->
  forall nw fuel mfuel rfuel ix', (0 < nw <= 1024)%nat -> (20 <= fuel)%nat -> (20 <= mfuel)%nat ->
  build_result fops32 (cA 3) rm_ix 10 nw fuel mfuel rfuel ix' ->
  forall qfuel fs, (20 <= qfuel)%nat ->
  (exists ds bc', get_nns_by_vector fops32 (cA 3) sortIx sortPairs qfuel fs ix' rm_query 3 (-1) (create_context fops32 ix') = Ok ([2; 1; 0], ds, bc')) /\
  forall fs2 ix2, from_file fops32 (cA 3) fs ix' fs2 ix2 ->
  exists ds bc', get_nns_by_vector fops32 (cA 3) sortIx sortPairs qfuel fs2 ix2 rm_query 3 (-1) (create_context fops32 ix2) = Ok ([2; 1; 0], ds, bc').
Proof.
  intros sI sP HI HP nw fuel mfuel rfuel ix' Hw Hf Hm R qfuel fs Hq.
  pose proof rm_float as FL. assert (OK : CfgOK fops32 (cA 3)) by (apply cA_ok; lia).
  pose proof (rm_call nw fuel mfuel Hw Hf Hm) as B. destruct rm_exact as (ds0 & X0).
  destruct (C10_exact_number_of_trees fops32 (cA 3) OK _ _ _ nw fuel mfuel rfuel ix' B) as [Ht _]; [lia|exact R|].
  assert (HK : n_items rm_ix <= maxK fops32 (cA 3)) by (vm_compute; discriminate).
  assert (H2 : 2 <= n_items rm_ix) by (vm_compute; discriminate).
  assert (Hv : lenN rm_query = vlen (cA 3)) by reflexivity.
  assert (Hne : rootsN (ib ix') <> []) by (intro X; rewrite X in Ht; cbn in Ht; lia).
  assert (Hfits : forall ix2, length (c_nns (create_context fops32 ix2)) = length (c_nns (create_context fops32 ix')) ->
    lenN (c_nns (create_context fops32 ix2)) < 2 ^ iw (cA 3)).
  { intros ix2 E. unfold lenN. rewrite E. destruct (result_after _ _ OK _ _ _ _ _ _ _ _ B R) as (I & plan & A & _).
    eapply (small_room_fits fops32 (cA 3) OK rm_ix); eauto. }
  split.
  - destruct (C106_small_index_returns fops32 (cA 3) FL OK sI sP HI _ _ _ _ _ _ _ _ B R HK qfuel fs rm_query 3 (-1) (create_context fops32 ix') Hv
      eq_refl ltac:(unfold create_context; cbn; now rewrite !repeat_length)) as (x & ds & bc' & E); [unfold lenN in Ht; lia|].
    exists ds, bc'. rewrite E.
    pose proof (C106_small_index_is_exact fops32 (cA 3) FL OK sI sP HI HP _ _ _ _ _ _ _ _ B R HK Hne qfuel fs rm_query 3 (-1) _ _ _ _ Hv (Hfits _ eq_refl) E) as X.
    destruct (exact_nearest_unique _ _ _ _ _ _ _ _ _ FL rm_num (X ltac:(unfold the_limit; cbn [Z.eqb Pos.eqb]; unfold lenN in Ht; lia) rm_num) X0) as [-> _]. reflexivity.
  - intros fs2 ix2 FF.
    assert (Hlen : length (c_nns (create_context fops32 ix2)) = length (c_nns (create_context fops32 ix')) /\ rootsN (ib ix2) <> []).
    { destruct (result_after _ _ OK _ _ _ _ _ _ _ _ B R) as (I & plan & A & _).
      pose proof (from_small fops32 (cA 3) OK _ _ _ _ _ _ _ B HK H2 fs fs2 ix2 FF plan I A Hne) as S.
      split; [unfold create_context, context_length; now rewrite (sl_batch _ _ _ _ _ _ S), (sl_nodes _ _ _ _ _ _ S)|].
      destruct (sl_roots _ _ _ _ _ _ S) as (k & E & Hk). intro X. assert (length (rootsN (ib ix2)) = k) by (rewrite E; apply length_down).
      rewrite X in H. cbn [length] in H. lia. }
    destruct Hlen as [Hlen Hne2].
    destruct (C106_saved_small_index_returns fops32 (cA 3) FL OK sI sP HI _ _ _ _ _ _ _ _ B R HK H2 Hne _ _ _ FF qfuel rm_query 3 (-1) (create_context fops32 ix2) Hv
      eq_refl ltac:(unfold create_context; cbn; now rewrite !repeat_length)) as (x & ds & bc' & E); [unfold lenN in Ht; lia|].
    exists ds, bc'. rewrite E.
    pose proof (C106_saved_small_index_is_exact fops32 (cA 3) FL OK sI sP HI HP _ _ _ _ _ _ _ _ B R HK H2 ltac:(lia) _ _ _ FF qfuel rm_query 3 (-1) _ _ _ _ Hv (Hfits _ Hlen) E) as X.
    assert (Hl : (0 < the_limit ix2 3 (-1))%Z) by (unfold the_limit; cbn [Z.eqb Pos.eqb]; destruct (rootsN (ib ix2)); [congruence|cbn [length]; lia]).
    destruct (exact_nearest_unique _ _ _ _ _ _ _ _ _ FL rm_num (X Hl rm_num) X0) as [-> _]. reflexivity.
Qed.
(** The index exists, with one worker, can be saved, and has 19 roots after that. *)
Example C106_example :
  build_call fops32 (cA 3) rm_items rm_ix 10 1 20 20 /\ build_result fops32 (cA 3) rm_ix 10 1 20 20 20 rm_built /\
  n_items rm_ix = 3 /\ maxK fops32 (cA 3) = 5 /\ lenN (rootsN (ib rm_built)) = 10 /\
  forall k, exists ix2 fs2, save fops32 (cA 3) k OsOk no_files rm_built 7 = Ok (ix2, fs2, None) /\ from_file fops32 (cA 3) no_files rm_built fs2 ix2 /\
    lenN (rootsN (ib ix2)) = 19 /\ lenN (c_nns (create_context fops32 ix2)) = 62.
Proof.
  split; [apply rm_call; lia|]. split; [apply rm_result|]. split; [vm_compute; reflexivity|]. split; [vm_compute; reflexivity|]. split; [vm_compute; reflexivity|].
  intro k.
  assert (G : match save fops32 (cA 3) k OsOk no_files rm_built 7 with Ok (ix2, fs2, None) => lenN (rootsN (ib ix2)) = 19 /\ lenN (c_nns (create_context fops32 ix2)) = 62 | _ => False end)
    by (destruct k; vm_compute; split; reflexivity).
  destruct (save fops32 (cA 3) k OsOk no_files rm_built 7) as [[[ix2 fs2] [e|]]|] eqn:E; try contradiction.
  exists ix2, fs2. split; [reflexivity|]. split; [|exact G]. exists k, 7, ix2. split; [exact E|now left].
Qed.
(** The code of the README itself asks for vectors of 1536 numbers and adds three: the
    first AddItem panics. *)
Theorem C106_readme_length : add_item fops32 (cA 1536) (ix0 (cA 1536)) 0 (fv [0; 0; 1]%Z) = Er (Panic PLength).
Proof. vm_compute. reflexivity. Qed.

Print Assumptions C106_small_index_is_exact.
Print Assumptions C106_small_index_returns.
Print Assumptions C106_saved_small_index_is_exact.
Print Assumptions C106_saved_small_index_returns.
Print Assumptions C106_readme_example.
Print Assumptions C106_readme_length.
