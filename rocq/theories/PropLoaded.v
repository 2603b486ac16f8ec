(** Saved and loaded indexes, built by any number of workers, still give exact answers
    when as many entries are inspected as items were added (C94). *)
From Verif Require Import Base Flt Layout Rng Sorts Alloc Prog Imbalance Dist Build Policy Index Search Spec ForestSpec BuildSpec RealSpec OrderSpec
  Lib LayoutProof FltProof MemProof StoreProof SearchProof QueryProof TreeProof PolicyProof BuildProof ForestProof
  NumProof AfterProof CutProof SmallProof PlaneProof TopProof IOProof SameProof DistProof WholeProof RoomProof OwnProof ReloadProof LoadedProof
  Concrete PropSearch PropForest PropIO PropMore PropNum PropPlane PropWhole PropReload PropRoom.
From Coq Require Import Permutation.
Open Scope N_scope.

(** The index [ix2] with the files [fs2] that Save gives, or that Load gives later. *)
Definition from_file (fo : FOps) (c : Cfg) (fs : files) (ix' : idx) (fs2 : files) (ix2 : idx) : Prop :=
  exists k fl ixs, save fo c k OsOk fs ix' fl = Ok (ixs, fs2, None) /\
    (ix2 = ixs \/ exists k3 ix0, load fo c k3 fs2 ix0 fl = Ok (ix2, None)).

Lemma from_file_loaded fo c fs ix f plan ix' fs2 ix2 : CfgOK fo c -> items_inv fo c ix f -> after_build fo c ix f plan ix' ->
  3 * ixb c <= vlen c -> maxK fo c < n_items ix -> rootsN (ib ix') <> [] -> from_file fo c fs ix' fs2 ix2 ->
  loadedx fo c ix f ix' fs2 ix2 /\ same_items fo c fs ix' fs2 ix2.
Proof.
  intros OK I A Hv HK Hne (k & fl & ixs & E & H).
  destruct (loadedx_save fo c OK ix f plan ix' I A Hv HK Hne k fs fl) as (ixs' & fs2' & E' & L & S & Ld).
  rewrite E in E'. injection E' as <- <-. destruct H as [->|(k3 & ix0 & E3)]; [auto|].
  assert (Hr0 : rnd (ib ix0) <> None).
  { intro X. unfold load, close in E3. rewrite X in E3. discriminate. }
  destruct (Ld k3 ix0 Hr0) as (ix3 & E3' & L3 & S3). rewrite E3 in E3'. injection E3' as <-. auto.
Qed.

Section S.
Variable fm : Fmt.
Variable c : Cfg.
Hypothesis FM : is_fmt fm.
Notation fo := (ops fm).
Hypothesis OK : CfgOK fo c.
Hypothesis Hv : 3 * ixb c <= vlen c.
Hypothesis Hlen : vlen c <= 2 ^ 20.
Variable sortIx : list N -> list N.
Variable sortPairs : list (F fo * N) -> list (F fo * N).
Hypothesis HI : sort_slice N.ltb sortIx.
Hypothesis HP : sort_slice (pair_less (flt fo) (feq fo)) sortPairs.
Variable h : list (N * list (F fo)).
Variables ix ix' : idx.
Variable T : Z.
Variables nw fuel mfuel rfuel : nat.
Hypothesis B : build_call fo c h ix T nw fuel mfuel.
Hypothesis R : build_result fo c ix T nw fuel mfuel rfuel ix'.
Hypothesis Hne : rootsN (ib ix') <> [].
Hypothesis HM : forall i w, last_added h i = Some w -> moderate fm w.
Variable added : list N.
Hypothesis ND : NoDup added.
Hypothesis Had : forall i, In i added <-> last_added h i <> None.
Variables fs fs2 : files.
Variable ix2 : idx.
Hypothesis FF : from_file fo c fs ix' fs2 ix2.

Lemma loaded_exact : maxK fo c < n_items ix ->
  forall qfuel q n inspect bc ids ds bc', moderate fm q -> lenN q = vlen c -> lenN (c_nns bc) < 2 ^ iw c ->
  get_nns_by_vector fo c sortIx sortPairs qfuel fs2 ix2 q n inspect bc = Ok (ids, ds, bc') ->
  (Z.of_nat (length added) <= the_limit ix2 n inspect)%Z -> all_num fo (last_added h) q ->
  exact_nearest fo c (last_added h) q (Z.to_nat n) ids ds.
Proof.
  intros HK qfuel q n inspect bc ids ds bc' Mq Hq Hc E Hl Hnum.
  destruct (result_after fo c OK _ _ _ _ _ _ _ _ B R) as (I & plan & A & _).
  destruct (from_file_loaded fo c fs ix _ plan ix' fs2 ix2 OK I A Hv HK Hne FF) as [L _].
  pose proof (sides_finite fm c FM OK Hv Hlen h ix T nw fuel mfuel rfuel ix' B R HM fs q Mq Hq) as FS.
  apply (loadedx_sides fo c OK (fmt_is_float fm FM) ix _ plan ix' A Hv HK Hne _ fs fs2 ix2 q L) in FS.
  eapply (forest_whole_of fo c OK (fmt_is_float fm FM) sortIx sortPairs HI HP qfuel fs2 ix2 (last_added h) q n inspect bc ids ds bc'); try assumption; [apply L|apply L|].
  intros r xs m Hr TL. rewrite <- (lx_items _ _ _ _ _ _ _ L) in HK.
  destruct (tl_exact _ _ _ _ _ _ _ _ TL (or_introl HK)) as [NDx Hx].
  assert (X : (length xs <= length added)%nat); [|unfold lenN; lia].
  apply NoDup_incl_length; [exact NDx|]. intros j Hj. apply Had, Hx, Hj.
Qed.
Lemma loaded_returns : maxK fo c < N.of_nat (length added) ->
  forall qfuel q n inspect bc, moderate fm q -> lenN q = vlen c ->
  length (c_nns bc) = length (c_nns (create_context fo ix2)) -> length (c_dist bc) = length (c_nns bc) -> lenN (c_nns bc) < 2 ^ iw c ->
  (2 * length (rootsN (ib ix')) * (2 * N.to_nat (n_items ix) + 1) <= qfuel)%nat ->
  (the_limit ix2 n inspect <= Z.of_nat (length added))%Z ->
  exists ids ds bc', get_nns_by_vector fo c sortIx sortPairs qfuel fs2 ix2 q n inspect bc = Ok (ids, ds, bc').
Proof.
  intros HK qfuel q n inspect bc Mq Hq Hlc Hd Hc Hf Hlim.
  destruct (result_after fo c OK _ _ _ _ _ _ _ _ B R) as (I & plan & A & _).
  assert (Had' : forall i, In i added -> last_added h i <> None) by (intros i Hi; now apply Had).
  pose proof (added_present fo c h ix added ND Had' I) as Hp. pose proof (present_le fo (last_added h) (n_items ix)) as Hple.
  assert (HK' : maxK fo c < n_items ix) by (unfold lenN in *; lia).
  destruct (from_file_loaded fo c fs ix _ plan ix' fs2 ix2 OK I A Hv HK' Hne FF) as [L S].
  pose proof (sides_finite fm c FM OK Hv Hlen h ix T nw fuel mfuel rfuel ix' B R HM fs q Mq Hq) as FS.
  apply (loadedx_sides fo c OK (fmt_is_float fm FM) ix _ plan ix' A Hv HK' Hne _ fs fs2 ix2 q L) in FS.
  destruct (least_root _ (lx_some _ _ _ _ _ _ _ L)) as (r0 & Hr0 & Hle).
  destruct (fr_tree _ _ _ _ _ _ (lx_forest _ _ _ _ _ _ _ L) r0 Hr0) as (zs & m & TL).
  assert (HKx : maxK fo c < n_items ix2) by (rewrite (lx_items _ _ _ _ _ _ _ L); exact HK').
  destruct (tl_exact _ _ _ _ _ _ _ _ TL (or_introl HKx)) as [NDz Hz].
  assert (Z1 : (length added <= length zs)%nat).
  { apply NoDup_incl_length; [exact ND|]. intros j Hj. specialize (Had' j Hj). destruct (last_added h j) eqn:Ej; [|congruence].
    eapply (tl_all _ _ _ _ _ _ _ _ TL); eauto. }
  assert (Z2 : (length zs <= length (present fo (last_added h) (n_items ix)))%nat).
  { apply NoDup_incl_length; [exact NDz|]. intros j Hj. apply in_present. split; [|now apply Hz].
    rewrite <- (lx_items _ _ _ _ _ _ _ L). exact (tl_in _ _ _ _ _ _ _ _ TL j Hj). }
  assert (HK2 : maxK fo c < lenN (present fo (last_added h) (n_items ix))) by (unfold lenN in *; lia).
  pose proof (own_room_items fo c OK ix (last_added h) plan ix' I A Hv Hne HK2) as Hroom.
  assert (Hcl : c_nns (create_context fo ix2) = c_nns (create_context fo ix')) by (unfold create_context; now rewrite (lx_room _ _ _ _ _ _ _ L)).
  destruct (rootsN (ib ix')) as [|r1 rs1] eqn:Er; [congruence|]. rewrite <- Er in *.
  assert (Hr1 : In r1 (rootsN (ib ix'))) by (rewrite Er; now left).
  assert (Hcap : n_items ix2 + maxK fo c < 2 ^ iw c).
  { rewrite (lx_items _ _ _ _ _ _ _ L). pose proof (bt_cap _ _ _ _ _ _ A) as Hcap. unfold cap_ok in Hcap.
    pose proof (bt_range _ _ _ _ _ _ A r1 Hr1) as Hr. pose proof (cap_ok_ge (nn (ib ix'))) as H1.
    pose proof (maxK_fits _ _ OK) as H2. pose proof (ixb_pos _ _ OK).
    assert (H3 : (n_items ix + 1) * nodeSize fo c <= nn (ib ix') * 3 / 2 * nodeSize fo c) by (apply N.mul_le_mono_r; lia).
    nia. }
  eapply (first_tree_room fo c OK sortIx sortPairs HI) with (r0 := r0) (zs := zs) (m := m); eauto.
  - now apply fmt_is_float.
  - apply L.
  - pose proof (ixb_pos _ _ OK). lia.
  - pose proof (lx_count _ _ _ _ _ _ _ L) as HC. rewrite (lx_items _ _ _ _ _ _ _ L). nia.
  - unfold lenN. lia.
  - unfold lenN in *. rewrite Hlc, Hcl. lia.
Qed.
End S.

(** Any number of workers, vectors of moderate size, more indices than fit one leaf, at
    least one tree.  After Save, or after Save and Load, every query that inspects at least
    as many entries as items were added returns the exact nearest neighbours. *)
Theorem C94_exact_after_reload :
  forall fm c, is_fmt fm -> CfgOK (ops fm) c -> 3 * ixb c <= vlen c -> vlen c <= 2 ^ 20 ->
  forall sortIx sortPairs, sort_slice N.ltb sortIx -> sort_slice (pair_less (flt (ops fm)) (feq (ops fm))) sortPairs ->
  forall h ix ix' T nw fuel mfuel rfuel, build_call (ops fm) c h ix T nw fuel mfuel ->
  build_result (ops fm) c ix T nw fuel mfuel rfuel ix' -> rootsN (ib ix') <> [] ->
  (forall i w, last_added h i = Some w -> moderate fm w) ->
  forall added, NoDup added -> (forall i, In i added <-> last_added h i <> None) ->
  forall fs fs2 ix2, from_file (ops fm) c fs ix' fs2 ix2 -> maxK (ops fm) c < n_items ix ->
  forall qfuel q n inspect bc ids ds bc', moderate fm q -> lenN q = vlen c -> lenN (c_nns bc) < 2 ^ iw c ->
  get_nns_by_vector (ops fm) c sortIx sortPairs qfuel fs2 ix2 q n inspect bc = Ok (ids, ds, bc') ->
  (Z.of_nat (length added) <= the_limit ix2 n inspect)%Z -> all_num (ops fm) (last_added h) q ->
  exact_nearest (ops fm) c (last_added h) q (Z.to_nat n) ids ds.
Proof.
  intros fm c FM OK Hv Hlen sortIx sortPairs HI HP h ix ix' T nw fuel mfuel rfuel B R Hne HM added ND Had fs fs2 ix2 FF HK.
  exact (loaded_exact fm c FM OK Hv Hlen sortIx sortPairs HI HP h ix ix' T nw fuel mfuel rfuel B R Hne HM added Had fs fs2 ix2 FF HK).
Qed.
(** If more items were added than fit one leaf, inspecting exactly as many, on a context
    of the loaded index, does return. *)
Theorem C94_exact_on_own_context_after_reload :
  forall fm c, is_fmt fm -> CfgOK (ops fm) c -> 3 * ixb c <= vlen c -> vlen c <= 2 ^ 20 ->
  forall sortIx sortPairs, sort_slice N.ltb sortIx -> sort_slice (pair_less (flt (ops fm)) (feq (ops fm))) sortPairs ->
  forall h ix ix' T nw fuel mfuel rfuel, build_call (ops fm) c h ix T nw fuel mfuel ->
  build_result (ops fm) c ix T nw fuel mfuel rfuel ix' -> rootsN (ib ix') <> [] ->
  (forall i w, last_added h i = Some w -> moderate fm w) ->
  forall added, NoDup added -> (forall i, In i added <-> last_added h i <> None) ->
  forall fs fs2 ix2, from_file (ops fm) c fs ix' fs2 ix2 -> maxK (ops fm) c < N.of_nat (length added) ->
  forall qfuel q n, moderate fm q -> lenN q = vlen c -> lenN (c_nns (create_context (ops fm) ix2)) < 2 ^ iw c ->
  (2 * length (rootsN (ib ix')) * (2 * N.to_nat (n_items ix) + 1) <= qfuel)%nat -> all_num (ops fm) (last_added h) q ->
  exists ids ds bc',
    get_nns_by_vector (ops fm) c sortIx sortPairs qfuel fs2 ix2 q n (Z.of_nat (length added)) (create_context (ops fm) ix2) = Ok (ids, ds, bc') /\
    exact_nearest (ops fm) c (last_added h) q (Z.to_nat n) ids ds.
Proof.
  intros fm c FM OK Hv Hlen sortIx sortPairs HI HP h ix ix' T nw fuel mfuel rfuel B R Hne HM added ND Had fs fs2 ix2 FF HK qfuel q n Mq Hq Hc Hf Hnum.
  assert (Hlim : the_limit ix2 n (Z.of_nat (length added)) = Z.of_nat (length added)).
  { unfold the_limit. destruct (Z.eqb_spec (Z.of_nat (length added)) (-1)); [lia|reflexivity]. }
  destruct (loaded_returns fm c FM OK Hv Hlen sortIx sortPairs HI h ix ix' T nw fuel mfuel rfuel B R Hne HM added ND Had fs fs2 ix2 FF HK
    qfuel q n (Z.of_nat (length added)) (create_context (ops fm) ix2)) as (ids & ds & bc' & E); auto.
  { apply room_dist. }
  { lia. }
  exists ids, ds, bc'. split; [exact E|].
  destruct (result_after (ops fm) c OK _ _ _ _ _ _ _ _ B R) as (I & _).
  assert (Had' : forall i, In i added -> last_added h i <> None) by (intros i Hi; now apply Had).
  pose proof (added_present (ops fm) c h ix added ND Had' I) as Hp. pose proof (present_le (ops fm) (last_added h) (n_items ix)) as Hple.
  eapply (C94_exact_after_reload fm c FM OK Hv Hlen sortIx sortPairs HI HP h ix ix' T nw fuel mfuel rfuel); eauto; unfold lenN in *; lia.
Qed.
(** The two-worker index whose trees Load finds in another order, one of them twice
    ([C61_two_workers_extra_tree]), after Save: the five nearest, inspecting 20 entries. *)
Example C94_example :
  build_call fops32 (cA 16) exq_items fx_ix 2 2 100 100 /\ build_result fops32 (cA 16) fx_ix 2 2 100 100 100 io_multi /\
  rootsN (ib io_multi) = [25; 22] /\
  (forall j v, last_added exq_items j = Some v -> moderate fmt32 v) /\ moderate fmt32 exq_vec /\ all_num fops32 (last_added exq_items) exq_vec /\
  NoDup (rangeN 20) /\ (forall i, In i (rangeN 20) <-> last_added exq_items i <> None) /\ maxK fops32 (cA 16) = 18 /\
  match save fops32 (cA 16) GCMem OsOk no_files io_multi 7 with
  | Ok (ix2, fs2, None) => from_file fops32 (cA 16) no_files io_multi fs2 ix2 /\
      bits_of (query (cA 16) 400 fs2 ix2 exq_vec 5 20 (create_context fops32 ix2)) =
        Ok ([9; 12; 10; 8; 5], [1039756778; 1057153137; 1057620014; 1059031236; 1059343085])
  | _ => False end.
Proof.
  assert (Tq : tame fmt32 exq_vec) by (apply fv_tame; [cbn; lia|vm_compute; reflexivity|vm_compute; reflexivity]).
  split; [apply fx_call; lia|]. split; [apply io_multi_result|]. split; [vm_compute; reflexivity|].
  split; [intros j v H; apply tame_moderate; now apply (exq_tame j v)|]. split; [now apply tame_moderate|].
  split; [eapply (tame_all_num fmt32 (or_introl eq_refl)); [exact Tq|]; intros j v H; destruct (exq_tame j v H); split; [cbn in *; lia|assumption]|].
  split; [apply NoDup_rangeN|]. split.
  - intro i. pose proof C93_exact_example as (_ & _ & _ & _ & _ & H & _). rewrite (H i). destruct (last_added exq_items i); split; try easy.
  - split; [vm_compute; reflexivity|].
    assert (X : match save fops32 (cA 16) GCMem OsOk no_files io_multi 7 with
      | Ok (ix2, fs2, None) => bits_of (query (cA 16) 400 fs2 ix2 exq_vec 5 20 (create_context fops32 ix2)) =
        Ok ([9; 12; 10; 8; 5], [1039756778; 1057153137; 1057620014; 1059031236; 1059343085])
      | _ => False end) by (vm_compute; reflexivity).
    destruct (save fops32 (cA 16) GCMem OsOk no_files io_multi 7) as [[[ix2 fs2] [e|]]|e] eqn:E; try contradiction.
    split; [|exact X]. exists GCMem, 7, ix2. split; [exact E|now left].
Qed.

Print Assumptions C94_exact_after_reload.
Print Assumptions C94_exact_on_own_context_after_reload.
