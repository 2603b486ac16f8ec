(** Whole runs of cmd/precision (C105). *)
From Verif Require Import Base Flt Layout Rng Sorts Alloc Prog Imbalance Dist Build Policy Index Search Precision Spec ForestSpec BuildSpec RealSpec PrecSpec
  Lib LayoutProof FltProof MemProof SortsProof StoreProof SearchProof QueryProof TreeProof BuildProof ForestProof
  NumProof AfterProof TopProof MoreProof SmallProof IOProof AccProof DistProof VecProof LoadedProof PrecProof
  Concrete PropSearch PropForest PropIO PropNum PropPlane PropRoom PropLoaded PropPrecision PropReroom PropCover.
From Coq Require Import Permutation Sorted Reals Lra.
From Flocq Require Import Core.Zaux IEEE754.BinarySingleNaN IEEE754.Binary IEEE754.Bits.
Close Scope R_scope. Open Scope N_scope.

(** The tool uses float32 vectors and uint32 indices and looks for 10 neighbours.  It
    builds 2 * vectorLength trees; below it may be any number. *)
Definition tool_return : Z := 10.

(** The contexts of an index built by cmd/precision are not too long for uint32. *)
Lemma tool_room len T h ix fuel mfuel rfuel nw ix' n :
  build_call fops32 (cA len) h ix T nw fuel mfuel -> build_result fops32 (cA len) ix T nw fuel mfuel rfuel ix' ->
  12 <= len <= 2 ^ 20 -> (1 <= T)%Z -> (forall i, last_added h i <> None <-> i < n) -> maxK fops32 (cA len) < n ->
  lenN (c_nns (create_context fops32 ix')) < 2 ^ iw (cA len) /\ lenN (rootsN (ib ix')) = Z.to_N T.
Proof.
  intros B R Hl HT Hall HK. assert (OK : CfgOK fops32 (cA len)) by (apply cA_ok; lia).
  destruct (C10_exact_number_of_trees fops32 (cA len) OK h ix _ nw fuel mfuel rfuel ix' B) as [Ht _]; [lia|exact R|].
  assert (Hr : lenN (rootsN (ib ix')) = Z.to_N T) by lia. split; [|exact Hr].
  assert (Hv : 3 * ixb (cA len) <= vlen (cA len)) by (cbn; lia).
  pose proof (C100_context_size_bound fops32 (cA len) OK Hv h ix _ nw fuel mfuel rfuel ix' B R (rangeN n) (NoDup_rangeN n)) as H.
  assert (Hn : lenN (rangeN n) = n) by (unfold lenN; rewrite length_rangeN; lia). rewrite Hn, Hr in H.
  specialize (H ltac:(intro i; rewrite in_rangeN; symmetry; apply Hall) HK).
  pose proof (bc_room _ _ _ _ _ _ _ _ B) as C.
  destruct (result_after fops32 (cA len) OK _ _ _ _ _ _ _ _ B R) as (I & _).
  assert (Hni : n <= n_items ix).
  { destruct (N.eq_dec n 0) as [->|Hz]; [lia|]. destruct (last_added h (n - 1)) as [w|] eqn:E.
    - pose proof (ii_ext _ _ _ _ I _ _ E). lia.
    - exfalso. apply (proj2 (Hall (n - 1)) ltac:(lia)). exact E. }
  unfold cap_ok in C. pose proof (cap_ok_ge (n_items ix + 2 * forest_room (n_items ix) T (N.of_nat nw))) as G.
  unfold forest_room in *. replace (T =? -1)%Z with false in * by lia.
  set (X := n_items ix + 2 * (Z.to_N T * N.max 1 (n_items ix))) in *.
  assert (X * 1 <= X * 3 / 2 * nodeSize fops32 (cA len)).
  { apply N.mul_le_mono; [exact G|]. pose proof (nodeSize_pos fops32 (cA len) OK). lia. }
  assert ((Z.to_N T + 1) * n <= X); [|lia]. unfold X. assert (n <= N.max 1 (n_items ix)) by lia.
  assert (Z.to_N T * n <= Z.to_N T * N.max 1 (n_items ix)) by (apply N.mul_le_mono_l; assumption). lia.
Qed.

Section T.
Variable len : N.
Notation c := (cA len).
Hypothesis Hlen : 12 <= len <= 2 ^ 20.
Variable sortIx : list N -> list N.
Variable sortPairs : list (F fops32 * N) -> list (F fops32 * N).
Variable sortU : list N -> list N.
Hypothesis HI : sort_slice N.ltb sortIx.
Hypothesis HP : sort_slice (pair_less (flt fops32) (feq fops32)) sortPairs.
Hypothesis HU : sorts (fun _ => True) N.ltb sortU.
Variable T : Z.
Hypothesis HT : (1 <= T)%Z.
Variables (h : list (N * list (F fops32))) (ix ix' : idx) (nw fuel mfuel rfuel : nat).
Hypothesis B : build_call fops32 c h ix T nw fuel mfuel.
Hypothesis R : build_result fops32 c ix T nw fuel mfuel rfuel ix'.
Hypothesis HM : forall i w, last_added h i = Some w -> tame fmt32 w.
Variable numItems : N.
Hypothesis Hall : forall i, last_added h i <> None <-> i < numItems.
Hypothesis HK : maxK fops32 c < numItems.
Variables (fs fs2 : files) (ix2 : idx).
Hypothesis FF : from_file fops32 c fs ix' fs2 ix2.

Lemma tool_facts : CfgOK fops32 c /\ 3 * ixb c <= vlen c /\ rootsN (ib ix') <> [] /\ length (rootsN (ib ix')) = Z.to_nat T /\
  lenN (c_nns (create_context fops32 ix2)) < 2 ^ iw c /\ (length (rootsN (ib ix')) <= length (rootsN (ib ix2)))%nat.
Proof using Hlen HT B R Hall HK FF.
  clear HM HI HP HU.
  assert (OK : CfgOK fops32 c) by (apply cA_ok; lia). assert (Hv : 3 * ixb c <= vlen c) by (cbn; lia).
  destruct (tool_room len T h ix fuel mfuel rfuel nw ix' numItems B R Hlen HT Hall HK) as [H1 H2].
  assert (Hne : rootsN (ib ix') <> []) by (intro X; rewrite X in H2; clear -H2 HT; unfold lenN in H2; cbn [length N.of_nat] in H2; lia).
  destruct (result_after fops32 c OK _ _ _ _ _ _ _ _ B R) as (I & plan & A & _).
  assert (Hni : numItems <= n_items ix).
  { destruct (N.eq_dec numItems 0) as [Hz|Hz]; [rewrite Hz; apply N.le_0_l|]. destruct (last_added h (numItems - 1)) as [w|] eqn:E.
    - pose proof (ii_ext _ _ _ _ I _ _ E). lia.
    - exfalso. apply (proj2 (Hall (numItems - 1)) ltac:(lia)). exact E. }
  destruct (from_file_loaded fops32 c fs ix _ plan ix' fs2 ix2 OK I A Hv ltac:(lia) Hne FF) as [L _].
  assert (Hcl : c_nns (create_context fops32 ix2) = c_nns (create_context fops32 ix')) by (unfold create_context; now rewrite (lx_room _ _ _ _ _ _ _ L)).
  rewrite Hcl. split; [exact OK|]. split; [exact Hv|]. split; [exact Hne|]. split; [clear -H2; unfold lenN in H2; lia|].
  split; [exact H1|]. apply (lx_count _ _ _ _ _ _ _ L).
Qed.

(** A limit so large that the search lists everything and one tree more: the tool only
    survives if Load found the trees that were built. *)
Lemma tool_trees_kept qfuel n ps l : (1 <= Z.of_nat n <= 2 ^ 53)%Z ->
  precisions fops32 c sortIx sortPairs sortU qfuel fs2 ix2 n numItems tool_return = Ok ps ->
  In l (limits (Z.of_N numItems)) -> ((T + 1) * Z.of_N numItems <= l * (T + 1))%Z ->
  length (rootsN (ib ix2)) = Z.to_nat T.
Proof using Hlen HT HI HP HU B R HM Hall HK FF.
  intros Hn E Hl Hbig. destruct tool_facts as (OK & Hv & Hne & Hrt & Hc & Hge).
  destruct (Nat.eq_dec (length (rootsN (ib ix2))) (Z.to_nat T)) as [|Hd]; [assumption|exfalso].
  destruct (C95_precision_is_mean_recall fmt32 c (or_introl eq_refl) OK Hv ltac:(cbn; lia) sortIx sortPairs sortU HI HP HU h ix ix' _ nw fuel mfuel rfuel
    B R Hne HM numItems Hall HK fs fs2 ix2 FF Hc qfuel n tool_return ps ltac:(unfold tool_return; lia) Hn E) as (_ & rows & Lr & FA & _).
  destruct n as [|n]; [lia|]. cbn [first_draws] in FA. inversion FA as [|d row ds rows' TR FA' E1 E2]. subst.
  destruct TR as (v & ds0 & Hv0 & _ & FQ). apply In_nth_error in Hl. destruct Hl as (k & Hk).
  destruct (forall2_at _ _ _ FQ k l Hk) as (top & _ & (dd & EQ)).
  unfold answer in EQ. apply rbind_ok in EQ. destruct EQ as (r & EQ & _).
  unfold get_nns_by_item in EQ. apply rbind_ok in EQ. destruct EQ as (w & Ew & EQ).
  assert (Hrg : lenN (rangeN numItems) = numItems) by (unfold lenN; rewrite length_rangeN; lia).
  refine (C100_more_trees_than_built_fail fops32 c OK Hv sortIx sortPairs HI h ix _ nw fuel mfuel rfuel ix' B R Hne
    (rangeN numItems) (NoDup_rangeN numItems) _ _ fs fs2 ix2 FF _ Hc qfuel w l (-1)%Z _ r EQ).
  - intro i. rewrite in_rangeN. symmetry. apply Hall.
  - rewrite Hrg. exact HK.
  - lia.
  - rewrite Hrg. unfold the_limit. cbn [Z.eqb Pos.eqb]. unfold lenN. rewrite Hrt.
    assert (G : (T + 1 <= Z.of_nat (length (rootsN (ib ix2))))%Z) by (clear -Hd Hge Hrt HT; lia).
    assert (Gl : (0 <= l)%Z) by (clear -Hbig HT; nia).
    eapply Z.le_trans; [|apply Z.mul_le_mono_nonneg_l; [exact Gl|exact G]]. eapply Z.le_trans; [|exact Hbig]. clear -HT. lia.
Qed.
End T.

(** A run of cmd/precision with any number of items (more than fit one leaf) and any
    vector length from 12 to 2^20 and any number of trees, whatever the trees look like.  If it prints figures
    at all, they are numbers from 0 to 1; the figure of a limit below 10 is at most
    limit / 10 (up to rounding); and the figure of every limit of at least 10 with limit * trees >=
    numItems is exactly 1.  For a power of ten of items it prints only
    if Load found exactly the trees that were built. *)
Theorem C105_run_of_the_tool :
  forall len, 12 <= len <= 2 ^ 20 ->
  forall sortIx sortPairs sortU, sort_slice N.ltb sortIx -> sort_slice (pair_less (flt fops32) (feq fops32)) sortPairs ->
  sorts (fun _ => True) N.ltb sortU ->
  forall T, (1 <= T)%Z -> forall h ix ix' nw fuel mfuel rfuel, build_call fops32 (cA len) h ix T nw fuel mfuel ->
  build_result fops32 (cA len) ix T nw fuel mfuel rfuel ix' ->
  (forall i w, last_added h i = Some w -> tame fmt32 w) ->
  forall numItems, (forall i, last_added h i <> None <-> i < numItems) -> maxK fops32 (cA len) < numItems ->
  forall fs fs2 ix2, from_file fops32 (cA len) fs ix' fs2 ix2 ->
  forall qfuel n ps, (1 <= Z.of_nat n <= 2 ^ 53)%Z ->
  precisions fops32 (cA len) sortIx sortPairs sortU qfuel fs2 ix2 n numItems tool_return = Ok ps ->
  length ps = length (limits (Z.of_N numItems)) /\
  (forall k p l, nth_error ps k = Some p -> nth_error (limits (Z.of_N numItems)) k = Some l ->
     fin fmt64 p /\ (0 <= rv fmt64 p <= 1)%R /\ (rv fmt64 p <= IZR l / 10 + / 2 ^ 52 * (INR n + 3))%R /\
     ((10 <= l)%Z -> (Z.of_N numItems <= l * T)%Z -> rv fmt64 p = 1%R)) /\
  (forall k, (0 <= k < 18)%Z -> Z.of_N numItems = (10 ^ k)%Z -> Z.of_nat (length (rootsN (ib ix2))) = T).
Proof.
  intros len Hlen sortIx sortPairs sortU HI HP HU T HT h ix ix' nw fuel mfuel rfuel B R HM m Hall HK fs fs2 ix2 FF qfuel n ps Hn E.
  destruct (tool_facts len Hlen T HT h ix ix' nw fuel mfuel rfuel B R m Hall HK fs fs2 ix2 FF) as (OK & Hv & Hne & Hrt & Hc & Hge).
  assert (Hm12 : 12 <= maxK fops32 (cA len)).
  { rewrite maxK_eq, nodeSize_eq by exact OK. cbv [off_vec off_dot align cA ixb vlen knd fbytes fops32]. apply N.div_le_lower_bound; clear -Hlen; lia. }
  destruct (C95_precision_is_mean_recall fmt32 (cA len) (or_introl eq_refl) OK Hv ltac:(cbn; lia) sortIx sortPairs sortU HI HP HU h ix ix' _ nw fuel mfuel rfuel
    B R Hne HM m Hall HK fs fs2 ix2 FF Hc qfuel n tool_return ps ltac:(unfold tool_return; lia) Hn E) as (L & rows & Lr & FA & HN).
  split; [exact L|]. split.
  - intros k p l Hp Hl. destruct (HN k p Hp) as (F1 & F2 & _). split; [exact F1|]. split; [exact F2|]. split.
    + pose proof (C95_precision_of_small_limits fmt32 (cA len) (or_introl eq_refl) OK Hv ltac:(cbn; lia) sortIx sortPairs sortU HI HP HU h ix ix' _ nw fuel mfuel rfuel
        B R Hne HM m Hall HK fs fs2 ix2 FF Hc qfuel n tool_return ps ltac:(unfold tool_return; lia) Hn E k p l Hp Hl) as H. exact H.
    + intros H10 Hcov. refine (proj2 (C95_precision_one_when_everything_is_listed fmt32 (cA len) (or_introl eq_refl) OK Hv ltac:(cbn; lia) sortIx sortPairs sortU HI HP HU h ix ix' _ nw fuel mfuel rfuel
        B R Hne HM m Hall HK fs fs2 ix2 FF Hc qfuel n tool_return ps ltac:(unfold tool_return; lia) Hn E k p l Hp Hl _ _ _)); unfold tool_return in *; try lia. nia.
  - intros k Hk Em. assert (Hin : In (Z.of_N m) (limits (Z.of_N m))).
    { apply C95_limits; [rewrite Em; apply Z.pow_lt_mono_r; lia|]. left. exists k. split; [lia|]. split; [exact Em|lia]. }
    rewrite (tool_trees_kept len Hlen sortIx sortPairs sortU HI HP HU T HT h ix ix' nw fuel mfuel rfuel B R HM m Hall HK fs fs2 ix2 FF qfuel n ps (Z.of_N m) Hn E Hin) by lia.
    lia.
Qed.
(** The run without flags: 1000 items, vectors of length 40, so 80 trees.  Of its five
    figures three are 1 for every index that can come out of Build, and the first cannot
    exceed a tenth. *)
Theorem C105_default_run :
  forall sortIx sortPairs sortU, sort_slice N.ltb sortIx -> sort_slice (pair_less (flt fops32) (feq fops32)) sortPairs ->
  sorts (fun _ => True) N.ltb sortU ->
  forall h ix ix' nw fuel mfuel rfuel, build_call fops32 (cA 40) h ix 80 nw fuel mfuel ->
  build_result fops32 (cA 40) ix 80 nw fuel mfuel rfuel ix' ->
  (forall i w, last_added h i = Some w -> tame fmt32 w) -> (forall i, last_added h i <> None <-> i < 1000) ->
  forall fs fs2 ix2, from_file fops32 (cA 40) fs ix' fs2 ix2 ->
  forall qfuel ps, precisions fops32 (cA 40) sortIx sortPairs sortU qfuel fs2 ix2 1000 1000 10 = Ok ps ->
  length (rootsN (ib ix2)) = 80%nat /\
  exists p1 p10 p100 p500 p1000, ps = [p1; p10; p100; p500; p1000] /\
    (0 <= rv fmt64 p1 <= / 10 + / 2 ^ 42)%R /\ (0 <= rv fmt64 p10 <= 1)%R /\
    rv fmt64 p100 = 1%R /\ rv fmt64 p500 = 1%R /\ rv fmt64 p1000 = 1%R.
Proof.
  intros sortIx sortPairs sortU HI HP HU h ix ix' nw fuel mfuel rfuel B R HM Hall fs fs2 ix2 FF qfuel ps E.
  destruct (C105_run_of_the_tool 40 ltac:(lia) sortIx sortPairs sortU HI HP HU 80%Z ltac:(lia) h ix ix' nw fuel mfuel rfuel B R HM 1000 Hall ltac:(vm_compute; reflexivity)
    fs fs2 ix2 FF qfuel 1000%nat ps ltac:(lia) E) as (L & H & Ht).
  split; [specialize (Ht 3%Z ltac:(lia) eq_refl); lia|].
  change (length (limits (Z.of_N 1000))) with 5%nat in L.
  destruct ps as [|p1 [|p10 [|p100 [|p500 [|p1000 [|? ?]]]]]]; try discriminate L. exists p1, p10, p100, p500, p1000. split; [reflexivity|].
  destruct (H 0%nat p1 1%Z eq_refl eq_refl) as (_ & A1 & A2 & _).
  destruct (H 1%nat p10 10%Z eq_refl eq_refl) as (_ & A3 & _).
  destruct (H 2%nat p100 100%Z eq_refl eq_refl) as (_ & _ & _ & A4).
  destruct (H 3%nat p500 500%Z eq_refl eq_refl) as (_ & _ & _ & A5).
  destruct (H 4%nat p1000 1000%Z eq_refl eq_refl) as (_ & _ & _ & A6).
  split. { split; [apply A1|]. rewrite INR_IZR_INZ in A2. change (Z.of_nat 1000) with 1000%Z in A2. lra. }
  split; [exact A3|]. repeat split; [apply A4|apply A5|apply A6]; lia.
Qed.

(** The index of the twenty items in three trees: limits 1 and 10, figures 0.1 (the
    number after it, in fact: the sum is rounded) and 1. *)
Example C105_example :
  build_call fops32 (cA 16) exq_items fx_ix 3 1 100 100 /\ build_result fops32 (cA 16) fx_ix 3 1 100 100 100 fx_single /\
  (forall j v, last_added exq_items j = Some v -> tame fmt32 v) /\ (forall i, last_added exq_items i <> None <-> i < 20) /\
  maxK fops32 (cA 16) = 18 /\
  match save fops32 (cA 16) GCMem OsOk no_files fx_single 7 with
  | Ok (ix2, fs2, None) => from_file fops32 (cA 16) no_files fx_single fs2 ix2 /\ length (rootsN (ib ix2)) = 3%nat /\
      (let* ps := precisions fops32 (cA 16) isortN isortP isortN 1000 fs2 ix2 3 20 tool_return in
       Ok (map bits_of_b64 ps)) = Ok [4591870180066957723; 4607182418800017408]%Z
  | _ => False end.
Proof.
  split; [apply fx_call; lia|]. split; [apply fx_single_result|].
  split; [intros j v H; now apply (exq_tame j v)|]. split.
  - intro i. pose proof C93_exact_example as (_ & _ & _ & _ & _ & H & _). rewrite <- in_rangeN. rewrite (H i). destruct (last_added exq_items i); split; try easy.
  - split; [vm_compute; reflexivity|].
    assert (X : match save fops32 (cA 16) GCMem OsOk no_files fx_single 7 with
      | Ok (ix2, fs2, None) => length (rootsN (ib ix2)) = 3%nat /\
      (let* ps := precisions fops32 (cA 16) isortN isortP isortN 1000 fs2 ix2 3 20 tool_return in
       Ok (map bits_of_b64 ps)) = Ok [4591870180066957723; 4607182418800017408]%Z
      | _ => False end) by (vm_compute; repeat split).
    destruct (save fops32 (cA 16) GCMem OsOk no_files fx_single 7) as [[[ix2 fs2] [e|]]|e] eqn:E; try contradiction.
    split; [|exact X]. exists GCMem, 7, ix2. split; [exact E|now left].
Qed.

Print Assumptions C105_run_of_the_tool.
Print Assumptions C105_default_run.
