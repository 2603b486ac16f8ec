(** The room in the contexts of an index that was saved and loaded (C99). *)
From Verif Require Import Base Flt Layout Rng Sorts Alloc Prog Imbalance Dist Build Policy Index Search Spec ForestSpec BuildSpec RealSpec OrderSpec
  Lib LayoutProof FltProof MemProof StoreProof SearchProof QueryProof TreeProof PolicyProof BuildProof ForestProof
  NumProof AfterProof CutProof SmallProof PlaneProof TopProof IOProof SchedProof SameProof DistProof WholeProof RoomProof OwnProof VisitProof ReloadProof LoadedProof
  Precision MiscProof Concrete PropSearch PropForest PropIO PropMore PropNum PropPlane PropWhole PropReload PropRoom PropLoaded.
From Flocq Require Import IEEE754.Bits.
From Coq Require Import Permutation.
Open Scope N_scope.

(** What all trees of a forest list. *)
Lemma forest_lists fo c v ni roots f : forest fo c v ni roots f -> maxK fo c < ni ->
  exists zs m, reach_all fo c v ni roots zs m /\ lenN zs <= lenN roots * lenN (present fo f ni) /\
    (m <= length roots * (2 * N.to_nat ni + 1))%nat /\ forall j, In j zs -> j < ni.
Proof.
  intros FO HK.
  assert (G : forall rs, (forall r, In r rs -> In r roots) -> exists zs m, reach_all fo c v ni rs zs m /\
    lenN zs <= lenN rs * lenN (present fo f ni) /\ (m <= length rs * (2 * N.to_nat ni + 1))%nat /\ forall j, In j zs -> j < ni); [|now apply G].
  induction rs as [|r rs IH]; intro Hin.
  - exists [], 0%nat. split; [constructor|]. rewrite lenN_nil. split; [lia|]. split; [lia|]. intros j [].
  - destruct IH as (zs & m & Z1 & Z2 & Z3 & Z4); [intros; apply Hin; now right|].
    destruct (fr_tree _ _ _ _ _ _ FO r (Hin r (or_introl eq_refl))) as (xs & k & TL).
    destruct (tl_exact _ _ _ _ _ _ _ _ TL (or_introl HK)) as [NDx Hx].
    assert (Lx : lenN xs <= lenN (present fo f ni)).
    { assert (X : (length xs <= length (present fo f ni))%nat); [|unfold lenN; lia].
      apply NoDup_incl_length; [exact NDx|]. intros j Hj. apply in_present. split; [|now apply Hx]. exact (tl_in _ _ _ _ _ _ _ _ TL j Hj). }
    pose proof (tl_size _ _ _ _ _ _ _ _ TL) as Hs.
    exists (xs ++ zs), (k + m)%nat. split; [constructor; [exact (tl_reach _ _ _ _ _ _ _ _ TL)|exact Z1]|].
    split; [rewrite lenN_app, lenN_cons; lia|]. split; [cbn [length]; lia|].
    intros j Hj. apply in_app_or in Hj. destruct Hj as [Hj|Hj]; [|auto]. exact (tl_in _ _ _ _ _ _ _ _ TL j Hj).
Qed.

Section S.
Variable fo : FOps.
Variable c : Cfg.
Hypothesis OK : CfgOK fo c.
Hypothesis Hv : 3 * ixb c <= vlen c.
Hypothesis H125 : 125 <= maxK fo c.
Variable sortIx : list N -> list N.
Variable sortPairs : list (F fo * N) -> list (F fo * N).
Hypothesis HI : sort_slice N.ltb sortIx.
Hypothesis HP : sort_slice (pair_less (flt fo) (feq fo)) sortPairs.
Variable h : list (N * list (F fo)).
Variables ix ix' : idx.
Variable T : Z.
Variables nw fuel mfuel rfuel : nat.
Hypothesis B : build_call fo c h ix T nw fuel mfuel.
Hypothesis R : build_result fo c ix T nw fuel mfuel rfuel ix'.
Hypothesis Hne : rootsN (ib ix') <> [].
Variable added : list N.
Hypothesis ND : NoDup added.
Hypothesis Had : forall i, In i added -> last_added h i <> None.
Hypothesis HK : maxK fo c < N.of_nat (length added).
Variables fs fs2 : files.
Variable ix2 : idx.
Hypothesis FF : from_file fo c fs ix' fs2 ix2.
Hypothesis Hlen : length (rootsN (ib ix2)) = length (rootsN (ib ix')).
Hypothesis Hc : lenN (c_nns (create_context fo ix2)) < 2 ^ iw c.
Variable qfuel : nat.
Hypothesis Hf : (length (rootsN (ib ix')) * (2 * N.to_nat (n_items ix) + 1) <= qfuel)%nat.
Definition own_size (bc : ctx (F fo)) : Prop :=
  length (c_nns bc) = length (c_nns (create_context fo ix2)) /\ length (c_dist bc) = length (c_dist (create_context fo ix2)).

Lemma reroom_returns q n inspect bc : lenN q = vlen c -> own_size bc ->
  exists ids ds bc', get_nns_by_vector fo c sortIx sortPairs qfuel fs2 ix2 q n inspect bc = Ok (ids, ds, bc').
Proof.
  intros Hq [B1 B2].
  destruct (result_after fo c OK _ _ _ _ _ _ _ _ B R) as (I & plan & A & _).
  pose proof (added_present fo c h ix added ND Had I) as Hp. pose proof (present_le fo (last_added h) (n_items ix)) as Hple.
  assert (HK' : maxK fo c < n_items ix) by (unfold lenN in *; lia).
  destruct (from_file_loaded fo c fs ix _ plan ix' fs2 ix2 OK I A Hv HK' Hne FF) as [L _].
  pose proof (lx_items _ _ _ _ _ _ _ L) as Hn. pose proof (lx_forest _ _ _ _ _ _ _ L) as FO.
  destruct (forest_lists fo c _ _ _ _ FO ltac:(rewrite Hn; exact HK')) as (zs & m & Z1 & Z2 & Z3 & Z4).
  pose proof (own_room_all fo c OK ix (last_added h) plan ix' I A Hv H125 ltac:(lia)) as Hroom.
  assert (Hcl : c_nns (create_context fo ix2) = c_nns (create_context fo ix')) by (unfold create_context; now rewrite (lx_room _ _ _ _ _ _ _ L)).
  pose proof (room_dist fo ix2) as Hd.
  eapply (C31_no_panic_with_room fo c sortIx sortPairs OK HI HP qfuel fs2 ix2 q n inspect bc zs m); eauto.
  - pose proof (ixb_pos _ _ OK). lia.
  - unfold lenN in *. now rewrite B1.
  - congruence.
  - rewrite Hlen, Hn in Z3. lia.
  - intros j Hj. destruct (fr_item _ _ _ _ _ _ FO j (Z4 j Hj)) as (bs & Hr & _). eauto.
  - right. rewrite Hn in Z2. rewrite Hcl in B1. unfold lenN in *. rewrite Hlen in Z2. rewrite B1. lia.
Qed.
Lemma reroom_item j v n inspect bc : last_added h j = Some v -> own_size bc ->
  exists ids ds bc', get_nns_by_item fo c sortIx sortPairs qfuel fs2 ix2 j n inspect bc = Ok (ids, ds, bc') /\ own_size bc'.
Proof.
  intros Hj Hb.
  destruct (result_after fo c OK _ _ _ _ _ _ _ _ B R) as (I & plan & A & _).
  pose proof (added_present fo c h ix added ND Had I) as Hp. pose proof (present_le fo (last_added h) (n_items ix)) as Hple.
  assert (HK' : maxK fo c < n_items ix) by (unfold lenN in *; lia).
  destruct (from_file_loaded fo c fs ix _ plan ix' fs2 ix2 OK I A Hv HK' Hne FF) as [_ SI].
  destruct (C07_build_keeps_items fo c OK h ix T nw fuel mfuel rfuel ix' B R) as (C1 & _ & C3).
  destruct (reroom_returns v n inspect bc (ii_len _ _ _ _ I _ _ Hj) Hb) as (ids & ds & bc' & E).
  exists ids, ds, bc'. split.
  - unfold get_nns_by_item. rewrite (si_item _ _ _ _ _ _ SI) by (rewrite C1; exact (ii_ext _ _ _ _ I j v Hj)). rewrite (C3 fs j v Hj). exact E.
  - destruct (context_size_kept fo c sortIx sortPairs HI HP _ _ _ _ _ _ _ _ _ _ E) as [K1 K2]. destruct Hb as [B1 B2]. split; congruence.
Qed.
(** The rounds of cmd/precision. *)
Lemma reroom_limits sortU j v nr ls : last_added h j = Some v -> forall sums closest bc, own_size bc ->
  exists sums' bc', per_limit fo c sortIx sortPairs sortU qfuel fs2 ix2 j nr ls sums closest bc = Ok (sums', bc') /\ own_size bc'.
Proof.
  intro Hj. induction ls as [|l ls IH]; intros [|s ss] closest bc Hb; try (cbn [per_limit]; eauto).
  destruct (reroom_item j v l (-1)%Z bc Hj Hb) as (ids & ds & bc1 & E & Hb1). rewrite E. cbn [rbind].
  destruct (intersection sortU closest ids) as [[common closest'] y].
  destruct (IH ss closest' bc1 Hb1) as (ss' & bc2 & E2 & Hb2). rewrite E2. cbn [rbind]. eauto.
Qed.
Lemma reroom_rounds sortU numItems nr ls k : (forall i, i < numItems -> last_added h i <> None) -> 0 < numItems ->
  forall r sums bc, own_size bc ->
  exists sums' bc', rounds fo c sortIx sortPairs sortU qfuel fs2 ix2 k numItems nr ls r sums bc = Ok (sums', bc') /\ own_size bc'.
Proof.
  intros Hall Hn. induction k as [|k IH]; intros r sums bc Hb; cbn [rounds]; [eauto|].
  destruct (kiss_next 32 r) as [d r']. destruct (index_of_draw_lt numItems d Hn) as (j & Ej & Hj). rewrite Ej. cbn [rbind].
  specialize (Hall j Hj). destruct (last_added h j) as [v|] eqn:Ev; [|congruence].
  destruct (reroom_item j v nr (Z.of_N numItems) bc Ev Hb) as (ids & ds & bc1 & E & Hb1). rewrite E. cbn [rbind].
  destruct (reroom_limits sortU j v nr ls Ev sums ids bc1 Hb1) as (sums' & bc2 & E2 & Hb2). rewrite E2. cbn [rbind]. now apply IH.
Qed.
Lemma reroom_precisions sortU n numItems nr : (forall i, i < numItems -> last_added h i <> None) -> 0 < numItems ->
  exists ps, precisions fo c sortIx sortPairs sortU qfuel fs2 ix2 n numItems nr = Ok ps.
Proof.
  intros Hall Hn. unfold precisions.
  destruct (reroom_rounds sortU numItems nr (limits (Z.of_N numItems)) n Hall Hn (kiss_new 0) (map (fun _ => d_of_Z 0) (limits (Z.of_N numItems)))
    (create_context fo ix2)) as (sums & bc & E & _); [split; reflexivity|]. rewrite E. cbn [rbind]. eauto.
Qed.
End S.

(** Leaves with room for 125 items, more items added than that, an index as Save leaves
    it or Load gives it, with as many trees as were built: no query on a context of its
    own ever runs out of room. *)
Theorem C99_own_context_after_load :
  forall fo c, CfgOK fo c -> 3 * ixb c <= vlen c -> 125 <= maxK fo c ->
  forall sortIx sortPairs, sort_slice N.ltb sortIx -> sort_slice (pair_less (flt fo) (feq fo)) sortPairs ->
  forall h ix T nw fuel mfuel rfuel ix', build_call fo c h ix T nw fuel mfuel ->
  build_result fo c ix T nw fuel mfuel rfuel ix' -> rootsN (ib ix') <> [] ->
  forall added, NoDup added -> (forall i, In i added -> last_added h i <> None) -> maxK fo c < N.of_nat (length added) ->
  forall fs fs2 ix2, from_file fo c fs ix' fs2 ix2 -> length (rootsN (ib ix2)) = length (rootsN (ib ix')) ->
  forall qfuel q n inspect, lenN q = vlen c -> lenN (c_nns (create_context fo ix2)) < 2 ^ iw c ->
  (length (rootsN (ib ix')) * (2 * N.to_nat (n_items ix) + 1) <= qfuel)%nat ->
  exists ids ds bc', get_nns_by_vector fo c sortIx sortPairs qfuel fs2 ix2 q n inspect (create_context fo ix2) = Ok (ids, ds, bc').
Proof.
  intros fo c OK Hv H125 sortIx sortPairs HI HP h ix T nw fuel mfuel rfuel ix' B R Hne added ND Had HK fs fs2 ix2 FF Hlen qfuel q n inspect Hq Hc Hf.
  eapply reroom_returns; eauto. split; reflexivity.
Qed.
(** Then cmd/precision reports its figures. *)
Theorem C99_precision_tool_returns :
  forall fo c, CfgOK fo c -> 3 * ixb c <= vlen c -> 125 <= maxK fo c ->
  forall sortIx sortPairs sortU, sort_slice N.ltb sortIx -> sort_slice (pair_less (flt fo) (feq fo)) sortPairs ->
  forall h ix T nw fuel mfuel rfuel ix', build_call fo c h ix T nw fuel mfuel ->
  build_result fo c ix T nw fuel mfuel rfuel ix' -> rootsN (ib ix') <> [] ->
  forall numItems, (forall i, i < numItems -> last_added h i <> None) -> maxK fo c < numItems ->
  forall fs fs2 ix2, from_file fo c fs ix' fs2 ix2 -> length (rootsN (ib ix2)) = length (rootsN (ib ix')) ->
  forall qfuel n numReturn, lenN (c_nns (create_context fo ix2)) < 2 ^ iw c ->
  (length (rootsN (ib ix')) * (2 * N.to_nat (n_items ix) + 1) <= qfuel)%nat ->
  exists ps, precisions fo c sortIx sortPairs sortU qfuel fs2 ix2 n numItems numReturn = Ok ps.
Proof.
  intros fo c OK Hv H125 sortIx sortPairs sortU HI HP h ix T nw fuel mfuel rfuel ix' B R Hne numItems Hall HK fs fs2 ix2 FF Hlen qfuel n nr Hc Hf.
  eapply (reroom_precisions fo c OK Hv H125 sortIx sortPairs HI HP h ix ix' T nw fuel mfuel rfuel B R Hne (rangeN numItems)); eauto.
  - apply NoDup_rangeN.
  - intros i Hi. apply Hall. now apply in_rangeN.
  - rewrite length_rangeN. lia.
  - lia.
Qed.
(** One worker: the number of trees does not change. *)
Theorem C99_own_context_after_load_one_worker :
  forall fo c, CfgOK fo c -> 3 * ixb c <= vlen c -> 125 <= maxK fo c ->
  forall sortIx sortPairs, sort_slice N.ltb sortIx -> sort_slice (pair_less (flt fo) (feq fo)) sortPairs ->
  forall h ix T fuel mfuel rfuel ix', build_call fo c h ix T 1 fuel mfuel ->
  build_result fo c ix T 1 fuel mfuel rfuel ix' -> rootsN (ib ix') <> [] ->
  forall added, NoDup added -> (forall i, In i added -> last_added h i <> None) -> maxK fo c < N.of_nat (length added) ->
  forall fs fs2 ix2, from_file fo c fs ix' fs2 ix2 ->
  forall qfuel q n inspect, lenN q = vlen c -> lenN (c_nns (create_context fo ix2)) < 2 ^ iw c ->
  (length (rootsN (ib ix')) * (2 * N.to_nat (n_items ix) + 1) <= qfuel)%nat ->
  exists ids ds bc', get_nns_by_vector fo c sortIx sortPairs qfuel fs2 ix2 q n inspect (create_context fo ix2) = Ok (ids, ds, bc').
Proof.
  intros fo c OK Hv H125 sortIx sortPairs HI HP h ix T fuel mfuel rfuel ix' B R Hne added ND Had HK fs fs2 ix2 FF.
  destruct (result_after fo c OK _ _ _ _ _ _ _ _ B R) as (I & plan & A & _ & _ & Hpl).
  pose proof (added_present fo c h ix added ND Had I) as Hp. pose proof (present_le fo (last_added h) (n_items ix)) as Hple.
  assert (HK' : maxK fo c < n_items ix) by (unfold lenN in *; lia).
  eapply C99_own_context_after_load; eauto.
  destruct FF as (k & fl & ixs & E & H).
  destruct (reload_save fo c OK ix _ plan ix' I A Hv HK' Hne k fs fl Hpl ltac:(lia)) as (ixs' & fs2' & E' & L & Ld).
  rewrite E in E'. injection E' as <- <-.
  assert (X : reloaded fo c ix ix' fs2 ix2).
  { destruct H as [->|(k3 & ix0 & E3)]; [exact L|].
    assert (Hr0 : rnd (ib ix0) <> None) by (intro X; unfold load, close in E3; rewrite X in E3; discriminate).
    destruct (Ld k3 ix0 Hr0) as (ix3 & E3' & L3). rewrite E3 in E3'. now injection E3' as <-. }
  destruct X as (_ & RX & _). rewrite RX. unfold copies. apply length_down.
Qed.
(** 128 items (leaves have room for 126), two trees, one worker; a query that inspects
    every entry of both, before and after Save. *)
Example C99_example :
  build_call fops32 (cA 124) rx_items rx_ix 2 1 300 300 /\ build_result fops32 (cA 124) rx_ix 2 1 300 300 300 rx_built /\
  rootsN (ib rx_built) <> [] /\ maxK fops32 (cA 124) = 126 /\ NoDup (rangeN 128) /\ length (rangeN 128) = 128%nat /\
  (forall i, In i (rangeN 128) -> exists v, In (i, v) rx_items) /\
  match save fops32 (cA 124) MmapMem OsOk no_files rx_built 7 with
  | Ok (ix2, fs2, None) => from_file fops32 (cA 124) no_files rx_built fs2 ix2 /\ length (rootsN (ib ix2)) = 2%nat /\
      lenN (c_nns (create_context fops32 ix2)) = 383
  | _ => False end.
Proof.
  split; [apply rx_call|]. split; [left; split; [reflexivity|apply rx_run]|]. split; [vm_compute; discriminate|]. split; [vm_compute; reflexivity|].
  split; [apply NoDup_rangeN|]. split; [vm_compute; reflexivity|]. split.
  { intros i Hi. eexists. unfold rx_items. apply in_map_iff. now exists i. }
  assert (H : match save fops32 (cA 124) MmapMem OsOk no_files rx_built 7 with
              | Ok (ix2, fs2, None) => length (rootsN (ib ix2)) = 2%nat /\ lenN (c_nns (create_context fops32 ix2)) = 383
              | _ => False end) by (vm_compute; split; reflexivity).
  destruct (save fops32 (cA 124) MmapMem OsOk no_files rx_built 7) as [[[ix2 fs2] [e|]]|e] eqn:E; try exact H.
  split; [|exact H]. exists MmapMem, 7, ix2. split; [exact E|now left].
Qed.
(** With two workers Load can find one tree more than were built, for which the context
    has no room.  20 items, two trees: asking for all items returns on the built index;
    after Save the same call panics. *)
Theorem C99_two_workers_overflow :
  exists ix', build_call fops32 (cA 16) exq_items fx_ix 2 2 100 100 /\ build_result fops32 (cA 16) fx_ix 2 2 100 100 100 ix' /\
    length (rootsN (ib ix')) = 2%nat /\
    (exists l, ids (get_nns_by_vector fops32 (cA 16) isortN isortP 400 no_files ix' exq_vec 20 (-1) (create_context fops32 ix')) = Ok l /\ length l = 20%nat) /\
    exists ix2 fs2, save fops32 (cA 16) GCMem OsOk no_files ix' 7 = Ok (ix2, fs2, None) /\
      length (rootsN (ib ix2)) = 3%nat /\
      ids (get_nns_by_vector fops32 (cA 16) isortN isortP 400 fs2 ix2 exq_vec 20 (-1) (create_context fops32 ix2)) = Er (Panic PIndex).
Proof.
  exists io_multi. split; [apply fx_call; lia|]. split; [apply io_multi_result|]. split; [vm_compute; reflexivity|].
  split; [eexists; split; [vm_compute; reflexivity|vm_compute; reflexivity]|].
  assert (H : match save fops32 (cA 16) GCMem OsOk no_files io_multi 7 with
              | Ok (ix2, fs2, None) => length (rootsN (ib ix2)) = 3%nat /\
                  ids (get_nns_by_vector fops32 (cA 16) isortN isortP 400 fs2 ix2 exq_vec 20 (-1) (create_context fops32 ix2)) = Er (Panic PIndex)
              | _ => False end) by (vm_compute; split; reflexivity).
  revert H. generalize (save fops32 (cA 16) GCMem OsOk no_files io_multi 7). intros [[[ix2 fs2] [e|]]|e] H; try contradiction.
  exists ix2, fs2. destruct H as [H1 H2]. auto.
Qed.

(** cmd/precision on such an index: 100 items with vectors of length 12 (a leaf has room
    for 14), two workers, two trees.  It asks for the 100 nearest, and panics. *)
Definition tw_items : list (N * list (F fops32)) := map (fun i => (i, pad 12 [Z.of_N i - 40; 3; Z.of_N (i * i mod 17)]%Z)) (rangeN 100).
Definition tw_ix : idx := Eval vm_compute in or_else (ix0 (cA 12)) (add_all fops32 (cA 12) (ix0 (cA 12)) tw_items).
Lemma tw_call : build_call fops32 (cA 12) tw_items tw_ix 2 2 300 300.
Proof.
  assert (Hn : n_items tw_ix = 100) by (vm_compute; reflexivity).
  constructor; rewrite ?Hn.
  - vm_compute. discriminate.
  - unfold hist_ok. apply Forall_forall. intros [i v] H. unfold tw_items in H. apply in_map_iff in H. destruct H as (j & H & Hj).
    injection H as <- <-. apply in_rangeN in Hj. cbn [fst snd]. split.
    + eapply cap_ok_mono with (n := 100); [lia|]. vm_compute. reflexivity.
    + unfold lenN. unfold pad, fv. rewrite map_length, app_length, repeat_length. reflexivity.
  - exists (kiss_new 0), 0. vm_compute. reflexivity.
  - lia.
  - lia.
  - lia.
  - eapply cap_ok_mono with (n := 1000); [|vm_compute; reflexivity]. unfold forest_room. cbn -[N.add N.mul]. lia.
  - unfold enough_fuel. lia.
Qed.
Definition tw_s0 : bst := Eval vm_compute in or_else (ib tw_ix) (build_pre fops32 (cA 12) tw_ix).
(** Worker 0 runs until it is about to add its root, then worker 1 to its end. *)
Definition at_roots {A} (p : prog A) : bool := match p with Vis ALockRoots _ => true | _ => false end.
Definition tw_steps : nat := (20 * 1000)%nat.
Definition tw_end : list (prog unit) * bst :=
  go (cA 12) never tw_steps 0 (go (cA 12) never tw_steps 1 (go (cA 12) at_roots tw_steps 0
    (build_workers fops32 (cA 12) tw_ix tw_s0 2 2 300 300 300, tw_s0))).
Definition tw_end_state : bst := Eval vm_compute in snd tw_end.
Lemma tw_end_eq : tw_end = (map (fun _ => Ret tt) (map (trees_for_worker 2 2) (seq 0 2)), tw_end_state).
Proof. vm_compute. reflexivity. Qed.
Definition tw_multi : idx := Eval vm_compute in or_else tw_ix (build_post fops32 (cA 12) tw_ix tw_end_state).
Lemma tw_multi_result : build_result fops32 (cA 12) tw_ix 2 2 300 300 300 tw_multi.
Proof.
  right. exists 2%Z, 8. split; [reflexivity|].
  exists (map (trees_for_worker 2 2) (seq 0 2)), tw_s0, (map (fun _ => Ret tt) (map (trees_for_worker 2 2) (seq 0 2))), tw_end_state.
  split; [vm_compute; reflexivity|]. split; [reflexivity|]. split.
  - rewrite <- tw_end_eq. unfold tw_end. eapply steps_trans; [eapply steps_trans|]; apply go_sound.
  - split; [reflexivity|]. vm_compute. reflexivity.
Qed.
Theorem C99_precision_tool_panics :
  exists ix', build_call fops32 (cA 12) tw_items tw_ix 2 2 300 300 /\ build_result fops32 (cA 12) tw_ix 2 2 300 300 300 ix' /\
    (let* ps := precisions fops32 (cA 12) isortN isortP isortN 1000 no_files ix' 1 100 10 in Ok (map bits_of_b64 ps)) = Ok [4591870180066957722; 4591870180066957722; 4607182418800017408; 4607182418800017408]%Z /\
    exists ix2 fs2, save fops32 (cA 12) GCMem OsOk no_files ix' 7 = Ok (ix2, fs2, None) /\
      (let* ps := precisions fops32 (cA 12) isortN isortP isortN 1000 fs2 ix2 1 100 10 in Ok (map bits_of_b64 ps)) = Er (Panic PIndex).
Proof.
  exists tw_multi. split; [apply tw_call|]. split; [apply tw_multi_result|]. split; [vm_compute; reflexivity|].
  assert (H : match save fops32 (cA 12) GCMem OsOk no_files tw_multi 7 with
              | Ok (ix2, fs2, None) =>
                  (let* ps := precisions fops32 (cA 12) isortN isortP isortN 1000 fs2 ix2 1 100 10 in Ok (map bits_of_b64 ps)) = Er (Panic PIndex)
              | _ => False end) by (vm_compute; reflexivity).
  revert H. generalize (save fops32 (cA 12) GCMem OsOk no_files tw_multi 7). intros [[[ix2 fs2] [e|]]|e] H; try contradiction.
  exists ix2, fs2. auto.
Qed.

Print Assumptions C99_own_context_after_load.
Print Assumptions C99_precision_tool_returns.
Print Assumptions C99_own_context_after_load_one_worker.
Print Assumptions C99_two_workers_overflow.
Print Assumptions C99_precision_tool_panics.
