(** Exhaustive queries for an item: it finds itself (C101), and items with equal vectors
    come in the order of their ids (C102). *)
From Verif Require Import Base Flt Layout Rng Sorts Alloc Prog Imbalance Dist Build Policy Index Search Spec ForestSpec BuildSpec RealSpec OrderSpec
  Lib LayoutProof FltProof MemProof StoreProof SearchProof QueryProof TreeProof PolicyProof BuildProof ForestProof
  NumProof AccProof AfterProof CutProof SmallProof PlaneProof TopProof IOProof SameProof DistProof WholeProof RoomProof OwnProof ReloadProof LoadedProof SelfProof
  Concrete PropSearch PropForest PropIO PropMore PropNum PropPlane PropWhole PropReload PropRoom PropLoaded.
From Coq Require Import Reals Lra Permutation Sorting.Sorted.
From Flocq Require Import Core IEEE754.Binary.
Close Scope R_scope.
Open Scope N_scope.

(** [ixq] with the files [fsq] is the built index [ix'], or what Save leaves or a later
    Load gives; and [lim], the number of entries to inspect, is at least the number of
    items added.  (Small indexes: as built only, and as many entries as indices.) *)
Definition exhaustive (fo : FOps) (c : Cfg) (ix ix' : idx) (added : list N) (fsq : files) (ixq : idx) (lim : Z) : Prop :=
  (maxK fo c < n_items ix /\ (ixq = ix' \/ exists fs, from_file fo c fs ix' fsq ixq) /\ (Z.of_nat (length added) <= lim)%Z) \/
  (ixq = ix' /\ (Z.of_N (n_items ix) <= lim)%Z).

Section Both.
Variable fm : Fmt.
Variable c : Cfg.
Notation fo := (ops fm).
Hypothesis FM : is_fmt fm.
Hypothesis OK : CfgOK fo c.
Hypothesis Hv : 3 * ixb c <= vlen c.
Hypothesis Hlen : vlen c <= 2 ^ 20.
Variable sortIx : list N -> list N.
Variable sortPairs : list (F fo * N) -> list (F fo * N).
Hypothesis HI : sort_slice N.ltb sortIx.
Hypothesis HP : sort_slice (pair_less (flt fo) (feq fo)) sortPairs.
Variables (h : list (N * list (F fo))) (ix ix' : idx) (T : Z) (nw fuel mfuel rfuel : nat).
Hypothesis B : build_call fo c h ix T nw fuel mfuel.
Hypothesis R : build_result fo c ix T nw fuel mfuel rfuel ix'.
Hypothesis Hne : rootsN (ib ix') <> [].
Hypothesis HT : forall i w, last_added h i = Some w -> tame fm w.
Variable added : list N.
Hypothesis ND : NoDup added.
Hypothesis Had : forall i, In i added <-> last_added h i <> None.

Lemma len_of i w : last_added h i = Some w -> lenN w = vlen c.
Proof. intro H. destruct (result_after fo c OK _ _ _ _ _ _ _ _ B R) as (I & _). exact (ii_len _ _ _ _ I _ _ H). Qed.
Lemma num_of q : tame fm q -> lenN q = vlen c -> all_num fo (last_added h) q.
Proof.
  intros Tq Hq. eapply (tame_all_num fm FM); [exact Tq|]. intros j v Hj. split; [|eauto]. pose proof (len_of j v Hj). unfold lenN in *. lia.
Qed.
Lemma exhaustive_exact fsq ixq qfuel q n inspect bc ids ds bc' : exhaustive fo c ix ix' added fsq ixq (the_limit ixq n inspect) ->
  tame fm q -> lenN q = vlen c -> lenN (c_nns bc) < 2 ^ iw c ->
  get_nns_by_vector fo c sortIx sortPairs qfuel fsq ixq q n inspect bc = Ok (ids, ds, bc') ->
  exact_nearest fo c (last_added h) q (Z.to_nat n) ids ds.
Proof.
  intros HX Tq Hq Hc E. pose proof (num_of q Tq Hq) as NM.
  assert (HM : forall i w, last_added h i = Some w -> moderate fm w) by (intros i w Hi; apply tame_moderate; eauto).
  pose proof (tame_moderate _ _ Tq) as Mq. destruct HX as [(HK & [->|(fs & FF)] & HL)|(-> & HL)].
  - eapply (C90_inspecting_the_added_items_is_exact fm c FM OK Hv Hlen sortIx sortPairs HI HP h ix T nw fuel mfuel rfuel ix' B R Hne HM added ND); eauto.
    intros i Hi. now apply Had.
  - eapply (C94_exact_after_reload fm c FM OK Hv Hlen sortIx sortPairs HI HP h ix ix' T nw fuel mfuel rfuel B R Hne HM added ND Had fs fsq ixq FF HK); eauto.
  - eapply (C90_inspecting_the_number_of_items_is_exact fm c FM OK Hv Hlen sortIx sortPairs HI HP h ix T nw fuel mfuel rfuel ix' B R Hne HM); eauto.
Qed.
Lemma exhaustive_item fsq ixq lim j q : exhaustive fo c ix ix' added fsq ixq lim -> last_added h j = Some q -> get_item fo c fsq ixq j = Ok q.
Proof.
  intros HX Hj. pose proof (C07_build_keeps_items fo c OK h ix T nw fuel mfuel rfuel ix' B R) as (_ & _ & G).
  destruct HX as [(HK & [->|(fs & FF)] & HL)|(-> & HL)]; [now apply G| |now apply G].
  destruct (result_after fo c OK _ _ _ _ _ _ _ _ B R) as (I & plan & A & _).
  destruct (from_file_loaded fo c fs ix _ plan ix' fsq ixq OK I A Hv HK Hne FF) as (_ & SI).
  rewrite <- (G fs j q Hj). apply (si_item _ _ _ _ _ _ SI). rewrite (bt_items _ _ _ _ _ _ A). eapply ii_ext; eauto.
Qed.
End Both.

(** ** C101: an item finds itself *)
(** An exhaustive query for an item leaves it out of the answer only if the answer is made
    of [n] other items, all of them within rounding errors of it .. *)
Theorem C101_item_left_out_only_for_equals :
  forall fm c, is_fmt fm -> CfgOK (ops fm) c -> 3 * ixb c <= vlen c -> vlen c <= 2 ^ 20 ->
  forall sortIx sortPairs, sort_slice N.ltb sortIx -> sort_slice (pair_less (flt (ops fm)) (feq (ops fm))) sortPairs ->
  forall h ix ix' T nw fuel mfuel rfuel, build_call (ops fm) c h ix T nw fuel mfuel ->
  build_result (ops fm) c ix T nw fuel mfuel rfuel ix' -> rootsN (ib ix') <> [] ->
  (forall i w, last_added h i = Some w -> tame fm w) ->
  forall added, NoDup added -> (forall i, In i added <-> last_added h i <> None) ->
  forall fsq ixq qfuel j x n inspect bc ids ds bc', last_added h j = Some x -> lenN (c_nns bc) < 2 ^ iw c ->
  get_nns_by_item (ops fm) c sortIx sortPairs qfuel fsq ixq j n inspect bc = Ok (ids, ds, bc') ->
  exhaustive (ops fm) c ix ix' added fsq ixq (the_limit ixq n inspect) ->
  In j ids \/
  (length ids = Z.to_nat n /\ forall i v, In i ids -> last_added h i = Some v ->
     (true_gap (map (rv fm) x) (map (rv fm) v) <= dist_err fm (N.to_nat (vlen c)))%R).
Proof.
  intros fm c FM OK Hv Hlen sortIx sortPairs HI HP h ix ix' T nw fuel mfuel rfuel B R Hne HT added ND Had fsq ixq qfuel j x n inspect bc ids ds bc' Hj Hc E HX.
  rewrite (C34_by_item_is_by_vector _ _ _ _ _ _ _ j x) in E by (eapply exhaustive_item; eauto).
  pose proof (len_of fm c OK h ix ix' T nw fuel mfuel rfuel B R) as HL. pose proof (HL j x Hj) as Lx.
  assert (EX : exact_nearest (ops fm) c (last_added h) x (Z.to_nat n) ids ds) by (eapply exhaustive_exact; eauto).
  destruct (in_dec N.eq_dec j ids) as [Hi|Hi]; [now left|right].
  replace (N.to_nat (vlen c)) with (length x) by (unfold lenN in Lx; lia).
  eapply (exact_left_out fm FM c (last_added h) x); eauto.
  intros i v H. split; [|eauto]. pose proof (HL i v H). unfold lenN in *. lia.
Qed.
(** .. and if the other items are further away than that, it comes first, at distance
    exactly 0 (for the dot product: minus 0). *)
Theorem C101_item_comes_first :
  forall fm c, is_fmt fm -> CfgOK (ops fm) c -> 3 * ixb c <= vlen c -> vlen c <= 2 ^ 20 ->
  forall sortIx sortPairs, sort_slice N.ltb sortIx -> sort_slice (pair_less (flt (ops fm)) (feq (ops fm))) sortPairs ->
  forall h ix ix' T nw fuel mfuel rfuel, build_call (ops fm) c h ix T nw fuel mfuel ->
  build_result (ops fm) c ix T nw fuel mfuel rfuel ix' -> rootsN (ib ix') <> [] ->
  (forall i w, last_added h i = Some w -> tame fm w) ->
  forall added, NoDup added -> (forall i, In i added <-> last_added h i <> None) ->
  forall fsq ixq qfuel j x n inspect bc ids ds bc', last_added h j = Some x -> lenN (c_nns bc) < 2 ^ iw c ->
  get_nns_by_item (ops fm) c sortIx sortPairs qfuel fsq ixq j n inspect bc = Ok (ids, ds, bc') ->
  exhaustive (ops fm) c ix ix' added fsq ixq (the_limit ixq n inspect) -> (1 <= n)%Z ->
  (forall i v, i <> j -> last_added h i = Some v ->
     (dist_err fm (N.to_nat (vlen c)) < true_gap (map (rv fm) x) (map (rv fm) v))%R) ->
  exists ids' ds', ids = j :: ids' /\
    ds = match knd c with Angular => f0 (ops fm) | DotProduct => fneg (ops fm) (f0 (ops fm)) end :: ds'.
Proof.
  intros fm c FM OK Hv Hlen sortIx sortPairs HI HP h ix ix' T nw fuel mfuel rfuel B R Hne HT added ND Had fsq ixq qfuel j x n inspect bc ids ds bc' Hj Hc E HX Hn Hfar.
  rewrite (C34_by_item_is_by_vector _ _ _ _ _ _ _ j x) in E by (eapply exhaustive_item; eauto).
  pose proof (len_of fm c OK h ix ix' T nw fuel mfuel rfuel B R) as HL. pose proof (HL j x Hj) as Lx.
  assert (EX : exact_nearest (ops fm) c (last_added h) x (Z.to_nat n) ids ds) by (eapply exhaustive_exact; eauto).
  rewrite <- (self_zero fm FM c x (HT j x Hj)).
  replace (N.to_nat (vlen c)) with (length x) in Hfar by (unfold lenN in Lx; lia).
  eapply (exact_self_first fm FM c (last_added h) x); eauto; [|lia].
  intros i v H. split; [|eauto]. pose proof (HL i v H). unfold lenN in *. lia.
Qed.

(** A float32 value: 1/64. *)
Definition c64 : F fops32 := @Binary.B754_finite 24%Z 128%Z false 8388608%positive (-29)%Z eq_refl.
Lemma c64_real : fin fmt32 c64 /\ rv fmt32 c64 = (/ 64)%R.
Proof.
  split; [reflexivity|]. cbn [rv fmt32]. unfold c64, Binary.B2R, F2R. cbn [Fnum Fexp cond_Zopp bpow].
  change (Z.pow_pos radix2 29) with 536870912%Z. lra.
Qed.
(** The other 19 items are far enough from item 9. *)
Lemma exq_far i v x : last_added exq_items 9 = Some x -> i <> 9 -> last_added exq_items i = Some v ->
  (dist_err fmt32 16 < true_gap (map (rv fmt32) x) (map (rv fmt32) v))%R.
Proof.
  intros Hx Hi Hv. destruct (exq_tame 9 x Hx) as [Lx Tx]. destruct (exq_tame i v Hv) as [Lv Tv].
  destruct (gap_accurate fmt32 (or_introl eq_refl) x v) as [Fg Eg]; [exact (eq_trans Lx (eq_sym Lv))|exact Tx|exact Tv|].
  assert (L : flt fops32 c64 (cos_gap fops32 x v) = true).
  { assert (X : forallb (fun i => (i =? 9) || match last_added exq_items 9, last_added exq_items i with
      | Some x, Some v => flt fops32 c64 (cos_gap fops32 x v) | _, _ => false end) (rangeN 20) = true) by (vm_compute; reflexivity).
    rewrite forallb_forall in X. specialize (X i). rewrite Hx, Hv in X. destruct (N.eqb_spec i 9); [contradiction|]. apply X.
    apply last_added_in in Hv. unfold exq_items in Hv. apply in_map_iff in Hv. destruct Hv as (k & [= <- _] & Hk). exact Hk. }
  destruct c64_real as [Fc Ec]. apply (l_lt fmt32 (fmt_laws fmt32 (or_introl eq_refl))) in L; auto. rewrite Ec in L.
  apply Rabs_bounds in Eg. change (F fops32) with (F (ops fmt32)) in *. rewrite Lx in Eg. unfold dist_err. pose proof (fmt_unit fmt32 (or_introl eq_refl)) as HU.
  set (u := unit_of fmt32) in *. replace (INR 16) with 16%R in * by (cbn; lra). change fops32 with (ops fmt32) in L. lra.
Qed.
(** 20 items, two workers, 2 trees, saved: asking for item 9 and inspecting 20 entries
    gives item 9 first, at distance 0 (bits 0), from the index as built and as loaded. *)
Example C101_example :
  build_call fops32 (cA 16) exq_items fx_ix 2 2 100 100 /\ build_result fops32 (cA 16) fx_ix 2 2 100 100 100 io_multi /\
  (forall j v, last_added exq_items j = Some v -> tame fmt32 v) /\
  NoDup (rangeN 20) /\ (forall i, In i (rangeN 20) <-> last_added exq_items i <> None) /\
  (forall x i v, last_added exq_items 9 = Some x -> i <> 9 -> last_added exq_items i = Some v ->
     (dist_err fmt32 (N.to_nat (vlen (cA 16))) < true_gap (map (rv fmt32) x) (map (rv fmt32) v))%R) /\
  exhaustive fops32 (cA 16) fx_ix io_multi (rangeN 20) no_files io_multi (the_limit io_multi 3 20) /\
  bits_of (get_nns_by_item fops32 (cA 16) isortN isortP 400 no_files io_multi 9 3 20 (create_context fops32 io_multi)) = Ok ([9; 12; 10], [0; 1053680693; 1054377487]) /\
  match save fops32 (cA 16) GCMem OsOk no_files io_multi 7 with
  | Ok (ix2, fs2, None) => exhaustive fops32 (cA 16) fx_ix io_multi (rangeN 20) fs2 ix2 (the_limit ix2 3 20) /\
      bits_of (get_nns_by_item fops32 (cA 16) isortN isortP 400 fs2 ix2 9 3 20 (create_context fops32 ix2)) = Ok ([9; 12; 10], [0; 1053680693; 1054377487])
  | _ => False end.
Proof.
  split; [apply fx_call; lia|]. split; [apply io_multi_result|].
  split; [intros j v H; now apply (exq_tame j v)|]. split; [apply NoDup_rangeN|]. split.
  { intro i. pose proof C93_exact_example as (_ & _ & _ & _ & _ & H & _). rewrite (H i). destruct (last_added exq_items i); split; try easy. }
  split; [intros x i v Hx Hi Hv; exact (exq_far i v x Hx Hi Hv)|]. split.
  { left. split; [vm_compute; reflexivity|]. split; [now left|vm_compute; discriminate]. }
  split; [vm_compute; reflexivity|].
  assert (X : match save fops32 (cA 16) GCMem OsOk no_files io_multi 7 with
    | Ok (ix2, fs2, None) => (20 <=? the_limit ix2 3 20)%Z = true /\
        bits_of (get_nns_by_item fops32 (cA 16) isortN isortP 400 fs2 ix2 9 3 20 (create_context fops32 ix2)) = Ok ([9; 12; 10], [0; 1053680693; 1054377487])
    | _ => False end) by (vm_compute; split; reflexivity).
  destruct (save fops32 (cA 16) GCMem OsOk no_files io_multi 7) as [[[ix2 fs2] [e|]]|e] eqn:E; try contradiction.
  destruct X as [X1 X2]. split; [|exact X2]. left. split; [vm_compute; reflexivity|]. split.
  - right. exists no_files, GCMem, 7, ix2. split; [exact E|now left].
  - rewrite length_rangeN. lia.
Qed.

(** ** C102: items with equal vectors *)
(** If an answer has the item with the higher id of two with equal vectors, it has the
    other one before it, at the same distance. *)
Theorem C102_equal_vectors_by_id :
  forall fm c, is_fmt fm -> CfgOK (ops fm) c -> 3 * ixb c <= vlen c -> vlen c <= 2 ^ 20 ->
  forall sortIx sortPairs, sort_slice N.ltb sortIx -> sort_slice (pair_less (flt (ops fm)) (feq (ops fm))) sortPairs ->
  forall h ix ix' T nw fuel mfuel rfuel, build_call (ops fm) c h ix T nw fuel mfuel ->
  build_result (ops fm) c ix T nw fuel mfuel rfuel ix' -> rootsN (ib ix') <> [] ->
  (forall i w, last_added h i = Some w -> tame fm w) ->
  forall added, NoDup added -> (forall i, In i added <-> last_added h i <> None) ->
  forall fsq ixq qfuel q n inspect bc ids ds bc', tame fm q -> lenN q = vlen c -> lenN (c_nns bc) < 2 ^ iw c ->
  get_nns_by_vector (ops fm) c sortIx sortPairs qfuel fsq ixq q n inspect bc = Ok (ids, ds, bc') ->
  exhaustive (ops fm) c ix ix' added fsq ixq (the_limit ixq n inspect) ->
  forall i j v, last_added h i = Some v -> last_added h j = Some v -> i < j -> In j ids ->
  exists a b d, (a < b)%nat /\ nth_error ids a = Some i /\ nth_error ids b = Some j /\
    nth_error ds a = Some d /\ nth_error ds b = Some d.
Proof.
  intros fm c FM OK Hv Hlen sortIx sortPairs HI HP h ix ix' T nw fuel mfuel rfuel B R Hne HT added ND Had fsq ixq qfuel q n inspect bc ids ds bc' Tq Hq Hc E HX i j v Hi Hj Hij Hin.
  eapply exact_dups; eauto; [eapply num_of; eauto|eapply exhaustive_exact; eauto].
Qed.
(** Asking for either of the two gives the same answer, whatever is inspected. *)
Theorem C102_equal_vectors_same_answer :
  forall fm c, is_fmt fm -> CfgOK (ops fm) c -> 3 * ixb c <= vlen c ->
  forall h ix ix' T nw fuel mfuel rfuel, build_call (ops fm) c h ix T nw fuel mfuel ->
  build_result (ops fm) c ix T nw fuel mfuel rfuel ix' ->
  forall i j v, last_added h i = Some v -> last_added h j = Some v ->
  forall fsq ixq, ixq = ix' \/ (rootsN (ib ix') <> [] /\ maxK (ops fm) c < n_items ix /\ exists fs, from_file (ops fm) c fs ix' fsq ixq) ->
  forall sortIx sortPairs qfuel n inspect bc,
  get_nns_by_item (ops fm) c sortIx sortPairs qfuel fsq ixq i n inspect bc =
  get_nns_by_item (ops fm) c sortIx sortPairs qfuel fsq ixq j n inspect bc.
Proof.
  intros fm c FM OK Hv h ix ix' T nw fuel mfuel rfuel B R i j v Hi Hj fsq ixq HX sortIx sortPairs qfuel n inspect bc.
  assert (G : forall k, last_added h k = Some v -> get_item (ops fm) c fsq ixq k = Ok v).
  { intros k Hk. destruct HX as [->|(Hne & HK & FF)].
    - now apply (C07_build_keeps_items (ops fm) c OK h ix T nw fuel mfuel rfuel ix' B R).
    - eapply (exhaustive_item fm c OK Hv h ix ix' T nw fuel mfuel rfuel B R Hne []); [|exact Hk]. left. split; [exact HK|]. split; [now right|]. cbn. apply Z.le_refl. }
  now rewrite !(C34_by_item_is_by_vector (ops fm) c sortIx sortPairs qfuel fsq ixq _ v) by auto.
Qed.
(** If all items have the same vector, an exhaustive query gives the first of them. *)
Theorem C102_all_equal_gives_the_first :
  forall fm c, is_fmt fm -> CfgOK (ops fm) c -> 3 * ixb c <= vlen c -> vlen c <= 2 ^ 20 ->
  forall sortIx sortPairs, sort_slice N.ltb sortIx -> sort_slice (pair_less (flt (ops fm)) (feq (ops fm))) sortPairs ->
  forall h ix ix' T nw fuel mfuel rfuel, build_call (ops fm) c h ix T nw fuel mfuel ->
  build_result (ops fm) c ix T nw fuel mfuel rfuel ix' -> rootsN (ib ix') <> [] ->
  forall added v, StronglySorted N.lt added -> (forall i w, last_added h i = Some w <-> In i added /\ w = v) -> tame fm v ->
  forall fsq ixq qfuel q n inspect bc ids ds bc', tame fm q -> lenN q = vlen c -> lenN (c_nns bc) < 2 ^ iw c ->
  get_nns_by_vector (ops fm) c sortIx sortPairs qfuel fsq ixq q n inspect bc = Ok (ids, ds, bc') ->
  exhaustive (ops fm) c ix ix' added fsq ixq (the_limit ixq n inspect) ->
  ids = firstn (Z.to_nat n) added /\ ds = map (fun _ => vec_distance (ops fm) c q v) ids.
Proof.
  intros fm c FM OK Hv Hlen sortIx sortPairs HI HP h ix ix' T nw fuel mfuel rfuel B R Hne added v SS Hf Tv fsq ixq qfuel q n inspect bc ids ds bc' Tq Hq Hc E HX.
  assert (HT : forall i w, last_added h i = Some w -> tame fm w) by (intros i w H; apply Hf in H; destruct H as [_ ->]; exact Tv).
  assert (ND : NoDup added).
  { clear -SS. induction SS as [|a l S1 IH F]; constructor; [|exact IH]. intro H. rewrite Forall_forall in F. specialize (F a H). lia. }
  assert (Had : forall i, In i added <-> last_added h i <> None).
  { intro i. split; [intros Hi E0|intro H].
    - assert (X : last_added h i = Some v) by (apply Hf; auto). congruence.
    - destruct (last_added h i) as [w|] eqn:E0; [|contradiction]. now apply Hf in E0. }
  eapply exact_all_equal; eauto; [now apply fmt_is_float|eapply num_of; eauto|eapply exhaustive_exact; eauto].
Qed.
(** Twenty items, all of them (1, 2, .., 16). *)
Definition same_items_20 : list (N * list (F fops32)) := map (fun i => (i, pad 16 [1; 2; 3; 4; 5; 6; 7; 8; 9; 10; 11; 12; 13; 14; 15; 16]%Z)) (rangeN 20).
Definition same_ix : idx := Eval vm_compute in or_else (ix0 (cA 16)) (add_all fops32 (cA 16) (ix0 (cA 16)) same_items_20).
Definition same_built : idx := Eval vm_compute in or_else same_ix (build_single fops32 (cA 16) 100 100 100 same_ix 2).
Lemma same_vecs i w : last_added same_items_20 i = Some w <-> In i (rangeN 20) /\ w = pad 16 [1; 2; 3; 4; 5; 6; 7; 8; 9; 10; 11; 12; 13; 14; 15; 16]%Z.
Proof.
  split.
  - intro H. apply last_added_in in H. unfold same_items_20 in H. apply in_map_iff in H. destruct H as (j & E & Hj). injection E as <- <-. auto.
  - intros [Hi ->]. assert (X : forallb (fun i => match last_added same_items_20 i with Some _ => true | None => false end) (rangeN 20) = true)
      by (vm_compute; reflexivity).
    rewrite forallb_forall in X. specialize (X i Hi). destruct (last_added same_items_20 i) as [v|] eqn:E; [|discriminate].
    apply last_added_in in E. unfold same_items_20 in E. apply in_map_iff in E. destruct E as (j & E & Hj). injection E as <- <-. reflexivity.
Qed.
Example C102_all_equal_example :
  build_call fops32 (cA 16) same_items_20 same_ix 2 1 100 100 /\ build_result fops32 (cA 16) same_ix 2 1 100 100 100 same_built /\
  length (rootsN (ib same_built)) = 2%nat /\
  tame fmt32 (pad 16 [1; 2; 3; 4; 5; 6; 7; 8; 9; 10; 11; 12; 13; 14; 15; 16]%Z) /\ StronglySorted N.lt (rangeN 20) /\
  exhaustive fops32 (cA 16) same_ix same_built (rangeN 20) no_files same_built (the_limit same_built 5 20) /\
  bits_of (get_nns_by_item fops32 (cA 16) isortN isortP 400 no_files same_built 9 5 20 (create_context fops32 same_built)) =
    Ok ([0; 1; 2; 3; 4], [0; 0; 0; 0; 0]).
Proof.
  split.
  { assert (Hn : n_items same_ix = 20) by (vm_compute; reflexivity). constructor; rewrite ?Hn.
    - vm_compute. discriminate.
    - unfold hist_ok. apply Forall_forall. intros [i v] H. unfold same_items_20 in H. apply in_map_iff in H. destruct H as (j & H & Hj).
      injection H as <- <-. apply in_rangeN in Hj. cbn [fst snd]. split.
      + eapply cap_ok_mono with (n := 20); [lia|]. vm_compute. reflexivity.
      + reflexivity.
    - exists (kiss_new 0), 0. vm_compute. reflexivity.
    - lia.
    - lia.
    - lia.
    - eapply cap_ok_mono with (n := 1000); [|vm_compute; reflexivity]. unfold forest_room. cbn. lia.
    - unfold enough_fuel. lia. }
  split; [left; split; [reflexivity|vm_compute; reflexivity]|]. split; [vm_compute; reflexivity|].
  split; [apply fv_tame; [cbn; lia|vm_compute; reflexivity|vm_compute; reflexivity]|]. split.
  { vm_compute. repeat (constructor; [|repeat (constructor; [reflexivity|]); constructor]). constructor. }
  split; [|vm_compute; reflexivity].
  left. split; [vm_compute; reflexivity|]. split; [now left|vm_compute; discriminate].
Qed.
(** 24 items: 8 vectors, each added three times. *)
Definition dup_items : list (N * list (F fops32)) := map (fun i => (i, pad 16 [Z.of_N (i mod 8) - 3; 2; 1]%Z)) (rangeN 24).
Definition dup_ix : idx := Eval vm_compute in or_else (ix0 (cA 16)) (add_all fops32 (cA 16) (ix0 (cA 16)) dup_items).
Definition dup_built : idx := Eval vm_compute in or_else dup_ix (build_single fops32 (cA 16) 100 100 100 dup_ix 2).
Lemma dup_call : build_call fops32 (cA 16) dup_items dup_ix 2 1 100 100.
Proof.
  assert (Hn : n_items dup_ix = 24) by (vm_compute; reflexivity). constructor; rewrite ?Hn.
  - vm_compute. discriminate.
  - unfold hist_ok. apply Forall_forall. intros [i v] H. unfold dup_items in H. apply in_map_iff in H. destruct H as (j & H & Hj).
    injection H as <- <-. apply in_rangeN in Hj. cbn [fst snd]. split.
    + eapply cap_ok_mono with (n := 24); [lia|]. vm_compute. reflexivity.
    + unfold lenN. unfold pad, fv. rewrite map_length, app_length, repeat_length. reflexivity.
  - exists (kiss_new 0), 0. vm_compute. reflexivity.
  - lia.
  - lia.
  - lia.
  - eapply cap_ok_mono with (n := 1000); [|vm_compute; reflexivity]. unfold forest_room. cbn. lia.
  - unfold enough_fuel. lia.
Qed.
Lemma dup_result : build_result fops32 (cA 16) dup_ix 2 1 100 100 100 dup_built.
Proof. left. split; [reflexivity|]. vm_compute. reflexivity. Qed.
Lemma dup_tame j v : last_added dup_items j = Some v -> tame fmt32 v.
Proof.
  intro H. pose proof (last_added_in _ _ _ H) as Hin. unfold dup_items in Hin. apply in_map_iff in Hin. destruct Hin as (i & [= _ <-] & Hi).
  assert (i mod 8 < 8) by (apply N.mod_lt; lia).
  apply fv_tame; cbn -[Z.mul Z.abs Z.leb Z.of_N N.modulo N.mul]; [lia| |].
  - lia.
  - apply Z.leb_le. pose proof (Z.square_nonneg (Z.of_N (i mod 8) - 3)). lia.
Qed.
Lemma dup_added i : In i (rangeN 24) <-> last_added dup_items i <> None.
Proof.
  split.
  - intros Hi E. assert (X : forallb (fun i => match last_added dup_items i with Some _ => true | None => false end) (rangeN 24) = true)
      by (vm_compute; reflexivity).
    rewrite forallb_forall in X. specialize (X i Hi). rewrite E in X. discriminate.
  - destruct (last_added dup_items i) eqn:E; [intros _|easy]. apply last_added_in in E. unfold dup_items in E.
    apply in_map_iff in E. destruct E as (j & [= <- _] & Hj). exact Hj.
Qed.
Lemma dup_vec i : i < 24 -> last_added dup_items i = Some (pad 16 [Z.of_N (i mod 8) - 3; 2; 1]%Z).
Proof.
  intro Hi. assert (H : last_added dup_items i <> None) by (apply dup_added, in_rangeN, Hi).
  destruct (last_added dup_items i) as [v|] eqn:E; [|contradiction]. apply last_added_in in E. unfold dup_items in E.
  apply in_map_iff in E. destruct E as (j & E & _). injection E as <- <-. reflexivity.
Qed.
(** Asking for item 21 (equal to 5 and 13): with 7 results, each group is in the order of
    the ids; with 2, it is left out itself. *)
Example C102_example :
  build_call fops32 (cA 16) dup_items dup_ix 2 1 100 100 /\ build_result fops32 (cA 16) dup_ix 2 1 100 100 100 dup_built /\
  length (rootsN (ib dup_built)) = 2%nat /\
  (forall j v, last_added dup_items j = Some v -> tame fmt32 v) /\
  NoDup (rangeN 24) /\ (forall i, In i (rangeN 24) <-> last_added dup_items i <> None) /\
  last_added dup_items 5 = last_added dup_items 21 /\
  exhaustive fops32 (cA 16) dup_ix dup_built (rangeN 24) no_files dup_built (the_limit dup_built 7 24) /\
  bits_of (get_nns_by_item fops32 (cA 16) isortN isortP 400 no_files dup_built 21 7 24 (create_context fops32 dup_built)) =
    Ok ([5; 13; 21; 6; 14; 22; 4], [0; 0; 0; 1045234663; 1045234663; 1045234663; 1050520924]) /\
  bits_of (get_nns_by_item fops32 (cA 16) isortN isortP 400 no_files dup_built 21 2 24 (create_context fops32 dup_built)) = Ok ([5; 13], [0; 0]).
Proof.
  split; [apply dup_call|]. split; [apply dup_result|]. split; [vm_compute; reflexivity|]. split; [apply dup_tame|].
  split; [apply NoDup_rangeN|]. split; [apply dup_added|]. split; [now rewrite !dup_vec by lia|]. split.
  - left. split; [vm_compute; reflexivity|]. split; [now left|vm_compute; discriminate].
  - split; vm_compute; reflexivity.
Qed.

Print Assumptions C101_item_left_out_only_for_equals.
Print Assumptions C101_item_comes_first.
Print Assumptions C102_equal_vectors_by_id.
Print Assumptions C102_equal_vectors_same_answer.
Print Assumptions C102_all_equal_gives_the_first.
