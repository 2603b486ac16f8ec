(** Multiplying vectors by powers of two changes no distance and no exhaustive answer (C109). *)
From Verif Require Import Base Flt Layout Rng Sorts Alloc Prog Imbalance Dist Build Policy Index Search Spec ForestSpec BuildSpec RealSpec OrderSpec ScaleSpec
  Lib LayoutProof FltProof MemProof StoreProof SearchProof QueryProof TreeProof PolicyProof BuildProof ForestProof
  NumProof AccProof AfterProof CutProof SmallProof PlaneProof TopProof IOProof SameProof DistProof WholeProof RoomProof OwnProof ReloadProof LoadedProof SelfProof ScaleProof
  Concrete PropSearch PropForest PropIO PropMore PropNum PropPlane PropWhole PropReload PropRoom PropLoaded PropSelf.
From Coq Require Import Reals Lra Lia.
From Flocq Require Import Core IEEE754.Binary.
Close Scope R_scope.
Open Scope N_scope.

(** The two histories add the same items, the vector of each in the second being a power
    of two (any, also a different one for every item) times its vector in the first. *)
Definition same_directions (fm : Fmt) (h1 h2 : list (N * list (F (ops fm)))) : Prop :=
  forall j, (last_added h1 j = None /\ last_added h2 j = None) \/
    exists x y k, last_added h1 j = Some x /\ last_added h2 j = Some y /\ plain fm x /\ plain fm y /\ times_pow fm k x y.

Lemma times_one fm x : times_pow fm 0 x x.
Proof. unfold times_pow. induction x as [|a r IH]; constructor; [cbn [bpow]; ring|exact IH]. Qed.
Lemma same_refl fm h : (forall j v, last_added h j = Some v -> plain fm v) -> same_directions fm h h.
Proof.
  intros H j. destruct (last_added h j) as [v|] eqn:E; [|now left]. right. exists v, v, 0%Z. repeat split; eauto using times_one.
  all: now apply (H j).
Qed.
Lemma gaps_transfer fm f1 f2 q1 q2 sc : (forall j, match f1 j, f2 j with
    | None, None => True | Some x, Some y => cos_gap (ops fm) q2 y = cos_gap (ops fm) q1 x | _, _ => False end) ->
  all_gaps (ops fm) f1 q1 sc -> all_gaps (ops fm) f2 q2 sc.
Proof.
  intros H [N1 G1]. split; [exact N1|]. intros d j. rewrite G1. specialize (H j). split.
  - intros (v & Hv & ->). rewrite Hv in H. destruct (f2 j) as [y|]; [|contradiction]. exists y. auto.
  - intros (v & Hv & ->). rewrite Hv in H. destruct (f1 j) as [y|]; [|contradiction]. exists y. auto.
Qed.

(** ** C109 *)
(** GetDistance: from either index, for any two items. *)
Theorem C109_distances_ignore_powers_of_two :
  forall fm c, is_fmt fm -> CfgOK (ops fm) c -> 3 * ixb c <= vlen c ->
  forall h1 ix1 T1 nw1 fuel1 mfuel1 rfuel1 ix1', build_call (ops fm) c h1 ix1 T1 nw1 fuel1 mfuel1 ->
  build_result (ops fm) c ix1 T1 nw1 fuel1 mfuel1 rfuel1 ix1' ->
  forall h2 ix2 T2 nw2 fuel2 mfuel2 rfuel2 ix2', build_call (ops fm) c h2 ix2 T2 nw2 fuel2 mfuel2 ->
  build_result (ops fm) c ix2 T2 nw2 fuel2 mfuel2 rfuel2 ix2' ->
  same_directions fm h1 h2 ->
  forall fs1 fs2 i j, last_added h1 i <> None -> last_added h1 j <> None ->
  exists d, get_distance (ops fm) c fs1 ix1' i j = Ok d /\ get_distance (ops fm) c fs2 ix2' i j = Ok d.
Proof.
  intros fm c FM OK Hv h1 ix1 T1 nw1 fuel1 mfuel1 rfuel1 ix1' B1 R1 h2 ix2 T2 nw2 fuel2 mfuel2 rfuel2 ix2' B2 R2 SD fs1 fs2 i j Hi Hj.
  pose proof (fmt_is_float fm FM) as FL.
  destruct (SD i) as [[X _]|(x & x' & k & X1 & X2 & X3 & X4 & X5)]; [congruence|].
  destruct (SD j) as [[Y _]|(y & y' & l & Y1 & Y2 & Y3 & Y4 & Y5)]; [congruence|].
  exists (vec_distance (ops fm) c x y). split; [exact (C74_distance_after_build (ops fm) c OK FL Hv h1 ix1 T1 nw1 fuel1 mfuel1 rfuel1 ix1' B1 R1 fs1 i j x y X1 Y1)|].
  rewrite (C74_distance_after_build (ops fm) c OK FL Hv h2 ix2 T2 nw2 fuel2 mfuel2 rfuel2 ix2' B2 R2 fs2 i j x' y' X2 Y2).
  f_equal. unfold vec_distance. f_equal. apply (gap_scaled fm FM k l); auto.
  destruct (result_after (ops fm) c OK _ _ _ _ _ _ _ _ B1 R1) as (I & _).
  pose proof (ii_len _ _ _ _ I _ _ X1) as L1. pose proof (ii_len _ _ _ _ I _ _ Y1) as L2. unfold lenN in *. lia.
Qed.
(** Exhaustive queries: also between indexes built separately, saved or loaded, with other
    trees and other workers. *)
Theorem C109_answers_ignore_powers_of_two :
  forall fm c, is_fmt fm -> CfgOK (ops fm) c -> 3 * ixb c <= vlen c -> vlen c <= 2 ^ 20 ->
  forall sortIx sortPairs, sort_slice N.ltb sortIx -> sort_slice (pair_less (flt (ops fm)) (feq (ops fm))) sortPairs ->
  forall h1 ix1 T1 nw1 fuel1 mfuel1 rfuel1 ix1', build_call (ops fm) c h1 ix1 T1 nw1 fuel1 mfuel1 ->
  build_result (ops fm) c ix1 T1 nw1 fuel1 mfuel1 rfuel1 ix1' -> rootsN (ib ix1') <> [] ->
  forall h2 ix2 T2 nw2 fuel2 mfuel2 rfuel2 ix2', build_call (ops fm) c h2 ix2 T2 nw2 fuel2 mfuel2 ->
  build_result (ops fm) c ix2 T2 nw2 fuel2 mfuel2 rfuel2 ix2' -> rootsN (ib ix2') <> [] ->
  same_directions fm h1 h2 -> forall added, NoDup added -> (forall i, In i added <-> last_added h1 i <> None) ->
  forall q1 q2 k, plain fm q1 -> plain fm q2 -> times_pow fm k q1 q2 -> lenN q1 = vlen c ->
  forall n fs1 ixq1 qfuel1 inspect1 bc1 ids1 ds1 bc1', lenN (c_nns bc1) < 2 ^ iw c ->
  get_nns_by_vector (ops fm) c sortIx sortPairs qfuel1 fs1 ixq1 q1 n inspect1 bc1 = Ok (ids1, ds1, bc1') ->
  exhaustive (ops fm) c ix1 ix1' added fs1 ixq1 (the_limit ixq1 n inspect1) ->
  forall fs2 ixq2 qfuel2 inspect2 bc2 ids2 ds2 bc2', lenN (c_nns bc2) < 2 ^ iw c ->
  get_nns_by_vector (ops fm) c sortIx sortPairs qfuel2 fs2 ixq2 q2 n inspect2 bc2 = Ok (ids2, ds2, bc2') ->
  exhaustive (ops fm) c ix2 ix2' added fs2 ixq2 (the_limit ixq2 n inspect2) ->
  ids2 = ids1 /\ ds2 = ds1.
Proof.
  intros fm c FM OK Hv Hlen sortIx sortPairs HI HP h1 ix1 T1 nw1 fuel1 mfuel1 rfuel1 ix1' B1 R1 Hne1 h2 ix2 T2 nw2 fuel2 mfuel2 rfuel2 ix2' B2 R2 Hne2
    SD added ND Had q1 q2 k Q1 Q2 Q3 Q4 n fs1 ixq1 qfuel1 inspect1 bc1 ids1 ds1 bc1' Hc1 E1 X1 fs2 ixq2 qfuel2 inspect2 bc2 ids2 ds2 bc2' Hc2 E2 X2.
  assert (T1' : forall i w, last_added h1 i = Some w -> tame fm w).
  { intros i w H. destruct (SD i) as [[X _]|(x & y & l & A1 & A2 & A3 & _)]; [congruence|]. replace w with x by congruence. apply A3. }
  assert (T2' : forall i w, last_added h2 i = Some w -> tame fm w).
  { intros i w H. destruct (SD i) as [[_ X]|(x & y & l & A1 & A2 & A3 & A4 & _)]; [congruence|]. replace w with y by congruence. apply A4. }
  assert (Had2 : forall i, In i added <-> last_added h2 i <> None).
  { intro i. rewrite Had. destruct (SD i) as [[X Y]|(x & y & l & A1 & A2 & _)]; [now rewrite X, Y|]. rewrite A1, A2. split; discriminate. }
  assert (Q4' : lenN q2 = vlen c) by (rewrite <- Q4; unfold lenN; f_equal; now apply (times_length fm k)).
  pose proof (exhaustive_exact fm c FM OK Hv Hlen sortIx sortPairs HI HP h1 ix1 ix1' T1 nw1 fuel1 mfuel1 rfuel1 B1 R1 Hne1 T1' added ND Had
    fs1 ixq1 qfuel1 q1 n inspect1 bc1 ids1 ds1 bc1' X1 (proj1 Q1) Q4 Hc1 E1) as N1.
  pose proof (exhaustive_exact fm c FM OK Hv Hlen sortIx sortPairs HI HP h2 ix2 ix2' T2 nw2 fuel2 mfuel2 rfuel2 B2 R2 Hne2 T2' added ND Had2
    fs2 ixq2 qfuel2 q2 n inspect2 bc2 ids2 ds2 bc2' X2 (proj1 Q2) Q4' Hc2 E2) as N2.
  destruct (result_after (ops fm) c OK _ _ _ _ _ _ _ _ B1 R1) as (I1 & _).
  assert (N1' : exact_nearest (ops fm) c (last_added h2) q2 (Z.to_nat n) ids1 ds1).
  { destruct N1 as (sc & raw & GS & rest). exists sc, raw. split; [|exact rest]. revert GS. apply gaps_transfer. intro j.
    destruct (SD j) as [[-> ->]|(x & y & l & A1 & A2 & A3 & A4 & A5)]; [exact I|]. rewrite A1, A2.
    apply (gap_scaled fm FM k l); auto. pose proof (ii_len _ _ _ _ I1 _ _ A1) as LX. unfold lenN in *. lia. }
  eapply (exact_nearest_unique (ops fm) c (last_added h2) q2 (Z.to_nat n)); [now apply fmt_is_float| |exact N2|exact N1'].
  eapply num_of; eauto; apply Q2.
Qed.
(** In particular the length of the query does not matter. *)
Theorem C109_query_length_does_not_matter :
  forall fm c, is_fmt fm -> CfgOK (ops fm) c -> 3 * ixb c <= vlen c -> vlen c <= 2 ^ 20 ->
  forall sortIx sortPairs, sort_slice N.ltb sortIx -> sort_slice (pair_less (flt (ops fm)) (feq (ops fm))) sortPairs ->
  forall h ix T nw fuel mfuel rfuel ix', build_call (ops fm) c h ix T nw fuel mfuel ->
  build_result (ops fm) c ix T nw fuel mfuel rfuel ix' -> rootsN (ib ix') <> [] ->
  (forall j v, last_added h j = Some v -> plain fm v) ->
  forall added, NoDup added -> (forall i, In i added <-> last_added h i <> None) ->
  forall q1 q2 k, plain fm q1 -> plain fm q2 -> times_pow fm k q1 q2 -> lenN q1 = vlen c ->
  forall n inspect fsq ixq qfuel bc1 bc2 ids1 ds1 bc1' ids2 ds2 bc2', lenN (c_nns bc1) < 2 ^ iw c -> lenN (c_nns bc2) < 2 ^ iw c ->
  exhaustive (ops fm) c ix ix' added fsq ixq (the_limit ixq n inspect) ->
  get_nns_by_vector (ops fm) c sortIx sortPairs qfuel fsq ixq q1 n inspect bc1 = Ok (ids1, ds1, bc1') ->
  get_nns_by_vector (ops fm) c sortIx sortPairs qfuel fsq ixq q2 n inspect bc2 = Ok (ids2, ds2, bc2') ->
  ids2 = ids1 /\ ds2 = ds1.
Proof.
  intros fm c FM OK Hv Hlen sortIx sortPairs HI HP h ix T nw fuel mfuel rfuel ix' B R Hne HPl added ND Had q1 q2 k Q1 Q2 Q3 Q4 n inspect fsq ixq qfuel
    bc1 bc2 ids1 ds1 bc1' ids2 ds2 bc2' Hc1 Hc2 HX E1 E2.
  exact (C109_answers_ignore_powers_of_two fm c FM OK Hv Hlen sortIx sortPairs HI HP h ix T nw fuel mfuel rfuel ix' B R Hne
    h ix T nw fuel mfuel rfuel ix' B R Hne (same_refl fm h HPl) added ND Had q1 q2 k Q1 Q2 Q3 Q4
    n fsq ixq qfuel inspect bc1 ids1 ds1 bc1' Hc1 E1 HX fsq ixq qfuel inspect bc2 ids2 ds2 bc2' Hc2 E2 HX).
Qed.

(** ** Example: the 20 items of [exq_items], each multiplied by 2, 4 or 8, built into one tree
    instead of three; and a query multiplied by 16. *)
Definition sc_ints (i : N) : list Z := ([Z.of_N i - 7; 3; Z.of_N (i * i mod 7)] ++ repeat 0 13)%Z.
Definition sc_exp (i : N) : Z := (Z.of_N (i mod 3) + 1)%Z.
Definition sc_items : list (N * list (F fops32)) := map (fun i => (i, fv (map (Z.mul (2 ^ sc_exp i)) (sc_ints i)))) (rangeN 20).
Definition sc_ix : idx := Eval vm_compute in or_else (ix0 (cA 16)) (add_all fops32 (cA 16) (ix0 (cA 16)) sc_items).
Definition sc_built : idx := Eval vm_compute in or_else sc_ix (build_single fops32 (cA 16) 100 100 100 sc_ix 1).
Lemma sc_call : build_call fops32 (cA 16) sc_items sc_ix 1 1 100 100.
Proof.
  assert (Hn : n_items sc_ix = 20) by (vm_compute; reflexivity). constructor; rewrite ?Hn.
  - vm_compute. discriminate.
  - unfold hist_ok. apply Forall_forall. intros [i v] H. unfold sc_items in H. apply in_map_iff in H. destruct H as (j & H & Hj).
    injection H as <- <-. apply in_rangeN in Hj. cbn [fst snd]. split.
    + eapply cap_ok_mono with (n := 20); [lia|]. vm_compute. reflexivity.
    + reflexivity.
  - exists (kiss_new 0), 0. vm_compute. reflexivity.
  - lia.
  - lia.
  - lia.
  - eapply cap_ok_mono with (n := 1000); [vm_compute; discriminate|vm_compute; reflexivity].
  - unfold enough_fuel. lia.
Qed.
Lemma fv_plain l : (length l <= 1000)%nat -> forallb (fun z => (Z.abs z <=? 1048576)%Z) l = true -> (1 <=? fold_right (fun z s => z * z + s)%Z 0%Z l)%Z = true ->
  plain fmt32 (fv l).
Proof.
  intros H1 H2 H3. split; [now apply fv_tame|]. unfold fv. apply Forall_map. apply Forall_forall. intros z Hz. rewrite forallb_forall in H2.
  specialize (H2 z Hz). destruct (int_real z ltac:(lia)) as [_ E]. rewrite E. destruct (Z.eq_dec z 0) as [->|N0]; [now left|right].
  rewrite <- abs_IZR. apply Rle_trans with 1%R; [cbn [pow]; lra|]. apply IZR_le. lia.
Qed.
Lemma fv_times k l : (0 <= k)%Z -> forallb (fun z => (Z.abs z <=? 1048576)%Z) l = true -> forallb (fun z => (Z.abs z <=? 1048576)%Z) (map (Z.mul (2 ^ k)) l) = true ->
  times_pow fmt32 k (fv l) (fv (map (Z.mul (2 ^ k)) l)).
Proof.
  intros Hk. unfold times_pow. induction l as [|z l IH]; intros H1 H2; [constructor|]. cbn [map forallb fv] in *.
  apply andb_true_iff in H1. apply andb_true_iff in H2. constructor; [|apply IH; tauto].
  destruct (int_real z ltac:(lia)) as [_ E1]. destruct (int_real (2 ^ k * z)%Z ltac:(lia)) as [_ E2].
  etransitivity; [exact E2|]. etransitivity; [apply mult_IZR|]. symmetry. f_equal; [|exact E1].
  symmetry. apply (IZR_Zpower radix2 k Hk).
Qed.
Lemma twenty {A} (g : N -> A) j : last_added (map (fun i => (i, g i)) (rangeN 20)) j = if j <? 20 then Some (g j) else None.
Proof.
  destruct (j <? 20) eqn:E.
  - assert (H : In j (rangeN 20)) by (apply in_rangeN; lia). cbn in H. repeat (destruct H as [<-|H]; [reflexivity|]). contradiction.
  - destruct (last_added _ j) as [v|] eqn:X; [|reflexivity]. apply last_added_in in X. apply in_map_iff in X. destruct X as (i & [= -> _] & Hi).
    apply in_rangeN in Hi. lia.
Qed.
Lemma sc_same : same_directions fmt32 exq_items sc_items.
Proof.
  assert (X : forallb (fun i => forallb (fun z => (Z.abs z <=? 1048576)%Z) (sc_ints i) && forallb (fun z => (Z.abs z <=? 1048576)%Z) (map (Z.mul (2 ^ sc_exp i)) (sc_ints i)) &&
    (1 <=? fold_right (fun z s => z * z + s)%Z 0%Z (sc_ints i))%Z && (1 <=? fold_right (fun z s => z * z + s)%Z 0%Z (map (Z.mul (2 ^ sc_exp i)) (sc_ints i)))%Z)
    (rangeN 20) = true) by (vm_compute; reflexivity).
  rewrite forallb_forall in X. intro j.
  change exq_items with (map (fun i => (i, fv (sc_ints i))) (rangeN 20)). unfold sc_items.
  rewrite (twenty (fun i => fv (sc_ints i))), (twenty (fun i => fv (map (Z.mul (2 ^ sc_exp i)) (sc_ints i)))).
  destruct (j <? 20) eqn:E; [right|now left].
  assert (Hj : In j (rangeN 20)) by (apply in_rangeN; lia). specialize (X j Hj). rewrite !andb_true_iff in X. destruct X as (((X1 & X2) & X3) & X4).
  eexists _, _, (sc_exp j). split; [reflexivity|]. split; [reflexivity|].
  split; [apply fv_plain; [cbn; lia|exact X1|exact X3]|]. split; [apply fv_plain; [rewrite map_length; cbn; lia|exact X2|exact X4]|].
  apply fv_times; [unfold sc_exp; lia|exact X1|exact X2].
Qed.
Definition sc_query : list (F fops32) := pad 16 [16; 32; 48]%Z.
Example C109_example :
  build_call fops32 (cA 16) exq_items fx_ix 3 1 100 100 /\ build_result fops32 (cA 16) fx_ix 3 1 100 100 100 fx_single /\
  build_call fops32 (cA 16) sc_items sc_ix 1 1 100 100 /\ build_result fops32 (cA 16) sc_ix 1 1 100 100 100 sc_built /\
  same_directions fmt32 exq_items sc_items /\ plain fmt32 exq_vec /\ plain fmt32 sc_query /\ times_pow fmt32 4 exq_vec sc_query /\
  exhaustive fops32 (cA 16) fx_ix fx_single (rangeN 20) no_files fx_single (the_limit fx_single 3 20) /\
  exhaustive fops32 (cA 16) sc_ix sc_built (rangeN 20) no_files sc_built (the_limit sc_built 3 20) /\
  bits_of (query (cA 16) 400 no_files fx_single exq_vec 3 20 (create_context fops32 fx_single)) = Ok ([9; 12; 10], [1039756778; 1057153137; 1057620014]) /\
  bits_of (query (cA 16) 400 no_files sc_built sc_query 3 20 (create_context fops32 sc_built)) = Ok ([9; 12; 10], [1039756778; 1057153137; 1057620014]).
Proof.
  split; [apply fx_call; lia|]. split; [apply fx_single_result|]. split; [apply sc_call|].
  split; [left; split; [reflexivity|vm_compute; reflexivity]|]. split; [apply sc_same|].
  split; [apply fv_plain; [cbn; lia|vm_compute; reflexivity|vm_compute; reflexivity]|].
  split; [apply fv_plain; [cbn; lia|vm_compute; reflexivity|vm_compute; reflexivity]|].
  split; [apply (fv_times 4 ([1; 2; 3] ++ repeat 0 13)%Z); [lia|vm_compute; reflexivity|vm_compute; reflexivity]|].
  split; [left; split; [vm_compute; reflexivity|]; split; [now left|vm_compute; discriminate]|].
  split; [left; split; [vm_compute; reflexivity|]; split; [now left|vm_compute; discriminate]|].
  split; vm_compute; reflexivity.
Qed.
Print Assumptions C109_distances_ignore_powers_of_two.
Print Assumptions C109_answers_ignore_powers_of_two.
Print Assumptions C109_query_length_does_not_matter.
