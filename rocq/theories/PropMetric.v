(** The distances of an angular index as a metric (C97). *)
From Verif Require Import Base Flt Layout Rng Sorts Alloc Prog Dist Build Policy Index Search Lib Spec ForestSpec BuildSpec RealSpec MetricSpec
  LayoutProof FltProof StoreProof BuildProof ForestProof AfterProof AccProof DistProof MetricProof Concrete PropItems PropSearch PropForest PropNum.
From Coq Require Import Reals Lra.
Open Scope R_scope.

(** ** C97 *)
(** Distances lie between 0 and 2 .. *)
Theorem C97_distances_between_0_and_2 :
  forall fm, is_fmt fm -> forall c x y, knd c = Angular -> length x = length y -> tame fm x -> tame fm y ->
  0 <= shown fm (vec_distance (ops fm) c x y) <= 2 + sqrt (dist_err fm (length x)).
Proof. intros fm FM c x y. apply (shown_range fm FM c x y). Qed.
(** .. obey the triangle inequality .. *)
Theorem C97_triangle_inequality :
  forall fm, is_fmt fm -> forall c x y z, knd c = Angular -> length x = length y -> length y = length z -> tame fm x -> tame fm y -> tame fm z ->
  shown fm (vec_distance (ops fm) c x z) <=
  shown fm (vec_distance (ops fm) c x y) + shown fm (vec_distance (ops fm) c y z) + 3 * sqrt (dist_err fm (length x)).
Proof. intros fm FM c x y z. apply (shown_triangle fm FM c x y z). Qed.
(** .. and do not depend on the length of the vectors, all up to rounding. *)
Theorem C97_length_does_not_matter :
  forall fm, is_fmt fm -> forall c k x x' y, knd c = Angular -> length x = length y -> tame fm x -> tame fm x' -> tame fm y ->
  0 < k -> map (rv fm) x' = scale k (map (rv fm) x) ->
  Rabs (shown fm (vec_distance (ops fm) c x' y) - shown fm (vec_distance (ops fm) c x y)) <= 2 * sqrt (dist_err fm (length x)).
Proof. intros fm FM c k x x' y. apply (shown_scale fm FM c k x x' y). Qed.

(** The same for GetDistance on a built index. *)
Theorem C97_get_distance_is_a_metric :
  forall fm, is_fmt fm -> forall c, CfgOK (ops fm) c -> (3 * ixb c <= vlen c)%N -> knd c = Angular ->
  forall h ix T nw fuel mfuel rfuel ix', build_call (ops fm) c h ix T nw fuel mfuel ->
  build_result (ops fm) c ix T nw fuel mfuel rfuel ix' -> (forall i w, last_added h i = Some w -> tame fm w) ->
  forall fs i j k, last_added h i <> None -> last_added h j <> None -> last_added h k <> None ->
  exists dij djk dik, get_distance (ops fm) c fs ix' i j = Ok dij /\ get_distance (ops fm) c fs ix' j k = Ok djk /\
    get_distance (ops fm) c fs ix' i k = Ok dik /\
    0 <= shown fm dik <= 2 + sqrt (dist_err fm (N.to_nat (vlen c))) /\
    shown fm dik <= shown fm dij + shown fm djk + 3 * sqrt (dist_err fm (N.to_nat (vlen c))).
Proof.
  intros fm FM c OK Hv Hk h ix T nw fuel mfuel rfuel ix' B R HT fs i j k Hi Hj Hk'.
  destruct (result_after (ops fm) c OK _ _ _ _ _ _ _ _ B R) as (I & _).
  destruct (last_added h i) as [x|] eqn:Ei; [|congruence]. destruct (last_added h j) as [y|] eqn:Ej; [|congruence].
  destruct (last_added h k) as [z|] eqn:Ek; [|congruence].
  pose proof (ii_len _ _ _ _ I _ _ Ei) as Lx. pose proof (ii_len _ _ _ _ I _ _ Ej) as Ly. pose proof (ii_len _ _ _ _ I _ _ Ek) as Lz.
  unfold lenN in Lx, Ly, Lz.
  exists (vec_distance (ops fm) c x y), (vec_distance (ops fm) c y z), (vec_distance (ops fm) c x z).
  split; [eapply C74_distance_after_build; eauto; now apply fmt_is_float|]. split; [eapply C74_distance_after_build; eauto; now apply fmt_is_float|].
  split; [eapply C74_distance_after_build; eauto; now apply fmt_is_float|].
  replace (N.to_nat (vlen c)) with (length x) by lia.
  split; [apply C97_distances_between_0_and_2|apply C97_triangle_inequality]; eauto; lia.
Qed.

(** Items 9, 10 and 12 of the index of C08_example: distances 0.42.., 0.26.. and 0.40... *)
Example C97_example :
  build_call fops32 (cA 16) exq_items fx_ix 3 2 100 100 /\ build_result fops32 (cA 16) fx_ix 3 2 100 100 100 fx_multi /\
  (forall i w, last_added exq_items i = Some w -> tame fmt32 w) /\ knd (cA 16) = Angular /\
  last_added exq_items 9 = Some (pad 16 [2; 3; 4]%Z) /\ last_added exq_items 10 = Some (pad 16 [3; 3; 2]%Z) /\
  (let* a := get_distance fops32 (cA 16) no_files fx_multi 9 10 in
   let* b := get_distance fops32 (cA 16) no_files fx_multi 10 12 in
   let* d := get_distance fops32 (cA 16) no_files fx_multi 9 12 in Ok (bits [a; b; d])) = Ok [1054377487; 1049085797; 1053680693]%N.
Proof.
  split; [apply fx_call; lia|]. split; [apply fx_multi_result|]. split; [intros i w H; apply (exq_tame i w H)|]. split; [reflexivity|].
  split; [reflexivity|]. split; [reflexivity|]. vm_compute. reflexivity.
Qed.
(** The vectors (1, 2, 3) and (5, 10, 15), and (2, 3, 4): the distances differ by rounding. *)
Example C97_example_scale :
  tame fmt32 (fv [1; 2; 3]%Z) /\ tame fmt32 (fv [5; 10; 15]%Z) /\ tame fmt32 (fv [2; 3; 4]%Z) /\
  map (rv fmt32) (fv [5; 10; 15]%Z) = scale 5 (map (rv fmt32) (fv [1; 2; 3]%Z)) /\
  bits [vec_distance fops32 (cA 3) (fv [1; 2; 3]%Z) (fv [2; 3; 4]%Z); vec_distance fops32 (cA 3) (fv [5; 10; 15]%Z) (fv [2; 3; 4]%Z)] = [1039756778; 1039756843]%N.
Proof.
  split; [apply fv_tame; [cbn; lia|vm_compute; reflexivity|vm_compute; reflexivity]|].
  split; [apply fv_tame; [cbn; lia|vm_compute; reflexivity|vm_compute; reflexivity]|].
  split; [apply fv_tame; [cbn; lia|vm_compute; reflexivity|vm_compute; reflexivity]|].
  split; [rewrite !fv_real by (repeat constructor; lia); unfold scale; cbn [map]; rewrite <- !mult_IZR; reflexivity|]. vm_compute. reflexivity.
Qed.

Print Assumptions C97_distances_between_0_and_2.
Print Assumptions C97_triangle_inequality.
Print Assumptions C97_length_does_not_matter.
Print Assumptions C97_get_distance_is_a_metric.
