(** Properties of reported distances as numbers (C74 to C78). *)
From Verif Require Import Base Flt Layout Rng Sorts Alloc Prog Dist Build Policy Index Search Lib Spec ForestSpec RealSpec LayoutProof FltProof StoreProof
  BuildProof BuildSpec ForestProof AfterProof AccProof DistProof Concrete PropItems PropSearch PropForest.
From Coq Require Import Reals Lra.
Open Scope N_scope.

(** ** C74: GetDistance is the distance of the vectors that were added *)
Theorem C74_distance_after_adding :
  forall fo c, CfgOK fo c -> is_float fo -> forall r hint h, in_capacity fo c h ->
  exists ix, add_all fo c (new_index fo c r hint) h = Ok ix /\
    forall fs i j x y, last_added h i = Some x -> last_added h j = Some y ->
      get_distance fo c fs ix i j = Ok (vec_distance fo c x y).
Proof.
  intros fo c OK FL r hint h Hh. destruct (fresh_add_all fo c OK r hint h Hh) as (ix & E & I & _). exists ix. split; [exact E|].
  intros fs i j x y Hi Hj. eapply get_distance_added; eauto.
Qed.
Theorem C74_distance_after_build :
  forall fo c, CfgOK fo c -> is_float fo -> 3 * ixb c <= vlen c ->
  forall h ix T nw fuel mfuel rfuel ix', build_call fo c h ix T nw fuel mfuel ->
  build_result fo c ix T nw fuel mfuel rfuel ix' ->
  forall fs i j x y, last_added h i = Some x -> last_added h j = Some y ->
  get_distance fo c fs ix' i j = Ok (vec_distance fo c x y).
Proof.
  intros fo c OK FL Hv h ix T nw fuel mfuel rfuel ix' B R fs i j x y Hi Hj.
  destruct (result_after fo c OK _ _ _ _ _ _ _ _ B R) as (I & plan & A & _).
  pose proof (after_forest fo c OK fs ix _ plan ix' Hv I A) as FO. eapply get_distance_forest; eauto.
Qed.
Example C74_example :
  in_capacity fops32 (cA 16) exq_items /\ last_added exq_items 9 = Some (pad 16 [2; 3; 4]%Z) /\
  last_added exq_items 10 = Some (pad 16 [3; 3; 2]%Z) /\
  (let* d := get_distance fops32 (cA 16) no_files fx_multi 9 10 in Ok (bits [d])) = Ok (bits [vec_distance fops32 (cA 16) (pad 16 [2; 3; 4]%Z) (pad 16 [3; 3; 2]%Z)]).
Proof. split; [repeat constructor|]. split; [reflexivity|]. split; [reflexivity|]. vm_compute. reflexivity. Qed.

(** ** C75: how accurate a distance is *)
Theorem C75_distance_is_accurate :
  forall fm, is_fmt fm -> forall c x y, length x = length y -> tame fm x -> tame fm y ->
  close_distance fm (knd c) (vec_distance (ops fm) c x y) x y (dist_err fm (length x)).
Proof. intros fm FM c x y. apply (distance_accurate fm FM c x y). Qed.
Lemma fmt_is_float fm : is_fmt fm -> is_float (ops fm).
Proof. intros [->| ->]; [now left|now right]. Qed.
Theorem C75_get_distance_is_accurate :
  forall fm, is_fmt fm -> forall c, CfgOK (ops fm) c -> 3 * ixb c <= vlen c ->
  forall h ix T nw fuel mfuel rfuel ix', build_call (ops fm) c h ix T nw fuel mfuel ->
  build_result (ops fm) c ix T nw fuel mfuel rfuel ix' ->
  forall fs i j x y, last_added h i = Some x -> last_added h j = Some y -> tame fm x -> tame fm y ->
  exists d, get_distance (ops fm) c fs ix' i j = Ok d /\ close_distance fm (knd c) d x y (dist_err fm (N.to_nat (vlen c))).
Proof.
  intros fm FM c OK Hv h ix T nw fuel mfuel rfuel ix' B R fs i j x y Hi Hj Tx Ty.
  destruct (result_after (ops fm) c OK _ _ _ _ _ _ _ _ B R) as (I & _).
  pose proof (ii_len _ _ _ _ I _ _ Hi) as Lx. pose proof (ii_len _ _ _ _ I _ _ Hj) as Ly.
  eexists. split; [eapply C74_distance_after_build; eauto; now apply fmt_is_float|].
  replace (N.to_nat (vlen c)) with (length x) by (unfold lenN in Lx; lia). apply distance_accurate; auto. unfold lenN in *. lia.
Qed.
Lemma last_added_in {A} (h : list (N * A)) j v : last_added h j = Some v -> In (j, v) h.
Proof.
  induction h as [|[k w] h IH]; cbn; [discriminate|]. destruct (last_added h j) as [w'|].
  - intros [= ->]. right. now apply IH.
  - destruct (N.eqb_spec k j) as [->|]; [intros [= ->]; now left|discriminate].
Qed.
Lemma exq_tame j v : last_added exq_items j = Some v -> length v = 16%nat /\ tame fmt32 v.
Proof.
  intro H. pose proof (last_added_in _ _ _ H) as Hin.
  unfold exq_items in Hin. apply in_map_iff in Hin. destruct Hin as (i & [= _ <-] & Hi). apply in_rangeN in Hi.
  split; [reflexivity|]. apply fv_tame; cbn -[Z.mul Z.abs Z.leb Z.of_N N.modulo N.mul]; [lia| |].
  - assert (i * i mod 7 < 7) by (apply N.mod_lt; lia). lia.
  - apply Z.leb_le. pose proof (Z.square_nonneg (Z.of_N i - 7)). pose proof (Z.square_nonneg (Z.of_N (i * i mod 7))). lia.
Qed.
Example C75_example : tame fmt32 (pad 16 [2; 3; 4]%Z) /\ tame fmt32 (pad 16 [3; 3; 2]%Z) /\ forall j v, last_added exq_items j = Some v -> tame fmt32 v.
Proof.
  split; [apply fv_tame; [cbn; lia|vm_compute; reflexivity|vm_compute; reflexivity]|]. split; [apply fv_tame; [cbn; lia|vm_compute; reflexivity|vm_compute; reflexivity]|]. intros j v H. now apply (exq_tame j v).
Qed.
(** What this bound means for float32 vectors of 100 components: about 0.000064. *)
Example C75_size : (dist_err fmt32 100 <= 0.0000642)%R.
Proof.
  unfold dist_err, unit_of. cbn [fprec fmt32]. change (Z.to_nat 24) with 24%nat. cbn [pow].
  rewrite INR_IZR_INZ. change (Z.of_nat 100) with 100%Z. lra.
Qed.

(** ** C76: an exhaustive query ranks by the true angles, up to rounding *)
Theorem C76_exhaustive_ranks_by_true_distance :
  forall fm, is_fmt fm -> forall c, CfgOK (ops fm) c -> 3 * ixb c <= vlen c ->
  forall sortIx sortPairs, sort_slice N.ltb sortIx -> sort_slice (pair_less (flt (ops fm)) (feq (ops fm))) sortPairs ->
  forall h ix T nw fuel mfuel rfuel ix', build_call (ops fm) c h ix T nw fuel mfuel ->
  build_result (ops fm) c ix T nw fuel mfuel rfuel ix' -> rootsN (ib ix') <> [] ->
  forall qfuel fs q n inspect bc ids ds bc', lenN q = vlen c -> lenN (c_nns bc) < 2 ^ iw c ->
  (Z.of_N (lenN (rootsN (ib ix')) * n_items ix) <= the_limit ix' n inspect)%Z ->
  get_nns_by_vector (ops fm) c sortIx sortPairs qfuel fs ix' q n inspect bc = Ok (ids, ds, bc') ->
  tame fm q -> (forall j v, last_added h j = Some v -> tame fm v) ->
  let gap v := true_gap (map (rv fm) q) (map (rv fm) v) in
  let e := dist_err fm (N.to_nat (vlen c)) in
  (* in the answer, a later item is not nearer than an earlier one *)
  (forall a b i j v w, (a < b)%nat -> nth_error ids a = Some i -> nth_error ids b = Some j ->
     last_added h i = Some v -> last_added h j = Some w -> gap v <= gap w + 2 * e)%R /\
  (* an item that is not in the answer is not nearer than one that is *)
  (forall i j v w, In i ids -> ~ In j ids -> last_added h i = Some v -> last_added h j = Some w -> gap v <= gap w + 2 * e)%R /\
  (* the distances given are right *)
  (forall a i v, nth_error ids a = Some i -> last_added h i = Some v ->
     exists d, nth_error ds a = Some d /\ close_distance fm (knd c) d q v e).
Proof.
  intros fm FM c OK Hv sortIx sortPairs HI HP h ix T nw fuel mfuel rfuel ix' B R Hne qfuel fs q n inspect bc ids ds bc' Hq Hc Hl Hr Tq Tf.
  destruct (result_after (ops fm) c OK _ _ _ _ _ _ _ _ B R) as (I & _).
  assert (Lq : length q = N.to_nat (vlen c)) by (unfold lenN in Hq; lia).
  assert (Tf' : forall j v, last_added h j = Some v -> length v = length q /\ tame fm v).
  { intros j v Hj. pose proof (ii_len _ _ _ _ I _ _ Hj) as L. split; [unfold lenN in *; lia|eauto]. }
  assert (X : exact_nearest (ops fm) c (last_added h) q (Z.to_nat n) ids ds).
  { eapply C27_built_index_exact; eauto; [now apply fmt_is_float|]. eapply tame_all_num; eauto. }
  destruct (exact_ranked fm FM c (last_added h) q Tq Tf' _ _ _ X) as (X1 & X2 & X3). rewrite Lq in *.
  assert (He : ((10 * INR (N.to_nat (vlen c)) + 44) * unit_of fm <= dist_err fm (N.to_nat (vlen c)))%R).
  { unfold dist_err. apply Rmult_le_compat_r; [pose proof (fmt_unit fm FM); lra|lra]. }
  cbv zeta. split; [|split].
  - intros a b i j v w Hab Ha Hb Hv' Hw. specialize (X1 a b i j v w Hab Ha Hb Hv' Hw). lra.
  - intros i j v w Hi Hj Hv' Hw. specialize (X2 i j v w Hi Hj Hv' Hw). lra.
  - exact X3.
Qed.
Example C76_example :
  build_call fops32 (cA 16) exq_items fx_ix 3 2 100 100 /\ build_result fops32 (cA 16) fx_ix 3 2 100 100 100 fx_multi /\
  tame fmt32 exq_vec /\ (forall j v, last_added exq_items j = Some v -> tame fmt32 v) /\
  (Z.of_N (lenN (rootsN (ib fx_multi)) * n_items fx_ix) <= the_limit fx_multi 5 60)%Z.
Proof.
  split; [apply fx_call; lia|]. split; [apply fx_multi_result|]. split; [apply fv_tame; [cbn; lia|vm_compute; reflexivity|vm_compute; reflexivity]|].
  split; [intros j v H; now apply (exq_tame j v)|]. vm_compute. discriminate.
Qed.

(** ** C77: the distance of an item to itself is zero *)
Theorem C77_self_distance_is_zero :
  forall fm, is_fmt fm -> forall c x, tame fm x ->
  vec_distance (ops fm) c x x = match knd c with Angular => f0 (ops fm) | DotProduct => fneg (ops fm) (f0 (ops fm)) end.
Proof. intros fm FM c x. apply (self_zero fm FM c x). Qed.
Theorem C77_get_self_distance_is_zero :
  forall fm, is_fmt fm -> forall c, CfgOK (ops fm) c -> knd c = Angular -> forall r hint h, in_capacity (ops fm) c h ->
  exists ix, add_all (ops fm) c (new_index (ops fm) c r hint) h = Ok ix /\
    forall fs i x, last_added h i = Some x -> tame fm x -> get_distance (ops fm) c fs ix i i = Ok (f0 (ops fm)).
Proof.
  intros fm FM c OK Hk r hint h Hh. destruct (C74_distance_after_adding (ops fm) c OK (fmt_is_float fm FM) r hint h Hh) as (ix & E & D).
  exists ix. split; [exact E|]. intros fs i x Hi Tx. rewrite (D fs i i x x Hi Hi), (self_zero fm FM c x Tx), Hk. reflexivity.
Qed.
Example C77_example : tame fmt32 (pad 16 [2; 3; 4]%Z) /\ knd (cA 16) = Angular.
Proof. split; [apply fv_tame; [cbn; lia|vm_compute; reflexivity|vm_compute; reflexivity]|reflexivity]. Qed.

(** ** C78: distances of ordinary vectors that are not numbers *)
Definition third (a : Z) : F fops32 := fdiv fops32 (s_of_Z a) (s_of_Z 3).
(** (2/3, 1) and (2, 3) as float32 vectors. *)
Definition np_items : list (N * list (F fops32)) := [(0, fv [2; 3]%Z); (1, [third 2; third 3])].
(** Refuted: the angular distance of two ordinary vectors is a number.  Theirs is NaN. *)
Theorem C78_distance_is_a_number_refuted :
  exists ix, built (cA 2) np_items 1 = Ok ix /\
    match get_distance fops32 (cA 2) no_files ix 0 1 with Ok d => feq fops32 d d = false | Er _ => False end.
Proof. apply ok_intro. vm_compute. reflexivity. Qed.
(** A query for the vector of item 0 puts item 1 before it and reports NaN for item 1. *)
Theorem C78_identical_item_first_refuted :
  exists ix, built (cA 2) np_items 1 = Ok ix /\
    match get_nns_by_vector fops32 (cA 2) isortN isortP 1000 no_files ix (fv [2; 3]%Z) 2 10 (create_context fops32 ix) with
    | Ok (ids, ds, _) => ids = [1; 0] /\ map (fun d => feq fops32 d d) ds = [false; true]
    | Er _ => False
    end.
Proof. apply ok_intro. vm_compute. repeat split. Qed.
(** NaN is reported only for vectors of nearly the same direction: 2 - 2*cos of their
    angle is within the rounding error of zero. *)
Theorem C78_nan_only_when_nearly_parallel :
  forall fm, is_fmt fm -> forall c x y, length x = length y -> tame fm x -> tame fm y ->
  ~ not_nan (ops fm) (vec_distance (ops fm) c x y) ->
  (0 <= true_gap (map (rv fm) x) (map (rv fm) y) <= dist_err fm (length x))%R.
Proof.
  intros fm FM c x y Hl Tx Ty Hn. pose proof (distance_accurate fm FM c x y Hl Tx Ty) as H. unfold close_distance in H.
  split; [apply gap_range; auto|]. destruct (knd c).
  - destruct H as [[F _]|[_ H]]; [|exact H]. exfalso. apply Hn. now apply fin_not_nan.
  - destruct H as [F _]. exfalso. apply Hn. now apply fin_not_nan.
Qed.
(** The two vectors above meet these hypotheses. *)
Example C78_example : tame fmt32 (fv [2; 3]%Z) /\ tame fmt32 [third 2; third 3] /\
  feq fops32 (vec_distance fops32 (cA 2) (fv [2; 3]%Z) [third 2; third 3]) (vec_distance fops32 (cA 2) (fv [2; 3]%Z) [third 2; third 3]) = false.
Proof.
  split; [apply fv_tame; [cbn; lia|vm_compute; reflexivity|vm_compute; reflexivity]|]. split; [|vm_compute; reflexivity].
  destruct (int_real 3 ltac:(lia)) as [F3 E3]. destruct (int_real 2 ltac:(lia)) as [F2 E2].
  pose proof (fmt_laws fmt32 (or_introl eq_refl)) as L. pose proof (fmt_err fmt32 (2 / 3) (or_introl eq_refl)) as Er.
  destruct (l_div fmt32 L (s_of_Z 2) (s_of_Z 3) F2) as [D2 G2]; [rewrite E3; lra|rewrite E2, E3, Rabs_pos_eq, p126; lra|].
  destruct (l_div fmt32 L (s_of_Z 3) (s_of_Z 3) F3) as [D3 G3]; [rewrite E3; lra|rewrite E3, Rabs_pos_eq, p126; lra|].
  rewrite E2, E3 in G2. rewrite E3 in G3. replace (3 / 3)%R with 1%R in G3 by field.
  pose proof (fmt_err fmt32 1 (or_introl eq_refl)) as Er1. rewrite <- G2 in Er. rewrite <- G3 in Er1.
  pose proof (fmt_unit fmt32 (or_introl eq_refl)) as HU. pose proof (fmt_tiny fmt32 (or_introl eq_refl)) as HT.
  change (p2 (-150)) with (/ 1427247692705959881058285969449495136382746624)%R in HT.
  rewrite (Rabs_pos_eq (2 / 3)) in Er by lra. rewrite (Rabs_pos_eq 1) in Er1 by lra. apply Rabs_bounds in Er. apply Rabs_bounds in Er1.
  change (fdiv (ops fmt32) (s_of_Z 2) (s_of_Z 3)) with (third 2) in *. change (fdiv (ops fmt32) (s_of_Z 3) (s_of_Z 3)) with (third 3) in *.
  unfold tame. cbn [length map]. set (a := rv fmt32 (third 2)) in *. set (b := rv fmt32 (third 3)) in *.
  split; [cbn [INR pow]; lra|]. split.
  - constructor; [|constructor; [|constructor]]; (split; [assumption|]); [fold a|fold b]; rewrite Rabs_pos_eq; cbn [pow]; lra.
  - unfold rlen. cbn [rdot]. apply Rle_trans with (sqrt (/ 4)).
    + replace (/ 4)%R with (/ 2 * / 2)%R by field. rewrite sqrt_square; cbn [pow]; lra.
    + apply sqrt_le_1; nra.
Qed.

Print Assumptions C74_distance_after_adding.
Print Assumptions C74_distance_after_build.
Print Assumptions C75_distance_is_accurate.
Print Assumptions C75_get_distance_is_accurate.
Print Assumptions C76_exhaustive_ranks_by_true_distance.
Print Assumptions C77_self_distance_is_zero.
Print Assumptions C77_get_self_distance_is_zero.
Print Assumptions C78_distance_is_a_number_refuted.
Print Assumptions C78_identical_item_first_refuted.
Print Assumptions C78_nan_only_when_nearly_parallel.
