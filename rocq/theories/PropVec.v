(** The extra component of the dot product distance (C79), the functions of package
    vector (C80), and utils.Round (C81). *)
From Verif Require Import Base Flt Layout Rng Sorts Alloc Prog Dist Build Policy Index Search Vec Lib Spec ForestSpec RealSpec LayoutProof FltProof MemProof StoreProof
  BuildProof BuildSpec ForestProof AfterProof AccProof DistProof PreProof VecProof Concrete PropForest PropNum.
From Coq Require Import Reals Lra.
From Flocq Require Import Core.Raux IEEE754.BinarySingleNaN IEEE754.Binary IEEE754.Bits.
Open Scope N_scope.

(** ** C79: Build makes the vectors of a dot product index equally long *)
(** [m] is the length of the longest vector added.  The node of every added item holds an
    extra component; the vector extended by it has length [m], up to rounding. *)
Theorem C79_extended_vectors_equally_long :
  forall fm, is_fmt fm -> forall c, CfgOK (ops fm) c -> knd c = DotProduct -> vlen c <= 1048576 ->
  forall h ix T nw fuel mfuel rfuel ix', build_call (ops fm) c h ix T nw fuel mfuel ->
  build_result (ops fm) c ix T nw fuel mfuel rfuel ix' ->
  (forall j w, last_added h j = Some w -> tame fm w) ->
  forall m, (forall j w, last_added h j = Some w -> (rlen (map (rv fm) w) <= m)%R) ->
  (exists j w, last_added h j = Some w /\ rlen (map (rv fm) w) = m) ->
  forall fs i v, last_added h i = Some v ->
  exists x, vread (view fs ix') (addr (ops fm) c i + off_dot (ops fm) c) (fbytes (ops fm)) = Ok (enc_f (ops fm) x) /\ fin fm x /\
    (Rabs (rv fm x * rv fm x + rdot (map (rv fm) v) (map (rv fm) v) - m * m) <= (4 * INR (N.to_nat (vlen c)) + 40) * unit_of fm * (m * m))%R.
Proof.
  intros fm FM c OK DP Hv h ix T nw fuel mfuel rfuel ix' B R Ht m Hm He fs i v Hi.
  destruct (result_after (ops fm) c OK _ _ _ _ _ _ _ _ B R) as (I & plan & A & _).
  rewrite <- rlen_sq. eapply factor_stored; eauto.
  rewrite INR_IZR_INZ, N_nat_Z. apply IZR_le. lia.
Qed.
Definition dx_items : list (N * list (F fops32)) := [(0, fv [3; 4]%Z); (1, fv [6; 8]%Z); (2, fv [0; 5]%Z)].
Definition dx_ix : idx := Eval vm_compute in or_else (ix0 (cD 2)) (add_all fops32 (cD 2) (ix0 (cD 2)) dx_items).
Definition dx_built : idx := Eval vm_compute in or_else dx_ix (build_single fops32 (cD 2) 100 100 100 dx_ix 1).
(** The item of length 10 gets the extra component 0, those of length 5 get the root of 75. *)
Example C79_example :
  build_call fops32 (cD 2) dx_items dx_ix 1 1 100 100 /\ build_result fops32 (cD 2) dx_ix 1 1 100 100 100 dx_built /\
  (forall j w, last_added dx_items j = Some w -> tame fmt32 w) /\
  vread (view no_files dx_built) (addr fops32 (cD 2) 0 + off_dot fops32 (cD 2)) 4 = Ok (enc_f fops32 (fsqrt fops32 (s_of_Z 75))) /\
  vread (view no_files dx_built) (addr fops32 (cD 2) 1 + off_dot fops32 (cD 2)) 4 = Ok (enc_f fops32 (f0 fops32)).
Proof.
  split; [|split; [|split; [|vm_compute; repeat split]]].
  - assert (Hn : n_items dx_ix = 3) by (vm_compute; reflexivity). constructor; rewrite ?Hn; try lia.
    + vm_compute. discriminate.
    + unfold hist_ok, dx_items. repeat (apply Forall_cons; [split; vm_compute; reflexivity|]). constructor.
    + exists (kiss_new 0), 0. vm_compute. reflexivity.
    + eapply cap_ok_mono with (n := 1000); [|vm_compute; reflexivity]. vm_compute. discriminate.
    + unfold enough_fuel. lia.
  - left. split; [reflexivity|]. vm_compute. reflexivity.
  - intros j w H. apply last_added_in in H. unfold dx_items in H. cbn [In] in H.
    destruct H as [H|[H|[H|[]]]]; apply (f_equal snd) in H; cbn [snd] in H; subst w; (apply fv_tame; [cbn; lia|vm_compute; reflexivity|vm_compute; reflexivity]).
Qed.

(** ** C80: the functions of package vector *)
(** A vectorLength beyond one of the slices panics. *)
Theorem C80_short_slices_panic :
  forall fo a b n, lenN a < n \/ lenN b < n ->
  slice_dot fo a b n = Er (Panic PIndex) /\ slice_euclid fo a b n = Er (Panic PIndex) /\ slice_manhattan fo a b n = Er (Panic PIndex) /\
  (lenN a < n -> slice_norm fo a n = Er (Panic PIndex)).
Proof.
  intros fo a b n H. unfold lenN in *. unfold slice_norm, slice_dot, slice_euclid, slice_manhattan.
  repeat split; try (apply loop_panics; lia). intro Ha. rewrite loop_panics by lia. reflexivity.
Qed.
(** Otherwise the first vectorLength components count, and the results are right up to
    rounding.  The sum of the absolute products bounds the error of Dot. *)
Theorem C80_dot_is_accurate :
  forall fm, is_fmt fm -> forall a b n, n <= lenN a -> n <= lenN b ->
  let x := firstn (N.to_nat n) a in let y := firstn (N.to_nat n) b in
  moderate fm x -> moderate fm y ->
  exists r, slice_dot (ops fm) a b n = Ok r /\ fin fm r /\
    (Rabs (rv fm r - rdot (map (rv fm) x) (map (rv fm) y)) <=
       (2 * IZR (Z.of_N n) + 2) * unit_of fm * (rlen (map (rv fm) x) * rlen (map (rv fm) y)) + / 2 ^ 126)%R.
Proof.
  intros fm FM a b n Ha Hb x y Mx My. unfold lenN in *.
  assert (Lx : length x = N.to_nat n) by (apply firstn_length_le; lia). assert (Ly : length y = N.to_nat n) by (apply firstn_length_le; lia).
  assert (HN : (INR (length x) <= 1048576)%R) by (destruct Mx as [H _]; replace (2 ^ 20)%R with 1048576%R in H by (cbn [pow]; lra); exact H).
  destruct (dot_bounded fm FM x y _ (bounded_fin fm FM x Mx) (bounded_fin fm FM y My) HN (eq_trans Lx (eq_sym Ly)) (bounded_dot fm x y Mx My (eq_trans Lx (eq_sym Ly))) ltac:(lra)) as [F1 E1].
  exists (inner (ops fm) x y). split.
  - unfold slice_dot. rewrite slice_ok by lia. fold x y. f_equal. unfold inner. generalize (f0 (ops fm)). generalize (combine x y). intro l.
    induction l as [|[p q] l IH]; intro s; [reflexivity|]. cbn. apply IH.
  - split; [exact F1|]. eapply Rle_trans; [exact E1|]. rewrite Lx, INR_IZR_INZ, N_nat_Z.
    pose proof (cauchy (map (rv fm) x) (map (rv fm) y)) as CS. pose proof (fmt_unit fm FM).
    assert (0 <= IZR (Z.of_N n))%R by (apply IZR_le; lia).
    apply Rplus_le_compat.
    + apply Rmult_le_compat_l; [apply Rmult_le_pos; lra|exact CS].
    + replace (2 ^ 126)%R with 85070591730234615865843651857942052864%R by (cbn [pow]; lra). lra.
Qed.
Theorem C80_norm_is_accurate :
  forall fm, is_fmt fm -> forall a n, n <= lenN a ->
  let x := firstn (N.to_nat n) a in tame fm x ->
  exists r, slice_norm (ops fm) a n = Ok r /\ fin fm r /\ (0 <= rv fm r)%R /\
    (Rabs (rv fm r * rv fm r - rdot (map (rv fm) x) (map (rv fm) x)) <= (2 * IZR (Z.of_N n) + 9) * unit_of fm * rdot (map (rv fm) x) (map (rv fm) x))%R.
Proof.
  intros fm FM a n Ha x Tx. unfold lenN in *.
  assert (Lx : length x = N.to_nat n) by (apply firstn_length_le; lia).
  exists (fsqrt (ops fm) (inner (ops fm) x x)). split.
  - unfold slice_norm, slice_dot. rewrite slice_ok by lia. fold x. cbn [rbind]. f_equal. f_equal. unfold inner. generalize (f0 (ops fm)). generalize (combine x x). intro l.
    induction l as [|[p q] l IH]; intro s; [reflexivity|]. cbn. apply IH.
  - pose proof (norm_err fm FM x Tx) as H. rewrite Lx, INR_IZR_INZ, N_nat_Z in H. exact H.
Qed.
(** EuclideanDistance gives the square of the distance. *)
Theorem C80_euclidean_is_squared_distance :
  forall fm, is_fmt fm -> forall a b n, n <= lenN a -> n <= lenN b ->
  let x := firstn (N.to_nat n) a in let y := firstn (N.to_nat n) b in
  moderate fm x -> moderate fm y ->
  exists r, slice_euclid (ops fm) a b n = Ok r /\ slice_euclid (ops fm) b a n = Ok r /\ fin fm r /\
    let s := sq_dist (map (rv fm) x) (map (rv fm) y) in
    (Rabs (rv fm r - s) <= (3 * IZR (Z.of_N n) + 6) * unit_of fm * s + / 2 ^ 126)%R /\
    (a = b -> rv fm r = 0%R).
Proof.
  intros fm FM a b n Ha Hb x y Mx My. unfold lenN in *.
  assert (Lx : length x = N.to_nat n) by (apply firstn_length_le; lia). assert (Ly : length y = N.to_nat n) by (apply firstn_length_le; lia).
  destruct (euclid_err fm FM x y (eq_trans Lx (eq_sym Ly)) Mx My) as [F1 E1]. rewrite Lx, INR_IZR_INZ, N_nat_Z in E1.
  eexists. split; [|split; [|split; [exact F1|split; [exact E1|]]]].
  - unfold slice_euclid. rewrite slice_ok by lia. now rewrite euclid_inner.
  - unfold slice_euclid. rewrite slice_ok by lia. fold x y. rewrite euclid_inner. f_equal. apply euclid_sym; auto. congruence.
  - intros ->. now apply euclid_self.
Qed.
Theorem C80_manhattan_is_accurate :
  forall fm, is_fmt fm -> forall a b n, n <= lenN a -> n <= lenN b ->
  let x := firstn (N.to_nat n) a in let y := firstn (N.to_nat n) b in
  moderate fm x -> moderate fm y ->
  exists r r', slice_manhattan (ops fm) a b n = Ok r /\ slice_manhattan (ops fm) b a n = Ok r' /\ fin fm r /\ fin fm r' /\ rv fm r = rv fm r' /\
    let s := abs_dist (map (rv fm) x) (map (rv fm) y) in
    (Rabs (rv fm r - s) <= (2 * IZR (Z.of_N n) + 2) * unit_of fm * s)%R.
Proof.
  intros fm FM a b n Ha Hb x y Mx My. unfold lenN in *.
  assert (Lx : length x = N.to_nat n) by (apply firstn_length_le; lia). assert (Ly : length y = N.to_nat n) by (apply firstn_length_le; lia).
  destruct (manhattan_err fm FM x y (eq_trans Lx (eq_sym Ly)) Mx My) as (F1 & _ & E1 & V1).
  destruct (manhattan_err fm FM y x (eq_trans Ly (eq_sym Lx)) My Mx) as (F2 & _ & _ & V2).
  rewrite Lx, INR_IZR_INZ, N_nat_Z in E1.
  eexists. eexists. split; [|split; [|split; [exact F1|split; [exact F2|split; [rewrite V1, V2; apply mval_sym|exact E1]]]]].
  - unfold slice_manhattan. rewrite slice_ok by lia. reflexivity.
  - unfold slice_manhattan. rewrite slice_ok by lia. reflexivity.
Qed.
Lemma tame_moderate fm x : tame fm x -> moderate fm x.
Proof. intros (A & B & _). split; assumption. Qed.
(** (1,2,9) and (4,6) over two components: inner product 16, squared distance 25,
    Manhattan distance 7, norm of the first the root of 5. *)
Example C80_example :
  moderate fmt32 (fv [1; 2]%Z) /\ tame fmt32 (fv [1; 2]%Z) /\ moderate fmt32 (fv [4; 6]%Z) /\
  rbits (let* r := slice_dot fops32 (fv [1; 2; 9]%Z) (fv [4; 6]%Z) 2 in Ok [r]) = Ok (bits [s_of_Z 16]) /\
  rbits (let* r := slice_euclid fops32 (fv [1; 2; 9]%Z) (fv [4; 6]%Z) 2 in Ok [r]) = Ok (bits [s_of_Z 25]) /\
  rbits (let* r := slice_manhattan fops32 (fv [1; 2; 9]%Z) (fv [4; 6]%Z) 2 in Ok [r]) = Ok (bits [s_of_Z 7]) /\
  rbits (let* r := slice_norm fops32 (fv [1; 2; 9]%Z) 2 in Ok [r]) = Ok (bits [fsqrt fops32 (s_of_Z 5)]) /\
  slice_dot fops32 (fv [1; 2; 9]%Z) (fv [4; 6]%Z) 3 = Er (Panic PIndex).
Proof.
  assert (T1 : tame fmt32 (fv [1; 2]%Z)) by (apply fv_tame; [cbn; lia|vm_compute; reflexivity|vm_compute; reflexivity]).
  assert (T2 : tame fmt32 (fv [4; 6]%Z)) by (apply fv_tame; [cbn; lia|vm_compute; reflexivity|vm_compute; reflexivity]).
  split; [now apply tame_moderate|]. split; [exact T1|]. split; [now apply tame_moderate|]. vm_compute. repeat split.
Qed.

(** ** C81: utils.Round *)
(** Refuted: Round gives the nearest integer.  The largest float64 below 1/2 is rounded
    to 1, and the odd integer 2^52 + 1 to 2^52 + 2. *)
Definition below_half : binary64 := b64_of_bits 4602678819172646911.
Theorem C81_round_is_nearest_refuted :
  lt64 below_half half64 = true /\ bits_of_b64 (round64 below_half) = bits_of_b64 (d_of_Z 1) /\
  bits_of_b64 (round64 (d_of_Z (2 ^ 52 + 1))) = bits_of_b64 (d_of_Z (2 ^ 52 + 2)).
Proof. vm_compute. repeat split. Qed.
(** For numbers below 2^52 the result is an integer at most 1 away; it is the nearest one
    (the upper one of two) whenever adding 1/2 is exact. *)
Theorem C81_round_is_near :
  forall f, is_finite 53 1024 f = true -> (Rabs (B2R 53 1024 f) <= IZR (2 ^ 52 - 2))%R ->
  exists z : Z, is_finite 53 1024 (round64 f) = true /\ B2R 53 1024 (round64 f) = IZR z /\ (Rabs (IZR z - B2R 53 1024 f) <= 1)%R /\
    (forall g, is_finite 53 1024 g = true -> B2R 53 1024 g = (B2R 53 1024 f + / 2)%R ->
       (B2R 53 1024 f - / 2 < IZR z <= B2R 53 1024 f + / 2)%R).
Proof. exact round_near. Qed.
(** 2.5 goes to 3, -2.5 to -2, 7 to 7. *)
Definition halves (z : Z) : binary64 := b64_div mode_NE (d_of_Z z) (d_of_Z 2).
Example C81_example :
  bits_of_b64 (round64 (halves 5)) = bits_of_b64 (d_of_Z 3) /\ bits_of_b64 (round64 (halves (-5))) = bits_of_b64 (d_of_Z (-2)) /\
  bits_of_b64 (round64 (d_of_Z 7)) = bits_of_b64 (d_of_Z 7) /\
  (is_finite 53 1024 (d_of_Z 7) = true /\ Rabs (B2R 53 1024 (d_of_Z 7)) <= IZR (2 ^ 52 - 2))%R.
Proof.
  split; [vm_compute; reflexivity|]. split; [vm_compute; reflexivity|]. split; [vm_compute; reflexivity|].
  destruct (int64_ok 7) as [A B]; [lia|]. split; [exact A|]. rewrite B, <- abs_IZR. apply IZR_le. lia.
Qed.

Print Assumptions C79_extended_vectors_equally_long.
Print Assumptions C80_short_slices_panic.
Print Assumptions C80_dot_is_accurate.
Print Assumptions C80_norm_is_accurate.
Print Assumptions C80_euclidean_is_squared_distance.
Print Assumptions C80_manhattan_is_accurate.
Print Assumptions C81_round_is_nearest_refuted.
Print Assumptions C81_round_is_near.
