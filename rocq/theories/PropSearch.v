(** Properties of queries, for every node memory a query may run on (C24-C31, C33,
    C35, C36).  The sorters are any routines that meet the contract of sort.Slice. *)
From Verif Require Import Base Flt Layout Rng Sorts Alloc Prog Dist Build Policy Index Search Spec ForestSpec Lib LayoutProof FltProof SortsProof NumProof SearchProof QueryProof Concrete.
From Coq Require Import Permutation Sorted.
Open Scope N_scope.

(** Concrete cases: [exq_runs] and [exq_lists] below together meet the hypotheses of
    C24-C31 and of C33 (short vectors); C36 has its own example. *)

(** The contract is satisfiable: insertion sort. *)
Lemma isort_is_sort_slice {A} (less : A -> A -> bool) : sort_slice less (isort less).
Proof.
  split; [|intros P H; now apply isort_sorts].
  assert (G : forall l acc, Permutation (fold_left (fun acc x => insert_sorted less x acc) l acc) (acc ++ l)).
  { induction l as [|x l IH]; intro acc; cbn [fold_left]; [now rewrite app_nil_r|].
    rewrite IH, (insert_sorted_perm less). cbn [app]. apply Permutation_middle. }
  intro l. apply (G l []).
Qed.

(** The index the examples query: 20 items of 16 dimensions, two trees. *)
Definition exq_items : list (N * list (F fops32)) := map (fun i => (i, pad 16 [Z.of_N i - 7; 3; Z.of_N (i * i mod 7)]%Z)) (rangeN 20).
Definition exq : res idx := built (cA 16) exq_items 2.
Definition exq_ix : idx := Eval vm_compute in match exq with Ok ix => ix | Er _ => ix0 (cA 16) end.
Lemma exq_eq : exq = Ok exq_ix.
Proof. vm_compute. reflexivity. Qed.
Definition exq_vec : list (F fops32) := pad 16 [1; 2; 3]%Z.
Definition bits_of (r : res (list N * list (F fops32) * ctx (F fops32))) : res (list N * list N) :=
  let* (x, _) := r in Ok (fst x, bits (snd x)).
(** A query of three results inspecting ten candidates, on a context of the index's own. *)
Lemma exq_runs : exists ix, exq = Ok ix /\ n_items ix = 20 /\ length (rootsN (ib ix)) = 2%nat /\
  lenN (c_nns (create_context fops32 ix)) < 2 ^ iw (cA 16) /\ lenN exq_vec = vlen (cA 16) /\
  exists r, query (cA 16) 100 no_files ix exq_vec 3 10 (create_context fops32 ix) = Ok r /\
    bits_of (Ok r) = Ok ([9; 12; 10], [1039756778; 1057153137; 1057620014]).
Proof.
  apply ok_intro2 with (Q := fun ix => n_items ix = 20 /\ length (rootsN (ib ix)) = 2%nat /\
    lenN (c_nns (create_context fops32 ix)) < 2 ^ iw (cA 16) /\
    match query (cA 16) 100 no_files ix exq_vec 3 10 (create_context fops32 ix) with
    | Ok r => bits_of (Ok r) = Ok ([9; 12; 10], [1039756778; 1057153137; 1057620014]) | Er _ => False end).
  - rewrite exq_eq. vm_compute. repeat split.
  - intros ix (H1 & H2 & H3 & H4). repeat (split; [assumption|]). split; [reflexivity|]. now apply ok_intro.
Qed.

(** The example forest lists its 20 items once per tree; there is room to query it. *)
Lemma exq_lists : exists ix zs m, exq = Ok ix /\
  reach_all fops32 (cA 16) (view no_files ix) (n_items ix) (rootsN (ib ix)) zs m /\
  lenN zs = 40 /\ (m <= 100)%nat /\ length (rootsN (ib ix)) = 2%nat /\
  (forall j, In j zs -> exists bs, vread (view no_files ix) (addr fops32 (cA 16) j) (nodeSize fops32 (cA 16)) = Ok bs) /\
  (forall r, In r (rootsN (ib ix)) -> exists a b, splits fops32 (cA 16) (view no_files ix) r a b) /\
  (the_limit ix 3 10 + Z.of_N (maxK fops32 (cA 16)) - 1 <= Z.of_N (lenN (c_nns (create_context fops32 ix))))%Z.
Proof.
  assert (H : match exq with
    | Ok ix => match listing_all fops32 (cA 16) 50 (view no_files ix) (n_items ix) (rootsN (ib ix)) with
        | Some (zs, m) => lenN zs = 40 /\ (m <=? 100)%nat = true /\ length (rootsN (ib ix)) = 2%nat /\
            forallb (fun j => match vread (view no_files ix) (addr fops32 (cA 16) j) (nodeSize fops32 (cA 16)) with Ok _ => true | _ => false end) zs = true /\
            forallb (fun j => match vread (view no_files ix) (addr fops32 (cA 16) j) (nodeSize fops32 (cA 16)) with
                              | Ok bs => maxK fops32 (cA 16) <? n_desc (cA 16) bs | _ => false end) (rootsN (ib ix)) = true /\
            (the_limit ix 3 10 + Z.of_N (maxK fops32 (cA 16)) - 1 <=? Z.of_N (lenN (c_nns (create_context fops32 ix))))%Z = true
        | None => False end
    | Er _ => False end) by (rewrite exq_eq; vm_compute; repeat split).
  destruct exq as [ix|]; [|easy].
  destruct (listing_all _ _ _ _ _ _) as [[zs m]|] eqn:El; [|easy]. destruct H as (H1 & H2 & H3 & H4 & H5 & H6).
  exists ix, zs, m. split; [reflexivity|]. split; [eapply listing_all_sound; exact El|].
  rewrite forallb_forall in H4, H5. apply Nat.leb_le in H2. apply Z.leb_le in H6.
  split; [exact H1|]. split; [exact H2|]. split; [exact H3|]. split; [|split; [|exact H6]].
  - intros j Hj. specialize (H4 j Hj). destruct (vread _ _ _) as [bs|]; [eauto|discriminate].
  - intros r Hr. specialize (H5 r Hr). destruct (vread _ _ _) as [bs|] eqn:Ev; [|discriminate].
    destruct (two_children (cA 16) bs) as (a & b & Hab). exists a, b. eapply sp_intro; eauto. lia.
Qed.

(** ** C24 *)
(** Distinct ids, as many distances as ids, at most numReturn of them, each id an item
    node listed by the forest, and in the order of their distances (ties by id). *)
Theorem C24_results_distinct_valid_sorted :
  forall fo c sortIx sortPairs, is_float fo ->
  sort_slice N.ltb sortIx -> sort_slice (pair_less (flt fo) (feq fo)) sortPairs ->
  forall fuel fs ix vec n inspect bc ids ds bc',
  get_nns_by_vector fo c sortIx sortPairs fuel fs ix vec n inspect bc = Ok (ids, ds, bc') ->
  lenN (c_nns bc) < 2 ^ iw c ->
  NoDup ids /\ length ids = length ds /\ (Z.of_nat (length ids) <= Z.max 0 n)%Z /\
  exists ys rest qn raw, query_node fo c vec = Ok qn /\
    expands fo c (view fs ix) (n_items ix) (rootsN (ib ix)) rest ys /\
    ds = map (reported fo c) raw /\ length raw = length ids /\
    (forall id, In id ids -> In id ys /\ exists bs, vread (view fs ix) (addr fo c id) (nodeSize fo c) = Ok bs /\ n_desc c bs = 1) /\
    ((forall j d, In j ys -> item_dist fo c (view fs ix) qn j d -> not_nan fo d) ->
     sorted (nearer fo) (combine raw ids)).
Proof.
  intros fo c sortIx sortPairs FL HI HP fuel fs ix vec n inspect bc ids ds bc' E Hc.
  destruct (query_raw fo c sortIx sortPairs HI HP _ _ _ _ _ _ _ _ _ _ FL E Hc)
    as (ys & rest & qn & raw & Hq & He & _ & Hnd & Hl & Hn & Hd & Hlr & Hin & Hs).
  split; [exact Hnd|]. split; [exact Hl|]. split; [lia|]. exists ys, rest, qn, raw. repeat (split; [assumption|]).
  split; [|intro Hnan; apply (Hs Hnan)].
  intros id Hid. destruct (In_nth_error _ _ Hid) as (k & Hk).
  assert (Hk' : exists d, nth_error raw k = Some d).
  { destruct (nth_error raw k) eqn:E'; eauto. apply nth_error_None in E'. assert (k < length ids)%nat by (apply nth_error_Some; congruence). lia. }
  destruct Hk' as (d & Hk'). destruct (Hin _ _ _ Hk Hk') as (H1 & bs & H2 & H3 & _). eauto.
Qed.

(** ** C25 *)
Theorem C25_distances_belong_to_ids :
  forall fo c sortIx sortPairs, is_float fo ->
  sort_slice N.ltb sortIx -> sort_slice (pair_less (flt fo) (feq fo)) sortPairs ->
  forall fuel fs ix vec n inspect bc ids ds bc',
  get_nns_by_vector fo c sortIx sortPairs fuel fs ix vec n inspect bc = Ok (ids, ds, bc') ->
  lenN (c_nns bc) < 2 ^ iw c ->
  exists qn, query_node fo c vec = Ok qn /\
  forall k id d, nth_error ids k = Some id -> nth_error ds k = Some d ->
    exists bs, vread (view fs ix) (addr fo c id) (nodeSize fo c) = Ok bs /\ n_desc c bs = 1 /\
      d = reported fo c (distance fo qn (snode_of fo c bs)).
Proof.
  intros fo c sortIx sortPairs FL HI HP fuel fs ix vec n inspect bc ids ds bc' E Hc.
  destruct (query_result fo c sortIx sortPairs HI HP _ _ _ _ _ _ _ _ _ _ FL E Hc)
    as (ys & rest & qn & Hq & _ & _ & _ & _ & _ & _ & Hin & _).
  exists qn. split; [exact Hq|]. intros k id d H1 H2. destruct (Hin _ _ _ H1 H2) as (_ & raw & (bs & H3 & H4 & H5) & H6).
  exists bs. repeat split; auto. change (reported fo c) with (normalized_distance fo c); congruence.
Qed.

(** ** C26, C28 *)
(** The answer is the top numReturn of the inspected candidates [ys], which are at
    least as many as asked for unless nothing is left to inspect. *)
Theorem C26_top_of_inspected :
  forall fo c sortIx sortPairs, is_float fo ->
  sort_slice N.ltb sortIx -> sort_slice (pair_less (flt fo) (feq fo)) sortPairs ->
  forall fuel fs ix vec n inspect bc ids ds bc',
  get_nns_by_vector fo c sortIx sortPairs fuel fs ix vec n inspect bc = Ok (ids, ds, bc') ->
  lenN (c_nns bc) < 2 ^ iw c ->
  exists ys rest qn, query_node fo c vec = Ok qn /\
    expands fo c (view fs ix) (n_items ix) (rootsN (ib ix)) rest ys /\
    ((the_limit ix n inspect <= Z.of_N (lenN ys))%Z \/ rest = []) /\
    ((forall j d, In j ys -> item_dist fo c (view fs ix) qn j d -> not_nan fo d) ->
     nearest fo c (view fs ix) qn (Z.to_nat n) ys ids ds).
Proof.
  intros fo c sortIx sortPairs FL HI HP fuel fs ix vec n inspect bc ids ds bc' E Hc.
  destruct (query_result fo c sortIx sortPairs HI HP _ _ _ _ _ _ _ _ _ _ FL E Hc)
    as (ys & rest & qn & Hq & He & Hl & _ & _ & _ & _ & _ & Hn).
  exists ys, rest, qn. auto.
Qed.
Theorem C28_enough_inspected :
  forall fo c sortIx sortPairs, is_float fo ->
  sort_slice N.ltb sortIx -> sort_slice (pair_less (flt fo) (feq fo)) sortPairs ->
  forall fuel fs ix vec n inspect bc ids ds bc',
  get_nns_by_vector fo c sortIx sortPairs fuel fs ix vec n inspect bc = Ok (ids, ds, bc') ->
  lenN (c_nns bc) < 2 ^ iw c ->
  exists ys rest, expands fo c (view fs ix) (n_items ix) (rootsN (ib ix)) rest ys /\
    (forall id, In id ids -> In id ys) /\
    ((the_limit ix n inspect <= Z.of_N (lenN ys))%Z \/
     exists zs m, reach_all fo c (view fs ix) (n_items ix) (rootsN (ib ix)) zs m /\ Permutation ys zs).
Proof.
  intros fo c sortIx sortPairs FL HI HP fuel fs ix vec n inspect bc ids ds bc' E Hc.
  destruct (query_result fo c sortIx sortPairs HI HP _ _ _ _ _ _ _ _ _ _ FL E Hc)
    as (ys & rest & qn & Hq & He & Hl & _ & _ & Hlen & _ & Hin & _).
  exists ys, rest. split; [exact He|]. split.
  - intros id Hid. destruct (In_nth_error _ _ Hid) as (k & Hk).
    destruct (nth_error ds k) as [d|] eqn:Ed; [apply (Hin _ _ _ Hk Ed)|].
    apply nth_error_None in Ed. assert (k < length ids)%nat by (apply nth_error_Some; congruence). lia.
  - destruct Hl as [Hl|Hl]; [now left|right]. apply (expands_reach _ _ _ _ _ _ _ He Hl).
Qed.

(** ** C27 *)
(** If the trees list [zs] and at least that many candidates are asked for, the answer
    is the exact top numReturn of all listed items. *)
Theorem C27_exhaustive_is_exact :
  forall fo c sortIx sortPairs, is_float fo -> CfgOK fo c ->
  sort_slice N.ltb sortIx -> sort_slice (pair_less (flt fo) (feq fo)) sortPairs ->
  forall fuel fs ix vec n inspect bc ids ds bc' zs m,
  get_nns_by_vector fo c sortIx sortPairs fuel fs ix vec n inspect bc = Ok (ids, ds, bc') ->
  lenN (c_nns bc) < 2 ^ iw c ->
  reach_all fo c (view fs ix) (n_items ix) (rootsN (ib ix)) zs m ->
  (Z.of_N (lenN zs) <= the_limit ix n inspect)%Z ->
  exists qn, query_node fo c vec = Ok qn /\
    ((forall j d, In j zs -> item_dist fo c (view fs ix) qn j d -> not_nan fo d) ->
     nearest fo c (view fs ix) qn (Z.to_nat n) zs ids ds).
Proof.
  intros fo c sortIx sortPairs FL OK HI HP fuel fs ix vec n inspect bc ids ds bc' zs m E Hc Hr Hl.
  exact (query_exhaustive fo c sortIx sortPairs HI HP _ _ _ _ _ _ _ _ _ _ _ _ FL (maxK_ge2 _ _ OK) E Hc Hr Hl).
Qed.

(** ** C29 *)
Theorem C29_minus_one :
  forall fo c sortIx sortPairs fuel fs ix vec n bc,
  (n * Z.of_nat (length (rootsN (ib ix))) <> -1)%Z ->
  get_nns_by_vector fo c sortIx sortPairs fuel fs ix vec n (-1) bc =
  get_nns_by_vector fo c sortIx sortPairs fuel fs ix vec n (n * Z.of_nat (length (rootsN (ib ix)))) bc.
Proof. exact nns_minus_one. Qed.

(** ** C30 *)
(** Whatever two contexts of equal size contain, the answer (or failure) is the same,
    and the size does not change. *)
Theorem C30_context_contents_irrelevant :
  forall fo c sortIx sortPairs fuel fs ix vec n inspect b1 b2,
  length (c_nns b1) = length (c_nns b2) -> length (c_dist b1) = length (c_dist b2) ->
  lenN (c_nns b1) < 2 ^ iw c ->
  answer fo (get_nns_by_vector fo c sortIx sortPairs fuel fs ix vec n inspect b1) =
  answer fo (get_nns_by_vector fo c sortIx sortPairs fuel fs ix vec n inspect b2).
Proof. exact context_reuse. Qed.
Theorem C30_context_keeps_size :
  forall fo c sortIx sortPairs, sort_slice N.ltb sortIx -> sort_slice (pair_less (flt fo) (feq fo)) sortPairs ->
  forall fuel fs ix vec n inspect bc ids ds bc',
  get_nns_by_vector fo c sortIx sortPairs fuel fs ix vec n inspect bc = Ok (ids, ds, bc') ->
  length (c_nns bc') = length (c_nns bc) /\ length (c_dist bc') = length (c_dist bc).
Proof. intros fo c sortIx sortPairs HI HP. exact (context_size_kept fo c sortIx sortPairs HI HP). Qed.

(** ** C31, first half *)
(** On a forest whose trees list readable nodes, a query with a vector of the index's
    length always returns when the context has room for the candidates asked for and
    one more bucket, or for everything there is.  [m] is the number of nodes of the
    forest: the search loop needs no more rounds than that. *)
Theorem C31_no_panic_with_room :
  forall fo c sortIx sortPairs, CfgOK fo c ->
  sort_slice N.ltb sortIx -> sort_slice (pair_less (flt fo) (feq fo)) sortPairs ->
  forall fuel fs ix vec n inspect bc zs m,
  lenN vec = vlen c -> 1 <= vlen c -> lenN (c_nns bc) < 2 ^ iw c -> length (c_dist bc) = length (c_nns bc) ->
  reach_all fo c (view fs ix) (n_items ix) (rootsN (ib ix)) zs m -> (m <= fuel)%nat ->
  (forall j, In j zs -> exists bs, vread (view fs ix) (addr fo c j) (nodeSize fo c) = Ok bs) ->
  (the_limit ix n inspect + Z.of_N (maxK fo c) - 1 <= Z.of_N (lenN (c_nns bc)))%Z \/ lenN zs <= lenN (c_nns bc) ->
  exists ids ds bc', get_nns_by_vector fo c sortIx sortPairs fuel fs ix vec n inspect bc = Ok (ids, ds, bc').
Proof.
  intros fo c sortIx sortPairs OK HI HP fuel fs ix vec n inspect bc zs m H1 H2 H3 H4 H5 H6 H7 H8.
  exact (query_total fo c sortIx sortPairs HI fuel fs ix vec n inspect bc zs m (maxK_ge2 _ _ OK) H1 H2 H3 H4 H5 H6 H7 H8).
Qed.

(** ** C33 *)
(** A longer vector never gets an answer; if nothing stops the query earlier it writes
    out of bounds. *)
Theorem C33_long_query_never_returns :
  forall fo c sortIx sortPairs fuel fs ix vec n inspect bc, vlen c < lenN vec ->
  (exists e, get_nns_by_vector fo c sortIx sortPairs fuel fs ix vec n inspect bc = Er e) /\
  ((the_limit ix n inspect <= 0)%Z \/ rootsN (ib ix) = [] ->
   get_nns_by_vector fo c sortIx sortPairs fuel fs ix vec n inspect bc = Er Fault).
Proof. exact long_vector. Qed.
(** A shorter one is read out of bounds as soon as a split node is visited. *)
Theorem C33_short_query_faults :
  forall fo c sortIx sortPairs, CfgOK fo c ->
  forall fuel fs ix vec n inspect bc,
  (forall r, In r (rootsN (ib ix)) -> exists a b, splits fo c (view fs ix) r a b) -> rootsN (ib ix) <> [] ->
  (0 < the_limit ix n inspect)%Z -> lenN vec < vlen c -> fuel <> O ->
  get_nns_by_vector fo c sortIx sortPairs fuel fs ix vec n inspect bc =
  Er (if lenN vec =? 0 then Panic PEmptyY else Fault).
Proof. intros fo c sortIx sortPairs OK fuel fs ix vec n inspect bc H1 H2 H3. exact (short_vector fo c sortIx sortPairs fuel fs ix vec n inspect bc H1 H2 H3 (maxK_ge2 _ _ OK)). Qed.

(** ** C35 *)
(** Nothing to inspect, or no trees: an empty answer and an unchanged context. *)
Theorem C35_nothing_to_inspect :
  forall fo c sortIx sortPairs, sort_slice N.ltb sortIx ->
  forall fuel fs ix vec n inspect bc, lenN vec <= vlen c ->
  (the_limit ix n inspect <= 0)%Z \/ rootsN (ib ix) = [] ->
  get_nns_by_vector fo c sortIx sortPairs fuel fs ix vec n inspect bc = Ok ([], [], bc).
Proof. exact empty_query. Qed.
(** numReturn <= 0: whenever the query returns, it returns nothing. *)
Theorem C35_nothing_to_return :
  forall fo c sortIx sortPairs, sort_slice N.ltb sortIx -> sort_slice (pair_less (flt fo) (feq fo)) sortPairs ->
  forall fuel fs ix vec n inspect bc ids ds bc', (n <= 0)%Z ->
  get_nns_by_vector fo c sortIx sortPairs fuel fs ix vec n inspect bc = Ok (ids, ds, bc') -> ids = [] /\ ds = [].
Proof. intros fo c sortIx sortPairs HI HP. exact (non_positive_return fo c sortIx sortPairs). Qed.

(** ** C36 *)
Theorem C36_distance_symmetric :
  forall fo c, CfgOK fo c -> is_float fo -> forall fs ix i j,
  (forall v, get_item fo c fs ix i = Ok v -> Forall (not_nan fo) v) ->
  (forall v, get_item fo c fs ix j = Ok v -> Forall (not_nan fo) v) ->
  get_distance fo c fs ix i j = get_distance fo c fs ix j i.
Proof. intros fo c OK FL fs ix i j. exact (get_distance_sym fo c OK fs ix i j FL). Qed.
Example C36_example :
  exists ix, exq = Ok ix /\
    exists v w, get_item fops32 (cA 16) no_files ix 3 = Ok v /\ get_item fops32 (cA 16) no_files ix 5 = Ok w /\
      forallb (fun x => feq fops32 x x) v = true /\ forallb (fun x => feq fops32 x x) w = true /\
      bits v <> bits w.
Proof.
  apply ok_intro2 with (Q := fun ix =>
    match get_item fops32 (cA 16) no_files ix 3, get_item fops32 (cA 16) no_files ix 5 with
    | Ok v, Ok w => forallb (fun x => feq fops32 x x) v = true /\ forallb (fun x => feq fops32 x x) w = true /\ bits v <> bits w
    | _, _ => False end).
  - rewrite exq_eq. vm_compute. repeat split. discriminate.
  - intros ix H. destruct (get_item fops32 (cA 16) no_files ix 3) as [v|]; [|easy].
    destruct (get_item fops32 (cA 16) no_files ix 5) as [w|]; [|easy]. exists v, w. tauto.
Qed.

Print Assumptions C24_results_distinct_valid_sorted.
Print Assumptions C25_distances_belong_to_ids.
Print Assumptions C26_top_of_inspected.
Print Assumptions C28_enough_inspected.
Print Assumptions C27_exhaustive_is_exact.
Print Assumptions C29_minus_one.
Print Assumptions C30_context_contents_irrelevant.
Print Assumptions C30_context_keeps_size.
Print Assumptions C31_no_panic_with_room.
Print Assumptions C33_long_query_never_returns.
Print Assumptions C33_short_query_faults.
Print Assumptions C35_nothing_to_inspect.
Print Assumptions C35_nothing_to_return.
Print Assumptions C36_distance_symmetric.
