(** Properties that fail, each with the smallest history found that shows it.
    Everything is computed by the model; nothing is assumed. *)
From Verif Require Import Base Flt Layout Rng Sorts Alloc Prog Dist Build Policy Index Search Lib LayoutProof FltProof StoreProof Concrete.
Open Scope N_scope.

(** C02: one-dimensional float32 vectors, 32-bit indices: adding item 2^28 overwrites item 0. *)
Theorem C02_item_overwritten_by_distant_item :
  CfgOK fops32 (cA 1) /\
  exists ix, add_all fops32 (cA 1) (ix0 (cA 1)) [(0, fv [1]%Z); (2 ^ 28, fv [2]%Z)] = Ok ix /\
    rbits (get_item fops32 (cA 1) no_files ix 0) = Ok (bits (fv [2]%Z)) /\
    bits (fv [2]%Z) <> bits (fv [1]%Z).
Proof.
  split; [apply cA_ok; reflexivity|]. apply ok_intro. vm_compute. repeat split; discriminate.
Qed.

(** C05: three items, one tree; item 3 added after Build replaces the only root. *)
Theorem C05_add_after_build_destroys_tree :
  exists ix, built (cA 12) [(2, pad 12 [1; 2]%Z); (1, pad 12 [1]%Z); (0, pad 12 [0; 1]%Z)] 1 = Ok ix /\
  ask (cA 12) no_files ix (pad 12 [1]%Z) 4 1000 = Ok [1; 2; 0] /\
  exists ix', add_item fops32 (cA 12) ix 3 (pad 12 [5]%Z) = Ok ix' /\
  ask (cA 12) no_files ix' (pad 12 [1]%Z) 4 1000 = Ok [3].
Proof.
  apply ok_intro2 with (Q := fun ix =>
    ask (cA 12) no_files ix (pad 12 [1]%Z) 4 1000 = Ok [1; 2; 0] /\
    match add_item fops32 (cA 12) ix 3 (pad 12 [5]%Z) with
    | Ok ix' => ask (cA 12) no_files ix' (pad 12 [1]%Z) 4 1000 = Ok [3] | Er _ => False end).
  - vm_compute. repeat split.
  - intros ix [H1 H2]. split; [exact H1|]. now apply ok_intro.
Qed.

(** C09: six three-dimensional items; an exhaustive query finds one of them. *)
Definition six_items : list (N * list (F fops32)) :=
  map (fun i => (i, fv [Z.of_N i - 3; Z.of_N (i * i); 1]%Z)) (rangeN 6).
Theorem C09_short_vectors_lose_items :
  exists ix, built (cA 3) six_items 1 = Ok ix /\
    ask (cA 3) no_files ix (fv [1; 1; 1]%Z) 6 1000 = Ok [0].
Proof. apply ok_intro. vm_compute. reflexivity. Qed.

(** C15: item 18 = (1,-10,0,..) lies under the right child (node 19) of the root
    split (node 20), whose stored normal puts it on the left (negative margin). *)
Definition three_items : list (N * list (F fops32)) :=
  [(18, pad 16 [1; -10]%Z); (0, pad 16 [10; 10]%Z); (1, pad 16 [-10; -10]%Z)].
Theorem C15_stored_hyperplane_disagrees :
  exists ix, built (cA 16) three_items 1 = Ok ix /\
    rootsN (ib ix) = [20] /\
    split_at (cA 16) ix 20 (pad 16 [1; -10]%Z) = Ok (19, [0; 19], (true, false)) /\
    split_at (cA 16) ix 19 (pad 16 [1; -10]%Z) = Ok (2, [1; 18], (false, false)) /\
    (2 <=? maxK fops32 (cA 16)) && (maxK fops32 (cA 16) <? 19) = true.
Proof. apply ok_intro. vm_compute. repeat split. Qed.

(** C31, second half: two items (at 0 and 18), asking for both with the context the
    index itself creates. *)
Definition opposite_items : list (N * list (F fops32)) := [(18, pad 16 [1]%Z); (0, pad 16 [-1]%Z)].
Theorem C31_own_context_too_small :
  exists ix, built (cA 16) opposite_items 1 = Ok ix /\
    ask (cA 16) no_files ix (pad 16 [1]%Z) 2 (-1) = Er (Panic PIndex).
Proof. apply ok_intro. vm_compute. reflexivity. Qed.

(** C32: the query for a stored vector returns the opposite one. *)
Theorem C32_wrong_side_first :
  exists ix, built (cA 16) opposite_items 1 = Ok ix /\
    rbits (get_item fops32 (cA 16) no_files ix 18) = Ok (bits (pad 16 [1]%Z)) /\
    ask (cA 16) no_files ix (pad 16 [1]%Z) 1 (-1) = Ok [0] /\
    ask (cA 16) no_files ix (pad 16 [-1]%Z) 1 (-1) = Ok [18].
Proof. apply ok_intro. vm_compute. repeat split. Qed.
(** The same without unused slots: of 24 items in two clearly separated groups, not
    one is found by a query for itself. *)
Definition noise (i j : N) : Z := Z.of_N ((i * 7 + j * 13 + i * j * 5) mod 11) - 5.
Definition item24 (i : N) : list (F fops32) :=
  fv ((if N.odd i then 20 else -20)%Z :: map (fun j => noise i j) (rangeN 15)).
Theorem C32_no_item_finds_itself :
  exists ix, built (cA 16) (map (fun i => (i, item24 i)) (rangeN 24)) 1 = Ok ix /\
    forall i, i < 24 -> exists j, ask (cA 16) no_files ix (item24 i) 1 (-1) = Ok [j] /\ i <> j.
Proof.
  apply ok_intro2 with (Q := fun ix =>
    forallb (fun i => match ask (cA 16) no_files ix (item24 i) 1 (-1) with
                      | Ok [j] => negb (i =? j) | _ => false end) (rangeN 24) = true);
    [vm_compute; reflexivity|].
  intros ix H i Hi. rewrite forallb_forall in H. specialize (H i). rewrite in_rangeN in H. specialize (H Hi).
  destruct (ask (cA 16) no_files ix (item24 i) 1 (-1)) as [[|j [|]]|]; try discriminate.
  exists j. split; [reflexivity|lia].
Qed.

(** C33, short vector: 15 coordinates where the index has 16. *)
Theorem C33_short_query_reads_out_of_bounds :
  exists ix, built (cA 16) opposite_items 1 = Ok ix /\
    ask (cA 16) no_files ix (pad 15 [1]%Z) 1 (-1) = Er Fault.
Proof. apply ok_intro. vm_compute. reflexivity. Qed.

(** C37: finite vectors whose distance to themselves is NaN (bit pattern 7fc00000),
    by overflow and by underflow, or sqrt 2. *)
Theorem C37_self_distance_nan_overflow :
  exists d, self_distance (fv [2 ^ 64]%Z) = Ok d /\ enc fops32 d = 2143289344 /\ isnan32 d = true.
Proof. apply ok_intro. vm_compute. repeat split. Qed.
Theorem C37_self_distance_nan_underflow :
  exists d, self_distance [fdiv fops32 (s_of_Z 101) (s_of_Z (100 * 2 ^ 36))] = Ok d /\ isnan32 d = true.
Proof. apply ok_intro. vm_compute. repeat split. Qed.
Theorem C37_self_distance_sqrt2 :
  exists d, self_distance (fv [2 ^ 40]%Z) = Ok d /\ enc fops32 d = enc fops32 (fsqrt fops32 (f2 fops32)).
Proof. apply ok_intro. vm_compute. repeat split. Qed.

(** C38: inner product 2, reported distance -0. *)
Theorem C38_not_inner_product :
  exists ix, add_all fops32 (cD 2) (ix0 (cD 2)) [(1, fv [2; 0]%Z); (0, fv [1; 0]%Z)] = Ok ix /\
    bits [dot fops32 (fv [2; 0]%Z) (fv [1; 0]%Z)] = bits [s_of_Z 2] /\
    (let* d := get_distance fops32 (cD 2) no_files ix 0 1 in Ok (bits [d])) = Ok (bits [fneg fops32 (f0 fops32)]).
Proof. apply ok_intro. vm_compute. repeat split. Qed.

(** C49 *)
Theorem C49_one_item_index_cannot_be_loaded :
  exists ix, built (cA 12) [(0, pad 12 [1]%Z)] 1 = Ok ix /\
    forall k, save fops32 (cA 12) k OsOk no_files ix 7 = Er Fault.
Proof.
  apply ok_intro2 with (Q := fun ix => save fops32 (cA 12) MmapMem OsOk no_files ix 7 = Er Fault /\
                                       save fops32 (cA 12) GCMem OsOk no_files ix 7 = Er Fault).
  - vm_compute. repeat split.
  - intros ix [H1 H2] []; assumption.
Qed.

(** C50 *)
Definition twenty_items : list (N * list (F fops32)) :=
  map (fun i => (i, pad 40 [1; Z.of_N i]%Z)) (rangeN 20).
Theorem C50_reload_loses_items :
  exists ix, built (cA 40) twenty_items 1 = Ok ix /\
    ask (cA 40) no_files ix (pad 40 [1]%Z) 20 1000 = Ok (rangeN 20) /\
    forall k, exists ix' fs, save fops32 (cA 40) k OsOk no_files ix 7 = Ok (ix', fs, None) /\
      ask (cA 40) fs ix' (pad 40 [1]%Z) 20 1000 = Ok (rangeN 9).
Proof.
  set (good := fun k ix => match save fops32 (cA 40) k OsOk no_files ix 7 with
    | Ok (ix', fs, None) => ask (cA 40) fs ix' (pad 40 [1]%Z) 20 1000 = Ok (rangeN 9) | _ => False end).
  apply ok_intro2 with (Q := fun ix =>
    ask (cA 40) no_files ix (pad 40 [1]%Z) 20 1000 = Ok (rangeN 20) /\ good MmapMem ix /\ good GCMem ix).
  - subst good. vm_compute. repeat split.
  - intros ix (H1 & H2 & H3). split; [exact H1|]. intro k.
    assert (H : good k ix) by now destruct k. unfold good in H.
    destruct (save _ _ _ _ _ _ _) as [[[ix' fs] [e|]]|]; try easy. eauto.
Qed.

(** C51, second half: the saved file cut to 20 of its 22 nodes loads without an
    error as an index of 2 items (19 were saved) that has lost item 0. *)
Theorem C51_truncated_file_accepted :
  exists ix, built (cA 16) three_items 1 = Ok ix /\
    ask (cA 16) no_files ix (pad 16 [1]%Z) 3 3 = Ok [0; 18; 1] /\
    exists bs, vread (view no_files ix) 0 (22 * nodeSize fops32 (cA 16)) = Ok bs /\
    nn (ib ix) = 22 /\ n_items ix = 19 /\
    exists ix', load fops32 (cA 16) GCMem (fs_set no_files 7 (Some (firstn (N.to_nat (20 * nodeSize fops32 (cA 16))) bs)))
                     (ix0 (cA 16)) 7 = Ok (ix', None) /\
      n_items ix' = 2 /\
      ask (cA 16) no_files ix' (pad 16 [1]%Z) 3 3 = Ok [18; 1].
Proof.
  set (Ld := fun bs => load fops32 (cA 16) GCMem
    (fs_set no_files 7 (Some (firstn (N.to_nat (20 * nodeSize fops32 (cA 16))) bs))) (ix0 (cA 16)) 7).
  apply ok_intro2 with (Q := fun ix =>
    ask (cA 16) no_files ix (pad 16 [1]%Z) 3 3 = Ok [0; 18; 1] /\
    match vread (view no_files ix) 0 (22 * nodeSize fops32 (cA 16)) with
    | Ok bs => nn (ib ix) = 22 /\ n_items ix = 19 /\
        match Ld bs with
        | Ok (ix', None) => n_items ix' = 2 /\ ask (cA 16) no_files ix' (pad 16 [1]%Z) 3 3 = Ok [18; 1]
        | _ => False
        end
    | Er _ => False
    end).
  - subst Ld. vm_compute. repeat split.
  - intros ix [H1 H2]. split; [exact H1|]. apply (ok_intro2 _ _ _ H2).
    intros bs (H3 & H4 & H5). split; [exact H3|]. split; [exact H4|]. unfold Ld in H5.
    destruct (load _ _ _ _ _ _) as [[ix' [e|]]|]; try easy. eauto.
Qed.

Print Assumptions C02_item_overwritten_by_distant_item.
Print Assumptions C05_add_after_build_destroys_tree.
Print Assumptions C09_short_vectors_lose_items.
Print Assumptions C15_stored_hyperplane_disagrees.
Print Assumptions C31_own_context_too_small.
Print Assumptions C32_wrong_side_first.
Print Assumptions C32_no_item_finds_itself.
Print Assumptions C33_short_query_reads_out_of_bounds.
Print Assumptions C37_self_distance_nan_overflow.
Print Assumptions C37_self_distance_nan_underflow.
Print Assumptions C37_self_distance_sqrt2.
Print Assumptions C38_not_inner_product.
Print Assumptions C49_one_item_index_cannot_be_loaded.
Print Assumptions C50_reload_loses_items.
Print Assumptions C51_truncated_file_accepted.
