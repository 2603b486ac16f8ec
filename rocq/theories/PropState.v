(** Properties of the life cycle of an index object: Build, Close, Load, Save and the
    builder (C11, C13, C14, C46, C51-C55, C58, C59). *)
From Verif Require Import Base Flt Layout Rng Sorts Alloc Prog Dist Build Policy Index Search Builder Spec StateSpec ForestSpec Lib LayoutProof FltProof MemProof StoreProof ActsProof StateProof SortsProof SearchProof Concrete.
Open Scope N_scope.

(** Index objects the examples use: three items, one tree, saved to file 7 and read
    back with the given kind of file memory. *)
Definition ex_items : list (N * list (F fops32)) :=
  [(2, pad 12 [1; 2]%Z); (1, pad 12 [1]%Z); (0, pad 12 [0; 1]%Z)].
Definition ex_saved (k : imkind) : res (idx * files * option ioerr) :=
  let* ix := built (cA 12) (ex_items ++ map (fun i => (i, pad 12 [Z.of_N i; 3]%Z)) [3; 4; 5; 6; 7; 8; 9; 10; 11; 12; 13; 14; 15]) 2 in
  save fops32 (cA 12) k OsOk no_files ix 7.
Definition is_ok {A} (r : res A) : bool := match r with Ok _ => true | Er _ => false end.

(** ** C11 *)
(** Build(T, 0): whatever T, whatever the schedule, the index gets no root, and so
    every query with a vector of the right length returns nothing. *)
Theorem C11_zero_workers_no_trees :
  forall fo c, CfgOK fo c ->
  forall r hint h ix, hist_ok fo c h -> add_all fo c (new_index fo c r hint) h = Ok ix ->
  forall fuel mfuel rfuel trees ncpu ix', build_multi fo c fuel mfuel rfuel ix trees 0 ncpu ix' ->
  rootsN (ib ix') = [] /\
  forall sortIx sortPairs, sort_slice N.ltb sortIx ->
  forall fu fs vec n inspect bc, lenN vec = vlen c ->
    answer fo (get_nns_by_vector fo c sortIx sortPairs fu fs ix' vec n inspect bc) = Ok ([], []).
Proof.
  intros fo c OK r hint h ix Hh E fuel mfuel rfuel trees ncpu ix' B.
  assert (Hr : rootsN (ib ix') = []).
  { unfold rootsN. rewrite (build_zero_workers _ _ _ _ _ _ _ _ _ B).
    destruct (fresh_add_all fo c OK r hint h Hh) as (ix2 & E2 & _ & _ & _ & Hb & _).
    rewrite E in E2. injection E2 as <-. now rewrite Hb. }
  split; [exact Hr|]. intros sortIx sortPairs HI fu fs vec n inspect bc Hv.
  unfold answer. rewrite (empty_query fo c sortIx sortPairs HI); [reflexivity|lia|now right].
Qed.
(** A negative worker count other than -1 panics before any worker starts. *)
Theorem C11_negative_workers_panic :
  forall trees nworkers ncpu, (nworkers < -1)%Z ->
  work_plan trees nworkers ncpu = Er (Panic PWaitGroup).
Proof. exact negative_workers_panic. Qed.
Theorem C11_negative_workers_no_result :
  forall fo c fuel mfuel rfuel ix trees nworkers ncpu ix', (nworkers < -1)%Z ->
  ~ build_multi fo c fuel mfuel rfuel ix trees nworkers ncpu ix'.
Proof. exact negative_workers_no_result. Qed.
Example C11_example :
  exists ix ix', add_all fops32 (cA 12) (ix0 (cA 12)) ex_items = Ok ix /\
    build_multi fops32 (cA 12) 10 10 10 ix 5 0 8 ix' /\ n_items ix' = 3.
Proof.
  set (ix := match add_all fops32 (cA 12) (ix0 (cA 12)) ex_items with Ok ix => ix | Er _ => ix0 (cA 12) end).
  set (s0 := match build_pre fops32 (cA 12) ix with Ok s => s | Er _ => ib ix end).
  set (ix' := match build_post fops32 (cA 12) ix s0 with Ok s => s | Er _ => ix end).
  exists ix, ix'. split; [vm_compute; reflexivity|]. split; [|vm_compute; reflexivity].
  exists [], s0, [], s0. split; [vm_compute; reflexivity|]. split; [reflexivity|]. split; [apply pss_refl|].
  split; [reflexivity|vm_compute; reflexivity].
Qed.

(** ** C13 *)
Theorem C13_build_on_loaded_panics :
  forall fo c fuel mfuel rfuel ix trees, iloaded ix = true ->
  build_single fo c fuel mfuel rfuel ix trees = Er (Panic PLoaded) /\
  forall nworkers ncpu ix', ~ build_multi fo c fuel mfuel rfuel ix trees nworkers ncpu ix'.
Proof. intros. split; [now apply build_loaded|]. intros. apply build_multi_rejected. now left. Qed.
(** After a successful Build, any sequence of AddItem and Close calls leaves an index
    whose Build panics, whichever policy is used then. *)
Theorem C13_second_build_panics_single :
  forall fo c fuel mfuel rfuel ix trees ix1 ops ix2,
  build_single fo c fuel mfuel rfuel ix trees = Ok ix1 -> do_ops fo c ix1 ops = Ok ix2 ->
  forall fuel2 mfuel2 rfuel2 trees2, build_single fo c fuel2 mfuel2 rfuel2 ix2 trees2 = Er (Panic PBuilt).
Proof. intros. eapply rebuild_rejected; eauto. Qed.
Theorem C13_second_build_panics_multi :
  forall fo c fuel mfuel rfuel ix trees nworkers ncpu ix1 ops ix2,
  build_multi fo c fuel mfuel rfuel ix trees nworkers ncpu ix1 -> do_ops fo c ix1 ops = Ok ix2 ->
  (forall fuel2 mfuel2 rfuel2 trees2, build_single fo c fuel2 mfuel2 rfuel2 ix2 trees2 = Er (Panic PBuilt)) /\
  (forall fuel2 mfuel2 rfuel2 trees2 nworkers2 ncpu2 ix3,
     ~ build_multi fo c fuel2 mfuel2 rfuel2 ix2 trees2 nworkers2 ncpu2 ix3).
Proof. exact rebuild_rejected_multi. Qed.
Example C13_example :
  exists ix1 ix2, built (cA 12) ex_items 1 = Ok ix1 /\
    do_ops fops32 (cA 12) ix1 [OAdd 5 (pad 12 [1]%Z); OClose; OAdd 0 (pad 12 [7]%Z)] = Ok ix2 /\ n_items ix2 = 1.
Proof.
  set (b := built (cA 12) ex_items 1). set (ix1 := match b with Ok ix => ix | Er _ => ix0 (cA 12) end).
  set (ix2 := match do_ops fops32 (cA 12) ix1 [OAdd 5 (pad 12 [1]%Z); OClose; OAdd 0 (pad 12 [7]%Z)] with Ok ix => ix | Er _ => ix1 end).
  exists ix1, ix2. split; [|split]; vm_compute; reflexivity.
Qed.

(** ** C14 *)
(** Two worker numbers, same number of trees, same starting state: same failure or
    same arenas, node pointer, node count, capacity, roots and generator. *)
Theorem C14_worker_number_irrelevant :
  forall fo c nitems fuel mfuel rfuel trees v w s,
  match run c v (thread_build fo c nitems fuel mfuel rfuel trees v) s,
        run c w (thread_build fo c nitems fuel mfuel rfuel trees w) s with
  | Ok (_, s1), Ok (_, s2) =>
      heap s1 = heap s2 /\ al s1 = al s2 /\ base s1 = base s2 /\ nn s1 = nn s2 /\ ns s1 = ns s2 /\
      rootsN s1 = rootsN s2 /\ rnd s1 = rnd s2
  | Er e1, Er e2 => e1 = e2
  | _, _ => False
  end.
Proof.
  intros fo c nitems f mf rf t v w s. pose proof (thread_build_sim fo c nitems f mf rf t v w s) as H.
  unfold sim_res, sim in H. destruct (run c v _ s) as [[x s1]|], (run c w _ s) as [[y s2]|]; auto. apply H.
Qed.
Example C14_example :
  exists ix s0, add_all fops32 (cA 12) (ix0 (cA 12)) ex_items = Ok ix /\ build_pre fops32 (cA 12) ix = Ok s0 /\
    match run (cA 12) 3 (thread_build fops32 (cA 12) 3 10 10 10 4 3) s0 with
    | Ok (_, s1) => rootsN s1 = [3; 4; 5; 6] | Er _ => False end.
Proof.
  set (ix := match add_all fops32 (cA 12) (ix0 (cA 12)) ex_items with Ok ix => ix | Er _ => ix0 (cA 12) end).
  set (s0 := match build_pre fops32 (cA 12) ix with Ok s => s | Er _ => ib ix end).
  exists ix, s0. split; [|split]; vm_compute; reflexivity.
Qed.

(** ** C46 *)
Theorem C46_save_unbuilt :
  forall fo c k os fs ix f, ibuilt ix = false -> save fo c k os fs ix f = Ok (ix, fs, Some ENotBuilt).
Proof. exact save_unbuilt. Qed.
Example C46_example :
  exists ix, add_all fops32 (cA 12) (ix0 (cA 12)) ex_items = Ok ix /\ ibuilt ix = false /\ n_items ix = 3.
Proof. apply ok_intro. vm_compute. repeat split. Qed.

(** ** C51, first half *)
Theorem C51_wrong_size_rejected :
  forall fo c, CfgOK fo c -> forall k fs ix f bs r,
  rnd (ib ix) = Some r -> fs f = Some bs -> lenN bs mod nodeSize fo c <> 0 ->
  exists ix', load fo c k fs ix f = Ok (ix', Some ESize).
Proof. exact load_bad_size. Qed.
(** No other content check: a file of a positive number of whole nodes is never refused
    with an error. *)
Theorem C51_whole_nodes_never_refused :
  forall fo c k fs ix f bs ix' e,
  fs f = Some bs -> bs <> [] -> lenN bs mod nodeSize fo c = 0 -> load fo c k fs ix f <> Ok (ix', Some e).
Proof. exact load_good_size. Qed.
Example C51_example :
  rnd (ib (ix0 (cA 12))) = Some (kiss_new 0) /\ lenN (repeat 7 61) mod nodeSize fops32 (cA 12) <> 0 /\
  lenN (repeat 7 120) mod nodeSize fops32 (cA 12) = 0.
Proof. vm_compute. repeat split. discriminate. Qed.

(** ** C52 *)
Theorem C52_failed_load_leaves_empty_index :
  forall fo c k fs ix f ix' e, load fo c k fs ix f = Ok (ix', Some e) ->
  n_items ix' = 0 /\ rootsN (ib ix') = [] /\ iloaded ix' = false /\ imemory ix' = None /\
  forall sortIx sortPairs, sort_slice N.ltb sortIx ->
  forall fu fs' vec n inspect bc, lenN vec = vlen c ->
    answer fo (get_nns_by_vector fo c sortIx sortPairs fu fs' ix' vec n inspect bc) = Ok ([], []).
Proof.
  intros fo c k fs ix f ix' e E. destruct (load_error _ _ _ _ _ _ _ _ E) as (H1 & H2 & _ & H3 & H4 & _).
  repeat split; auto. intros sortIx sortPairs HI fu fs' vec n inspect bc Hv.
  unfold answer. rewrite (empty_query fo c sortIx sortPairs HI); [reflexivity|lia|now right].
Qed.
Example C52_example :
  exists ix, built (cA 12) ex_items 1 = Ok ix /\ n_items ix = 3 /\
    exists ix', load fops32 (cA 12) GCMem (fs_set no_files 7 (Some (repeat 0 61))) ix 7 = Ok (ix', Some ESize).
Proof.
  apply ok_intro2 with (Q := fun ix => n_items ix = 3 /\
    match load fops32 (cA 12) GCMem (fs_set no_files 7 (Some (repeat 0 61))) ix 7 with Ok (ix', Some ESize) => True | _ => False end).
  - vm_compute. repeat split.
  - intros ix [H1 H2]. split; [exact H1|]. destruct (load _ _ _ _ _ _) as [[ix' [[]|]]|]; try easy. eauto.
Qed.

(** ** C53 *)
Theorem C53_saving_over_own_mapping :
  forall fo c, CfgOK fo c -> forall ix fs f ix' k os,
  load fo c MmapMem fs ix f = Ok (ix', None) ->
  (forall bs, fs f = Some bs -> lenN bs < 2 ^ iw c) -> os <> OsCreateFails ->
  exists fs', save fo c k os fs ix' f = Ok (ix', fs', Some EWrite) /\ fs' f = Some [] /\
    (forall g, g <> f -> fs' g = fs g) /\
    forall i, get_item fo c fs' ix' i = Er Fault \/ vlen c = 0.
Proof. exact save_over_mapping. Qed.
Example C53_example :
  exists ix fs bs, ex_saved MmapMem = Ok (ix, fs, None) /\ fs 7 = Some bs /\ lenN bs = 1440 /\
    exists ix', load fops32 (cA 12) MmapMem fs (ix0 (cA 12)) 7 = Ok (ix', None).
Proof.
  assert (H : match ex_saved MmapMem with
              | Ok (ix, fs, None) => match fs 7 with
                  | Some bs => lenN bs = 1440 /\ match load fops32 (cA 12) MmapMem fs (ix0 (cA 12)) 7 with Ok (_, None) => True | _ => False end
                  | None => False end
              | _ => False end) by (vm_compute; repeat split).
  destruct (ex_saved MmapMem) as [[[ix fs] [|]]|]; try easy. destruct (fs 7) as [bs|] eqn:Ef; [|easy]. destruct H as [H1 H2].
  exists ix, fs, bs. repeat split; auto. destruct (load _ _ _ _ _ _) as [[ix' [|]]|]; try easy. eauto.
Qed.

(** ** C54 *)
(** The states of the file system a crash can leave are exactly: the old one, or the
    target holding a prefix (any length) of the new content and nothing of the old. *)
Theorem C54_crash_states :
  forall fo c fs ix f bs fs',
  nn (ib ix) * nodeSize fo c < 2 ^ iw c ->
  vread (view (fs_set fs f (Some [])) ix) 0 (nn (ib ix) * nodeSize fo c) = Ok bs -> ibuilt ix = true ->
  (save_crash_states fo c fs ix f fs' <-> fs' = fs \/ exists n, fs' = fs_set fs f (Some (firstn n bs))).
Proof. exact crash_states. Qed.
Theorem C54_ragged_prefix_rejected :
  forall fo c, CfgOK fo c -> forall k fs f bs n ix r,
  rnd (ib ix) = Some r -> lenN (firstn n bs) mod nodeSize fo c <> 0 ->
  exists ix', load fo c k (fs_set fs f (Some (firstn n bs))) ix f = Ok (ix', Some ESize).
Proof. exact crash_prefix_rejected. Qed.
(** Any other non-empty prefix is not refused. *)
Theorem C54_whole_node_prefix_not_rejected :
  forall fo c k fs f bs n ix ix' e,
  firstn n bs <> [] -> lenN (firstn n bs) mod nodeSize fo c = 0 ->
  load fo c k (fs_set fs f (Some (firstn n bs))) ix f <> Ok (ix', Some e).
Proof.
  intros. eapply load_good_size; eauto. unfold fs_set. now rewrite N.eqb_refl.
Qed.
Example C54_example :
  exists ix, built (cA 12) ex_items 1 = Ok ix /\ ibuilt ix = true /\
    nn (ib ix) * nodeSize fops32 (cA 12) < 2 ^ iw (cA 12) /\
    exists bs, vread (view (fs_set no_files 7 (Some [])) ix) 0 (nn (ib ix) * nodeSize fops32 (cA 12)) = Ok bs /\
      lenN (firstn 61 bs) mod nodeSize fops32 (cA 12) <> 0 /\
      firstn 60 bs <> [] /\ lenN (firstn 60 bs) mod nodeSize fops32 (cA 12) = 0.
Proof.
  apply ok_intro2 with (Q := fun ix => ibuilt ix = true /\ nn (ib ix) * nodeSize fops32 (cA 12) < 2 ^ iw (cA 12) /\
    match vread (view (fs_set no_files 7 (Some [])) ix) 0 (nn (ib ix) * nodeSize fops32 (cA 12)) with
    | Ok bs => lenN (firstn 61 bs) mod nodeSize fops32 (cA 12) <> 0 /\ firstn 60 bs <> [] /\ lenN (firstn 60 bs) mod nodeSize fops32 (cA 12) = 0
    | Er _ => False end).
  - vm_compute. repeat split; discriminate.
  - intros ix (H1 & H2 & H3). repeat split; auto. now apply ok_intro.
Qed.

(** ** C55 *)
Theorem C55_close_empties :
  forall ix ix', close ix = Ok ix' ->
  n_items ix' = 0 /\ nn (ib ix') = 0 /\ ns (ib ix') = 0 /\ rootsN (ib ix') = [] /\
  imemory ix' = None /\ iloaded ix' = false /\ (forall fs, view fs ix' = None) /\ close ix' = Ok ix'.
Proof. exact close_spec. Qed.
Theorem C55_close_succeeds : forall ix r, rnd (ib ix) = Some r -> exists ix', close ix = Ok ix'.
Proof. exact close_ok. Qed.
(** Items added after Close read back as on a fresh index. *)
Theorem C55_add_after_close :
  forall fo c, CfgOK fo c -> forall ix ix' h, close ix = Ok ix' -> hist_ok fo c h ->
  exists ix2, add_all fo c ix' h = Ok ix2 /\ n_items ix2 = extent h /\
    (forall fs i v, last_added h i = Some v -> get_item fo c fs ix2 i = Ok v) /\
    (forall fs i, last_added h i = None -> i < extent h ->
       get_item fo c fs ix2 i = Ok (repeat (dec fo 0) (N.to_nat (vlen c)))).
Proof. exact close_then_add. Qed.
Example C55_example :
  exists ix, built (cA 12) ex_items 1 = Ok ix /\ nn (ib ix) = 5 /\ is_ok (close ix) = true /\
    hist_ok fops32 (cA 12) [(1, pad 12 [9]%Z)].
Proof.
  apply ok_intro2 with (Q := fun ix => nn (ib ix) = 5 /\ is_ok (close ix) = true).
  - vm_compute. repeat split.
  - intros ix (H1 & H2). repeat split; auto. repeat constructor.
Qed.

(** ** C58 *)
(** Last call of each kind wins; otherwise the defaults. *)
Theorem C58_builder_defaults :
  forall fo w calls u, bld_build fo w (fold_left (bld_call w) calls bld_index) = Ok u ->
  u_policy u = last_set sel_policy calls SingleWorker /\
  u_im u = last_set sel_im calls MmapMem /\
  rnd (ib (u_idx u)) = match last_set sel_random calls None with
                       | Some r => Some r
                       | None => if w =? 32 then Some (kiss_new 0) else None
                       end /\
  last_set (sel_vlen w) calls None = Some (vlen (u_cfg u)) /\ knd (u_cfg u) = Angular /\ ixb (u_cfg u) = w / 8.
Proof. exact builder_main. Qed.
(** An index without a generator (the 64-bit default): Close, Load and Build panic. *)
Theorem C58_nil_generator_panics :
  forall fo c ix, rnd (ib ix) = None ->
  close ix = Er (Panic PNil) /\
  (forall k fs f, load fo c k fs ix f = Er (Panic PNil)) /\
  (knd c = Angular -> iloaded ix = false -> ibuilt ix = false ->
   forall fu mf rf t, build_single fo c fu mf rf ix t = Er (Panic PNil)).
Proof. exact nil_random_panics. Qed.
Example C58_example :
  exists u, bld_build fops64 64 (fold_left (bld_call 64) [CAngular 3; CMulti; CHint 10; CGCMem; CSingle] bld_index) = Ok u /\
    u_policy u = SingleWorker /\ u_im u = GCMem /\ rnd (ib (u_idx u)) = None /\
    iloaded (u_idx u) = false /\ ibuilt (u_idx u) = false /\ knd (u_cfg u) = Angular.
Proof. apply ok_intro. vm_compute. repeat split. Qed.

(** ** C59 *)
Theorem C59_loaded_is_read_only :
  forall fo c k fs ix f ix', load fo c k fs ix f = Ok (ix', None) ->
  (forall i v, add_item fo c ix' i v = Er (Panic PLoaded)) /\
  (forall fu mf rf t, build_single fo c fu mf rf ix' t = Er (Panic PLoaded)) /\
  (forall fu mf rf t nw ncpu ix2, ~ build_multi fo c fu mf rf ix' t nw ncpu ix2).
Proof. exact loaded_read_only. Qed.
(** After Close items can be added again (C55), but the index still cannot be built. *)
Theorem C59_closed_accepts_items_but_no_build :
  forall fo c, CfgOK fo c -> forall k fs ix f ix' ix2 h, load fo c k fs ix f = Ok (ix', None) -> close ix' = Ok ix2 -> hist_ok fo c h ->
  exists ix3, add_all fo c ix2 h = Ok ix3 /\
    forall fu mf rf t, build_single fo c fu mf rf ix3 t = Er (Panic PBuilt).
Proof.
  intros fo c OK k fs ix f ix' ix2 h E Ec Hh. destruct (load_ok_loaded _ _ _ _ _ _ _ E) as (_ & Hb & _).
  destruct (add_all_inv fo c OK h _ _ (close_inv fo c OK _ _ Ec) Hh) as (ix3 & E3 & I3 & _ & _ & _ & _ & Hb3 & _).
  exists ix3. split; [exact E3|]. intros. apply build_built.
  - apply (ii_loaded _ _ _ _ I3).
  - rewrite Hb3. unfold close in Ec. destruct (rnd (ib ix')); [|discriminate]. injection Ec as <-. exact Hb.
Qed.
Example C59_example :
  exists ix fs ix' ix2, ex_saved GCMem = Ok (ix, fs, None) /\
    load fops32 (cA 12) GCMem fs (ix0 (cA 12)) 7 = Ok (ix', None) /\ n_items ix' = 16 /\ length (rootsN (ib ix')) = 2%nat /\
    close ix' = Ok ix2.
Proof.
  assert (H : match ex_saved GCMem with
              | Ok (ix, fs, None) => match load fops32 (cA 12) GCMem fs (ix0 (cA 12)) 7 with
                  | Ok (ix', None) => n_items ix' = 16 /\ length (rootsN (ib ix')) = 2%nat /\ is_ok (close ix') = true
                  | _ => False end
              | _ => False end) by (vm_compute; repeat split).
  destruct (ex_saved GCMem) as [[[ix fs] [|]]|]; try easy. destruct (load _ _ _ _ _ _) as [[ix' [|]]|] eqn:El; try easy.
  destruct H as (H1 & H2 & H3). destruct (close ix') as [ix2|] eqn:Ec; [|easy].
  exists ix, fs, ix', ix2. repeat split; auto.
Qed.

Print Assumptions C11_zero_workers_no_trees.
Print Assumptions C11_negative_workers_panic.
Print Assumptions C11_negative_workers_no_result.
Print Assumptions C13_build_on_loaded_panics.
Print Assumptions C13_second_build_panics_single.
Print Assumptions C13_second_build_panics_multi.
Print Assumptions C14_worker_number_irrelevant.
Print Assumptions C46_save_unbuilt.
Print Assumptions C51_wrong_size_rejected.
Print Assumptions C51_whole_nodes_never_refused.
Print Assumptions C52_failed_load_leaves_empty_index.
Print Assumptions C53_saving_over_own_mapping.
Print Assumptions C54_crash_states.
Print Assumptions C54_ragged_prefix_rejected.
Print Assumptions C54_whole_node_prefix_not_rejected.
Print Assumptions C55_close_empties.
Print Assumptions C55_close_succeeds.
Print Assumptions C55_add_after_close.
Print Assumptions C58_builder_defaults.
Print Assumptions C58_nil_generator_panics.
Print Assumptions C59_loaded_is_read_only.
Print Assumptions C59_closed_accepts_items_but_no_build.
