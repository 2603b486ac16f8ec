(** Loading files (C68 - C70) and the one-worker multi-worker policy (C71). *)
From Verif Require Import Base Flt Layout Rng Sorts Alloc Prog Dist Build Policy Index Search Exact Spec ForestSpec BuildSpec
  Lib LayoutProof FltProof StoreProof SearchProof SameProof LoadProof AloneProof Concrete PropSearch PropForest PropSame.
Open Scope N_scope.

(** ** C68 *)
(** What Load makes of a non-empty file depends on its bytes only: not on the file's name,
    on the allocator, or on what the index object held before. *)
Theorem C68_load_depends_on_contents_only :
  forall fo c bs, bs <> [] ->
  forall k fs a f, fs f = Some bs -> rnd (ib a) <> None ->
  forall k' fs' b g, fs' g = Some bs -> rnd (ib b) <> None ->
  match load fo c k fs a f, load fo c k' fs' b g with
  | Ok (a', e), Ok (b', e') => e' = e /\ n_items b' = n_items a' /\ rootsN (ib b') = rootsN (ib a') /\ iloaded b' = iloaded a' /\
      (e = None -> create_context fo b' = create_context fo a') /\
      forall fs1 fs2, fs1 f = Some bs -> fs2 g = Some bs ->
        (forall i, get_item fo c fs2 b' i = get_item fo c fs1 a' i) /\
        (forall i j, get_distance fo c fs2 b' i j = get_distance fo c fs1 a' i j) /\
        forall sortIx sortPairs fuel q n inspect bc,
          get_nns_by_vector fo c sortIx sortPairs fuel fs2 b' q n inspect bc = get_nns_by_vector fo c sortIx sortPairs fuel fs1 a' q n inspect bc
  | Er e, Er e' => e' = e
  | _, _ => False
  end.
Proof.
  intros fo c bs Hne k fs a f H Ha k' fs' b g H' Hb. pose proof (load_content fo c k fs a f k' fs' b g bs H H' Hne Ha Hb) as X.
  destruct (load fo c k fs a f) as [[a' e]|], (load fo c k' fs' b g) as [[b' e']|]; try exact X.
  destruct X as (-> & X1 & X2 & X3 & X4 & X5 & X6). split; [reflexivity|]. split; [exact X1|]. split; [exact X3|]. split; [exact X4|]. split.
  - intros ->. destruct (X6 eq_refl) as (X7 & _ & _). unfold create_context, context_length. now rewrite X2, X7.
  - intros fs1 fs2 H1 H2. destruct (getters_by_view fo c fs1 a' fs2 b' (X5 fs1 fs2 H1 H2)) as [G1 G2]. split; [exact G1|]. split; [exact G2|].
    intros. apply query_by_view; auto.
Qed.
(** The file of [sm_fs], loaded into an index that holds items and into a new one. *)
Example C68_example : match sm_fs 7 with Some (_ :: _) => True | _ => False end /\
  rnd (ib fx_single) <> None /\ rnd (ib (ix0 (cA 16))) <> None /\
  match load fops32 (cA 16) MmapMem sm_fs fx_single 7, load fops32 (cA 16) GCMem sm_fs (ix0 (cA 16)) 7 with
  | Ok (a, None), Ok (b, None) => n_items a = 20 /\ n_items b = 20 /\ length (rootsN (ib a)) = 3%nat
  | _, _ => False
  end.
Proof. split; [now vm_compute|]. split; [now vm_compute|]. split; [now vm_compute|]. vm_compute. repeat split. Qed.

(** ** C69 *)
(** Saving a loaded index into another file (any file, if it was loaded by copying) writes
    the very bytes it was loaded from, and the index keeps answering as before. *)
Theorem C69_saving_a_loaded_index_copies_its_file :
  forall fo c, CfgOK fo c ->
  forall k fs a f bs a', fs f = Some bs -> load fo c k fs a f = Ok (a', None) -> lenN bs < 2 ^ iw c ->
  forall k' g, g <> f \/ k = GCMem ->
  exists a2 fs2, save fo c k' OsOk fs a' g = Ok (a2, fs2, None) /\
    fs2 g = Some bs /\ (forall x, x <> g -> fs2 x = fs x) /\
    n_items a2 = n_items a' /\ rootsN (ib a2) = rootsN (ib a') /\ create_context fo a2 = create_context fo a' /\
    (forall i, get_item fo c fs2 a2 i = get_item fo c fs a' i) /\
    (forall i j, get_distance fo c fs2 a2 i j = get_distance fo c fs a' i j) /\
    forall sortIx sortPairs fuel q n inspect bc,
      get_nns_by_vector fo c sortIx sortPairs fuel fs2 a2 q n inspect bc = get_nns_by_vector fo c sortIx sortPairs fuel fs a' q n inspect bc.
Proof.
  intros fo c OK k fs a f bs a' H E Hs k' g Hg.
  destruct (resave fo c OK k fs a f bs a' k' g H E Hs Hg) as (a2 & E2 & A1 & A2 & A3 & A4 & _ & _ & A5).
  exists a2, (fs_set fs g (Some bs)). split; [exact E2|].
  assert (Hset : fs_set fs g (Some bs) g = Some bs) by (unfold fs_set; now rewrite N.eqb_refl).
  split; [exact Hset|]. split; [intros x Hx; unfold fs_set; now replace (x =? g) with false by lia|].
  split; [exact A1|]. split; [exact A3|]. split; [unfold create_context, context_length; now rewrite A2, A4|].
  pose proof (A5 fs (fs_set fs g (Some bs)) H Hset) as V.
  destruct (getters_by_view fo c fs a' (fs_set fs g (Some bs)) a2 V) as [G1 G2]. split; [exact G1|]. split; [exact G2|].
  intros. apply query_by_view; auto.
Qed.
Example C69_example : match sm_fs 7 with Some bs => 1000 < lenN bs /\ lenN bs < 2 ^ iw (cA 16) | None => False end /\
  match load fops32 (cA 16) MmapMem sm_fs (ix0 (cA 16)) 7 with Ok (_, None) => True | _ => False end.
Proof. vm_compute. repeat split. Qed.

(** ** C70 *)
(** Load does not check that the links in the file form trees.  If the roots lie in a set of
    split nodes whose children lie in the same set, no query with a positive limit ends. *)
Theorem C70_links_that_never_end :
  forall fo c, CfgOK fo c -> 1 <= vlen c ->
  forall fs ix (C : N -> Prop), (forall i, C i -> exists l r, splits fo c (view fs ix) i l r /\ C l /\ C r) ->
  rootsN (ib ix) <> [] -> (forall r, In r (rootsN (ib ix)) -> C r) ->
  forall sortIx sortPairs fuel q n inspect bc, lenN q = vlen c -> (0 < the_limit ix n inspect)%Z ->
  get_nns_by_vector fo c sortIx sortPairs fuel fs ix q n inspect bc = Er OutOfFuel.
Proof.
  intros fo c OK Hv fs ix C HC Hne HR sortIx sortPairs fuel q n inspect bc Hq Hl.
  apply query_forever with (C := C); auto; try lia. now apply Forall_forall.
Qed.

(** Two nodes of 20 bytes: an item and a split node with children [l] and [r]. *)
Definition two_nodes (l r : N) : list N :=
  le_enc 4 1 ++ repeat 0 16 ++ le_enc 4 1000 ++ le_enc 4 l ++ le_enc 4 r ++ repeat 0 8.
Definition bad_fs (l r : N) : files := fun _ => Some (two_nodes l r).
Definition bad_ix (l r : N) : idx := match load fops32 (cA 2) GCMem (bad_fs l r) (ix0 (cA 2)) 0 with Ok (ix, _) => ix | Er _ => ix0 (cA 2) end.
Lemma bad_loads : load fops32 (cA 2) GCMem (bad_fs 1 1) (ix0 (cA 2)) 0 = Ok (bad_ix 1 1, None).
Proof. vm_compute. reflexivity. Qed.

(** Such a file is accepted, by both allocators and into any index. *)
Theorem C70_accepted_file_that_hangs_every_query :
  exists c bs, CfgOK fops32 c /\ 1 <= vlen c /\
  forall k fs f ix, fs f = Some bs -> rnd (ib ix) <> None ->
  exists ix', load fops32 c k fs ix f = Ok (ix', None) /\
    forall sortIx sortPairs fuel q n inspect bc, lenN q = vlen c -> (0 < the_limit ix' n inspect)%Z ->
    get_nns_by_vector fops32 c sortIx sortPairs fuel fs ix' q n inspect bc = Er OutOfFuel.
Proof.
  exists (cA 2), (two_nodes 1 1). split; [now apply cA_ok|]. split; [vm_compute; discriminate|].
  intros k fs f ix Hf Hr.
  pose proof (load_content fops32 (cA 2) GCMem (bad_fs 1 1) (ix0 (cA 2)) 0 k fs ix f (two_nodes 1 1) eq_refl Hf ltac:(discriminate) ltac:(discriminate) Hr) as X.
  rewrite bad_loads in X. destruct (load fops32 (cA 2) k fs ix f) as [[ix' e]|]; [|contradiction].
  destruct X as (-> & X1 & _ & X2 & _ & X3 & _). exists ix'. split; [reflexivity|].
  assert (Hroots : rootsN (ib ix') = [1]) by (rewrite X2; vm_compute; reflexivity).
  specialize (X3 (bad_fs 1 1) fs eq_refl Hf).
  intros. apply C70_links_that_never_end with (C := fun i => i = 1); try assumption.
  - now apply cA_ok.
  - vm_compute; discriminate.
  - intros i ->. exists 1, 1. split; [|auto]. rewrite X3.
    assert (B : match vread (view (bad_fs 1 1) (bad_ix 1 1)) (addr fops32 (cA 2) 1) (nodeSize fops32 (cA 2)) with
      | Ok bs => (maxK fops32 (cA 2) <? n_desc (cA 2) bs) = true /\ n_children (cA 2) 2 bs = [1; 1] | Er _ => False end).
    { vm_compute. auto. }
    destruct (vread _ _ _) as [bs|] eqn:E; [|contradiction]. destruct B as [B1 B2].
    econstructor; [exact E| |exact B2]. lia.
  - rewrite Hroots. discriminate.
  - rewrite Hroots. intros r [<-|[]]. reflexivity.
Qed.
(** And a child number outside the file makes the query read outside the file's memory. *)
Theorem C70_accepted_file_that_faults :
  exists c bs q, CfgOK fops32 c /\ lenN q = vlen c /\
  exists fs f ix', fs f = Some bs /\ load fops32 c GCMem fs (ix0 c) f = Ok (ix', None) /\
    query c 10 fs ix' q 1 1 (create_context fops32 ix') = Er Fault.
Proof.
  exists (cA 2), (two_nodes 7 7), (fv [1; 0]%Z). split; [now apply cA_ok|]. split; [reflexivity|].
  exists (bad_fs 7 7), 0, (bad_ix 7 7). split; [reflexivity|]. split; vm_compute; reflexivity.
Qed.
Example C70_example : (0 < the_limit (bad_ix 1 1) 1 (-1))%Z /\ rootsN (ib (bad_ix 1 1)) = [1] /\ n_items (bad_ix 1 1) = 1000.
Proof. vm_compute. repeat split. Qed.

(** ** C71 *)
(** With one worker the multi-worker policy has exactly the result of the single-worker
    policy.  [build_multi_exact]: no other goroutine touches the generator. *)
Theorem C71_one_worker_is_the_single_worker_policy :
  forall fo c, CfgOK fo c ->
  forall h ix T fuel mfuel rfuel nworkers ncpu, build_call fo c h ix T 1 fuel mfuel -> worker_count nworkers ncpu = Ok 1%nat ->
  forall ix', build_multi_exact fo c fuel mfuel rfuel ix T nworkers ncpu ix' <-> build_single fo c fuel mfuel rfuel ix T = Ok ix'.
Proof. intros fo c OK h ix T fuel mfuel rfuel nworkers ncpu B W. exact (one_worker_exact fo c OK h ix T fuel mfuel rfuel nworkers ncpu B W). Qed.
(** Exact draws are among the draws considered everywhere else. *)
Theorem C71_exact_builds_are_builds :
  forall fo c fuel mfuel rfuel ix T nworkers ncpu ix',
  build_multi_exact fo c fuel mfuel rfuel ix T nworkers ncpu ix' -> build_multi fo c fuel mfuel rfuel ix T nworkers ncpu ix'.
Proof.
  intros fo c fuel mfuel rfuel ix T nworkers ncpu ix' (plan & s0 & ps & s1 & B1 & B2 & B3 & B4 & B5).
  exists plan, s0, ps, s1. repeat (split; [assumption|]). split; [now apply xpool_pool|auto].
Qed.
Example C71_example : worker_count 1 8 = Ok 1%nat /\ worker_count (-1) 1 = Ok 1%nat /\
  build_call fops32 (cA 16) exq_items fx_ix 3 1 100 100 /\ build_single fops32 (cA 16) 100 100 100 fx_ix 3 = Ok fx_single.
Proof. split; [reflexivity|]. split; [reflexivity|]. split; [apply fx_call; lia|]. apply fx_single_run. Qed.

Print Assumptions C68_load_depends_on_contents_only.
Print Assumptions C69_saving_a_loaded_index_copies_its_file.
Print Assumptions C70_links_that_never_end.
Print Assumptions C70_accepted_file_that_hangs_every_query.
Print Assumptions C70_accepted_file_that_faults.
Print Assumptions C71_one_worker_is_the_single_worker_policy.
Print Assumptions C71_exact_builds_are_builds.
