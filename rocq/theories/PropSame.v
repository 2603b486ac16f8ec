(** Indexes that cannot be told apart (C60, C62). *)
From Verif Require Import Base Flt Layout Rng Sorts Alloc Prog Dist Build Policy Index Search Spec ForestSpec BuildSpec
  Lib LayoutProof FltProof MemProof StoreProof SearchProof QueryProof PolicyProof BuildProof ForestProof TopProof
  AfterProof RelProof SameProof SchedProof Concrete PropSearch PropForest.
From Coq Require Import Permutation.
Open Scope N_scope.

(** ** C60 *)
(** Two histories of additions that leave the same items, on new indexes with any
    allocation hints and generators in the same state.  One-worker builds of both either
    both exceed the model's bound on rejected draws, or both succeed with indexes that
    cannot be told apart. *)
Theorem C60_build_does_not_depend_on_layout :
  forall fo c, CfgOK fo c ->
  forall h1 ix1 h2 ix2 T fuel mfuel rfuel,
  build_call fo c h1 ix1 T 1 fuel mfuel -> build_call fo c h2 ix2 T 1 fuel mfuel ->
  (forall i, last_added h2 i = last_added h1 i) -> rnd (ib ix2) = rnd (ib ix1) ->
  (build_single fo c fuel mfuel rfuel ix1 T = Er Unlucky /\ build_single fo c fuel mfuel rfuel ix2 T = Er Unlucky) \/
  exists a b, build_single fo c fuel mfuel rfuel ix1 T = Ok a /\ build_single fo c fuel mfuel rfuel ix2 T = Ok b /\
    same_index fo c a b.
Proof. intros fo c OK h1 ix1 h2 ix2 T fuel mfuel rfuel. apply (build_same fo c OK). Qed.

(** Every query on the two built indexes, with any context, has the same outcome. *)
Theorem C60_queries_do_not_depend_on_layout :
  forall fo c, CfgOK fo c -> 3 * ixb c <= vlen c ->
  forall sortIx sortPairs, sort_slice N.ltb sortIx ->
  forall h1 ix1 h2 ix2 T fuel mfuel rfuel a b,
  build_call fo c h1 ix1 T 1 fuel mfuel -> build_call fo c h2 ix2 T 1 fuel mfuel ->
  (forall i, last_added h2 i = last_added h1 i) -> rnd (ib ix2) = rnd (ib ix1) ->
  build_single fo c fuel mfuel rfuel ix1 T = Ok a -> build_single fo c fuel mfuel rfuel ix2 T = Ok b ->
  create_context fo b = create_context fo a /\
  forall qfuel fs q n inspect bc, lenN (c_nns bc) < 2 ^ iw c ->
    get_nns_by_vector fo c sortIx sortPairs qfuel fs b q n inspect bc =
    get_nns_by_vector fo c sortIx sortPairs qfuel fs a q n inspect bc.
Proof.
  intros fo c OK Hv sI sP HI h1 ix1 h2 ix2 T fuel mfuel rfuel a b B1 B2 H HR E1 E2.
  destruct (both_built fo c OK _ _ _ _ _ _ _ rfuel a b B1 B2 H HR E1 E2) as (SX & I & (plan & A) & _). split.
  - unfold create_context, context_length. now rewrite (sx_batch _ _ _ _ SX), ?(sx_items _ _ _ _ SX), ?(sx_nodes _ _ _ _ SX), ?(sx_roots _ _ _ _ SX).
  - intros. eapply (same_query fo c OK); eauto.
Qed.

(** Save of either one leaves the same files, the same error if any, and indexes that
    cannot be told apart. *)
Theorem C60_saved_files_do_not_depend_on_layout :
  forall fo c, CfgOK fo c ->
  forall h1 ix1 h2 ix2 T fuel mfuel rfuel a b,
  build_call fo c h1 ix1 T 1 fuel mfuel -> build_call fo c h2 ix2 T 1 fuel mfuel ->
  (forall i, last_added h2 i = last_added h1 i) -> rnd (ib ix2) = rnd (ib ix1) ->
  build_single fo c fuel mfuel rfuel ix1 T = Ok a -> build_single fo c fuel mfuel rfuel ix2 T = Ok b ->
  forall k os fs f,
  match save fo c k os fs a f, save fo c k os fs b f with
  | Ok (a', fs1, e1), Ok (b', fs2, e2) => fs2 = fs1 /\ e2 = e1 /\ same_index fo c a' b'
  | Er e1, Er e2 => e2 = e1
  | _, _ => False
  end.
Proof.
  intros fo c OK h1 ix1 h2 ix2 T fuel mfuel rfuel a b B1 B2 H HR E1 E2 k os fs f.
  destruct (both_built fo c OK _ _ _ _ _ _ _ rfuel a b B1 B2 H HR E1 E2) as (SX & I & (p1 & A1) & (p2 & A2)).
  pose proof (save_same fo c k os fs f a b SX (bt_cap _ _ _ _ _ _ A1) (proj2 (proj2 (bt_flags _ _ _ _ _ _ A1)))
    (proj2 (proj2 (bt_flags _ _ _ _ _ _ A2)))) as X. unfold save_outcome in X.
  destruct (save fo c k os fs a f) as [[[a' fs1] e1]|], (save fo c k os fs b f) as [[[b' fs2] e2]|]; intuition.
Qed.

(** The 20 items of [exq_items] added in order to an index without a hint; and added
    backwards, after a first version of item 5 that is then replaced, with a hint of 64. *)
Definition sm_items : list (N * list (F fops32)) := (5, pad 16 [9; 9; 9]%Z) :: rev exq_items.
Definition sm_ix : idx := Eval vm_compute in
  or_else (ix0 (cA 16)) (add_all fops32 (cA 16) (new_index fops32 (cA 16) (Some (kiss_new 0)) 64) sm_items).
Lemma sm_call T : (-1 <= T <= 4)%Z -> build_call fops32 (cA 16) sm_items sm_ix T 1 100 100.
Proof.
  intro HT. destruct (fx_call T 1 HT) as [H1 H2 H3 H4 H5 H6 H7 H8]; [lia|].
  assert (Hn : n_items sm_ix = n_items fx_ix) by (vm_compute; reflexivity).
  constructor; rewrite ?Hn; auto.
  - unfold hist_ok in *. unfold sm_items. constructor.
    + cbn [fst snd]. split; [|reflexivity]. eapply cap_ok_mono with (n := 20); [lia|]. vm_compute. reflexivity.
    + apply Forall_forall. intros x Hx. apply in_rev in Hx. rewrite Forall_forall in H2. now apply H2.
  - exists (kiss_new 0), 64. vm_compute. reflexivity.
Qed.
Lemma sm_same i : last_added sm_items i = last_added exq_items i.
Proof.
  assert (Hd : NoDup (map fst exq_items)).
  { unfold exq_items. rewrite map_map. cbn [fst]. rewrite map_id. apply NoDup_rangeN. }
  pose proof (last_added_perm exq_items (rev exq_items) Hd (Permutation_rev exq_items)) as H.
  unfold sm_items. cbn [last_added]. rewrite H. destruct (last_added exq_items i) as [v|] eqn:E; [reflexivity|].
  destruct (N.eqb_spec 5 i) as [<-|]; [|reflexivity]. exfalso.
  assert (X : match last_added exq_items 5 with Some _ => true | None => false end = true) by (vm_compute; reflexivity).
  now rewrite E in X.
Qed.
(** They have different capacities and the same forest and answers. *)
Definition sm_single : idx := Eval vm_compute in or_else sm_ix (build_single fops32 (cA 16) 100 100 100 sm_ix 3).
Example C60_example :
  build_call fops32 (cA 16) exq_items fx_ix 3 1 100 100 /\ build_call fops32 (cA 16) sm_items sm_ix 3 1 100 100 /\
  (forall i, last_added sm_items i = last_added exq_items i) /\ rnd (ib sm_ix) = rnd (ib fx_ix) /\
  build_single fops32 (cA 16) 100 100 100 fx_ix 3 = Ok fx_single /\
  build_single fops32 (cA 16) 100 100 100 sm_ix 3 = Ok sm_single /\
  ns (ib fx_single) <> ns (ib sm_single) /\ rootsN (ib sm_single) = rootsN (ib fx_single) /\
  length (rootsN (ib sm_single)) = 3%nat.
Proof.
  split; [apply fx_call; lia|]. split; [apply sm_call; lia|]. split; [apply sm_same|].
  split; [vm_compute; reflexivity|]. split; [apply fx_single_run|]. split; [vm_compute; reflexivity|].
  split; [vm_compute; discriminate|]. split; vm_compute; reflexivity.
Qed.

(** ** C62 *)
(** Loading a non-empty file into any index, by memory-mapping it or by reading it into
    memory: the same outcome.  As long as the file keeps its contents both show the same
    bytes, so every getter and every query has the same outcome. *)
Theorem C62_mapped_and_copied_loads_agree :
  forall fo c ix fs f bs, fs f = Some bs -> bs <> [] ->
  match load fo c GCMem fs ix f, load fo c MmapMem fs ix f with
  | Ok (a, e1), Ok (b, e2) =>
      e2 = e1 /\ n_items b = n_items a /\ rootsN (ib b) = rootsN (ib a) /\ create_context fo b = create_context fo a /\
      iloaded b = iloaded a /\ ibuilt b = ibuilt a /\ rnd (ib b) = rnd (ib a) /\
      forall fs', fs' f = Some bs ->
        (forall i, get_item fo c fs' b i = get_item fo c fs' a i) /\
        (forall i j, get_distance fo c fs' b i j = get_distance fo c fs' a i j) /\
        forall sortIx sortPairs fuel q n inspect bc,
          get_nns_by_vector fo c sortIx sortPairs fuel fs' b q n inspect bc =
          get_nns_by_vector fo c sortIx sortPairs fuel fs' a q n inspect bc
  | Er e1, Er e2 => e2 = e1
  | _, _ => False
  end.
Proof.
  intros fo c ix fs f bs H Hne. pose proof (load_kinds fo c fs ix f bs H Hne) as X.
  destruct (load fo c GCMem fs ix f) as [[a e1]|], (load fo c MmapMem fs ix f) as [[b e2]|]; try contradiction; [|auto].
  destruct X as (<- & X1 & X2 & X3 & X4 & X5 & X6 & X7 & X8). split; [reflexivity|]. split; [exact X1|]. split; [exact X3|].
  split; [unfold create_context, context_length; now rewrite ?X1, ?X2, X4|]. split; [exact X5|]. split; [exact X6|]. split; [exact X7|].
  intros fs' H'. destruct (getters_by_view fo c fs' a fs' b (X8 fs' H')) as [G1 G2]. split; [exact G1|]. split; [exact G2|].
  intros. apply query_by_view; auto.
Qed.
(** They differ on an empty file: mapping it is an error, reading it panics.  And they
    differ as soon as the file changes: only the mapped index sees the change. *)
Definition sm_bytes : list N := Eval vm_compute in
  match save fops32 (cA 16) GCMem OsOk no_files fx_single 7 with Ok (_, fs, _) => match fs 7 with Some bs => bs | None => [] end | Er _ => [] end.
Definition sm_fs : files := fs_set no_files 7 (Some sm_bytes).
Definition sm_loaded (k : imkind) : idx := match load fops32 (cA 16) k sm_fs (ix0 (cA 16)) 7 with Ok (ix, _) => ix | Er _ => ix0 (cA 16) end.
Definition sm_copied : idx := Eval vm_compute in sm_loaded GCMem.
Definition sm_mapped : idx := Eval vm_compute in sm_loaded MmapMem.
Definition sm_zeroed : files := fs_set no_files 7 (Some (repeat 0 (N.to_nat (26 * nodeSize fops32 (cA 16))))).
Theorem C62_mapped_and_copied_loads_can_differ :
  exists c ix fs f, CfgOK fops32 c /\ iloaded ix = false /\
  (let fs0 := fs_set fs f (Some []) in load fops32 c GCMem fs0 ix f = Er (Panic PIndex) /\
     exists b, load fops32 c MmapMem fs0 ix f = Ok (b, Some EInval)) /\
  exists a b fs', load fops32 c GCMem fs ix f = Ok (a, None) /\ load fops32 c MmapMem fs ix f = Ok (b, None) /\
     (forall g, g <> f -> fs' g = fs g) /\
     get_item fops32 c fs b 0 = get_item fops32 c fs a 0 /\ get_item fops32 c fs' a 0 = get_item fops32 c fs a 0 /\
     get_item fops32 c fs' b 0 <> get_item fops32 c fs b 0.
Proof.
  exists (cA 16), (ix0 (cA 16)), sm_fs, 7. split; [now apply cA_ok|]. split; [reflexivity|]. split.
  { cbv zeta. split; [vm_compute; reflexivity|]. eexists. vm_compute. reflexivity. }
  exists sm_copied, sm_mapped, sm_zeroed.
  split; [vm_compute; reflexivity|]. split; [vm_compute; reflexivity|]. split.
  { intros g Hg. unfold sm_zeroed, sm_fs, fs_set. apply N.eqb_neq in Hg. now rewrite Hg. }
  split; [vm_compute; reflexivity|]. split; [vm_compute; reflexivity|]. vm_compute. discriminate.
Qed.
Example C62_example : match sm_fs 7 with Some (_ :: _) => True | _ => False end /\
  n_items sm_copied = 20 /\ length (rootsN (ib sm_mapped)) = 3%nat.
Proof. vm_compute. repeat split. Qed.

Print Assumptions C60_build_does_not_depend_on_layout.
Print Assumptions C60_queries_do_not_depend_on_layout.
Print Assumptions C60_saved_files_do_not_depend_on_layout.
Print Assumptions C62_mapped_and_copied_loads_agree.
Print Assumptions C62_mapped_and_copied_loads_can_differ.
