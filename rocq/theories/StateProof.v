(** Properties of the index object's state: Build, Close, Load, Save guards. *)
From Verif Require Import Base Flt Layout Rng Alloc Prog Dist Build Policy Index Builder Spec StateSpec Lib LayoutProof MemProof StoreProof ActsProof.
Open Scope N_scope.

Section S.
Variable fo : FOps.
Variable c : Cfg.
Notation V := (list (F fo)).

(** ** Rejected builds (C13) *)
Lemma build_loaded f mf rf ix t : iloaded ix = true -> build_single fo c f mf rf ix t = Er (Panic PLoaded).
Proof. intro H. unfold build_single, build_pre. now rewrite H. Qed.
Lemma build_built f mf rf ix t :
  iloaded ix = false -> ibuilt ix = true -> build_single fo c f mf rf ix t = Er (Panic PBuilt).
Proof. intros H1 H2. unfold build_single, build_pre. now rewrite H1, H2. Qed.
Lemma build_multi_rejected f mf rf ix t nw ncpu ix' :
  iloaded ix = true \/ ibuilt ix = true -> ~ build_multi fo c f mf rf ix t nw ncpu ix'.
Proof.
  intros H (plan & s0 & ps & s1 & E & _). unfold build_pre in E.
  destruct (iloaded ix); [discriminate|]. destruct H as [H|H]; [discriminate|]. rewrite H in E. discriminate.
Qed.
Lemma build_single_marks f mf rf ix t ix' : build_single fo c f mf rf ix t = Ok ix' -> ibuilt ix' = true.
Proof.
  unfold build_single. intro E. apply rbind_ok in E. destruct E as (s0 & E0 & E).
  destruct (rnd s0); [|discriminate]. apply rbind_ok in E. destruct E as ([u s1] & E1 & E).
  unfold build_post in E. apply rbind_ok in E. destruct E as ([u' s2] & E2 & E).
  apply rbind_ok in E. destruct E as (bm & Eb & E). injection E as <-. reflexivity.
Qed.

Notation do_op := (do_op fo c).
Notation do_ops := (do_ops fo c).
Lemma do_op_built ix o ix' : do_op ix o = Ok ix' -> ibuilt ix' = ibuilt ix /\ (iloaded ix = false -> iloaded ix' = false).
Proof.
  destruct o as [i v|]; cbn [do_op].
  - unfold add_item. destruct (iloaded ix) eqn:El; [discriminate|]. destruct (negb _); [discriminate|].
    destruct (2 ^ 30 <? _); [discriminate|]. intro E.
    apply rbind_ok in E. destruct E as ([u s] & _ & E). injection E as <-. split; auto.
  - unfold close. destruct (rnd (ib ix)); [|discriminate]. intro E. injection E as <-. split; auto.
Qed.
Lemma do_ops_built l : forall ix ix', do_ops ix l = Ok ix' -> ibuilt ix' = ibuilt ix /\ (iloaded ix = false -> iloaded ix' = false).
Proof.
  induction l as [|o l IH]; intros ix ix' E; cbn [do_ops] in E; [injection E as <-; auto|].
  apply rbind_ok in E. destruct E as (ix1 & E1 & E). destruct (do_op_built _ _ _ E1) as [H1 H1'].
  destruct (IH _ _ E) as [H2 H2']. split; [congruence|auto].
Qed.
Lemma rebuild_rejected f mf rf ix t ix1 l ix2 f2 mf2 rf2 t2 :
  build_single fo c f mf rf ix t = Ok ix1 -> do_ops ix1 l = Ok ix2 ->
  build_single fo c f2 mf2 rf2 ix2 t2 = Er (Panic PBuilt).
Proof.
  intros E1 E2. destruct (do_ops_built _ _ _ E2) as [H1 H2]. apply build_built.
  - apply H2. unfold build_single, build_pre in E1. destruct (iloaded ix) eqn:El; [discriminate|].
    destruct (ibuilt ix); [discriminate|]. apply rbind_ok in E1. destruct E1 as (s0 & _ & E1).
    destruct (rnd s0); [|discriminate]. apply rbind_ok in E1. destruct E1 as ([u s1] & _ & E1).
    unfold build_post in E1. apply rbind_ok in E1. destruct E1 as ([u' s2] & _ & E1).
    apply rbind_ok in E1. destruct E1 as (bm & _ & E1). injection E1 as <-. exact El.
  - rewrite H1. eapply build_single_marks; eauto.
Qed.

Lemma build_multi_marks f mf rf ix t nw ncpu ix' :
  build_multi fo c f mf rf ix t nw ncpu ix' -> ibuilt ix' = true /\ iloaded ix' = false.
Proof.
  intros (plan & s0 & ps & s1 & E & _ & _ & _ & E2). unfold build_pre in E. destruct (iloaded ix) eqn:El; [discriminate|].
  unfold build_post in E2. apply rbind_ok in E2. destruct E2 as ([u' s2] & _ & E2).
  apply rbind_ok in E2. destruct E2 as (bm & _ & E2). injection E2 as <-. auto.
Qed.
Lemma rebuild_rejected_multi f mf rf ix t nw ncpu ix1 l ix2 :
  build_multi fo c f mf rf ix t nw ncpu ix1 -> do_ops ix1 l = Ok ix2 ->
  (forall f2 mf2 rf2 t2, build_single fo c f2 mf2 rf2 ix2 t2 = Er (Panic PBuilt)) /\
  (forall f2 mf2 rf2 t2 nw2 ncpu2 ix3, ~ build_multi fo c f2 mf2 rf2 ix2 t2 nw2 ncpu2 ix3).
Proof.
  intros E1 E2. destruct (do_ops_built _ _ _ E2) as [H1 H2]. destruct (build_multi_marks _ _ _ _ _ _ _ _ E1) as [H3 H4].
  split; intros; [apply build_built; [auto|congruence]|]. apply build_multi_rejected. right. congruence.
Qed.

(** ** Worker count 0 and negative worker counts (C11) *)
Lemma pool_nil u v : pool_steps c (A:=unit) u v -> fst u = [] -> fst v = [] /\ snd v = snd u.
Proof.
  intro H. induction H as [|u v w H IH Hst]; auto. intro Hu. destruct (IH Hu) as [Hv _].
  inversion Hst; subst. cbn [fst] in Hv. subst. destruct w0; discriminate.
Qed.
Lemma build_zero_workers f mf rf ix t ncpu ix' :
  build_multi fo c f mf rf ix t 0 ncpu ix' -> broots (ib ix') = broots (ib ix).
Proof.
  intros (plan & s0 & ps & s1 & Epre & Eplan & Hs & _ & Epost).
  cbn in Eplan. injection Eplan as <-.
  assert (s1 = s0).
  { exact (proj2 (pool_nil _ _ Hs eq_refl)). }
  subst s1. unfold build_post in Epost. apply rbind_ok in Epost. destruct Epost as ([u s2] & E2 & E).
  apply rbind_ok in E. destruct E as (bm & _ & E). injection E as <-. cbn [ib].
  rewrite (run_broots c 0 _ _ _ _ (acts_copy_roots fo c) E2).
  unfold build_pre in Epre. destruct (iloaded ix); [discriminate|]. destruct (ibuilt ix); [discriminate|].
  apply rbind_ok in Epre. destruct Epre as ([u' s3] & E3 & E4). injection E4 as <-. cbn [broots set_nn].
  exact (run_broots c 0 _ _ _ _ (acts_weaken _ (acts_preprocess fo c _)) E3).
Qed.
Lemma negative_workers_panic t nw ncpu : (nw < -1)%Z -> work_plan t nw ncpu = Er (Panic PWaitGroup).
Proof.
  intro H. unfold work_plan, worker_count. replace (nw =? -1)%Z with false by lia.
  replace (nw <? 0)%Z with true by lia. reflexivity.
Qed.
Lemma negative_workers_no_result f mf rf ix t nw ncpu ix' : (nw < -1)%Z -> ~ build_multi fo c f mf rf ix t nw ncpu ix'.
Proof.
  intros H (plan & s0 & ps & s1 & _ & E & _). rewrite (negative_workers_panic t nw ncpu H) in E. discriminate.
Qed.

(** ** Saving an unbuilt index (C46) *)
Lemma save_unbuilt k os fs ix f : ibuilt ix = false -> save fo c k os fs ix f = Ok (ix, fs, Some ENotBuilt).
Proof. intro H. unfold save. now rewrite H. Qed.

(** ** Close (C55) *)
Lemma close_clone_idem r : kiss_clone (kiss_clone r) = kiss_clone r.
Proof.
  unfold kiss_clone, kiss_new. destruct (N.eqb_spec (kseed r) 0) as [E|E]; cbn [kseed]; [reflexivity|].
  apply N.eqb_neq in E. now rewrite E.
Qed.
Lemma close_spec ix ix' : close ix = Ok ix' ->
  n_items ix' = 0 /\ nn (ib ix') = 0 /\ ns (ib ix') = 0 /\ rootsN (ib ix') = [] /\
  imemory ix' = None /\ iloaded ix' = false /\ (forall fs, view fs ix' = None) /\ close ix' = Ok ix'.
Proof.
  unfold close. destruct (rnd (ib ix)) as [r|] eqn:Er; [|discriminate]. intro E. injection E as <-.
  unfold rootsN, view. cbn. repeat split. now rewrite close_clone_idem.
Qed.
Lemma close_ok ix r : rnd (ib ix) = Some r -> exists ix', close ix = Ok ix'.
Proof. intro H. unfold close. rewrite H. eauto. Qed.

Hypothesis OK : CfgOK fo c.
Lemma close_inv ix ix' : close ix = Ok ix' -> items_inv fo c ix' (fun _ => None).
Proof.
  unfold close. destruct (rnd (ib ix)) as [r|]; [|discriminate]. intro E. injection E as <-.
  pose proof (pow_iw_pos _ _ OK).
  assert (Hz : cap_ok fo c 0) by (unfold cap_ok; replace (0 * 3 / 2) with 0 by reflexivity; lia).
  constructor; cbn [n_items ib iloaded imemory]; try discriminate; auto.
  - constructor; cbn [ns heap al base alloc_free]; auto; cbn; lia.
  - intro i. apply node_at_mempty.
Qed.
Lemma close_then_add ix ix' h : close ix = Ok ix' -> hist_ok fo c h ->
  exists ix2, add_all fo c ix' h = Ok ix2 /\ n_items ix2 = extent h /\
    (forall fs i v, last_added h i = Some v -> get_item fo c fs ix2 i = Ok v) /\
    (forall fs i, last_added h i = None -> i < extent h ->
       get_item fo c fs ix2 i = Ok (repeat (dec fo 0) (N.to_nat (vlen c)))).
Proof.
  intros E H. pose proof (close_inv _ _ E) as I. pose proof (close_spec _ _ E) as (Hn & _).
  destruct (add_all_inv fo c OK h _ _ I H) as (ix2 & E2 & I2 & Hn2 & _). exists ix2. split; [exact E2|].
  rewrite Hn in Hn2. split; [lia|]. split.
  - intros fs i v Hl. rewrite (get_item_spec fo c OK _ _ fs i I2).
    + now rewrite Hl.
    + pose proof (last_added_extent _ _ _ _ Hl). lia.
  - intros fs i Hl Hi. rewrite (get_item_spec fo c OK _ _ fs i I2) by lia. rewrite Hl. now rewrite map_repeat.
Qed.

(** ** Load: outcome on errors (C51, C52, C59) *)
Lemma load_error k fs ix f ix' e : load fo c k fs ix f = Ok (ix', Some e) ->
  n_items ix' = 0 /\ rootsN (ib ix') = [] /\ nn (ib ix') = 0 /\ iloaded ix' = false /\ imemory ix' = None /\
  forall fs', view fs' ix' = None.
Proof.
  unfold load. intro E. apply rbind_ok in E. destruct E as (ix0 & E0 & E).
  apply rbind_ok in E. destruct E as (o & Eo & E).
  assert (H : close ix = Ok ix' \/ close ix0 = Ok ix').
  { destruct o as [im|e']; [|injection E as <- <-; auto].
    destruct (negb _) eqn:Es.
    - apply rbind_ok in E. destruct E as (ix1 & E1 & E). injection E as <- <-. auto.
    - apply rbind_ok in E. destruct E as ([roots m] & _ & E). apply rbind_ok in E. destruct E as (roots' & _ & E).
      apply rbind_ok in E. destruct E as (bm & _ & E). discriminate. }
  destruct H as [H|H]; apply close_spec in H; intuition.
Qed.
Lemma load_ok_loaded k fs ix f ix' : load fo c k fs ix f = Ok (ix', None) ->
  iloaded ix' = true /\ ibuilt ix' = true /\ base (ib ix') = None /\
  exists im bs, imemory ix' = Some im /\ im_kind im = k /\ im_file im = f /\ im_size im = lenN bs /\
    im_copy im = (match k with GCMem => bs | MmapMem => [] end) /\
    fs f = Some bs /\ bs <> [] /\ lenN bs mod nodeSize fo c = 0 /\ nn (ib ix') = tix c (lenN bs) / nodeSize fo c.
Proof.
  unfold load. intro E. apply rbind_ok in E. destruct E as (ix0 & E0 & E).
  apply rbind_ok in E. destruct E as (o & Eo & E).
  destruct o as [im|e']; [|discriminate]. destruct (negb _) eqn:Es.
  - apply rbind_ok in E. destruct E as (ix1 & E1 & E). discriminate.
  - apply rbind_ok in E. destruct E as ([roots m] & _ & E). apply rbind_ok in E. destruct E as (roots' & _ & E).
    apply rbind_ok in E. destruct E as (bm & _ & E). injection E as <-. cbn [iloaded ibuilt ib base imemory nn].
    repeat split. unfold im_open in Eo. destruct (fs f) as [[|b bs]|] eqn:Ef; [destruct k; discriminate| |discriminate].
    injection Eo as <-. eexists. exists (b :: bs). repeat split; try discriminate.
    cbn [im_size] in Es. lia.
Qed.
Lemma load_bad_size k fs ix f bs r :
  rnd (ib ix) = Some r -> fs f = Some bs -> lenN bs mod nodeSize fo c <> 0 ->
  exists ix', load fo c k fs ix f = Ok (ix', Some ESize).
Proof.
  intros Hr Hf Hs. destruct (close_ok ix r Hr) as (ix0 & E0). pose proof (close_spec _ _ E0) as (_ & _ & _ & _ & _ & _ & _ & E1).
  exists ix0. unfold load. rewrite E0. cbn [rbind]. unfold im_open. rewrite Hf.
  destruct bs as [|b bs]; [exfalso; apply Hs; change (lenN (@nil N)) with 0; apply N.mod_0_l; pose proof (nodeSize_pos _ _ OK); lia|].
  cbn [rbind im_size]. replace (lenN (b :: bs) mod nodeSize fo c =? 0) with false by lia. cbn [negb].
  rewrite E1. reflexivity.
Qed.
Lemma load_good_size k fs ix f bs ix' e :
  fs f = Some bs -> bs <> [] -> lenN bs mod nodeSize fo c = 0 -> load fo c k fs ix f <> Ok (ix', Some e).
Proof.
  intros Hf Hne Hs. unfold load. intro E. apply rbind_ok in E. destruct E as (ix0 & E0 & E).
  unfold im_open in E. rewrite Hf in E. destruct bs as [|b bs]; [congruence|]. cbn [rbind im_size] in E.
  replace (lenN (b :: bs) mod nodeSize fo c =? 0) with true in E by lia. cbn [negb] in E.
  apply rbind_ok in E. destruct E as ([roots m] & _ & E). apply rbind_ok in E. destruct E as (roots' & _ & E).
  apply rbind_ok in E. destruct E as (bm & _ & E). discriminate.
Qed.
Lemma load_empty k fs ix f r : rnd (ib ix) = Some r -> fs f = Some [] ->
  match k with MmapMem => exists ix', load fo c k fs ix f = Ok (ix', Some EInval)
             | GCMem => load fo c k fs ix f = Er (Panic PIndex) end.
Proof.
  intros Hr Hf. destruct (close_ok ix r Hr) as (ix0 & E0). unfold load, im_open. rewrite E0, Hf. cbn [rbind].
  destruct k; cbn [rbind]; eauto.
Qed.
Lemma loaded_read_only k fs ix f ix' : load fo c k fs ix f = Ok (ix', None) ->
  (forall i v, add_item fo c ix' i v = Er (Panic PLoaded)) /\
  (forall fu mf rf t, build_single fo c fu mf rf ix' t = Er (Panic PLoaded)) /\
  (forall fu mf rf t nw ncpu ix2, ~ build_multi fo c fu mf rf ix' t nw ncpu ix2).
Proof.
  intro E. destruct (load_ok_loaded _ _ _ _ _ E) as (Hl & _).
  split; [intros; now apply add_loaded|]. split; [intros; now apply build_loaded|].
  intros. apply build_multi_rejected. now left.
Qed.

(** ** Saving over the mapped file (C53) *)
Lemma save_over_mapping ix fs f ix' k os :
  load fo c MmapMem fs ix f = Ok (ix', None) ->
  (forall bs, fs f = Some bs -> lenN bs < 2 ^ iw c) ->
  os <> OsCreateFails ->
  exists fs', save fo c k os fs ix' f = Ok (ix', fs', Some EWrite) /\ fs' f = Some [] /\
    (forall g, g <> f -> fs' g = fs g) /\
    forall i, get_item fo c fs' ix' i = Er Fault \/ vlen c = 0.
Proof.
  intros E Hsz Hos. destruct (load_ok_loaded _ _ _ _ _ E) as (Hl & Hb & Hbase & im & bs & Him & Hk & Hf & Hsize & _ & Hfs & Hne & Hmod & Hnn).
  specialize (Hsz _ Hfs). exists (fs_set fs f (Some [])).
  assert (Hpos : 0 < lenN bs) by (destruct bs; [congruence|rewrite lenN_cons; lia]).
  pose proof (nodeSize_pos _ _ OK) as Hns.
  assert (Hlen : nn (ib ix') * nodeSize fo c = lenN bs).
  { rewrite Hnn, (tix_small _ _ Hsz). pose proof (N.div_mod (lenN bs) (nodeSize fo c)). nia. }
  assert (Hv : view (fs_set fs f (Some [])) ix' = Some (buf_of_bytes [])).
  { unfold view. rewrite Hbase, Him. unfold im_view. rewrite Hk, Hf. unfold fs_set. rewrite N.eqb_refl.
    now rewrite firstn_nil. }
  split.
  - unfold save. rewrite Hb. cbn [negb]. rewrite Hlen, (tix_small _ _ Hsz), Hv.
    replace (lenN bs =? 0) with false by lia. cbn [vread]. unfold bread. cbn [bsize buf_of_bytes].
    assert (Hlt : (0 + lenN bs <=? lenN (@nil N)) = false) by (change (lenN (@nil N)) with 0; lia).
    rewrite Hlt, Him, Hk. destruct os; congruence.
  - split; [unfold fs_set; now rewrite N.eqb_refl|]. split; [intros g Hg; unfold fs_set; now replace (g =? f) with false by lia|].
    intro i. destruct (N.eq_dec (vlen c) 0) as [|Hvl]; [now right|left].
    unfold get_item. rewrite Hv. cbn [vread]. unfold bread. cbn [bsize buf_of_bytes].
    pose proof (fb_pos _ _ OK).
    replace (_ <=? lenN (@nil N)) with false by (rewrite lenN_nil; nia). reflexivity.
Qed.

(** ** Crash during Save (C54) *)
Lemma crash_states fs ix f bs fs' :
  nn (ib ix) * nodeSize fo c < 2 ^ iw c ->
  vread (view (fs_set fs f (Some [])) ix) 0 (nn (ib ix) * nodeSize fo c) = Ok bs ->
  ibuilt ix = true ->
  (save_crash_states fo c fs ix f fs' <-> fs' = fs \/ exists n, fs' = fs_set fs f (Some (firstn n bs))).
Proof.
  intros Hs Hr Hb. unfold save_crash_states. rewrite (tix_small _ _ Hs). split.
  - intros [H|(_ & n & bs' & [->|H] & ->)]; [now left| |].
    + right. exists O. now rewrite firstn_nil.
    + right. exists n. rewrite Hr in H. now injection H as ->.
  - intros [H|(n & H)]; [now left|right]. split; [exact Hb|]. exists n, bs. auto.
Qed.
Lemma crash_prefix_rejected k fs f bs n ix0 r :
  rnd (ib ix0) = Some r -> lenN (firstn n bs) mod nodeSize fo c <> 0 ->
  exists ix', load fo c k (fs_set fs f (Some (firstn n bs))) ix0 f = Ok (ix', Some ESize).
Proof. intros Hr Hs. eapply load_bad_size; eauto. unfold fs_set. now rewrite N.eqb_refl. Qed.

End S.

(** ** The builder (C58) *)
Lemma builder_fields w l : forall b,
  let b' := fold_left (bld_call w) l b in
  (match b_policy b' with Some p => p | None => SingleWorker end) =
    last_set sel_policy l (match b_policy b with Some p => p | None => SingleWorker end) /\
  (match b_im b' with Some p => p | None => MmapMem end) =
    last_set sel_im l (match b_im b with Some p => p | None => MmapMem end) /\
  b_random b' = last_set sel_random l (b_random b) /\
  b_vlen b' = last_set (sel_vlen w) l (b_vlen b).
Proof.
  induction l as [|k l IH]; intro b; cbn [fold_left last_set]; [repeat split|].
  specialize (IH (bld_call w b k)). cbn zeta in IH. destruct IH as (H1 & H2 & H3 & H4).
  cbn zeta. rewrite H1, H2, H3, H4. destruct k as [r|h|n| | | |]; cbn; auto. destruct (h <=? 0)%Z; auto.
Qed.
Lemma builder_main fo w l u :
  bld_build fo w (fold_left (bld_call w) l bld_index) = Ok u ->
  u_policy u = last_set sel_policy l SingleWorker /\
  u_im u = last_set sel_im l MmapMem /\
  rnd (ib (u_idx u)) = match last_set sel_random l None with
                       | Some r => Some r
                       | None => if w =? 32 then Some (kiss_new 0) else None
                       end /\
  last_set (sel_vlen w) l None = Some (vlen (u_cfg u)) /\ knd (u_cfg u) = Angular /\ ixb (u_cfg u) = w / 8.
Proof.
  intro E. destruct (builder_fields w l bld_index) as (H1 & H2 & H3 & H4). cbn [bld_index b_policy b_im b_random b_vlen] in *.
  unfold bld_build in E. rewrite H4 in E.
  destruct (last_set (sel_vlen w) l None) as [n|] eqn:En; [|discriminate]. injection E as <-.
  cbn [u_policy u_im u_idx u_cfg vlen knd ixb]. rewrite H1, H2.
  assert (Hr : forall c r h, rnd (ib (new_index fo c r h)) = r).
  { intros c r h. unfold new_index. destruct (0 <? h); [|reflexivity]. cbn [ib]. destruct (reallocate _ _ _). reflexivity. }
  rewrite Hr. unfold bld_random. rewrite H3. repeat split.
Qed.
(** Without a generator: Build, Load and Close panic. *)
Lemma nil_random_panics fo c ix : rnd (ib ix) = None ->
  close ix = Er (Panic PNil) /\
  (forall k fs f, load fo c k fs ix f = Er (Panic PNil)) /\
  (knd c = Angular -> iloaded ix = false -> ibuilt ix = false ->
   forall fu mf rf t, build_single fo c fu mf rf ix t = Er (Panic PNil)).
Proof.
  intro H. assert (E : close ix = Er (Panic PNil)) by (unfold close; now rewrite H).
  split; [exact E|]. split; [intros; unfold load; now rewrite E|].
  intros Hk Hl Hb fu mf rf t. unfold build_single, build_pre. rewrite Hl, Hb. unfold preprocess. rewrite Hk.
  cbn [run rbind set_nn rnd]. now rewrite H.
Qed.
