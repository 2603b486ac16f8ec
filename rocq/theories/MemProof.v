(** Memory as an array of node images; the build allocator; running programs. *)
From Verif Require Import Base Flt Layout Rng Alloc Prog Dist Build Lib LayoutProof.
Open Scope N_scope.

(** ** Splicing bytes into a node image *)
Definition splice (o : N) (bs l : list N) : list N :=
  firstn (N.to_nat o) l ++ bs ++ skipn (N.to_nat o + length bs) l.

Lemma length_splice o bs l : o + lenN bs <= lenN l -> length (splice o bs l) = length l.
Proof.
  intro H. unfold splice, lenN in *. rewrite !app_length, firstn_length_le, skipn_length by lia. lia.
Qed.
Lemma nth_splice o bs l k :
  o + lenN bs <= lenN l -> (k < length l)%nat ->
  nth k (splice o bs l) 0 =
  if (N.to_nat o <=? k)%nat && (k <? N.to_nat o + length bs)%nat then nth (k - N.to_nat o) bs 0 else nth k l 0.
Proof.
  intros H Hk. unfold splice, lenN in *.
  destruct (Nat.lt_ge_cases k (N.to_nat o)) as [Ha|Ha].
  - rewrite app_nth1 by (rewrite firstn_length_le; lia).
    replace ((N.to_nat o <=? k)%nat && _) with false by lia.
    rewrite <- (firstn_skipn (N.to_nat o) l) at 2.
    now rewrite app_nth1 by (rewrite firstn_length_le; lia).
  - rewrite app_nth2 by (rewrite firstn_length_le; lia).
    rewrite firstn_length_le by lia.
    destruct (Nat.lt_ge_cases k (N.to_nat o + length bs)) as [Hb|Hb].
    + replace (_ && _) with true by lia. now rewrite app_nth1 by lia.
    + replace (_ && _) with false by lia. rewrite app_nth2 by lia.
      rewrite <- (firstn_skipn (N.to_nat o + length bs) l) at 2.
      rewrite app_nth2 by (rewrite firstn_length_le; lia).
      rewrite firstn_length_le by lia. f_equal. lia.
Qed.
(** Splicing over a segment of an explicit concatenation. *)
Lemma splice_mid a b b' r o :
  lenN a = o -> length b = length b' -> splice o b' (a ++ b ++ r) = a ++ b' ++ r.
Proof.
  intros <- H. unfold splice, lenN. rewrite Nat2N.id. f_equal.
  - apply firstn_app_exact. reflexivity.
  - f_equal. rewrite app_assoc. apply skipn_app_exact. rewrite app_length. lia.
Qed.

Section N.
Variable fo : FOps.
Variable c : Cfg.
Hypothesis OK : CfgOK fo c.
Notation NSZ := (nodeSize fo c).

(** The image of node [i] in memory [m]. *)
Definition node_at (m : mem) (i : N) : list N := mread m (i * NSZ) (N.to_nat NSZ).

Lemma length_node_at m i : length (node_at m i) = N.to_nat NSZ.
Proof. apply length_mread. Qed.
Lemma lenN_node_at m i : lenN (node_at m i) = NSZ.
Proof. apply lenN_mread. Qed.
Lemma node_at_mempty i : node_at mempty i = repeat 0 (N.to_nat NSZ).
Proof.
  unfold node_at. generalize (i * NSZ). generalize (N.to_nat NSZ). intros n o.
  revert o; induction n; intro o; cbn; [reflexivity|]. now rewrite mget_mempty, IHn.
Qed.
Lemma node_at_ext m m' i : (forall a, mget m a = mget m' a) -> node_at m i = node_at m' i.
Proof. intro H. apply mread_ext. intros; apply H. Qed.

Lemma node_at_write_eq m i o bs :
  o + lenN bs <= NSZ -> node_at (mwrite m (i * NSZ + o) bs) i = splice o bs (node_at m i).
Proof.
  intro H. unfold node_at. apply nth_ext with (d := 0) (d' := 0).
  - rewrite length_splice by (rewrite lenN_mread; lia). now rewrite !length_mread.
  - rewrite length_mread. intros k Hk. rewrite nth_mread by lia.
    rewrite nth_splice by (rewrite ?lenN_mread, ?length_mread; lia).
    rewrite mget_mwrite. rewrite nth_mread by lia. unfold lenN in *.
    destruct ((i * NSZ + o <=? i * NSZ + N.of_nat k) && (i * NSZ + N.of_nat k <? i * NSZ + o + N.of_nat (length bs))) eqn:E1;
    destruct ((N.to_nat o <=? k)%nat && (k <? N.to_nat o + length bs)%nat) eqn:E2; try lia; try reflexivity.
    f_equal. lia.
Qed.
Lemma node_at_write_neq m i j o bs :
  o + lenN bs <= NSZ -> j <> i -> node_at (mwrite m (i * NSZ + o) bs) j = node_at m j.
Proof.
  intros H Hj. unfold node_at. apply mread_mwrite_disj.
  destruct (N.lt_ge_cases j i); [left|right]; nia.
Qed.

(** ** The build allocator *)
Definition zero_beyond (b : buf) : Prop := forall a, bsize b <= a -> mget (bdata b) a = 0.
Definition cur_mem (h : arenas) (p : ptr) : mem :=
  match arena_at h p with Some b => bdata b | None => mempty end.
Definition alloc_wf (h : arenas) (p : ptr) : Prop :=
  match p with None => True | Some _ => exists b, arena_at h p = Some b /\ zero_beyond b end.

Lemma reallocate_spec h p bytes h' p' :
  alloc_wf h p -> reallocate h p bytes = (h', p') ->
  exists b', arena_at h' p' = Some b' /\ zero_beyond b' /\
    bytes <= bsize b' /\ ptr_size h p <= bsize b' /\
    (forall a, mget (bdata b') a = mget (cur_mem h p) a) /\
    (exists tl, h' = h ++ tl) /\ alloc_wf h' p'.
Proof.
  intros Hwf E. unfold reallocate in E. unfold ptr_size, cur_mem.
  destruct p as [g|].
  - destruct Hwf as (b & Hb & Hz). rewrite Hb in *.
    destruct (N.ltb_spec bytes (bsize b)) as [Hlt|Hge]; inversion E; subst h' p'; clear E.
    + exists b. repeat split; auto; try lia.
      * exists []. now rewrite app_nil_r.
      * cbn. exists b. auto.
    + set (b' := mkBuf bytes (mwrite mempty 0 (mread (bdata b) 0 (N.to_nat (bsize b))))).
      assert (Hget : forall a, mget (bdata b') a = mget (bdata b) a).
      { intro a. cbn [bdata b']. rewrite mget_mwrite, mget_mempty, lenN_mread.
        destruct (_ && _) eqn:E2.
        - rewrite nth_mread by lia. f_equal. lia.
        - symmetry. apply Hz. lia. }
      assert (Hat : arena_at (h ++ [b']) (Some (length h)) = Some b').
      { cbn. rewrite nth_error_app2, Nat.sub_diag by lia. reflexivity. }
      assert (Hz' : zero_beyond b').
      { intros a Ha. rewrite Hget. cbn [bsize b'] in Ha. apply Hz. lia. }
      exists b'. rewrite Hat. repeat split; auto; cbn [bsize b']; try lia.
      * exists [b']. reflexivity.
      * cbn [alloc_wf]. exists b'. auto.
  - cbn [arena_at] in *. inversion E; subst h' p'; clear E.
    assert (Hat : arena_at (h ++ [buf_zero bytes]) (Some (length h)) = Some (buf_zero bytes)).
    { cbn. rewrite nth_error_app2, Nat.sub_diag by lia. reflexivity. }
    assert (Hz' : zero_beyond (buf_zero bytes)).
    { intros a _. apply mget_mempty. }
    exists (buf_zero bytes). rewrite Hat. repeat split; auto; cbn [bsize buf_zero]; try lia.
    + exists [buf_zero bytes]. reflexivity.
    + cbn [alloc_wf]. exists (buf_zero bytes). auto.
Qed.

(** ** Running programs *)
Lemma run_pbind w {A B} (p : prog A) (f : A -> prog B) s :
  run c w (pbind p f) s = (let* (a, s') := run c w p s in run c w (f a) s').
Proof.
  revert s. induction p as [a|e|X e k IH]; intro s; cbn [pbind run rbind]; try reflexivity.
  destruct (exec c w e s) as [[x s']|er]; cbn [rbind]; [apply IH|reflexivity].
Qed.

(** The part of the state that describes storage. *)
Definition alive (s : bst) (b : buf) : Prop := arena_at (heap s) (al s) = Some b.

(** Well-formed storage: the allocator's memory is intact, and once nodes have been
    allocated _nodes points at it and it is large enough for _nodes_size nodes. *)
Record store_wf (s : bst) : Prop := mkStoreWf {
  sw_alloc : alloc_wf (heap s) (al s);
  sw_base : ns s = 0 \/ base s = al s;
  sw_some : ns s = 0 \/ al s <> None;
  sw_room : ns s * NSZ <= ptr_size (heap s) (al s);
  sw_cap : ns s * NSZ < 2 ^ iw c
}.
Definition smem (s : bst) : mem := cur_mem (heap s) (al s).
Definition snode_img (s : bst) (i : N) : list N := node_at (smem s) i.

(** Capacity: [n] nodes can be requested without wrap-around. *)
Definition cap_ok (n : N) : Prop := n * 3 / 2 * NSZ < 2 ^ iw c.

Lemma cap_ok_ge n : n <= n * 3 / 2.
Proof. apply N.div_le_lower_bound; lia. Qed.
Lemma cap_ok_mono n m : m <= n -> cap_ok n -> cap_ok m.
Proof.
  unfold cap_ok. intros H Hn. eapply N.le_lt_trans; [|exact Hn].
  apply N.mul_le_mono_r. apply N.div_le_mono; lia.
Qed.
Lemma cap_ok_addr n i : cap_ok n -> i < n -> addr fo c i = i * NSZ.
Proof.
  intros H Hi. apply addr_small. unfold cap_ok in H. pose proof (cap_ok_ge n). nia.
Qed.
Lemma cap_ok_small n : cap_ok n -> n < 2 ^ iw c.
Proof.
  intro H. unfold cap_ok in H. pose proof (cap_ok_ge n). pose proof (nodeSize_pos _ _ OK). nia.
Qed.

Lemma grow_le n m : n < m -> cap_ok m -> grow c n <= m * 3 / 2.
Proof.
  intros H Hm. unfold grow. pose proof (cap_ok_small _ Hm).
  rewrite (tix_small _ (n + 1)) by lia.
  eapply N.le_trans; [apply N.mod_le; pose proof (pow_iw_pos _ _ OK); lia|].
  apply N.div_le_mono; lia.
Qed.

(** allocateSize outside a multi-worker build. *)
Lemma allocate_size_run w n locked s :
  store_wf s -> cap_ok n ->
  exists s', run c w (allocate_size fo c n locked) s = Ok (tt, s') /\
    store_wf s' /\ n <= ns s' /\ ns s <= ns s' /\
    (ns s <= n -> ns s' <= n * 3 / 2) /\
    (forall a, mget (smem s') a = mget (smem s) a) /\
    nn s' = nn s /\ broots s' = broots s /\ rnd s' = rnd s /\
    (forall k, nth_error (heap s) k <> None -> nth_error (heap s') k = nth_error (heap s) k).
Proof.
  intros Hwf Hc. unfold allocate_size. cbn [run exec rbind].
  destruct (N.ltb_spec (ns s) n) as [Hlt|Hge].
  - assert (Hnew : N.max n (grow c (ns s)) * NSZ < 2 ^ iw c).
    { pose proof (grow_le _ _ Hlt Hc). pose proof (cap_ok_ge n). unfold cap_ok in Hc.
      eapply N.le_lt_trans; [|exact Hc]. apply N.mul_le_mono_r. lia. }
    set (new := N.max n (grow c (ns s))) in *.
    assert (Hgen : forall s0, s0 = s -> run c w
        (vis n' <- AGetNS; let new := N.max n (grow c n') in
         vis! ARealloc (tix c (new * NSZ)); vis! ASetNS new;
         if locked then vis! AUnlockNodes; Ret tt else Ret tt) s0 =
        (let (h, p) := reallocate (heap s) (al s) (tix c (new * NSZ)) in
         Ok (tt, set_ns new (set_heap h p p s)))).
    { intros s0 ->. cbn [run exec rbind]. fold new.
      destruct (reallocate (heap s) (al s) (tix c (new * NSZ))) as [h p].
      cbn [run exec rbind]. destruct locked; reflexivity. }
    assert (Hrun : run c w
       (do _ <- (if locked then vis! ALockNodesReq; vis! ALockNodesAcq; Ret tt else Ret tt);
        vis n' <- AGetNS; let new := N.max n (grow c n') in
        vis! ARealloc (tix c (new * NSZ)); vis! ASetNS new;
        if locked then vis! AUnlockNodes; Ret tt else Ret tt) s =
        (let (h, p) := reallocate (heap s) (al s) (tix c (new * NSZ)) in
         Ok (tt, set_ns new (set_heap h p p s)))).
    { rewrite run_pbind. destruct locked; cbn [run exec rbind]; apply Hgen; reflexivity. }
    clear Hgen. rewrite (tix_small _ _ Hnew) in Hrun.
    destruct (reallocate (heap s) (al s) (new * NSZ)) as [h p] eqn:E.
    destruct (reallocate_spec _ _ _ _ _ (sw_alloc _ Hwf) E) as (b' & Hat & Hz & Hsz & _ & Hget & (tl & Htl) & Hwf').
    eexists. split; [exact Hrun|].
    cbn [set_ns set_heap ns nn broots rnd heap].
    split; [|split; [|split; [|split; [|split; [|split; [|split; [|split]]]]]]]; auto; try lia.
    + constructor; cbn [set_ns set_heap ns heap al base]; auto.
      * right. destruct p; [discriminate|cbn in Hat; discriminate].
      * unfold ptr_size. rewrite Hat. exact Hsz.
    + intros _. pose proof (grow_le _ _ Hlt Hc). pose proof (cap_ok_ge n). lia.
    + intro a. unfold smem. cbn [set_ns set_heap heap al].
      unfold cur_mem at 1. rewrite Hat. apply Hget.
    + intros k Hk. subst h. apply nth_error_app1. apply nth_error_Some. exact Hk.
  - cbn [run]. exists s. pose proof (cap_ok_ge n). repeat split; auto; try lia; apply Hwf.
Qed.

(** One store into the current memory. *)
Lemma exec_write w s g b off bs :
  nth_error (heap s) g = Some b -> off + lenN bs <= bsize b ->
  exec c w (AWrite (Some g) off bs) s =
  Ok (tt, set_arenas (firstn g (heap s) ++ [mkBuf (bsize b) (mwrite (bdata b) off bs)] ++ skipn (S g) (heap s)) s).
Proof. intros H Hb. cbn [exec]. rewrite H, bwrite_ok by exact Hb. reflexivity. Qed.

Lemma exec_write_wf w s i o bs :
  store_wf s -> i < ns s -> o + lenN bs <= NSZ ->
  exists s', exec c w (AWrite (base s) (i * NSZ + o) bs) s = Ok (tt, s') /\
    store_wf s' /\ ns s' = ns s /\ nn s' = nn s /\ broots s' = broots s /\ rnd s' = rnd s /\
    base s' = base s /\
    snode_img s' i = splice o bs (snode_img s i) /\
    (forall j, j <> i -> snode_img s' j = snode_img s j).
Proof.
  intros Hwf Hi Ho.
  assert (Hns : ns s <> 0) by lia.
  destruct (sw_base _ Hwf) as [?|Hb]; [lia|]. destruct (sw_some _ Hwf) as [?|Hs]; [lia|].
  destruct (al s) as [g|] eqn:Eg; [|congruence].
  pose proof (sw_alloc _ Hwf) as Ha. rewrite Eg in Ha. cbn [alloc_wf] in Ha.
  destruct Ha as (b & Hat & Hz). cbn [arena_at] in Hat.
  pose proof (sw_room _ Hwf) as Hr. unfold ptr_size in Hr. rewrite Eg in Hr. cbn [arena_at] in Hr. rewrite Hat in Hr.
  assert (Hin : i * NSZ + o + lenN bs <= bsize b) by nia.
  rewrite Hb. rewrite (exec_write w s g b) by assumption.
  set (b' := mkBuf (bsize b) (mwrite (bdata b) (i * NSZ + o) bs)).
  set (h' := firstn g (heap s) ++ [b'] ++ skipn (S g) (heap s)).
  assert (Hat' : nth_error h' g = Some b') by (eapply nth_error_update_eq; eauto).
  assert (Hm' : smem (set_arenas h' s) = bdata b').
  { unfold smem, cur_mem, set_arenas. cbn [set_heap heap al]. rewrite Eg. cbn [arena_at]. now rewrite Hat'. }
  assert (Hm : smem s = bdata b).
  { unfold smem, cur_mem. rewrite Eg. cbn [arena_at]. now rewrite Hat. }
  eexists. split; [reflexivity|]. fold h'.
  split; [|repeat split].
  - constructor; unfold set_arenas; cbn [set_heap heap al base ns nn].
    + rewrite Eg. cbn [alloc_wf arena_at]. exists b'. split; [exact Hat'|].
      intros a Ha. cbn [bdata b'] in *. cbn [bsize b'] in Ha. rewrite mget_mwrite_out by lia. apply Hz. exact Ha.
    + right. congruence.
    + right. congruence.
    + rewrite Eg. unfold ptr_size. cbn [arena_at]. rewrite Hat'. exact Hr.
    + apply Hwf.
  - unfold set_arenas. cbn [set_heap base]. congruence.
  - unfold snode_img. rewrite Hm', Hm. cbn [bdata b']. apply node_at_write_eq. exact Ho.
  - intros j Hj. unfold snode_img. rewrite Hm', Hm. cbn [bdata b']. apply node_at_write_neq; assumption.
Qed.

End N.
