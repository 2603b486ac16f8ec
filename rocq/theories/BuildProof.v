(** Build from start to end: the part before the workers, the workers under both
    policies, and the part after them. *)
From Verif Require Import Base Flt Layout Rng Alloc Prog Dist Build Policy Index Spec ForestSpec Lib LayoutProof MemProof
  StoreProof PolicyProof ConcSpec ConcProof TreeProof PoolProof SeqProof.
From Coq Require Import Permutation.
Open Scope N_scope.

Lemma skipn_add {A} a : forall b (l : list A), skipn a (skipn b l) = skipn (a + b) l.
Proof.
  induction b as [|b IH]; intro l; [now rewrite Nat.add_0_r|]. rewrite Nat.add_succ_r. destruct l; [now rewrite !skipn_nil|]. apply IH.
Qed.
Lemma firstn_repeat0 (x : N) n : forall k, firstn k (repeat x n) = repeat x (Nat.min k n).
Proof. induction n as [|n IH]; intros [|k]; cbn; auto. now rewrite IH. Qed.
(** Reading a part of a node that a store does not touch. *)
Lemma sub_splice_disj off len o bs l : off + len <= o \/ o + lenN bs <= off -> o + lenN bs <= lenN l ->
  sub off len (splice o bs l) = sub off len l.
Proof.
  unfold sub, splice, lenN. intros H Hl. destruct H as [H|H].
  - rewrite skipn_app, firstn_app, skipn_length, firstn_length_le by lia.
    replace (N.to_nat len - (N.to_nat o - N.to_nat off))%nat with 0%nat by lia. cbn [firstn]. rewrite app_nil_r.
    rewrite skipn_firstn_comm, firstn_firstn. f_equal. lia.
  - f_equal. rewrite app_assoc, skipn_app. rewrite skipn_all2 by (rewrite app_length, firstn_length_le; lia).
    cbn [app]. rewrite app_length, firstn_length_le by lia.
    replace (N.to_nat off) with (N.to_nat off - (N.to_nat o + length bs) + (N.to_nat o + length bs))%nat at 2 by lia.
    now rewrite skipn_add.
Qed.

Section R.
Variable c : Cfg.
(** A loop with an invariant over the elements done so far. *)
Lemma run_pmap w {A B} (f : A -> prog B) (P : list A -> list B -> bst -> Prop) : forall l done bs s,
  P done bs s ->
  (forall pre a rest bs s, done ++ l = pre ++ a :: rest -> P pre bs s ->
     exists b t, run c w (f a) s = Ok (b, t) /\ P (pre ++ [a]) (bs ++ [b]) t) ->
  exists bs' t, run c w (pmap f l) s = Ok (bs', t) /\ P (done ++ l) (bs ++ bs') t.
Proof.
  induction l as [|a l IH]; intros done bs s H0 Hs; cbn [pmap].
  - exists [], s. rewrite !app_nil_r. auto.
  - destruct (Hs done a l bs s eq_refl H0) as (b & t & E & Ht).
    destruct (IH (done ++ [a]) (bs ++ [b]) t Ht) as (bs' & u & Eu & Hu).
    { intros pre a' rest bs1 s1 Heq. apply (Hs pre a' rest). rewrite <- Heq, <- app_assoc. reflexivity. }
    rewrite run_pbind, E. cbn [rbind]. rewrite run_pbind, Eu. cbn [rbind run]. exists (b :: bs'), u.
    rewrite <- !app_assoc in Hu. auto.
Qed.
End R.

Section S.
Variable fo : FOps.
Variable c : Cfg.
Hypothesis OK : CfgOK fo c.
Notation NSZ := (nodeSize fo c).
Notation simg := (snode_img fo c).

(** The arena the nodes live in. *)
Lemma wf_arena s : store_wf fo c s -> ns s <> 0 ->
  exists b, arena_at (heap s) (base s) = Some b /\ smem s = bdata b /\ ns s * NSZ <= bsize b.
Proof.
  intros Wf Hns. destruct (sw_base _ _ _ Wf) as [?|Hb]; [lia|]. destruct (sw_some _ _ _ Wf) as [?|Hs]; [lia|].
  pose proof (sw_alloc _ _ _ Wf) as Ha. pose proof (sw_room _ _ _ Wf) as Hr. rewrite Hb. unfold smem, cur_mem, ptr_size in *.
  destruct (al s) as [g|]; [|congruence]. cbn [alloc_wf] in Ha. destruct Ha as (b & Hat & _). rewrite Hat in *.
  exists b. auto.
Qed.
Lemma exec_read_wf w s i o len : store_wf fo c s -> i < ns s -> o + len <= NSZ ->
  exec c w (ARead (base s) (i * NSZ + o) len) s = Ok (sub o len (simg s i), s).
Proof.
  intros Wf Hi Ho. destruct (wf_arena s Wf ltac:(lia)) as (b & Hb & Hm & Hs). cbn [exec]. rewrite Hb.
  rewrite bread_ok by nia. cbn [rbind]. do 2 f_equal. unfold snode_img, node_at. rewrite Hm.
  rewrite sub_mread by lia. reflexivity.
Qed.

(** ** PreProcess *)
(** The image of an item node after PreProcess. *)
Definition pre_image (n : N) (im : N -> list N) (i : N) : list N :=
  match knd c with
  | Angular => im i
  | DotProduct => splice (off_dot fo c)
      (enc_f fo (nth (N.to_nat i) (dot_factors fo (map (fun j => n_vec fo c (im j)) (rangeN n))) (f0 fo))) (im i)
  end.

Lemma length_simg s i : lenN (simg s i) = NSZ.
Proof. unfold snode_img. apply lenN_node_at. Qed.
Lemma dot_fits : knd c = DotProduct -> off_dot fo c + fbytes fo <= NSZ.
Proof. intro H. pose proof (off_vec_eq fo c) as E. rewrite H in E. pose proof (nodeSize_eq _ _ OK). nia. Qed.
Lemma pre_image_desc n im i : lenN (im i) = NSZ -> n_desc c (pre_image n im i) = n_desc c (im i).
Proof.
  intro Hl. unfold pre_image, n_desc. destruct (knd c) eqn:E; [reflexivity|]. pose proof (dot_fits E).
  pose proof (off_dot_ge _ _ OK). pose proof (ixb_pos _ _ OK).
  rewrite sub_splice_disj; [reflexivity| |]; rewrite (lenN_enc_f fo); lia.
Qed.
Lemma pre_image_vec n im i : lenN (im i) = NSZ ->
  sub (off_vec fo c) (vlen c * fbytes fo) (pre_image n im i) = sub (off_vec fo c) (vlen c * fbytes fo) (im i).
Proof.
  intro Hl. unfold pre_image. destruct (knd c) eqn:E; [reflexivity|]. pose proof (dot_fits E).
  pose proof (off_vec_eq fo c) as Eo. rewrite E in Eo.
  rewrite sub_splice_disj; [reflexivity| |]; rewrite (lenN_enc_f fo); lia.
Qed.
Lemma pre_image_len n im i : lenN (im i) = NSZ -> lenN (pre_image n im i) = NSZ.
Proof.
  intro Hl. unfold pre_image. destruct (knd c) eqn:E; [exact Hl|]. pose proof (dot_fits E).
  unfold lenN in *. rewrite length_splice; [exact Hl|]. rewrite (lenN_enc_f fo). unfold lenN. lia.
Qed.

Lemma length_dot_factors vs : length (dot_factors fo vs) = length vs.
Proof. unfold dot_factors. cbv zeta. now rewrite !map_length. Qed.

Lemma combine_range {A} (l : list A) n d : length l = N.to_nat n ->
  combine (rangeN n) l = map (fun i => (i, nth (N.to_nat i) l d)) (rangeN n).
Proof.
  intro H. apply nth_error_ext. intro k. rewrite nth_error_map.
  destruct (Nat.lt_ge_cases k (N.to_nat n)) as [Hk|Hk].
  - rewrite (nth_error_rangeN n k Hk). cbn [option_map].
    rewrite Nat2N.id. 
    assert (G : forall (a : list N) (b : list A) k x y, nth_error a k = Some x -> nth_error b k = Some y -> nth_error (combine a b) k = Some (x, y)).
    { clear. induction a as [|p a IH]; intros [|q b] [|k] x y; cbn; try discriminate; [congruence|auto]. }
    apply G; [now apply nth_error_rangeN|]. apply nth_error_nth'. lia.
  - assert (E1 : nth_error (rangeN n) k = None) by (apply nth_error_None; rewrite length_rangeN; lia).
    rewrite E1. cbn. apply nth_error_None. rewrite combine_length, length_rangeN. lia.
Qed.

Lemma preprocess_run n s : store_wf fo c s -> n <= ns s -> cap_ok fo c n ->
  exists t, run c 0 (preprocess fo c n) s = Ok (tt, t) /\ store_wf fo c t /\ ns t = ns s /\ nn t = nn s /\
    broots t = broots s /\ rnd t = rnd s /\ (forall i, i < n -> simg t i = pre_image n (simg s) i) /\
    (forall i, n <= i -> simg t i = simg s i).
Proof.
  intros Wf Hn Hc. unfold preprocess, pre_image. destruct (knd c) eqn:Ek.
  { exists s. cbn [run]. repeat split; auto; apply Wf. }
  cbn [run]. change (exec c 0 AGetBase s) with (Ok (base s, s)). cbn [rbind]. rewrite run_pbind.
  pose proof (dot_fits Ek) as Hdf. pose proof (nodeSize_eq _ _ OK) as Hs.
  set (vs := map (fun j => n_vec fo c (simg s j)) (rangeN n)).
  assert (E1 : run c 0 (pmap (fun i => vis bs <- ARead (base s) (addr fo c i + off_vec fo c) (vlen c * fbytes fo);
                              Ret (dec_vec fo c bs)) (rangeN n)) s = Ok (vs, s)).
  { destruct (run_pmap c 0 (fun i => vis bs <- ARead (base s) (addr fo c i + off_vec fo c) (vlen c * fbytes fo);
                              Ret (dec_vec fo c bs)) (fun d bs t => t = s /\ bs = map (fun j => n_vec fo c (simg s j)) d)
                (rangeN n) [] [] s) as (bs & t & E & -> & Hb); [auto| |].
    { intros pre a rest bs t Heq [-> ->]. assert (Ha : a < n).
      { apply in_rangeN. change (rangeN n) with ([] ++ rangeN n). rewrite Heq. apply in_or_app. right. left. reflexivity. }
      cbn [run]. rewrite (cap_ok_addr _ _ n a Hc Ha), exec_read_wf by (auto; lia). cbn [rbind run].
      eexists _, _. split; [reflexivity|]. split; [reflexivity|]. now rewrite map_app. }
    cbn [app] in Hb. rewrite E. subst bs. reflexivity. }
  rewrite E1. cbn [rbind]. rewrite run_pbind.
  rewrite (combine_range _ n (f0 fo)) by (rewrite length_dot_factors; unfold vs; rewrite map_length; apply length_rangeN).
  set (g := fun i => nth (N.to_nat i) (dot_factors fo vs) (f0 fo)).
  match goal with |- context [pmap _ (map ?f (rangeN n))] => change f with (fun i => (i, g i)) end.
  destruct (run_pmap c 0 (fun id : N * F fo =>
        vis! AWrite (base s) (addr fo c (fst id) + off_dot fo c) (enc_f fo (snd id)); Ret tt)
      (fun d _ t => store_wf fo c t /\ ns t = ns s /\ nn t = nn s /\ broots t = broots s /\ rnd t = rnd s /\ base t = base s /\
         (forall i, In i (map fst d) -> simg t i = splice (off_dot fo c) (enc_f fo (g i)) (simg s i)) /\
         (forall i, ~ In i (map fst d) -> simg t i = simg s i))
      (map (fun i => (i, g i)) (rangeN n)) [] [] s) as (bs & t & E & P1 & P2 & P3 & P4 & P5 & P6 & P7 & P8).
  { split; [exact Wf|]. repeat split; auto. intros i []. }
  { intros pre a rest bs t Heq (P1 & P2 & P3 & P4 & P5 & P6 & P7 & P8). cbn [app] in Heq.
    assert (Ha : exists i, a = (i, g i) /\ i < n).
    { assert (In a (map (fun i => (i, g i)) (rangeN n))) as Ha by (rewrite Heq; apply in_or_app; right; left; reflexivity).
      apply in_map_iff in Ha. destruct Ha as (i & <- & Hi). apply in_rangeN in Hi. eauto. }
    destruct Ha as (i & -> & Hi). cbn [fst snd run].
    assert (Hfr : ~ In i (map fst pre)).
    { assert (ND : NoDup (map fst (map (fun i => (i, g i)) (rangeN n)))).
      { rewrite map_map. cbn [fst]. rewrite map_id. apply NoDup_rangeN. }
      rewrite Heq, map_app in ND. cbn [map fst] in ND. apply NoDup_remove_2 in ND. intro Hx. apply ND. apply in_or_app. auto. }
    rewrite (cap_ok_addr _ _ n i Hc Hi), <- P6.
    destruct (exec_write_wf fo c 0%nat t i (off_dot fo c) (enc_f fo (g i)) P1 ltac:(lia) ltac:(rewrite (lenN_enc_f fo); lia))
      as (u & E & W2 & N2 & M2 & R2 & D2 & B2 & I2 & O2).
    rewrite E. cbn [rbind run]. exists tt, u. split; [reflexivity|]. split; [exact W2|]. repeat split; try congruence.
    - intros j Hj. rewrite map_app in Hj. apply in_app_or in Hj. destruct Hj as [Hj|[<-|[]]].
      + rewrite O2 by congruence. auto.
      + cbn [fst]. rewrite I2, P8 by exact Hfr. reflexivity.
    - intros j Hj. rewrite map_app in Hj. cbn [map fst] in Hj. rewrite O2; [apply P8|].
      + intro Hx. apply Hj. apply in_or_app. auto.
      + intros ->. apply Hj. apply in_or_app. right. left. reflexivity. }
  rewrite E. cbn [rbind run]. exists t. split; [reflexivity|]. split; [exact P1|]. repeat split; auto.
  - intros i Hi. apply P7. cbn [app]. rewrite map_map. cbn [fst]. rewrite map_id. now apply in_rangeN.
  - intros i Hi. apply P8. cbn [app]. rewrite map_map. cbn [fst]. rewrite map_id, in_rangeN. lia.
Qed.

(** ** The state in which the workers start *)
Lemma sub_firstn0 len l r : lenN l = len -> sub 0 len (l ++ r) = l.
Proof. intro H. unfold sub. cbn [skipn]. apply firstn_app_exact. unfold lenN in H. lia. Qed.
Lemma image_desc (o : option (list (F fo))) : n_desc c (image_of fo c o) = match o with Some _ => 1 | None => 0 end.
Proof.
  pose proof (pow_iw_ge _ _ OK). destruct o as [v|]; cbn [image_of].
  - unfold n_desc, item_image. rewrite sub_firstn0 by apply lenN_enc_ix. apply dec_enc_ix. lia.
  - unfold n_desc, zeros, sub. cbn [N.to_nat skipn]. rewrite firstn_repeat0.
    generalize (Nat.min (N.to_nat (ixb c)) (N.to_nat NSZ)). intro k. induction k as [|k IH]; [reflexivity|]. cbn [repeat le_dec]. now rewrite IH.
Qed.

(** The items present, in order. *)
Definition present (f : N -> option (list (F fo))) (n : N) : list N :=
  filter (fun i => match f i with Some _ => true | None => false end) (rangeN n).

Record started (ix : idx) (f : N -> option (list (F fo))) (s0 : bst) : Prop := mkStarted {
  st_free : lock_free s0;
  st_rnd : rnd s0 = rnd (ib ix);
  st_roots : broots s0 = [];
  st_owner : owner s0 = [];
  st_img : forall i, i < n_items ix -> simg s0 i = pre_image (n_items ix) (fun j => image_of fo c (f j)) i;
  st_ns : ns s0 = ns (ib ix);
  st_inv : forall W bud, rnd (ib ix) <> None -> Inv fo c (n_items ix) (simg s0) W bud s0;
  st_desc : forall i, i < n_items ix -> n_desc c (simg s0 i) = match f i with Some _ => 1 | None => 0 end
}.

Lemma pre_image_ext n im im' i : (forall j, im j = im' j) -> pre_image n im i = pre_image n im' i.
Proof.
  intro H. unfold pre_image. destruct (knd c); [apply H|]. rewrite H. do 3 f_equal.
  f_equal. apply map_ext. intro j. now rewrite H.
Qed.
Lemma build_pre_run ix f : items_inv fo c ix f -> ibuilt ix = false -> broots (ib ix) = [] -> lock_free (ib ix) ->
  exists s0, build_pre fo c ix = Ok s0 /\ started ix f s0.
Proof.
  intros I Hb Hr Hl. unfold build_pre. rewrite (ii_loaded _ _ _ _ I), Hb.
  destruct (preprocess_run (n_items ix) (ib ix) (ii_store _ _ _ _ I) (ii_ns _ _ _ _ I) (ii_cap _ _ _ _ I))
    as (t & E & W1 & N1 & M1 & R1 & D1 & G1 & G2).
  pose proof (run_lock_free _ _ _ _ _ _ _ E Hl) as Lt.
  rewrite E. cbn [rbind]. eexists. split; [reflexivity|].
  assert (Hsm : forall i, simg (set_nn (n_items ix) [] t) i = simg t i) by (intro i; apply img_eq; reflexivity).
  assert (Him : forall i, i < n_items ix -> simg (set_nn (n_items ix) [] t) i =
     pre_image (n_items ix) (fun j => image_of fo c (f j)) i).
  { intros i Hi. rewrite Hsm, (G1 i Hi). apply pre_image_ext. apply (ii_img _ _ _ _ I). }
  constructor; auto.
  - cbn [set_nn broots]. congruence.
  - intros W bud Hrn. constructor; cbn [set_nn nn ns owner broots rnd l_w l_wh l_r l_nn]; auto.
    + destruct W1 as [J1 J2 J3 J4 J5]. now constructor.
    + rewrite lenN_nil. lia.
    + rewrite N1. apply (ii_ns _ _ _ _ I).
    + intros i Hi. rewrite Hsm, G2 by exact Hi. rewrite (ii_img _ _ _ _ I).
      destruct (f i) as [v|] eqn:Ef; [|reflexivity]. pose proof (ii_ext _ _ _ _ I _ _ Ef). lia.
    + intros v Hv. destruct Lt as (_ & _ & L3 & _). congruence.
    + intros Hv. destruct Lt as (_ & _ & _ & L4 & _). congruence.
    + constructor.
    + contradiction.
    + intro v. unfold own. cbn [set_nn owner filter map]. rewrite lenN_nil. lia.
    + congruence.
    + rewrite R1, Hr. contradiction.
    + intros [|k] e X; discriminate X.
  - intros i Hi. rewrite (Him i Hi), pre_image_desc; [apply image_desc|].
    unfold lenN. rewrite (length_image_of fo c OK) by (intros; eapply ii_len; eauto). lia.
Qed.

(** ** The workers *)
Section Wk.
Variable ix : idx.
Variable f : N -> option (list (F fo)).
Variable s0 : bst.
Hypothesis ST : started ix f s0.
Hypothesis Hrnd : rnd (ib ix) <> None.
Hypothesis Hlast : n_items ix = 0 \/ f (n_items ix - 1) <> None.
Hypothesis Hvlen : 1 <= vlen c.
Variable plan : list Z.
Notation ni := (n_items ix).
Definition bud_of (v : nat) : N := need ni (nth v plan 0%Z).
Definition plan_need : N := sumN (map (need ni) plan).
Lemma total_plan : total (length plan) bud_of = plan_need.
Proof.
  unfold total, plan_need, bud_of. f_equal.
  rewrite <- (map_map (fun v => nth v plan 0%Z) (need ni)). f_equal.
  generalize 0%Z as d. clear. intro d. induction plan as [|a l IH]; [reflexivity|]. cbn [length seq map nth]. f_equal.
  rewrite <- seq_shift, map_map. exact IH.
Qed.
Hypothesis Hcap : cap_ok fo c (ni + plan_need).
Notation W := (length plan).
Notation Inv := (ConcProof.Inv fo c ni (simg s0) W bud_of).
Notation wp := (ConcProof.wp fo c ni (simg s0) W bud_of).
Notation post v := (thread_post fo c ni (simg s0) v (nth v plan 0%Z)).

Lemma added_present : added c ni (simg s0) = present f ni.
Proof.
  unfold added, present. apply filter_ext_in. intros i Hi. apply in_rangeN in Hi. rewrite (st_desc _ _ _ ST i Hi).
  now destruct (f i).
Qed.
Lemma present_le n : (length (present f n) <= N.to_nat n)%nat.
Proof. unfold present. rewrite <- (length_rangeN n). apply filter_length_le. Qed.

Definition fuel_ok (fuel mfuel : nat) : Prop :=
  (Nat.max 1 (N.to_nat ni) <= mfuel)%nat /\ (N.to_nat ni < fuel)%nat /\ Forall (fun t => (Z.to_nat t < fuel)%nat) plan.

Lemma worker_wp fuel mfuel rfuel v : fuel_ok fuel mfuel -> (v < W)%nat ->
  wp v (thread_build fo c ni fuel mfuel rfuel (nth v plan 0%Z) v) (fun _ t => post v t) s0.
Proof.
  intros (F1 & F2 & F3) Hv. apply wp_thread; auto.
  - rewrite total_plan. exact Hcap.
  - intros i Hi. rewrite (st_desc _ _ _ ST i Hi). destruct (f i); lia.
  - destruct (N.eq_dec ni 0) as [|Hne]; [now left|]. right. rewrite (st_desc _ _ _ ST) by lia.
    destruct Hlast; [lia|]. destruct (f (ni - 1)); congruence.
  - apply (st_inv _ _ _ ST). exact Hrnd.
  - apply lock_free_holds, ST.
  - unfold own. now rewrite (st_owner _ _ _ ST).
  - unfold mine. now rewrite (st_roots _ _ _ ST).
  - apply N.le_refl.
  - rewrite added_present. pose proof (present_le ni). lia.
  - destruct (Z.eqb_spec (nth v plan 0%Z) (-1)); [exact F2|]. rewrite Forall_forall in F3. apply F3. now apply nth_In.
Qed.

Lemma workers_nth fuel mfuel rfuel v p : nth_error (workers fo c fuel mfuel rfuel ni (rnd s0) plan) v = Some p ->
  (v < W)%nat /\ p = thread_build fo c ni fuel mfuel rfuel (nth v plan 0%Z) v.
Proof.
  unfold workers. rewrite nth_error_map. intro H.
  assert (Hc : forall a (l : list Z) k, nth_error (combine (seq a (length l)) l) k =
     match nth_error l k with Some z => Some ((a + k)%nat, z) | None => None end).
  { intros a l. revert a. induction l as [|z l IH]; intros a k; cbn [length seq combine]; [now destruct k|].
    destruct k; cbn [nth_error]; [now rewrite Nat.add_0_r|]. rewrite IH. destruct (nth_error l k); [|reflexivity]. do 2 f_equal. lia. }
  rewrite Hc in H. destruct (nth_error plan v) as [z|] eqn:E; [|discriminate]. cbn [option_map] in H.
  rewrite (st_rnd _ _ _ ST) in H. destruct (rnd (ib ix)); [|congruence]. cbn [fst snd Nat.add] in H.
  split; [apply nth_error_Some; congruence|]. erewrite nth_error_nth by exact E. congruence.
Qed.
Lemma workers_length fuel mfuel rfuel : length (workers fo c fuel mfuel rfuel ni (rnd s0) plan) = W.
Proof. unfold workers. rewrite map_length, combine_length, seq_length. lia. Qed.

Notation pool := (PoolProof.pool fo c ni (simg s0) W bud_of unit (fun v _ t => post v t)).
Lemma post_free v (a : unit) t : post v t -> holds v t HFree.
Proof. intros [H _]. exact H. Qed.
Lemma pool_start fuel mfuel rfuel : fuel_ok fuel mfuel ->
  pool (workers fo c fuel mfuel rfuel ni (rnd s0) plan) s0.
Proof.
  intro F. constructor.
  - apply workers_length.
  - apply (st_inv _ _ _ ST). exact Hrnd.
  - intros v p Hv. apply workers_nth in Hv. destruct Hv as [Hv ->]. now apply worker_wp.
  - intros v _. apply lock_free_holds, ST.
Qed.

(** What the workers leave behind. *)
Record grown (s1 : bst) : Prop := mkGrown {
  gr_inv : Inv s1;
  gr_free : lock_free s1;
  gr_post : forall v, (v < W)%nat -> post v s1
}.
Lemma grown_multi fuel mfuel rfuel ps s1 : fuel_ok fuel mfuel ->
  pool_steps c (workers fo c fuel mfuel rfuel ni (rnd s0) plan, s0) (ps, s1) ->
  ps = map (fun _ => Ret tt) plan -> grown s1.
Proof.
  intros F HS Hps. pose proof (pool_steps_ok fo c ni (simg s0) W bud_of unit _ post_free _ _ _ _ (pool_start fuel mfuel rfuel F) HS) as P.
  assert (Hpost : forall v, (v < W)%nat -> post v s1).
  { intros v Hv. assert (Hp : nth_error ps v = Some (Ret tt)).
    { rewrite Hps, nth_error_map. destruct (nth_error plan v) eqn:E; [reflexivity|]. apply nth_error_None in E. lia. }
    apply (pl_wp _ _ _ _ _ _ _ _ _ _ P v _ Hp s1 (R_refl _ _) (pl_inv _ _ _ _ _ _ _ _ _ _ P)). }
  assert (HI : Inv s1) by apply P.
  constructor; auto. apply (all_free fo c ni (simg s0) W bud_of); [exact HI|]. intro v.
  destruct (Nat.lt_ge_cases v W) as [Hv|Hv]; [apply (Hpost v Hv)|]. apply (pl_out _ _ _ _ _ _ _ _ _ _ P v Hv).
Qed.
Lemma grown_single fuel mfuel rfuel : plan <> [] -> fuel_ok fuel mfuel ->
  (exists s1, run c 0 (thread_build fo c ni fuel mfuel rfuel (nth 0 plan 0%Z) 0) s0 = Ok (tt, s1) /\
     (W = 1%nat -> grown s1)) \/
  run c 0 (thread_build fo c ni fuel mfuel rfuel (nth 0 plan 0%Z) 0) s0 = Er Unlucky.
Proof.
  intros Hp F. assert (HW : (0 < W)%nat) by (destruct plan; [congruence|cbn; lia]).
  destruct (run_wp fo c ni (simg s0) W bud_of unit 0 _ _ s0 (st_inv _ _ _ ST _ _ Hrnd) (st_free _ _ _ ST)
              (worker_wp fuel mfuel rfuel 0 F HW)) as [(a & t & E & Lt & It & Pt)|E].
  - intros a t. apply post_free. exact tt.
  - left. destruct a. exists t. split; [exact E|]. intro H1. constructor; auto. intros v Hv.
    replace v with 0%nat by lia. exact Pt.
  - right. exact E.
Qed.

(** ** The roots *)
Lemma roots_sum s : (forall v r, In (v, r) (broots s) -> (v < W)%nat) ->
  lenN (broots s) = sumN (map (fun v => lenN (mine v s)) (seq 0 W)).
Proof.
  intro H. rewrite <- (lenN_map (fun e : nat * N => (snd e, fst e)) (broots s)).
  rewrite (sum_own_aux _ W).
  - f_equal. apply map_ext. intro v. unfold mine. rewrite lenN_map. generalize (broots s). clear.
    induction l as [|[u r] l IH]; [reflexivity|]. cbn [map filter fst snd]. destruct (Nat.eqb u v); [|exact IH].
    rewrite !lenN_cons. now rewrite IH.
  - intros i v Hi. apply in_map_iff in Hi. destruct Hi as ([u r] & E & Hi). cbn in E. injection E as <- <-. eapply H; eauto.
Qed.
Lemma in_mine v s r : In r (mine v s) <-> In (v, r) (broots s).
Proof.
  unfold mine. rewrite in_map_iff. split.
  - intros ((u, x) & <- & H). apply filter_In in H. destruct H as [H E]. cbn in E. apply Nat.eqb_eq in E. subst. exact H.
  - intro H. exists (v, r). split; [reflexivity|]. apply filter_In. cbn. now rewrite Nat.eqb_refl.
Qed.
Lemma NoDup_snd_parts (l : list (nat * N)) : (forall v, NoDup (map snd (filter (fun e => Nat.eqb (fst e) v) l))) ->
  (forall v u r, In (v, r) l -> In (u, r) l -> v = u) -> NoDup (map snd l).
Proof.
  induction l as [|[v r] l IH]; intros H1 H2; [constructor|]. cbn [map snd]. constructor.
  - intro Hr. apply in_map_iff in Hr. destruct Hr as ([u x] & E & Hi). cbn in E. subst x.
    assert (v = u) by (eapply H2; [left; reflexivity|right; exact Hi]). subst u.
    specialize (H1 v). cbn [filter fst] in H1. rewrite Nat.eqb_refl in H1. cbn [map snd] in H1. inversion H1 as [|? ? Hn _]; subst.
    apply Hn. apply in_map_iff. exists (v, r). split; [reflexivity|]. apply filter_In. cbn. now rewrite Nat.eqb_refl.
  - apply IH.
    + intro u. specialize (H1 u). cbn [filter fst] in H1. destruct (Nat.eqb v u); [|exact H1]. cbn [map snd] in H1. now inversion H1.
    + intros u u' x A B. eapply H2; right; eassumption.
Qed.
Section G.
Variable s1 : bst.
Hypothesis G : grown s1.
Lemma root_owned v r : In (v, r) (broots s1) -> In (r, v) (owner s1).
Proof.
  intro H. pose proof (iv_roots _ _ _ _ _ _ _ (gr_inv _ G) _ _ H) as Hv.
  destruct (gr_post _ G v Hv) as (_ & Hg & _). rewrite Forall_forall in Hg. apply in_mine in H. apply in_own. apply (Hg r H).
Qed.
Lemma roots_NoDup : NoDup (rootsN s1).
Proof.
  apply NoDup_snd_parts.
  - intro v. destruct (Nat.lt_ge_cases v W) as [Hv|Hv].
    + apply (gr_post _ G v Hv).
    + replace (map snd _) with (@nil N); [constructor|]. symmetry. change (mine v s1 = []).
      destruct (mine v s1) as [|r l] eqn:E; [reflexivity|]. assert (Hr : In r (mine v s1)) by (rewrite E; left; auto).
      apply in_mine in Hr. pose proof (iv_roots _ _ _ _ _ _ _ (gr_inv _ G) _ _ Hr). lia.
  - intros v u r A B. apply root_owned in A, B. eapply NoDup_map_fst_fun; [apply (iv_dup _ _ _ _ _ _ _ (gr_inv _ G))|eassumption|eassumption].
Qed.
Lemma roots_range r : In r (rootsN s1) -> ni <= r < nn s1.
Proof.
  intro H. unfold rootsN in H. apply in_map_iff in H. destruct H as ([v x] & <- & H). apply root_owned in H.
  apply (iv_own _ _ _ _ _ _ _ (gr_inv _ G) _ _ H).
Qed.
Lemma roots_le_owner : lenN (rootsN s1) <= lenN (owner s1).
Proof.
  rewrite <- (lenN_map fst (owner s1)). unfold lenN.
  assert (H : (length (rootsN s1) <= length (map fst (owner s1)))%nat).
  { apply NoDup_incl_length; [apply roots_NoDup|]. intros r Hr. unfold rootsN in Hr. apply in_map_iff in Hr.
    destruct Hr as ([v x] & <- & H). apply root_owned in H. apply in_map_iff. exists (x, v). auto. }
  lia.
Qed.
Lemma owner_le : lenN (owner s1) <= plan_need.
Proof.
  rewrite (sum_own_aux (owner s1) W) by (intros i v H; apply (iv_own _ _ _ _ _ _ _ (gr_inv _ G) _ _ H)).
  rewrite <- total_plan. apply sumN_le. intros v _. pose proof (iv_bud _ _ _ _ _ _ _ (gr_inv _ G) v) as H.
  unfold own in H. now rewrite lenN_map in H.
Qed.
Lemma roots_count : Forall (fun t => (0 <= t)%Z) plan -> Z.of_N (lenN (rootsN s1)) = sumZ plan.
Proof.
  intro Hp. unfold rootsN. rewrite lenN_map, roots_sum by apply (iv_roots _ _ _ _ _ _ _ (gr_inv _ G)).
  rewrite (map_ext_in _ (fun v => Z.to_N (nth v plan 0%Z))).
  - clear - Hp. induction plan as [|z l IH]; [reflexivity|]. inversion Hp; subst. cbn [length seq map sumN fold_right sumZ nth].
    rewrite <- seq_shift, map_map. specialize (IH H2). unfold sumN, sumZ in *. rewrite N2Z.inj_add, IH. lia.
  - intros v Hv. apply in_seq in Hv. destruct (gr_post _ G v ltac:(lia)) as (_ & _ & Hc & _).
    assert (Hz : (0 <= nth v plan 0)%Z) by (rewrite Forall_forall in Hp; apply Hp, nth_In; lia).
    specialize (Hc ltac:(lia)). unfold lenN. lia.
Qed.
(** Automatic tree count. *)
Lemma auto_nodes : In (-1)%Z plan -> 2 * ni <= nn s1.
Proof.
  intro H. destruct (In_nth plan (-1)%Z 0%Z H) as (v & Hv & E). destruct (gr_post _ G v Hv) as (_ & _ & _ & Ha & _). now apply Ha.
Qed.
Lemma auto_roots : 1 <= ni -> In (-1)%Z plan -> rootsN s1 <> [].
Proof.
  intros Hone H. pose proof (auto_nodes H) as Hn. pose proof (iv_nn _ _ _ _ _ _ _ (gr_inv _ G)) as E.
  destruct (owner s1) as [|[i v] o] eqn:Eo; [rewrite lenN_nil in E; lia|].
  assert (Ho : In (i, v) (owner s1)) by (rewrite Eo; left; reflexivity).
  destruct (iv_own _ _ _ _ _ _ _ (gr_inv _ G) _ _ Ho) as [_ Hv]. destruct (gr_post _ G v Hv) as (_ & _ & _ & _ & Hne & _).
  apply in_own in Ho. intro Hr. apply Hne; [intro X; rewrite X in Ho; contradiction|].
  unfold rootsN in Hr. apply map_eq_nil in Hr. unfold mine. now rewrite Hr.
Qed.
(** The shape of the stored nodes. *)
Lemma filter_all {A} (p : A -> bool) l : (forall x, In x l -> p x = true) -> filter p l = l.
Proof.
  induction l as [|a l IH]; intro H; [reflexivity|]. cbn [filter]. rewrite (H a) by now left. f_equal. apply IH. intros x Hx. apply H. now right.
Qed.
Lemma owner_covers i : ni <= i < nn s1 -> exists v, In (i, v) (owner s1) /\ (v < W)%nat.
Proof.
  intro H. pose proof (gr_inv _ G) as Iv. pose proof (iv_nn _ _ _ _ _ _ _ Iv) as E. unfold lenN in E.
  destruct (nth_error (owner s1) (N.to_nat (nn s1 - 1 - i))) as [[j v]|] eqn:En.
  - pose proof (iv_order _ _ _ _ _ _ _ Iv _ _ En) as Ho. cbn [fst] in Ho. assert (j = i) by lia. subst j.
    apply nth_error_In in En. exists v. split; [exact En|]. apply (iv_own _ _ _ _ _ _ _ Iv _ _ En).
  - apply nth_error_None in En. lia.
Qed.
Lemma mine_rootsN v r : In r (mine v s1) -> In r (rootsN s1).
Proof. intro H. apply in_mine in H. unfold rootsN. apply in_map_iff. exists (v, r). auto. Qed.
Lemma rootsN_mine v r : In (r, v) (owner s1) -> In r (rootsN s1) -> In r (mine v s1).
Proof.
  intros Ho H. unfold rootsN in H. apply in_map_iff in H. destruct H as ([u x] & E & H). cbn in E. subst x.
  pose proof (root_owned _ _ H) as H2.
  assert (u = v) by (eapply NoDup_map_fst_fun; [apply (iv_dup _ _ _ _ _ _ _ (gr_inv _ G))|eassumption|eassumption]).
  subst u. now apply in_mine.
Qed.
Lemma post_shape v : (v < W)%nat -> shape fo c ni (simg s0) v s1 (mine v s1).
Proof. intro Hv. apply (gr_post _ G v Hv). Qed.
Lemma grown_shape : ixb c <= vlen c -> forall i, ni <= i < nn s1 ->
  (In i (rootsN s1) -> n_desc c (simg s1 i) = ni) /\ (~ In i (rootsN s1) -> n_desc c (simg s1 i) < ni).
Proof.
  intros Hx i Hi. destruct (owner_covers i Hi) as (v & Ho & Hv). pose proof (post_shape v Hv) as [S1 S2 _ _ _ _ _]. split; intro H.
  - apply (S1 Hx). now apply rootsN_mine.
  - apply (S2 Hx); [now apply in_own|]. intro X. apply H. eapply mine_rootsN; eauto.
Qed.
(** In an index that fits one bucket every node after the items is a root. *)
Lemma grown_small : ni <= maxK fo c -> forall i, ni <= i < nn s1 -> In i (rootsN s1).
Proof.
  intros HK i Hi. destruct (owner_covers i Hi) as (v & Ho & Hv). apply (mine_rootsN v).
  apply (sh_small _ _ _ _ _ _ _ (post_shape v Hv) HK). now apply in_own.
Qed.
Lemma owner_first : ni < nn s1 -> exists v o, owner s1 = (nn s1 - 1, v) :: o /\ (v < W)%nat.
Proof.
  intro H. pose proof (gr_inv _ G) as Iv. pose proof (iv_nn _ _ _ _ _ _ _ Iv) as E.
  destruct (owner s1) as [|[i v] o] eqn:Eo; [rewrite lenN_nil in E; lia|].
  pose proof (iv_order _ _ _ _ _ _ _ Iv 0%nat (i, v) ltac:(now rewrite Eo)) as Ho. cbn [fst] in Ho.
  exists v, o. assert (i = nn s1 - 1) by lia. subst i. split; [reflexivity|].
  eapply (iv_own _ _ _ _ _ _ _ Iv). rewrite Eo. left. reflexivity.
Qed.
Lemma grown_last : ni < nn s1 -> In (nn s1 - 1) (rootsN s1).
Proof.
  intro H. destruct (owner_first H) as (v & o & Eo & Hv). pose proof (post_shape v Hv) as [_ _ S3 _ _ _ _].
  assert (Ew : own v s1 = (nn s1 - 1) :: map fst (filter (fun e => Nat.eqb (snd e) v) o)).
  { unfold own. rewrite Eo. cbn [filter snd]. now rewrite Nat.eqb_refl. }
  destruct S3 as (rs' & j & l & A & B & _); [rewrite Ew; discriminate|]. rewrite Ew in B. injection B as B _.
  apply (mine_rootsN v). rewrite A, B. apply in_or_app. right. now left.
Qed.
Lemma grown_one : W = 1%nat -> ni < nn s1 -> (exists rs', rootsN s1 = rs' ++ [nn s1 - 1]) /\
  (maxK fo c < ni -> 3 <= lenN (present f ni) -> ni + 2 <= nn s1 /\ ~ In (nn s1 - 2) (rootsN s1)).
Proof.
  intros HW H. destruct (owner_first H) as (v & o & Eo & Hv). assert (v = 0%nat) by lia. subst v.
  pose proof (post_shape 0 Hv) as [_ _ S3 _ _ _ _]. pose proof (gr_inv _ G) as Iv.
  assert (Er : rootsN s1 = mine 0 s1).
  { unfold rootsN, mine. f_equal. symmetry. apply filter_all. intros [v r] Hin. cbn.
    pose proof (iv_roots _ _ _ _ _ _ _ Iv _ _ Hin). apply Nat.eqb_eq. lia. }
  assert (Ew : own 0 s1 = map fst (owner s1)).
  { unfold own. f_equal. apply filter_all. intros [r v] Hin. cbn.
    destruct (iv_own _ _ _ _ _ _ _ Iv _ _ Hin). apply Nat.eqb_eq. lia. }
  destruct S3 as (rs' & j & l & A & B & C); [rewrite Ew, Eo; discriminate|].
  rewrite Ew, Eo in B. cbn [map fst] in B. injection B as <- B. split; [exists rs'; congruence|].
  intros HK H3. rewrite <- added_present in H3. destruct (C HK H3) as (k & l' & E & Hk). rewrite <- B in E.
  destruct o as [|[k' v'] o']; [discriminate|]. cbn [map fst] in E. injection E as -> _.
  pose proof (iv_order _ _ _ _ _ _ _ Iv 1%nat (k, v') ltac:(now rewrite Eo)) as Ho. cbn [fst] in Ho.
  assert (Hin : In (k, v') (owner s1)) by (rewrite Eo; right; left; reflexivity).
  destruct (iv_own _ _ _ _ _ _ _ Iv _ _ Hin) as [Hk2 _].
  assert (k = nn s1 - 2) by lia. subst k. split; [lia|]. now rewrite Er.
Qed.
Lemma grown_up : W = 1%nat -> Sorted.StronglySorted N.lt (rootsN s1).
Proof.
  intro HW. pose proof (post_shape 0 ltac:(lia)) as [_ _ _ S4 _ _ _]. pose proof (gr_inv _ G) as Iv.
  replace (rootsN s1) with (mine 0 s1); [exact S4|].
  unfold rootsN, mine. f_equal. apply filter_all. intros [v r] Hin. cbn.
  pose proof (iv_roots _ _ _ _ _ _ _ Iv _ _ Hin). apply Nat.eqb_eq. lia.
Qed.
(** No two trees share a node, items aside. *)
Lemma grown_tree r : 3 * ixb c <= vlen c \/ ni <= maxK fo c -> In r (rootsN s1) -> exists v xs m, (v < W)%nat /\ In r (mine v s1) /\ tree fo c ni (simg s0) v [] s1 r xs m.
Proof.
  intros Hv3 Hr. unfold rootsN in Hr. apply in_map_iff in Hr. destruct Hr as ([v r'] & <- & Hr). cbn [snd].
  pose proof (iv_roots _ _ _ _ _ _ _ (gr_inv _ G) _ _ Hr) as Hvw.
  destruct (gr_post _ G v Hvw) as (_ & Hg & _). rewrite Forall_forall in Hg.
  apply in_mine in Hr. destruct (Hg _ Hr) as [_ Ht]. destruct (Ht Hv3) as (xs & m & T & _). eauto 6.
Qed.
Lemma grown_apart : 3 * ixb c <= vlen c -> forall r r' j, In r (rootsN s1) -> In r' (rootsN s1) ->
  inside fo c ni s1 r j -> inside fo c ni s1 r' j -> r = r'.
Proof.
  intros Hv3 r r' j Hr Hr' Hj Hj'.
  destruct (grown_tree r (or_introl Hv3) Hr) as (v & xs & m & Hvw & Hm & T). destruct (grown_tree r' (or_introl Hv3) Hr') as (u & ys & k & Huw & Hm' & T').
  destruct (inside_tree fo c ni (simg s0) v [] s1 r j Hj _ _ T) as [O1 _]. destruct (inside_tree fo c ni (simg s0) u [] s1 r' j Hj' _ _ T') as [O2 _].
  apply in_own in O1, O2.
  assert (u = v) by (eapply NoDup_map_fst_fun; [apply (iv_dup _ _ _ _ _ _ _ (gr_inv _ G))|eassumption|eassumption]). subst u.
  eapply (sh_apart _ _ _ _ _ _ _ (post_shape v Hvw) Hv3); eauto.
Qed.
(** Every node that is not an item is in a tree. *)
Lemma grown_cover : 3 * ixb c <= vlen c -> forall j, ni <= j < nn s1 -> exists r, In r (rootsN s1) /\ inside fo c ni s1 r j.
Proof.
  intros Hv3 j Hj. destruct (owner_covers j Hj) as (v & Ho & Hv). apply in_own in Ho.
  destruct (sh_cover _ _ _ _ _ _ _ (post_shape v Hv) Hv3 j Ho) as (r & Hr & Hin). exists r. split; [eapply mine_rootsN; eauto|exact Hin].
Qed.
End G.
End Wk.

(** ** The copies of the roots *)
Definition copy_image (s : bst) (r : N) : list N := splice 0 (sub 0 (vlen c) (simg s r)) (zeros fo c).
Lemma vlen_fits : vlen c <= NSZ.
Proof. rewrite (nodeSize_eq _ _ OK). pose proof (fb_pos _ _ OK). nia. Qed.
Lemma copy_roots_run s : store_wf fo c s -> nn s <= ns s -> (forall i, nn s <= i -> simg s i = zeros fo c) ->
  (forall r, In r (rootsN s) -> r < nn s) -> cap_ok fo c (nn s + lenN (rootsN s)) ->
  exists t, run c 0 (copy_roots fo c) s = Ok (tt, t) /\ store_wf fo c t /\ nn t = nn s + lenN (rootsN s) /\ nn t <= ns t /\
    broots t = broots s /\ rnd t = rnd s /\ (forall i, i < nn s -> simg t i = simg s i) /\
    (forall j r, nth_error (rootsN s) (N.to_nat j) = Some r -> simg t (nn s + j) = copy_image s r) /\
    (forall i, nn t <= i -> simg t i = zeros fo c).
Proof.
  intros Wf Hn Hz Hr Hc. unfold copy_roots. cbn [run].
  change (exec c 0 AGetRoots s) with (Ok (broots s, s)). cbn [rbind run].
  change (exec c 0 AGetNN s) with (Ok (nn s, s)). cbn [rbind].
  change (map snd (broots s)) with (rootsN s).
  set (k := lenN (rootsN s)) in *.
  assert (Hk : lenN (broots s) = k) by (unfold k, rootsN; now rewrite lenN_map). rewrite Hk.
  pose proof (cap_ok_small _ _ OK _ Hc) as Hsm. rewrite (tix_small c k), (tix_small c (nn s + k)) by lia.
  rewrite run_pbind.
  destruct (allocate_size_run _ _ OK 0%nat (nn s + k) false s Wf Hc) as (s1 & E1 & W1 & Hge & Hns & _ & Hm & Hnn & Hro & Hrn & _).
  rewrite E1. cbn [rbind]. rewrite run_pbind.
  assert (Him : forall i, simg s1 i = simg s i) by (intro i; apply node_at_ext; exact Hm).
  assert (Hlen : length (rootsN s) = N.to_nat k) by (unfold k, lenN; lia).
  pose proof vlen_fits as Hvf.
  rewrite (combine_range (rootsN s) k 0 Hlen).
  set (g := fun i => nth (N.to_nat i) (rootsN s) 0).
  match goal with |- context [pmap _ (map ?f (rangeN k))] => change f with (fun i => (i, g i)) end.
  assert (Hg : forall i, i < k -> g i < nn s).
  { intros i Hi. apply Hr. unfold g. apply nth_In. lia. }
  destruct (run_pmap c 0 (fun ir : N * N =>
                  vis n <- AGetNN;
                  vis p <- AGetBase;
                  vis bs <- ARead p (addr fo c (snd ir)) (vlen c);
                  vis! AWrite p (addr fo c (tix c (n + fst ir))) bs;
                  Ret tt)
      (fun d _ t => store_wf fo c t /\ ns t = ns s1 /\ nn t = nn s /\ broots t = broots s /\ rnd t = rnd s /\
         (forall i, In i (map fst d) -> simg t (nn s + i) = copy_image s (g i)) /\
         (forall i, (forall j, In j (map fst d) -> i <> nn s + j) -> simg t i = simg s i))
      (map (fun i => (i, g i)) (rangeN k)) [] [] s1) as (bs & t & E & P1 & P2 & P3 & P4 & P5 & P6 & P7).
  { split; [exact W1|]. repeat split; auto; try congruence. intros i []. }
  { intros pre a rest bs t Heq (P1 & P2 & P3 & P4 & P5 & P6 & P7). cbn [app] in Heq.
    assert (Ha : exists i, a = (i, g i) /\ i < k).
    { assert (In a (map (fun i => (i, g i)) (rangeN k))) as Ha by (rewrite Heq; apply in_or_app; right; left; reflexivity).
      apply in_map_iff in Ha. destruct Ha as (i & <- & Hi). apply in_rangeN in Hi. eauto. }
    destruct Ha as (i & -> & Hi). cbn [fst snd run]. specialize (Hg i Hi).
    assert (Hfr : ~ In i (map fst pre)).
    { assert (ND : NoDup (map fst (map (fun i => (i, g i)) (rangeN k)))).
      { rewrite map_map. cbn [fst]. rewrite map_id. apply NoDup_rangeN. }
      rewrite Heq, map_app in ND. cbn [map fst] in ND. apply NoDup_remove_2 in ND. intro Hx. apply ND. apply in_or_app. auto. }
    change (exec c 0 AGetNN t) with (Ok (nn t, t)). cbn [rbind run]. rewrite P3.
    change (exec c 0 AGetBase t) with (Ok (base t, t)). cbn [rbind run].
    rewrite (cap_ok_addr _ _ _ (g i) Hc) by lia.
    rewrite <- (N.add_0_r (g i * NSZ)), exec_read_wf by (auto; lia). cbn [rbind run].
    rewrite (tix_small c (nn s + i)) by lia. rewrite (cap_ok_addr _ _ _ (nn s + i) Hc) by lia.
    rewrite (P7 (g i)) by (intros j Hj; lia).
    rewrite <- (N.add_0_r ((nn s + i) * NSZ)).
    destruct (exec_write_wf fo c 0%nat t (nn s + i) 0 (sub 0 (vlen c) (simg s (g i))) P1 ltac:(lia)) as (u & Eu & W2 & N2 & M2 & R2 & D2 & B2 & I2 & O2).
    { unfold sub, lenN. cbn [N.to_nat skipn]. rewrite firstn_length. lia. }
    rewrite Eu. cbn [rbind run]. exists tt, u. split; [reflexivity|]. split; [exact W2|]. repeat split; try congruence.
    - intros j Hj. rewrite map_app in Hj. apply in_app_or in Hj. destruct Hj as [Hj|[<-|[]]].
      + rewrite O2; [auto|]. intro X. apply Hfr. replace i with j by lia. exact Hj.
      + cbn [fst]. rewrite I2. unfold copy_image. f_equal. rewrite P7; [apply Hz; lia|].
        intros j Hj X. apply Hfr. replace i with j by lia. exact Hj.
    - intros j Hj. rewrite map_app in Hj. cbn [map fst] in Hj. rewrite O2; [apply P7|].
      + intros x Hx. apply Hj. apply in_or_app. auto.
      + apply Hj. apply in_or_app. right. left. reflexivity. }
  rewrite E. cbn [rbind run]. change (exec c 0 AGetNN t) with (Ok (nn t, t)). cbn [rbind run].
  rewrite P3, (tix_small c (nn s + k)) by lia. cbn [exec rbind run].
  eexists. split; [reflexivity|]. cbn [set_nn nn ns broots rnd].
  assert (Hst : forall i o, simg (set_nn (nn s + k) o t) i = simg t i) by (intros; apply img_eq; reflexivity).
  assert (Hd : forall i, i < k -> In i (map fst (map (fun i => (i, g i)) (rangeN k)))).
  { intros i Hi. rewrite map_map. cbn [fst]. rewrite map_id. now apply in_rangeN. }
  assert (Hd2 : forall i, In i (map fst (map (fun i => (i, g i)) (rangeN k))) -> i < k).
  { intros i Hi. rewrite map_map in Hi. cbn [fst] in Hi. rewrite map_id in Hi. now apply in_rangeN. }
  cbn [app] in P6, P7.
  split; [destruct P1 as [J1 J2 J3 J4 J5]; now constructor|]. split; [reflexivity|]. split; [lia|].
  split; [exact P4|]. split; [exact P5|]. split; [|split].
  - intros i Hi. rewrite Hst. apply P7. intros j Hj. lia.
  - intros j r Hj. rewrite Hst. assert (Hjk : j < k).
    { assert (N.to_nat j < length (rootsN s))%nat by (apply nth_error_Some; congruence). lia. }
    rewrite P6 by (apply Hd; exact Hjk). unfold g. erewrite nth_error_nth by exact Hj. reflexivity.
  - intros i Hi. rewrite Hst, P7; [apply Hz; lia|]. intros j Hj. apply Hd2 in Hj. lia.
Qed.

(** ** The size of a query context *)
Definition bm_weight (n : N) (im : N -> list N) (i : N) : Z :=
  (if ((n_desc c (im i) =? 1) && (i <? n))%N then 1
   else if (n_desc c (im i) <=? maxK fo c)%N then Z.of_N (n_desc c (im i)) else 0)%Z.
Lemma batch_max_run s n : store_wf fo c s -> cap_ok fo c (nn s) -> forall ids acc, (forall i, In i ids -> i < nn s /\ i < ns s) ->
  batch_max fo c (arena_at (heap s) (base s)) n ids acc = Ok (acc + sumZ (map (bm_weight n (simg s)) ids))%Z.
Proof.
  intros Wf Hc ids. induction ids as [|i ids IH]; intros acc Hi; cbn [batch_max map].
  - f_equal. cbn. lia.
  - destruct (Hi i (or_introl eq_refl)) as [H1 H2].
    destruct (wf_arena s Wf ltac:(lia)) as (b & Hb & Hm & Hs). rewrite Hb in *. cbn [vread].
    rewrite (cap_ok_addr _ _ _ i Hc) by lia. pose proof (nodeSize_ge _ _ OK).
    rewrite bread_ok by nia. cbn [rbind].
    assert (Hd : le_dec (mread (bdata b) (i * NSZ) (N.to_nat (ixb c))) = n_desc c (simg s i)).
    { unfold n_desc, snode_img, node_at. rewrite Hm, sub_mread by lia. now rewrite N.add_0_r. }
    rewrite Hd, IH by (intros; apply Hi; right; auto). f_equal. cbn [sumZ fold_right]. unfold sumZ, bm_weight.
    destruct ((n_desc c (simg s i) =? 1) && (i <? n)); [lia|]. destruct (n_desc c (simg s i) <=? maxK fo c); lia.
Qed.

Lemma build_post_run ix s : store_wf fo c s -> nn s <= ns s -> (forall i, nn s <= i -> simg s i = zeros fo c) ->
  (forall r, In r (rootsN s) -> r < nn s) -> cap_ok fo c (nn s + lenN (rootsN s)) ->
  exists t, build_post fo c ix s = Ok (mkIdx t (n_items ix)
      (-1 + sumZ (map (bm_weight (n_items ix) (simg t)) (rangeN (nn t))))%Z (iloaded ix) true (imemory ix)) /\
    run c 0 (copy_roots fo c) s = Ok (tt, t) /\
    store_wf fo c t /\ nn t = nn s + lenN (rootsN s) /\ nn t <= ns t /\
    broots t = broots s /\ rnd t = rnd s /\ (forall i, i < nn s -> simg t i = simg s i) /\
    (forall j r, nth_error (rootsN s) (N.to_nat j) = Some r -> simg t (nn s + j) = copy_image s r) /\
    (forall i, nn t <= i -> simg t i = zeros fo c).
Proof.
  intros Wf Hn Hz Hr Hc. destruct (copy_roots_run s Wf Hn Hz Hr Hc) as (t & E & P1 & P2 & P3 & P4 & P5 & P6 & P7 & P8).
  exists t. unfold build_post. rewrite E. cbn [rbind]. rewrite batch_max_run; auto.
  - cbn [rbind]. split; [reflexivity|]. split; [reflexivity|]. split; [exact P1|]. auto 10.
  - rewrite P2. exact Hc.
  - intros i Hi. apply in_rangeN in Hi. lia.
Qed.
End S.
