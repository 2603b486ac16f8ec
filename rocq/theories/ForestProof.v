(** What Build leaves behind: the stored items and the forest. *)
From Verif Require Import Base Flt Layout Rng Alloc Prog Dist Build Policy Index Spec ForestSpec Lib LayoutProof MemProof
  StoreProof PolicyProof ConcSpec ConcProof TreeProof PoolProof SeqProof BuildProof.
From Coq Require Import Permutation.
Open Scope N_scope.

Section S.
Variable fo : FOps.
Variable c : Cfg.
Hypothesis OK : CfgOK fo c.
Notation NSZ := (nodeSize fo c).
Notation K := (maxK fo c).
Notation simg := (snode_img fo c).
Notation V := (list (F fo)).

(** Nodes as a query reads them. *)
Lemma view_arena fs ix b : arena_at (heap (ib ix)) (base (ib ix)) = Some b -> view fs ix = Some b.
Proof. unfold view. destruct (base (ib ix)); cbn [arena_at]; [auto|discriminate]. Qed.
Lemma vread_wf fs ix i o len : store_wf fo c (ib ix) -> i < ns (ib ix) -> o + len <= NSZ ->
  vread (view fs ix) (i * NSZ + o) len = Ok (sub o len (simg (ib ix) i)).
Proof.
  intros Wf Hi Ho. destruct (wf_arena _ _ _ Wf ltac:(lia)) as (b & Hb & Hm & Hs).
  rewrite (view_arena fs ix b Hb). cbn [vread]. rewrite bread_ok by nia. f_equal.
  unfold snode_img, node_at. rewrite Hm. now rewrite sub_mread by lia.
Qed.
Lemma vread_node fs ix i : store_wf fo c (ib ix) -> i < ns (ib ix) -> cap_ok fo c (i + 1) ->
  vread (view fs ix) (addr fo c i) NSZ = Ok (simg (ib ix) i).
Proof.
  intros Wf Hi Hc. rewrite (cap_ok_addr _ _ _ i Hc) by lia. rewrite <- (N.add_0_r (i * NSZ)), vread_wf by (auto; lia).
  f_equal. unfold sub. cbn [N.to_nat skipn]. apply firstn_all2. unfold snode_img. rewrite length_node_at. lia.
Qed.

(** A view that shows the nodes of [ix]. *)
Definition agrees (ix : idx) (v : option buf) : Prop :=
  forall i, i < nn (ib ix) -> vread v (addr fo c i) NSZ = Ok (simg (ib ix) i).

(** Everything later proofs need to know about an index after Build. *)
Record after_build (ix : idx) (f : N -> option V) (plan : list Z) (ix' : idx) : Prop := mkAfter {
  bt_items : n_items ix' = n_items ix;
  bt_flags : iloaded ix' = false /\ ibuilt ix' = true /\ imemory ix' = None;
  bt_wf : store_wf fo c (ib ix');
  bt_ns : nn (ib ix') <= ns (ib ix');
  bt_ni : n_items ix <= nn (ib ix');
  bt_cap : cap_ok fo c (nn (ib ix'));
  bt_img : forall i, i < n_items ix -> simg (ib ix') i = pre_image fo c (n_items ix) (fun j => image_of fo c (f j)) i;
  bt_zero : forall i, nn (ib ix') <= i -> simg (ib ix') i = zeros fo c;
  bt_dup : NoDup (rootsN (ib ix'));
  bt_range : forall r, In r (rootsN (ib ix')) -> n_items ix <= r < nn (ib ix');
  bt_copies : exists n, nn (ib ix') = n + lenN (rootsN (ib ix')) /\
     (forall r, In r (rootsN (ib ix')) -> r < n) /\
     (In (-1)%Z plan -> 2 * n_items ix <= n) /\
     forall j r, nth_error (rootsN (ib ix')) (N.to_nat j) = Some r -> simg (ib ix') (n + j) = copy_image fo c (ib ix') r;
  bt_count : Forall (fun t => (0 <= t)%Z) plan -> Z.of_N (lenN (rootsN (ib ix'))) = sumZ plan;
  bt_auto : 1 <= n_items ix -> In (-1)%Z plan -> rootsN (ib ix') <> [];
  bt_rnd : rnd (ib ix') <> None;
  bt_size : nn (ib ix') <= n_items ix + plan_need ix plan + lenN (rootsN (ib ix'));
  bt_batch : batchMax ix' = (-1 + sumZ (map (bm_weight fo c (n_items ix) (simg (ib ix'))) (rangeN (nn (ib ix')))))%Z;
  bt_shape : ixb c <= vlen c -> forall i, n_items ix <= i -> i + lenN (rootsN (ib ix')) < nn (ib ix') ->
     (In i (rootsN (ib ix')) -> n_desc c (simg (ib ix') i) = n_items ix) /\
     (~ In i (rootsN (ib ix')) -> n_desc c (simg (ib ix') i) < n_items ix);
  bt_last : rootsN (ib ix') <> [] -> In (nn (ib ix') - lenN (rootsN (ib ix')) - 1) (rootsN (ib ix'));
  bt_one : length plan = 1%nat -> rootsN (ib ix') <> [] ->
     (exists rs, rootsN (ib ix') = rs ++ [nn (ib ix') - lenN (rootsN (ib ix')) - 1]) /\
     (K < n_items ix -> 3 <= lenN (present fo f (n_items ix)) ->
        n_items ix + 2 <= nn (ib ix') - lenN (rootsN (ib ix')) /\
        ~ In (nn (ib ix') - lenN (rootsN (ib ix')) - 2) (rootsN (ib ix')));
  bt_up : length plan = 1%nat -> Sorted.StronglySorted N.lt (rootsN (ib ix'));
  bt_apart : 3 * ixb c <= vlen c -> forall r r' j, In r (rootsN (ib ix')) -> In r' (rootsN (ib ix')) ->
     inside fo c (n_items ix) (ib ix') r j -> j < nn (ib ix') /\ (inside fo c (n_items ix) (ib ix') r' j -> r = r');
  bt_cover : 3 * ixb c <= vlen c -> forall j, n_items ix <= j -> j + lenN (rootsN (ib ix')) < nn (ib ix') ->
     exists r, In r (rootsN (ib ix')) /\ inside fo c (n_items ix) (ib ix') r j;
  bt_cuts : 3 * ixb c <= vlen c -> forall r, In r (rootsN (ib ix')) ->
     exists im xs, (forall i, i < n_items ix -> im i = pre_image fo c (n_items ix) (fun j => image_of fo c (f j)) i) /\
       forall v, agrees ix' v -> divided fo c (tcut fo c (n_items ix) im) v (n_items ix) r xs;
  bt_order : 3 * ixb c <= vlen c -> forall r, In r (rootsN (ib ix')) -> forall v, agrees ix' v ->
     forall d i l r', descends fo c v r d i -> splits fo c v i l r' -> l < i /\ r' < i;
  bt_few : n_items ix <= K -> forall j, n_items ix <= j -> j + lenN (rootsN (ib ix')) < nn (ib ix') -> In j (rootsN (ib ix'));
  bt_leaf : n_items ix <= K -> forall r, In r (rootsN (ib ix')) -> forall v, agrees ix' v ->
     lists_items fo c v (n_items ix) r (present fo f (n_items ix) ++ repeat 0 (N.to_nat (n_items ix - lenN (present fo f (n_items ix)))));
  bt_trees : 3 * ixb c <= vlen c \/ n_items ix <= K -> forall r, In r (rootsN (ib ix')) ->
     exists xs m, (forall v, agrees ix' v -> reach fo c v (n_items ix) r xs m) /\ (m <= 2 * length (present fo f (n_items ix)) + 1)%nat /\
       if K <? n_items ix then Permutation xs (present fo f (n_items ix))
       else xs = present fo f (n_items ix) ++ repeat 0 (N.to_nat (n_items ix - lenN (present fo f (n_items ix))))
}.

Lemma reach_pos v ni i xs m : reach fo c v ni i xs m -> (1 <= m)%nat.
Proof. induction 1; lia. Qed.
Lemma reach_one v ni i xs : reach fo c v ni i xs 1 -> lists_items fo c v ni i xs.
Proof.
  intro H. inversion H as [|? ? ? ? ? ? ? ? H1 H2]; subst; [assumption|]. apply reach_pos in H1. lia.
Qed.
Lemma tree_reach v ix' ni im w s1 : agrees ix' v -> nn s1 <= nn (ib ix') ->
  ni <= nn s1 -> (forall i, i < nn s1 -> simg (ib ix') i = simg s1 i) -> (forall i, i < ni -> simg s1 i = im i) ->
  (forall i, In i (own w s1) -> ni <= i < nn s1) ->
  forall b i xs m, tree fo c ni im w b s1 i xs m -> reach fo c v ni i xs m.
Proof.
  intros Hag Hns Hni Hsame Him Hown b i xs m T.
  assert (HR : forall j, j < nn s1 -> vread v (addr fo c j) NSZ = Ok (simg s1 j)).
  { intros j Hj. rewrite Hag by lia. now rewrite Hsame. }
  induction T as [i Hi Hd|i Hi Hd|i Hi Hb Hd|i l r xs ys m n Hi Hb Hd Hch Hx Hl IHl Hr IHr].
  - apply re_leaf. eapply li_item; [apply HR; lia| |exact Hi]. now rewrite Him.
  - apply re_leaf. replace (@nil N) with (n_children c (n_desc c (simg s1 i)) (simg s1 i)).
    + apply li_bucket; [apply HR; lia| |]; rewrite Him by exact Hi; lia.
    + rewrite Him by exact Hi. rewrite Hd. reflexivity.
  - apply re_leaf. destruct (Hown i Hi). apply li_bucket; [apply HR; lia|lia|exact Hd].
  - destruct (Hown i Hi). eapply re_split; [|exact IHl|exact IHr]. econstructor; [apply HR; lia|exact Hd|exact Hch].
Qed.

Lemma tree_divided v ix' ni im w s1 : agrees ix' v -> nn s1 <= nn (ib ix') ->
  ni <= nn s1 -> (forall i, i < nn s1 -> simg (ib ix') i = simg s1 i) -> (forall i, i < ni -> simg s1 i = im i) ->
  (forall i, In i (own w s1) -> ni <= i < nn s1) ->
  forall b i xs m, tree fo c ni im w b s1 i xs m -> divided fo c (tcut fo c ni im) v ni i xs.
Proof.
  intros Hag Hns Hni Hsame Him Hown b i xs m T.
  assert (HR : forall j, j < nn s1 -> vread v (addr fo c j) NSZ = Ok (simg s1 j)).
  { intros j Hj. rewrite Hag by lia. now rewrite Hsame. }
  induction T as [i Hi Hd|i Hi Hd|i Hi Hb Hd|i l r xs ys m n Hi Hb Hd Hch Hx Hl IHl Hr IHr].
  - apply dv_leaf. eapply li_item; [apply HR; lia| |exact Hi]. now rewrite Him.
  - apply dv_leaf. replace (@nil N) with (n_children c (n_desc c (simg s1 i)) (simg s1 i)).
    + apply li_bucket; [apply HR; lia| |]; rewrite Him by exact Hi; lia.
    + rewrite Him by exact Hi. rewrite Hd. reflexivity.
  - apply dv_leaf. destruct (Hown i Hi). apply li_bucket; [apply HR; lia|lia|exact Hd].
  - destruct (Hown i Hi). eapply dv_split; [|apply HR; lia|exact Hx|exact IHl|exact IHr].
    econstructor; [apply HR; lia|exact Hd|exact Hch].
Qed.
(** The children of a node were made before it. *)
Lemma tree_order v ix' ni im w s1 : agrees ix' v -> nn s1 <= nn (ib ix') ->
  ni <= nn s1 -> (forall i, i < nn s1 -> simg (ib ix') i = simg s1 i) -> (forall i, i < ni -> simg s1 i = im i) ->
  (forall i, In i (own w s1) -> ni <= i < nn s1) ->
  forall b i xs m, tree fo c ni im w b s1 i xs m ->
  forall d j l r, descends fo c v i d j -> splits fo c v j l r -> l < j /\ r < j.
Proof.
  intros Hag Hns Hni Hsame Him Hown b i xs m T.
  assert (HR : forall j, j < nn s1 -> vread v (addr fo c j) NSZ = Ok (simg s1 j)).
  { intros j Hj. rewrite Hag by lia. now rewrite Hsame. }
  assert (HL : forall i, i < nn s1 -> n_desc c (simg s1 i) <= K -> forall d j l r, descends fo c v i d j -> splits fo c v j l r -> False).
  { intros i0 Hi0 Hd0. assert (NS : forall l r, splits fo c v i0 l r -> False).
    { intros l r [bs l' r' R1 K1 _]. rewrite HR in R1 by exact Hi0. injection R1 as <-. lia. }
    intros d j l r De Sp. inversion De; subst; eauto. }
  pose proof (maxK_ge2 fo c OK) as HK.
  induction T as [i Hi Hd|i Hi Hd|i Hi Hb Hd|i l r xs ys m n Hi Hb Hd Hch Hx Hl IHl Hr IHr Ho]; intros d j l0 r0 De Sp.
  - exfalso. eapply HL; [| |exact De|exact Sp]; [lia|]. rewrite Him by exact Hi. lia.
  - exfalso. eapply HL; [| |exact De|exact Sp]; [lia|]. rewrite Him by exact Hi. lia.
  - destruct (Hown i Hi). exfalso. eapply HL; [| |exact De|exact Sp]; [lia|exact Hd].
  - destruct (Hown i Hi). assert (Si : forall a b, splits fo c v i a b -> a = l /\ b = r).
    { intros a b0 [bs l' r' R1 K1 C1]. rewrite HR in R1 by lia. injection R1 as <-. split; congruence. }
    inversion De as [|? a b0 d' ? Hs De'|? a b0 d' ? Hs De']; subst.
    + destruct (Si _ _ Sp) as [-> ->]. exact Ho.
    + destruct (Si _ _ Hs) as [-> ->]. eauto.
    + destruct (Si _ _ Hs) as [-> ->]. eauto.
Qed.
Lemma divided_mono (C C' : list N -> list N -> list N -> Prop) v ni : (forall bs xs ys, C bs xs ys -> C' bs xs ys) ->
  forall i xs, divided fo c C v ni i xs -> divided fo c C' v ni i xs.
Proof. intros H i xs D. induction D; [now apply dv_leaf|]. eapply dv_split; eauto. Qed.

Lemma built_intro ix f s0 plan s1 : items_inv fo c ix f -> started fo c ix f s0 -> rnd (ib ix) <> None ->
  cap_ok fo c (n_items ix + 2 * plan_need ix plan) -> 1 <= vlen c ->
  grown fo c ix s0 plan s1 -> exists ix', build_post fo c ix s1 = Ok ix' /\ after_build ix f plan ix'.
Proof.
  intros I ST Hrn Hcap Hv G. pose proof (ii_last _ _ _ _ I) as Hlast. pose proof (gr_inv _ _ _ _ _ _ G) as Iv.
  assert (B1 : lenN (rootsN s1) <= lenN (owner s1)) by (eapply roots_le_owner; eauto).
  assert (B2 : lenN (owner s1) <= plan_need ix plan) by (eapply owner_le; eauto).
  pose proof (iv_nn _ _ _ _ _ _ _ Iv) as Hnn.
  assert (Hcr : cap_ok fo c (nn s1 + lenN (rootsN s1))) by (eapply cap_ok_mono; [|exact Hcap]; lia).
  assert (Hrr : forall r, In r (rootsN s1) -> n_items ix <= r < nn s1) by (eapply roots_range; eauto).
  destruct (build_post_run fo c OK ix s1 (iv_wf _ _ _ _ _ _ _ Iv) (iv_le _ _ _ _ _ _ _ Iv) (iv_zero _ _ _ _ _ _ _ Iv)
     ltac:(intros r Hr; apply (Hrr r Hr)) Hcr) as (t & E & _ & P1 & P2 & P3 & P4 & P5 & P6 & P7 & P8).
  eexists. split; [exact E|].
  assert (Er : rootsN t = rootsN s1) by (unfold rootsN; now rewrite P4).
  constructor; cbn [ib n_items iloaded ibuilt imemory batchMax]; rewrite ?Er; auto.
  - split; [apply (ii_loaded _ _ _ _ I)|]. split; [reflexivity|apply (ii_mem _ _ _ _ I)].
  - lia.
  - now rewrite P2.
  - intros i Hi. rewrite P6 by lia. rewrite (iv_items _ _ _ _ _ _ _ Iv i Hi). now apply (st_img _ _ _ _ _ ST).
  - eapply roots_NoDup; eauto.
  - intros r Hr. pose proof (Hrr r Hr). lia.
  - exists (nn s1). split; [exact P2|]. split; [intros r Hr; apply (Hrr r Hr)|]. split.
    + eapply auto_nodes; eauto.
    + intros j r Hj. rewrite (P7 j r Hj). unfold copy_image. f_equal. f_equal. rewrite P6; [reflexivity|].
      apply (Hrr r). eapply nth_error_In; eauto.
  - eapply roots_count; eauto.
  - eapply auto_roots; eauto.
  - rewrite P5. apply (iv_rnd _ _ _ _ _ _ _ Iv).
  - lia.
  - intros Hx i Hi Hlt. rewrite P6 by lia. eapply grown_shape; eauto. lia.
  - intro Hne. replace (nn t - _) with (nn s1) by lia. eapply grown_last; eauto.
    destruct (rootsN s1) as [|r rs] eqn:Es; [congruence|]. pose proof (Hrr r (or_introl eq_refl)). lia.
  - intros HW Hne. replace (nn t - _) with (nn s1) by lia. eapply grown_one; eauto.
    destruct (rootsN s1) as [|r rs] eqn:Es; [congruence|]. pose proof (Hrr r (or_introl eq_refl)). lia.
  - intros HW. eapply grown_up; eauto.
  - intros Hv3 r r' j Hr Hr' Hj.
    assert (Back : forall r, In r (rootsN s1) -> inside fo c (n_items ix) t r j -> inside fo c (n_items ix) s1 r j /\ j < nn s1).
    { intros r0 Hr0 Hj0. destruct (grown_tree fo c ix s0 plan s1 G r0 (or_introl Hv3) Hr0) as (v & xs & m & _ & _ & T).
      assert (Hj1 : inside fo c (n_items ix) s1 r0 j).
      { eapply inside_same; [|exact Hj0|exact T]. intros x Hx. apply P6. apply in_own in Hx.
        apply (iv_own _ _ _ _ _ _ _ Iv _ _ Hx). }
      split; [exact Hj1|]. destruct (inside_tree fo c (n_items ix) (simg s0) v [] s1 r0 j Hj1 _ _ T) as [O1 _].
      apply in_own in O1. apply (iv_own _ _ _ _ _ _ _ Iv _ _ O1). }
    destruct (Back r Hr Hj) as [Hj1 Hlt]. split; [lia|]. intro Hj'. destruct (Back r' Hr' Hj') as [Hj2 _].
    eapply grown_apart; eauto.
  - intros Hv3 j Hj Hlt. assert (Hjs : n_items ix <= j < nn s1) by lia.
    assert (Hc : exists r, In r (rootsN s1) /\ inside fo c (n_items ix) s1 r j) by (eapply grown_cover; eauto).
    destruct Hc as (r & Hr & Hin). exists r. split; [exact Hr|].
    destruct (grown_tree fo c ix s0 plan s1 G r (or_introl Hv3) Hr) as (v & xs & m & _ & _ & T).
    eapply inside_up; [|exact Hin|exact T]. intros x Hx. apply P6. apply in_own in Hx. apply (iv_own _ _ _ _ _ _ _ Iv _ _ Hx).
  - intros Hv3 r Hr. unfold rootsN in Hr. apply in_map_iff in Hr. destruct Hr as ([v r'] & <- & Hr). cbn [snd].
    pose proof (iv_roots _ _ _ _ _ _ _ Iv _ _ Hr) as Hvw.
    destruct (gr_post _ _ _ _ _ _ G v Hvw) as (_ & Hg & _). rewrite Forall_forall in Hg.
    apply in_mine in Hr. destruct (Hg _ Hr) as [_ Ht]. destruct (Ht (or_introl Hv3)) as (xs & m & T & _).
    exists (simg s0), xs. split; [intros i Hi; now apply (st_img _ _ _ _ _ ST)|].
    intros vw Hag. eapply tree_divided with (s1 := s1); [exact Hag|cbn [ib]; lia| |exact P6|apply (iv_items _ _ _ _ _ _ _ Iv)| |exact T].
    + lia.
    + intros i Hi. apply in_own in Hi. apply (iv_own _ _ _ _ _ _ _ Iv _ _ Hi).
  - intros Hv3 r Hr. unfold rootsN in Hr. apply in_map_iff in Hr. destruct Hr as ([v r'] & <- & Hr). cbn [snd].
    pose proof (iv_roots _ _ _ _ _ _ _ Iv _ _ Hr) as Hvw.
    destruct (gr_post _ _ _ _ _ _ G v Hvw) as (_ & Hg & _). rewrite Forall_forall in Hg.
    apply in_mine in Hr. destruct (Hg _ Hr) as [_ Ht]. destruct (Ht (or_introl Hv3)) as (xs & m & T & _).
    intros vw Hag. eapply tree_order with (s1 := s1); [exact Hag|cbn [ib]; lia| |exact P6|apply (iv_items _ _ _ _ _ _ _ Iv)| |exact T].
    + lia.
    + intros i Hi. apply in_own in Hi. apply (iv_own _ _ _ _ _ _ _ Iv _ _ Hi).
  - intros HK j Hj Hlt. eapply grown_small; eauto. lia.
  - intros Hv3 r Hr. unfold rootsN in Hr. apply in_map_iff in Hr. destruct Hr as ([v r'] & <- & Hr). cbn [snd].
    pose proof (iv_roots _ _ _ _ _ _ _ Iv _ _ Hr) as Hvw.
    destruct (gr_post _ _ _ _ _ _ G v Hvw) as (_ & Hg & _). rewrite Forall_forall in Hg.
    apply in_mine in Hr. destruct (Hg _ Hr) as [_ Ht]. destruct (Ht (or_intror Hv3)) as (xs & m & T & Hl & _ & Hm).
    specialize (Hm Hv3). subst m. unfold root_lists in Hl. destruct (N.ltb_spec K (n_items ix)) as [HK|_]; [lia|].
    rewrite <- (added_present fo c ix f s0 ST), <- Hl. intros vw Hag.
    assert (RR : reach fo c vw (n_items ix) r' xs 1).
    { eapply tree_reach with (s1 := s1); [exact Hag|cbn [ib]; lia| |exact P6|apply (iv_items _ _ _ _ _ _ _ Iv)| |exact T].
      - lia.
      - intros i Hi. apply in_own in Hi. apply (iv_own _ _ _ _ _ _ _ Iv _ _ Hi). }
    now apply reach_one.
  - intros Hv3 r Hr. unfold rootsN in Hr. apply in_map_iff in Hr. destruct Hr as ([v r'] & <- & Hr). cbn [snd].
    pose proof (iv_roots _ _ _ _ _ _ _ Iv _ _ Hr) as Hvw.
    destruct (gr_post _ _ _ _ _ _ G v Hvw) as (_ & Hg & _). rewrite Forall_forall in Hg.
    apply in_mine in Hr. destruct (Hg _ Hr) as [_ Ht]. destruct (Ht Hv3) as (xs & m & T & Hl & Hm & _).
    rewrite <- (added_present fo c ix f s0 ST). exists xs, m. split; [|split; [exact Hm|exact Hl]].
    intros vw Hag. eapply tree_reach with (s1 := s1); [exact Hag|cbn [ib]; lia| |exact P6|apply (iv_items _ _ _ _ _ _ _ Iv)| |exact T].
    + lia.
    + intros i Hi. apply in_own in Hi. apply (iv_own _ _ _ _ _ _ _ Iv _ _ Hi).
Qed.
Lemma after_agrees fs ix f plan ix' : after_build ix f plan ix' -> agrees ix' (view fs ix').
Proof.
  intros B i Hi. apply vread_node; [apply B| |].
  - pose proof (bt_ns _ _ _ _ B). lia.
  - eapply cap_ok_mono; [|apply (bt_cap _ _ _ _ B)]. lia.
Qed.

(** ** From a history of additions *)
Lemma add_all_lock_free h : forall ix ix', add_all fo c ix h = Ok ix' -> lock_free (ib ix) -> lock_free (ib ix').
Proof.
  induction h as [|[i v] h IH]; intros ix ix' H L; cbn [add_all] in H; [congruence|].
  destruct (add_item fo c ix i v) as [ix1|] eqn:E; [|discriminate]. cbn [rbind] in H.
  apply (IH ix1 ix' H). unfold add_item in E. destruct (iloaded ix); [discriminate|].
  destruct (negb _); [discriminate|]. destruct (2 ^ 30 <? _); [discriminate|]. destruct (run c 0 (add_prog fo c i v) (ib ix)) as [[a t]|] eqn:Er; [|discriminate].
  cbn [rbind] in E. injection E as <-. cbn [ib]. eapply run_lock_free; eauto.
Qed.
Lemma new_lock_free r hint : lock_free (ib (new_index fo c r hint)).
Proof. unfold new_index. destruct (0 <? hint); [destruct (reallocate _ _ _)|]; repeat split. Qed.

Lemma start r hint h ix : hist_ok fo c h -> add_all fo c (new_index fo c r hint) h = Ok ix ->
  exists s0, build_pre fo c ix = Ok s0 /\ items_inv fo c ix (last_added h) /\ n_items ix = extent h /\ rnd (ib ix) = r /\
    started fo c ix (last_added h) s0.
Proof.
  intros Hh E. destruct (fresh_add_all fo c OK r hint h Hh) as (ix1 & E1 & I & Hn & Hr & Hb & Hbu).
  rewrite E in E1. injection E1 as <-.
  destruct (build_pre_run fo c OK ix (last_added h) I Hbu Hb) as (s0 & E0 & ST).
  { eapply add_all_lock_free; [exact E|apply new_lock_free]. }
  exists s0. auto.
Qed.

Lemma plan_need_single ix T : (-1 <= T)%Z -> plan_need ix [T] = forest_room (n_items ix) T 1.
Proof.
  intro HT. unfold plan_need, forest_room. cbn [map sumN fold_right]. unfold need, room.
  destruct (Z.eqb_spec T (-1)); [lia|]. rewrite Z.max_r by lia. lia.
Qed.
Lemma plan_need_multi ix T nw : (-1 <= T)%Z -> (0 < nw)%nat -> (T + Z.of_nat nw < 2 ^ 53)%Z ->
  plan_need ix (map (trees_for_worker T nw) (seq 0 nw)) = forest_room (n_items ix) T (N.of_nat nw).
Proof.
  intros HT Hw Hb. unfold plan_need, forest_room. destruct (Z.eqb_spec T (-1)) as [->|Hne].
  - rewrite map_map, (map_ext _ (fun _ => 2 * n_items ix)) by (intro a; reflexivity).
    clear. generalize 0%nat as a. induction nw as [|n IH]; intro a; [reflexivity|]. cbn [seq map sumN fold_right].
    specialize (IH (S a)). unfold sumN in *. rewrite IH. lia.
  - pose proof (plan_sum T nw ltac:(lia) Hw Hb) as Hs. rewrite <- Hs at 2.
    assert (Hp : forall w, In w (seq 0 nw) -> (0 <= trees_for_worker T nw w)%Z).
    { intros w Hi. apply in_seq in Hi. apply plan_nonneg; lia. }
    revert Hp. clear. induction (seq 0 nw) as [|a l IH]; intro Hp; [reflexivity|]. cbn [map sumN sumZ fold_right].
    unfold sumN, sumZ in IH. rewrite IH by (intros; apply Hp; right; auto).
    pose proof (Hp a (or_introl eq_refl)) as H0.
    assert (H1 : (0 <= fold_right Z.add 0 (map (trees_for_worker T nw) l))%Z).
    { clear - Hp. induction l as [|b l IH]; [cbn; lia|]. cbn [map fold_right]. pose proof (Hp b ltac:(right; left; auto)).
      assert (0 <= fold_right Z.add 0 (map (trees_for_worker T nw) l))%Z; [|lia]. apply IH. intros w [->|Hw]; apply Hp; [left; auto|right; right; auto]. }
    unfold need, room. replace (trees_for_worker T nw a =? -1)%Z with false by lia. rewrite Z.max_r by lia. nia.
Qed.

Lemma plan_entries T nw : (-1 <= T)%Z -> (0 < nw)%nat -> (T + Z.of_nat nw < 2 ^ 53)%Z ->
  Forall (fun t => (Z.to_nat t <= Z.to_nat T)%nat) (map (trees_for_worker T nw) (seq 0 nw)).
Proof.
  intros HT Hw Hb. rewrite Forall_forall. intros z Hz. apply in_map_iff in Hz. destruct Hz as (w & <- & Hi). apply in_seq in Hi.
  destruct (Z.eq_dec T (-1)) as [->|Hne]; [rewrite plan_auto; lia|].
  rewrite trees_for_worker_eq; [|lia|lia|exact Hb]. apply Z2Nat.inj_le; [apply Z.div_pos; lia|lia|].
  assert ((T + Z.of_nat w) / Z.of_nat nw < T + 1)%Z; [|lia]. apply Z.div_lt_upper_bound; nia.
Qed.
Lemma plan_pos T nw : (0 <= T)%Z -> (0 < nw)%nat -> (T + Z.of_nat nw < 2 ^ 53)%Z ->
  Forall (fun t => (0 <= t)%Z) (map (trees_for_worker T nw) (seq 0 nw)).
Proof.
  intros HT Hw Hb. rewrite Forall_forall. intros z Hz. apply in_map_iff in Hz. destruct Hz as (w & <- & Hi). apply in_seq in Hi.
  apply plan_nonneg; [lia|lia|exact Hb].
Qed.

Lemma fuel_multi ix T nw fuel mfuel : (-1 <= T)%Z -> (0 < nw)%nat -> (T + Z.of_nat nw < 2 ^ 53)%Z ->
  enough_fuel (n_items ix) T fuel mfuel -> fuel_ok ix (map (trees_for_worker T nw) (seq 0 nw)) fuel mfuel.
Proof.
  intros HT Hw Hb (F1 & F2 & F3). split; [lia|]. split; [lia|]. eapply Forall_impl; [|apply plan_entries; assumption].
  intros t Ht. cbv beta in Ht. lia.
Qed.

(** The workers of a multi-worker Build in any reachable state. *)
Lemma reach_pool r hint h ix s0 T nw fuel mfuel rfuel ps s :
  1 <= vlen c -> hist_ok fo c h -> add_all fo c (new_index fo c (Some r) hint) h = Ok ix -> build_pre fo c ix = Ok s0 ->
  (-1 <= T)%Z -> (0 < nw)%nat -> (T + Z.of_nat nw < 2 ^ 53)%Z ->
  cap_ok fo c (n_items ix + 2 * forest_room (n_items ix) T (N.of_nat nw)) -> enough_fuel (n_items ix) T fuel mfuel ->
  reachable c (workers fo c fuel mfuel rfuel (n_items ix) (rnd s0) (map (trees_for_worker T nw) (seq 0 nw))) s0 ps s ->
  pool fo c (n_items ix) (simg s0) nw (bud_of ix (map (trees_for_worker T nw) (seq 0 nw))) unit
    (fun v _ t => thread_post fo c (n_items ix) (simg s0) v (nth v (map (trees_for_worker T nw) (seq 0 nw)) 0%Z) t) ps s.
Proof.
  intros Hv Hh Ea Eb HT Hw Hb Hc Hf HS.
  destruct (start (Some r) hint h ix Hh Ea) as (s0' & E0 & I & Hn & Hr & ST).
  rewrite Eb in E0. injection E0 as <-. set (plan := map (trees_for_worker T nw) (seq 0 nw)) in *.
  assert (HW : nw = length plan) by (unfold plan; now rewrite map_length, seq_length).
  rewrite HW.
  eapply pool_steps_ok; [|eapply pool_start|exact HS]; eauto.
  - intros v a t [H _]. exact H.
  - congruence.
  - apply (ii_last _ _ _ _ I).
  - unfold plan. rewrite plan_need_multi by assumption. eapply cap_ok_mono; [|exact Hc]. lia.
  - apply fuel_multi; assumption.
Qed.

Lemma build_multi_built r hint h ix T nworkers ncpu nw fuel mfuel rfuel ix' :
  1 <= vlen c -> hist_ok fo c h -> add_all fo c (new_index fo c (Some r) hint) h = Ok ix ->
  (-1 <= T)%Z -> worker_count nworkers ncpu = Ok nw -> (0 < nw)%nat -> (T + Z.of_nat nw < 2 ^ 53)%Z ->
  cap_ok fo c (n_items ix + 2 * forest_room (n_items ix) T (N.of_nat nw)) -> enough_fuel (n_items ix) T fuel mfuel ->
  build_multi fo c fuel mfuel rfuel ix T nworkers ncpu ix' ->
  after_build ix (last_added h) (map (trees_for_worker T nw) (seq 0 nw)) ix'.
Proof.
  intros Hv Hh Ea HT Hwc Hw Hb Hc Hf (plan & s0 & ps & s1 & B1 & B2 & B3 & B4 & B5).
  destruct (start (Some r) hint h ix Hh Ea) as (s0' & E0 & I & Hn & Hr & ST).
  rewrite B1 in E0. injection E0 as <-. unfold work_plan in B2. rewrite Hwc in B2. cbn [rbind] in B2. injection B2 as <-.
  destruct (built_intro ix (last_added h) s0 (map (trees_for_worker T nw) (seq 0 nw)) s1) as (ix1 & E1 & B); auto.
  - congruence.
  - rewrite plan_need_multi by assumption. exact Hc.
  - eapply grown_multi; eauto; try congruence.
    + apply (ii_last _ _ _ _ I).
    + rewrite plan_need_multi by assumption. eapply cap_ok_mono; [|exact Hc]. lia.
    + apply fuel_multi; assumption.
  - rewrite B5 in E1. injection E1 as <-. exact B.
Qed.
(** Once all workers have returned, the rest of Build succeeds. *)
Lemma build_multi_total r hint h ix s0 T nworkers ncpu nw fuel mfuel rfuel s1 :
  1 <= vlen c -> hist_ok fo c h -> add_all fo c (new_index fo c (Some r) hint) h = Ok ix -> build_pre fo c ix = Ok s0 ->
  (-1 <= T)%Z -> worker_count nworkers ncpu = Ok nw -> (0 < nw)%nat -> (T + Z.of_nat nw < 2 ^ 53)%Z ->
  cap_ok fo c (n_items ix + 2 * forest_room (n_items ix) T (N.of_nat nw)) -> enough_fuel (n_items ix) T fuel mfuel ->
  reachable c (workers fo c fuel mfuel rfuel (n_items ix) (rnd s0) (map (trees_for_worker T nw) (seq 0 nw))) s0
    (repeat (Ret tt) nw) s1 ->
  exists ix', build_multi fo c fuel mfuel rfuel ix T nworkers ncpu ix'.
Proof.
  intros Hv Hh Ea Eb HT Hwc Hw Hb Hc Hf HS.
  destruct (start (Some r) hint h ix Hh Ea) as (s0' & E0 & I & Hn & Hr & ST).
  rewrite Eb in E0. injection E0 as <-. set (plan := map (trees_for_worker T nw) (seq 0 nw)) in *.
  assert (Hps : repeat (Ret tt) nw = map (fun _ : Z => Ret tt) plan).
  { unfold plan. rewrite map_map. clear. generalize 0%nat as a. induction nw as [|n IH]; intro a; [reflexivity|]. cbn [repeat seq map]. f_equal. apply IH. }
  destruct (built_intro ix (last_added h) s0 plan s1) as (ix1 & E1 & B); auto.
  - congruence.
  - unfold plan. rewrite plan_need_multi by assumption. exact Hc.
  - eapply grown_multi; [| | | | | | |exact HS|exact Hps]; eauto; try congruence.
    + apply (ii_last _ _ _ _ I).
    + unfold plan. rewrite plan_need_multi by assumption. eapply cap_ok_mono; [|exact Hc]. lia.
    + apply fuel_multi; assumption.
  - exists ix1, plan, s0, (repeat (Ret tt) nw), s1. split; [exact Eb|]. split; [|auto].
    unfold work_plan. rewrite Hwc. reflexivity.
Qed.

Lemma build_single_built r hint h ix T fuel mfuel rfuel :
  1 <= vlen c -> hist_ok fo c h -> add_all fo c (new_index fo c (Some r) hint) h = Ok ix -> (-1 <= T)%Z ->
  cap_ok fo c (n_items ix + 2 * forest_room (n_items ix) T 1) -> enough_fuel (n_items ix) T fuel mfuel ->
  (exists ix', build_single fo c fuel mfuel rfuel ix T = Ok ix' /\ after_build ix (last_added h) [T] ix') \/
  build_single fo c fuel mfuel rfuel ix T = Er Unlucky.
Proof.
  intros Hv Hh Ea HT Hc (F1 & F2 & F3).
  destruct (start (Some r) hint h ix Hh Ea) as (s0 & E0 & I & Hn & Hr & ST).
  unfold build_single. rewrite E0. cbn [rbind]. rewrite (st_rnd _ _ _ _ _ ST), Hr.
  assert (Hg : (exists s1, run c 0 (thread_build fo c (n_items ix) fuel mfuel rfuel (nth 0 [T] 0%Z) 0) s0 = Ok (tt, s1) /\
     (length [T] = 1%nat -> grown fo c ix s0 [T] s1)) \/
     run c 0 (thread_build fo c (n_items ix) fuel mfuel rfuel (nth 0 [T] 0%Z) 0) s0 = Er Unlucky).
  { eapply grown_single; eauto; try congruence.
    - apply (ii_last _ _ _ _ I).
    - rewrite plan_need_single by assumption. eapply cap_ok_mono; [|exact Hc]. lia.
    - split; [lia|]. split; [lia|]. constructor; [lia|constructor]. }
  cbn [nth] in Hg. destruct Hg as [(s1 & E1 & G)|E1]; rewrite E1; cbn [rbind]; [left|right; reflexivity].
  apply (built_intro ix (last_added h) s0 [T] s1); auto.
  - congruence.
  - rewrite plan_need_single by assumption. exact Hc.
Qed.
End S.
