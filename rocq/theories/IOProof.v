(** Save and Load of a built index. *)
From Verif Require Import Base Flt Layout Rng Alloc Prog Dist Build Policy Index Search Spec ForestSpec BuildSpec Lib LayoutProof MemProof
  StoreProof SearchProof QueryProof PolicyProof ConcProof TreeProof BuildProof ForestProof AfterProof.
From Coq Require Import Permutation.
Open Scope N_scope.

(** ** Numbers counted downwards *)
Fixpoint down (hi : N) (k : nat) : list N :=
  match k with O => [] | S k' => hi :: down (hi - 1) k' end.
Lemma length_down k : forall hi, length (down hi k) = k.
Proof. induction k as [|k IH]; intro hi; cbn [down length]; auto. Qed.
Lemma in_down k : forall hi i, N.of_nat k <= hi + 1 -> In i (down hi k) <-> i <= hi /\ hi < i + N.of_nat k.
Proof.
  induction k as [|k IH]; intros hi i H; cbn [down In].
  - split; [contradiction|lia].
  - destruct (Nat.eq_dec k 0) as [E|Hk].
    + subst k. cbn [down In]. split; [intros [->|[]]; lia|]. intro X. left. lia.
    + rewrite (IH (hi - 1) i) by lia. split; [intros [->|X]; lia|]. intro X. destruct (N.eq_dec hi i); [now left|right; lia].
Qed.
Lemma down_snoc k : forall hi, down hi (S k) = down hi k ++ [hi - N.of_nat k].
Proof.
  induction k as [|k IH]; intro hi.
  - cbn. f_equal. lia.
  - change (down hi (S (S k))) with (hi :: down (hi - 1) (S k)). rewrite IH. cbn [down app]. do 3 f_equal. lia.
Qed.
Lemma nth_down k : forall hi j, (j < k)%nat -> nth_error (down hi k) j = Some (hi - N.of_nat j).
Proof.
  induction k as [|k IH]; intros hi j H; [lia|]. destruct j as [|j]; cbn [down nth_error].
  - f_equal. lia.
  - rewrite IH by lia. f_equal. lia.
Qed.

Lemma nth_last {A} (l l' : list A) x : l = l' ++ [x] -> nth_error l (N.to_nat (lenN l - 1)) = Some x.
Proof.
  intros ->. unfold lenN. rewrite app_length. cbn [length]. replace (N.to_nat _) with (length l') by lia.
  rewrite nth_error_app2, Nat.sub_diag by lia. reflexivity.
Qed.
Lemma destruct_last {A} (l : list A) : l = [] \/ exists l' x, l = l' ++ [x].
Proof.
  induction l as [|a l IH]; [now left|]. right. destruct IH as [->|(l' & x & ->)]; [exists [], a; reflexivity|exists (a :: l'), x; reflexivity].
Qed.
Lemma run_down (P : N -> bool) : P 0 = false -> forall hi, exists k, N.of_nat k <= hi /\
  (forall j, hi < j + N.of_nat k -> j <= hi -> P j = true) /\ P (hi - N.of_nat k) = false.
Proof.
  intro H0. apply N.peano_ind.
  - exists 0%nat. split; [lia|]. split; [lia|exact H0].
  - intros hi (k & A & B & C). destruct (P (N.succ hi)) eqn:E.
    + exists (S k). split; [lia|]. split.
      * intros j H1 H2. destruct (N.eq_dec j (N.succ hi)); [congruence|]. apply B; lia.
      * replace (N.succ hi - N.of_nat (S k)) with (hi - N.of_nat k) by lia. exact C.
    + exists 0%nat. split; [lia|]. split; [lia|]. now rewrite N.sub_0_r.
Qed.

Section S.
Variable fo : FOps.
Variable c : Cfg.
Hypothesis OK : CfgOK fo c.
Notation NSZ := (nodeSize fo c).
Notation K := (maxK fo c).
Notation simg := (snode_img fo c).
Notation V := (list (F fo)).

(** ** A view showing [n] given node images *)
Section View.
Variable v : option buf.
Variable n : N.
Variable im : N -> list N.
Hypothesis HV : forall i o len, i < n -> o + len <= NSZ -> vread v (i * NSZ + o) len = Ok (sub o len (im i)).
Hypothesis Hcap : cap_ok fo c n.

Lemma vaddr i : i < n -> addr fo c i = i * NSZ.
Proof. intro H. now apply (cap_ok_addr _ _ n). Qed.
Lemma read_desc i : i < n -> vread v (addr fo c i) (ixb c) = Ok (sub 0 (ixb c) (im i)).
Proof. intro H. rewrite vaddr by exact H. rewrite <- (N.add_0_r (i * NSZ)), HV; auto. pose proof (nodeSize_ge _ _ OK). lia. Qed.

Lemma scan_run hi m : hi < n -> n_desc c (im hi) = m -> forall k i acc fuel, i <= hi -> N.of_nat k <= i ->
  (k < fuel)%nat -> (forall j, i < j + N.of_nat k -> j <= i -> n_desc c (im j) = m) -> n_desc c (im (i - N.of_nat k)) <> m ->
  scan_roots fo c fuel v i (Some m) acc = Ok (acc ++ down i k, Some m).
Proof.
  intros Hn Hm. pose proof (cap_ok_small _ _ OK _ Hcap) as Hsm.
  induction k as [|k IH]; intros i acc fuel Hi Hk Hf Hall Hstop; (destruct fuel as [|fuel]; [lia|]); cbn [scan_roots].
  - rewrite read_desc by lia. cbn [rbind]. fold (n_desc c (im i)). rewrite N.sub_0_r in Hstop.
    replace (n_desc c (im i) =? m) with false by lia. cbn [down]. now rewrite app_nil_r.
  - rewrite read_desc by lia. cbn [rbind]. fold (n_desc c (im i)). rewrite (Hall i) by lia. rewrite N.eqb_refl.
    replace (tix c (i + 2 ^ iw c - 1)) with (i - 1).
    + rewrite IH; [cbn [down]; now rewrite <- app_assoc| | | | |]; try lia.
      * intros j H1 H2. apply Hall; lia.
      * replace (i - 1 - N.of_nat k) with (i - N.of_nat (S k)) by lia. exact Hstop.
    + unfold tix, wrap. replace (i + 2 ^ iw c - 1) with ((i - 1) + 1 * 2 ^ iw c) by lia.
      assert (2 ^ iw c <> 0) by (apply N.pow_nonzero; lia). rewrite N.mod_add by assumption. symmetry. apply N.mod_small. lia.
Qed.
Lemma scan_start k fuel : 1 <= n -> N.of_nat (S k) < n -> (S k < fuel)%nat ->
  (forall j, n <= j + 1 + N.of_nat k -> j < n -> n_desc c (im j) = n_desc c (im (n - 1))) ->
  n_desc c (im (n - 1 - N.of_nat (S k))) <> n_desc c (im (n - 1)) ->
  scan_roots fo c fuel v (tix c (n + 2 ^ iw c - 1)) None [] = Ok (down (n - 1) (S k), Some (n_desc c (im (n - 1)))).
Proof.
  intros Hn Hk Hf Hall Hstop. pose proof (cap_ok_small _ _ OK _ Hcap) as Hsm.
  assert (Hw : 2 ^ iw c <> 0) by (apply N.pow_nonzero; lia).
  assert (E1 : forall i, 1 <= i -> i <= n -> tix c (i + 2 ^ iw c - 1) = i - 1).
  { intros i H1 H2. unfold tix, wrap. replace (i + 2 ^ iw c - 1) with ((i - 1) + 1 * 2 ^ iw c) by lia.
    rewrite N.mod_add by assumption. apply N.mod_small. lia. }
  rewrite E1 by lia. destruct fuel as [|fuel]; [lia|]. cbn [scan_roots]. rewrite read_desc by lia. cbn [rbind].
  fold (n_desc c (im (n - 1))). rewrite E1 by lia.
  rewrite (scan_run (n - 1) (n_desc c (im (n - 1)))) with (k := k); try lia; [reflexivity| |].
  - intros j H1 H2. apply Hall; lia.
  - replace (n - 1 - 1 - N.of_nat k) with (n - 1 - N.of_nat (S k)) by lia. exact Hstop.
Qed.

Lemma first_child_run i : i < n -> n_desc c (im i) <> 0 ->
  first_child fo c v i = Ok (le_dec (sub (off_children c) (ixb c) (im i))).
Proof.
  intros Hi Hd. unfold first_child. rewrite read_desc by exact Hi. cbn [rbind]. fold (n_desc c (im i)).
  replace (n_desc c (im i) =? 0) with false by lia. rewrite vaddr by exact Hi. rewrite HV; [reflexivity|exact Hi|].
  pose proof (nodeSize_ge _ _ OK). pose proof (off_vec_ge _ _ OK). pose proof (nodeSize_eq _ _ OK) as E. unfold off_children. lia.
Qed.
Lemma batch_max_view ni : forall ids acc, (forall i, In i ids -> i < n) ->
  batch_max fo c v ni ids acc = Ok (acc + sumZ (map (bm_weight fo c ni im) ids))%Z.
Proof.
  induction ids as [|i ids IH]; intros acc Hi; cbn [batch_max map].
  - f_equal. cbn. lia.
  - rewrite read_desc by (apply Hi; now left). cbn [rbind]. fold (n_desc c (im i)).
    rewrite IH by (intros; apply Hi; now right). f_equal. cbn [sumZ fold_right]. unfold sumZ, bm_weight.
    destruct ((n_desc c (im i) =? 1) && (i <? ni)); [lia|]. destruct (n_desc c (im i) <=? K); lia.
Qed.
End View.

(** ** The bytes on file *)
Lemma view_bytes (m : mem) n i o len : i < n -> o + len <= NSZ ->
  vread (Some (buf_of_bytes (mread m 0 (N.to_nat (n * NSZ))))) (i * NSZ + o) len = Ok (sub o len (node_at fo c m i)).
Proof.
  intros Hi Ho. cbn [vread]. rewrite bread_ok.
  2:{ cbn [buf_of_bytes bsize]. unfold lenN. rewrite length_mread. nia. }
  f_equal. cbn [buf_of_bytes bdata]. rewrite <- (N.add_0_l (i * NSZ + o)), mread_mwrite_within.
  2:{ unfold lenN. rewrite length_mread. nia. }
  rewrite skipn_mread by nia. rewrite firstn_mread by nia. unfold node_at. rewrite sub_mread by lia. f_equal. lia.
Qed.
Lemma copy_sub s r o len : o + len <= vlen c -> sub o len (copy_image fo c s r) = sub o len (simg s r).
Proof.
  intro H. pose proof (vlen_fits fo c OK) as Hf.
  assert (Hl : lenN (sub 0 (vlen c) (simg s r)) = vlen c).
  { unfold sub, lenN, snode_img. cbn [N.to_nat skipn]. rewrite firstn_length, length_node_at. lia. }
  assert (Hz : lenN (zeros fo c) = NSZ) by (unfold zeros, lenN; rewrite repeat_length; lia).
  unfold copy_image, splice. cbn [N.to_nat firstn app]. change (firstn 0 (zeros fo c)) with (@nil N). cbn [app].
  unfold sub at 1. rewrite skipn_app, firstn_app. unfold lenN in Hl. rewrite skipn_length.
  replace (N.to_nat len - _)%nat with 0%nat by lia. cbn [firstn]. rewrite app_nil_r.
  unfold sub. change (skipn (N.to_nat 0) (simg s r)) with (simg s r). rewrite skipn_firstn_comm, firstn_firstn. f_equal. lia.
Qed.
Lemma n_children_sub m bs bs' : sub (off_children c) (m * ixb c) bs = sub (off_children c) (m * ixb c) bs' ->
  n_children c m bs = n_children c m bs'.
Proof. unfold n_children. now intros ->. Qed.

(** ** What is on file after Save, and what Load makes of it *)
Section IO.
Variable ix : idx.
Variable f : N -> option V.
Variable plan : list Z.
Variable ix' : idx.
Hypothesis I : items_inv fo c ix f.
Hypothesis B : after_build fo c ix f plan ix'.
Hypothesis Hv : 3 * ixb c <= vlen c.
Hypothesis HK : K < n_items ix.
Notation ni := (n_items ix).
Notation n := (nn (ib ix')).
Notation rs := (rootsN (ib ix')).
Notation R := (lenN rs).
Hypothesis Hne : rs <> [].
Notation im := (simg (ib ix')).

Lemma HR : 1 <= R.
Proof. destruct rs as [|a l] eqn:E; [congruence|]. rewrite lenN_cons. lia. Qed.
Lemma Hnat : n < 2 ^ iw c.
Proof. eapply cap_ok_small; [exact OK|apply B]. Qed.
Lemma n_ge : ni + R < n.
Proof.
  destruct (bt_copies _ _ _ _ _ _ B) as (k & E & Hr & _). destruct rs as [|a l] eqn:Er; [congruence|].
  pose proof (bt_range _ _ _ _ _ _ B a) as H. rewrite Er in H. specialize (H (or_introl eq_refl)).
  specialize (Hr a (or_introl eq_refl)). lia.
Qed.
Lemma copy_of j r : nth_error rs (N.to_nat j) = Some r -> im (n - R + j) = copy_image fo c (ib ix') r.
Proof.
  intro H. destruct (bt_copies _ _ _ _ _ _ B) as (k & E & _ & _ & C). rewrite <- (C j r H). f_equal. lia.
Qed.
Lemma root_desc r : In r rs -> n_desc c (im r) = ni.
Proof.
  intro H. destruct (bt_copies _ _ _ _ _ _ B) as (k & E & Hr & _).
  destruct (bt_shape _ _ _ _ _ _ B ltac:(lia) r) as [X _]; [apply (bt_range _ _ _ _ _ _ B r H)|specialize (Hr r H); lia|auto].
Qed.
Lemma copy_root j : j < R -> exists r, nth_error rs (N.to_nat j) = Some r /\ In r rs /\ im (n - R + j) = copy_image fo c (ib ix') r.
Proof.
  intro H. destruct (nth_error rs (N.to_nat j)) as [r|] eqn:E.
  - exists r. split; [reflexivity|]. split; [eapply nth_error_In; eauto|]. now apply copy_of.
  - apply nth_error_None in E. unfold lenN in H. lia.
Qed.
Lemma copy_desc j : n - R <= j -> j < n -> n_desc c (im j) = ni.
Proof.
  intros H1 H2. pose proof n_ge. destruct (copy_root (j - (n - R))) as (r & _ & Hr & E); [lia|].
  replace (n - R + (j - (n - R))) with j in E by lia. rewrite E. unfold n_desc. rewrite copy_sub by lia. now apply root_desc.
Qed.
Lemma item_desc i : i < ni -> n_desc c (im i) < ni.
Proof.
  intro H. pose proof (maxK_ge2 _ _ OK). rewrite (bt_img _ _ _ _ _ _ B i H).
  rewrite (ib_desc _ _ _ _ (image_bytes fo c OK ni f i (ii_len _ _ _ _ I))). destruct (f i); lia.
Qed.
Lemma root_of_desc j : ni <= j -> j < n - R -> n_desc c (im j) = ni -> In j rs.
Proof.
  intros H1 H2 Hd. destruct (in_dec N.eq_dec j rs) as [|Hn]; [assumption|].
  destruct (bt_shape _ _ _ _ _ _ B ltac:(lia) j H1 ltac:(lia)) as [_ X]. specialize (X Hn). lia.
Qed.
(** Where the scan of Load stops. *)
Lemma stop_at : exists k, ni + N.of_nat k <= n - 1 /\ R <= N.of_nat k /\
  (forall j, n <= j + 1 + N.of_nat k -> j < n -> n_desc c (im j) = ni) /\ n_desc c (im (n - 1 - N.of_nat (S k))) <> ni.
Proof.
  pose proof n_ge. pose proof HR. pose proof (maxK_ge2 _ _ OK).
  destruct (run_down (fun j => n_desc c (im j) =? ni)) with (hi := n - 1) as (k & A & C & D).
  { pose proof (item_desc 0 ltac:(lia)). lia. }
  destruct k as [|k].
  { cbn [N.of_nat] in D. rewrite N.sub_0_r in D. pose proof (copy_desc (n - 1) ltac:(lia) ltac:(lia)). lia. }
  assert (Hk : R <= N.of_nat k).
  { destruct (N.le_gt_cases R (N.of_nat k)) as [|X]; [assumption|]. exfalso.
    destruct (N.le_gt_cases (n - R) (n - 1 - N.of_nat (S k))) as [Y|Y].
    - pose proof (copy_desc (n - 1 - N.of_nat (S k)) Y ltac:(lia)). lia.
    - assert (E : n - 1 - N.of_nat (S k) = n - R - 1) by lia. rewrite E in D.
      pose proof (root_desc _ (bt_last _ _ _ _ _ _ B Hne)). lia. }
  exists k. split.
  - assert (E : n_desc c (im (n - 1 - N.of_nat k)) = ni).
    { specialize (C (n - 1 - N.of_nat k) ltac:(lia) ltac:(lia)). lia. }
    destruct (N.le_gt_cases ni (n - 1 - N.of_nat k)) as [X|X]; [lia|]. pose proof (item_desc _ X). lia.
  - split; [exact Hk|]. split; [|lia]. intros j J1 J2. specialize (C j ltac:(lia) ltac:(lia)). lia.
Qed.

Lemma close_ok ix0 : rnd (ib ix0) <> None -> exists ix1, close ix0 = Ok ix1.
Proof. unfold close. destruct (rnd (ib ix0)); [eauto|congruence]. Qed.

(** Copies of roots stand for the roots. *)
Lemma reach_copy v j r xs k : agrees fo c ix' v -> nth_error rs (N.to_nat j) = Some r ->
  reach fo c v ni (n - R + j) xs k <-> reach fo c v ni r xs k.
Proof.
  intros Hag Hj. pose proof (copy_of _ _ Hj) as Hc. assert (Hr : In r rs) by (eapply nth_error_In; eauto).
  assert (HjR : j < R). { assert (N.to_nat j < length rs)%nat by (apply nth_error_Some; congruence). unfold lenN. lia. }
  pose proof (root_desc r Hr) as Hd. pose proof n_ge as Hge.
  pose proof (copy_desc (n - R + j) ltac:(lia) ltac:(lia)) as Hd'.
  destruct (bt_range _ _ _ _ _ _ B r Hr) as [Hr1 Hr2].
  assert (Hsp : forall a b, splits fo c v (n - R + j) a b <-> splits fo c v r a b).
  { assert (Hch : n_children c 2 (im (n - R + j)) = n_children c 2 (im r)).
    { apply n_children_sub. rewrite Hc. apply copy_sub. unfold off_children. lia. }
    intros a b. split; intro X; inversion X as [bs l0 r0 Hrd HKd Hcc]; subst.
    - rewrite Hag in Hrd by lia. injection Hrd as <-. econstructor; [apply Hag; lia|lia|congruence].
    - rewrite Hag in Hrd by lia. injection Hrd as <-. econstructor; [apply Hag; lia|lia|congruence]. }
  split; intro X; inversion X as [i0 xs0 Hl|i0 l0 r0 xs0 ys0 m0 n0 Hs H1 H2]; subst.
  - exfalso. inversion Hl as [bs Hrd E1 E2|bs Hrd E1 E2]; subst; rewrite Hag in Hrd by lia; injection Hrd as <-; lia.
  - eapply re_split; [apply Hsp; exact Hs|exact H1|exact H2].
  - exfalso. inversion Hl as [bs Hrd E1 E2|bs Hrd E1 E2]; subst; rewrite Hag in Hrd by lia; injection Hrd as <-; lia.
  - eapply re_split; [apply Hsp; exact Hs|exact H1|exact H2].
Qed.
(** Every recovered root stands for a root of the built index. *)
Lemma stands_for j : ni <= j -> j < n -> n_desc c (im j) = ni ->
  exists r, In r rs /\ forall v xs k, agrees fo c ix' v -> reach fo c v ni j xs k <-> reach fo c v ni r xs k.
Proof.
  intros H1 H2 Hd. pose proof n_ge. destruct (N.lt_ge_cases j (n - R)) as [X|X].
  - exists j. split; [now apply root_of_desc|]. intros. reflexivity.
  - destruct (copy_root (j - (n - R)) ltac:(lia)) as (r & Hj & Hr & _). exists r. split; [exact Hr|].
    intros v xs k Hag. rewrite <- (reach_copy v (j - (n - R)) r xs k Hag Hj). replace (n - R + (j - (n - R))) with j by lia. reflexivity.
Qed.
Lemma tree_lists_eq v r r' xs k : (forall xs k, reach fo c v ni r' xs k <-> reach fo c v ni r xs k) ->
  tree_lists fo c v ni f r xs k -> tree_lists fo c v ni f r' xs k.
Proof. intros E [A1 A2 A3 A4 A5 A6]. constructor; auto. now apply E. Qed.

Section L.
Variable m : mem.
Hypothesis Hm : forall i, i < n -> node_at fo c m i = im i.
Notation bytes := (mread m 0 (N.to_nat (n * NSZ))).
Notation vw := (Some (buf_of_bytes bytes)).
Lemma HV : forall i o len, i < n -> o + len <= NSZ -> vread vw (i * NSZ + o) len = Ok (sub o len (im i)).
Proof. intros i o len Hi Ho. rewrite view_bytes by assumption. now rewrite Hm. Qed.
Lemma agrees_file : agrees fo c ix' vw.
Proof.
  intros i Hi. rewrite (cap_ok_addr _ _ _ i (bt_cap _ _ _ _ _ _ B)) by lia. rewrite <- (N.add_0_r (i * NSZ)), HV by (auto; lia).
  f_equal. unfold sub. cbn [N.to_nat skipn]. apply firstn_all2. unfold snode_img. rewrite length_node_at. lia.
Qed.
Lemma size_small : n * NSZ < 2 ^ iw c.
Proof.
  pose proof (bt_cap _ _ _ _ _ _ B) as H. unfold cap_ok in H. pose proof (cap_ok_ge n). nia.
Qed.
Lemma bytes_len : lenN bytes = n * NSZ.
Proof. unfold lenN. rewrite length_mread. lia. Qed.
Lemma NSZ_pos : NSZ <> 0.
Proof. pose proof (nodeSize_ge _ _ OK). pose proof (ixb_pos _ _ OK). lia. Qed.

Lemma load_run knd fs fl ix0 : fs fl = Some bytes -> rnd (ib ix0) <> None ->
  exists ix2 q, load fo c knd fs ix0 fl = Ok (ix2, None) /\ n_items ix2 = ni /\ batchMax ix2 = batchMax ix' /\
    nn (ib ix2) = n /\ view fs ix2 = vw /\ rnd (ib ix2) <> None /\ iloaded ix2 = true /\ ibuilt ix2 = true /\
    rootsN (ib ix2) = down (n - 1) q /\ R <= N.of_nat q /\ ni + N.of_nat q <= n /\
    (forall j, n <= j + N.of_nat q -> j < n -> n_desc c (im j) = ni) /\
    (length plan = 1%nat -> 3 <= lenN (present fo f ni) -> N.of_nat q = R).
Proof.
  intros Hf Hr. unfold load. destruct (close_ok ix0 Hr) as (ix1 & E1). rewrite E1. cbn [rbind].
  assert (Hlen : lenN bytes = n * NSZ) by apply bytes_len.
  pose proof n_ge as Hge. pose proof NSZ_pos as Hnz. pose proof HR as HR1. pose proof size_small as Hss.
  assert (Hopen : im_open knd fs fl = Ok (inl (mkIM knd fl (lenN bytes) (match knd with GCMem => bytes | MmapMem => [] end)))).
  { unfold im_open. rewrite Hf. destruct bytes as [|b bs] eqn:Eb; [|reflexivity]. rewrite lenN_nil in Hlen. nia. }
  rewrite Hopen. cbn [rbind im_size]. rewrite Hlen, N.mod_mul by exact Hnz. cbn [N.eqb negb].
  assert (Hview : im_view fs (mkIM knd fl (n * NSZ) (match knd with GCMem => bytes | MmapMem => [] end)) = buf_of_bytes bytes).
  { unfold im_view. cbn [im_kind im_copy im_file im_size]. destruct knd; [|reflexivity]. rewrite Hf. f_equal.
    apply firstn_all2. rewrite length_mread. lia. }
  rewrite Hview, (tix_small c (n * NSZ)) by exact Hss. rewrite N.div_mul by exact Hnz.
  destruct stop_at as (k & A1 & A2 & A3 & A4).
  pose proof (copy_desc (n - 1) ltac:(lia) ltac:(lia)) as Hlast.
  rewrite (scan_start vw n im HV (bt_cap _ _ _ _ _ _ B) k); [| lia | lia | lia | |].
  2:{ intros j H1 H2. rewrite Hlast. now apply A3. }
  2:{ now rewrite Hlast. }
  cbn [rbind]. rewrite Hlast.
  assert (Hd : drop_duplicate_root fo c vw (down (n - 1) (S k)) =
     Ok (if le_dec (sub (off_children c) (ixb c) (im (n - 1))) =? le_dec (sub (off_children c) (ixb c) (im (n - 1 - N.of_nat k)))
         then down (n - 1) k else down (n - 1) (S k))).
  { unfold drop_duplicate_root. destruct k as [|k']; [lia|]. cbn [down].
    change (n - 1 :: n - 1 - 1 :: down (n - 1 - 1 - 1) k') with (down (n - 1) (S (S k'))).
    rewrite (down_snoc (S k')), last_last, removelast_last.
    pose proof (maxK_ge2 _ _ OK).
    rewrite (first_child_run vw n im HV (bt_cap _ _ _ _ _ _ B) (n - 1)); [|lia|lia]. cbn [rbind].
    rewrite (first_child_run vw n im HV (bt_cap _ _ _ _ _ _ B) (n - 1 - N.of_nat (S k'))); [reflexivity|lia|].
    rewrite A3 by lia. lia. }
  rewrite Hd. cbn [rbind].
  rewrite (batch_max_view vw n im HV (bt_cap _ _ _ _ _ _ B)) by (intros i Hi; now apply in_rangeN). cbn [rbind].
  eexists. exists (if le_dec (sub (off_children c) (ixb c) (im (n - 1))) =? le_dec (sub (off_children c) (ixb c) (im (n - 1 - N.of_nat k)))
         then k else S k). split; [reflexivity|]. cbn [n_items batchMax ib nn iloaded ibuilt rnd].
  split; [reflexivity|]. split; [rewrite (bt_batch _ _ _ _ _ _ B); reflexivity|]. split; [reflexivity|].
  split; [unfold view; cbn [ib base imemory]; f_equal; exact Hview|].
  split.
  { unfold close in E1. destruct (rnd (ib ix0)); [|congruence]. injection E1 as <-. cbn. discriminate. }
  split; [reflexivity|]. split; [reflexivity|].
  split.
  { unfold rootsN. cbn [broots]. rewrite map_map. cbn [snd]. rewrite map_id. destruct (_ =? _); reflexivity. }
  match goal with |- context [if ?b then k else S k] => destruct b eqn:Eb end.
  - split; [lia|]. split; [lia|]. split; [intros j H1 H2; apply A3; lia|]. intros Hp H3.
    destruct (bt_one _ _ _ _ _ _ B Hp Hne) as [_ H4]. destruct (H4 HK H3) as [H5 H6].
    destruct (N.le_gt_cases (N.of_nat k) R) as [|X]; [lia|]. exfalso. apply H6. apply root_of_desc; [lia|lia|]. apply A3; lia.
  - split; [lia|]. split; [lia|]. split; [intros j H1 H2; apply A3; lia|]. intros Hp H3.
    destruct (bt_one _ _ _ _ _ _ B Hp Hne) as [[rs' Hrs] H4]. destruct (H4 HK H3) as [H5 H6].
    destruct (N.eq_dec (N.of_nat k) R) as [X|X].
    2:{ exfalso. apply H6. apply root_of_desc; [lia|lia|]. apply A3; lia. }
    exfalso. assert (Hn1 : nth_error rs (N.to_nat (R - 1)) = Some (n - R - 1)).
    { eapply nth_last; exact Hrs. }
    pose proof (copy_of _ _ Hn1) as Hc. replace (n - R + (R - 1)) with (n - 1) in Hc by lia.
    rewrite Hc, copy_sub in Eb by (unfold off_children; lia). replace (n - 1 - N.of_nat k) with (n - R - 1) in Eb by lia. lia.
Qed.
Lemma loaded_forest q : ni + N.of_nat q <= n -> (forall j, n <= j + N.of_nat q -> j < n -> n_desc c (im j) = ni) ->
  forest fo c vw ni (down (n - 1) q) f.
Proof.
  intros Hq Hd. pose proof (after_forest_view fo c OK vw ix f plan ix' Hv I B agrees_file) as F.
  rewrite (bt_items _ _ _ _ _ _ B) in F. pose proof n_ge.
  constructor; [apply F|apply F|]. intros j Hj. apply in_down in Hj; [|lia].
  destruct (stands_for j) as (r & Hr & E); [lia|lia|apply Hd; lia|].
  destruct (fr_tree _ _ _ _ _ _ F r Hr) as (xs & k & T). exists xs, k. eapply tree_lists_eq; [|exact T].
  intros xs' k'. apply E. apply agrees_file.
Qed.
End L.

(** Saving. *)
Definition file_bytes (m : mem) : list N := mread m 0 (N.to_nat (n * NSZ)).
Lemma saved_mem : exists b, (forall fs, view fs ix' = Some b) /\ (forall i, i < n -> node_at fo c (bdata b) i = im i) /\
  n * NSZ <= bsize b.
Proof.
  pose proof n_ge. pose proof (bt_ns _ _ _ _ _ _ B) as Hns.
  destruct (wf_arena _ _ _ (bt_wf _ _ _ _ _ _ B) ltac:(lia)) as (b & Hb & Hm & Hs). exists b. split; [|split].
  - intro fs. now apply view_arena.
  - intros i Hi. unfold snode_img. now rewrite Hm.
  - nia.
Qed.
Lemma save_run knd fs fl : exists m, (forall i, i < n -> node_at fo c m i = im i) /\
  (let fs1 := fs_set fs fl (Some (file_bytes m)) in
   save fo c knd OsOk fs ix' fl = let* (ix2, e) := load fo c knd fs1 ix' fl in Ok (ix2, fs1, e)).
Proof.
  destruct saved_mem as (b & Hview & Hm & Hsz). exists (bdata b). split; [exact Hm|]. cbv zeta.
  unfold save. destruct (bt_flags _ _ _ _ _ _ B) as (_ & Hbu & _). rewrite Hbu. cbn [negb].
  rewrite tix_small by (apply size_small). pose proof n_ge. pose proof NSZ_pos. replace (n * NSZ =? 0) with false by nia.
  rewrite Hview. cbn [vread]. rewrite bread_ok by lia. reflexivity.
Qed.

(** The items read alike from both. *)
Lemma view_same_items v1 fs1 ix1 v2 fs2 ix2 : view fs1 ix1 = v1 -> view fs2 ix2 = v2 -> agrees fo c ix' v1 -> agrees fo c ix' v2 ->
  n_items ix1 = ni -> n_items ix2 = ni -> context_length ix2 = context_length ix1 -> same_items fo c fs1 ix1 fs2 ix2.
Proof.
  intros E1 E2 A1 A2 N1 N2 Hc. pose proof n_ge.
  assert (G : forall i, i < ni -> vread v1 (addr fo c i) NSZ = Ok (im i) /\ vread v2 (addr fo c i) NSZ = Ok (im i)).
  { intros i Hi. split; [apply A1|apply A2]; lia. }
  constructor; rewrite ?N1; auto.
  - intros i Hi. destruct (G i Hi) as [G1 G2]. subst v1 v2.
    now rewrite (get_item_node fo c OK _ _ _ _ G1), (get_item_node fo c OK _ _ _ _ G2).
  - intros i j Hi Hj. unfold get_distance, node_fields. rewrite E1, E2.
    destruct (G i Hi) as [-> ->]. destruct (G j Hj) as [-> ->]. reflexivity.
Qed.
(** What a load of the saved file gives. *)
Definition loaded_as (fs : files) (fs2 : files) (ix2 : idx) : Prop :=
  same_items fo c fs ix' fs2 ix2 /\
  (lenN rs <= lenN (rootsN (ib ix2)) <= 2 * lenN rs) /\
  (length plan = 1%nat -> 3 <= lenN (present fo f ni) ->
     Forall2 (same_tree fo c fs ix' fs2 ix2) (rev rs) (rootsN (ib ix2))) /\
  (forall r2, In r2 (rootsN (ib ix2)) -> exists r, In r rs /\ same_tree fo c fs ix' fs2 ix2 r r2) /\
  (forall r, In r rs -> exists r2, In r2 (rootsN (ib ix2)) /\ same_tree fo c fs ix' fs2 ix2 r r2) /\
  forest fo c (view fs2 ix2) (n_items ix2) (rootsN (ib ix2)) f.
Lemma loaded_ok m knd fs fs2 fl ix0 : (forall i, i < n -> node_at fo c m i = im i) -> fs2 fl = Some (file_bytes m) ->
  rnd (ib ix0) <> None -> exists ix2, load fo c knd fs2 ix0 fl = Ok (ix2, None) /\ loaded_as fs fs2 ix2.
Proof.
  intros Hm Hf Hr. destruct (load_run m Hm knd fs2 fl ix0 Hf Hr) as (ix2 & q & E & L1 & L2 & L3 & L4 & _ & _ & _ & L5 & L6 & L7 & L8 & L9).
  exists ix2. split; [exact E|]. pose proof n_ge as Hge. pose proof (agrees_file m Hm) as Ag2.
  pose proof (after_agrees fo c fs ix f plan ix' B) as Ag1.
  assert (Hlr : lenN (rootsN (ib ix2)) = N.of_nat q) by (rewrite L5; unfold lenN; now rewrite length_down).
  assert (Hst : forall j r, (forall v xs k, agrees fo c ix' v -> reach fo c v ni j xs k <-> reach fo c v ni r xs k) ->
    In r rs -> same_tree fo c fs ix' fs2 ix2 r j).
  { intros j r Hjr Hin. unfold same_tree. rewrite L1, L4, (bt_items _ _ _ _ _ _ B).
    destruct (bt_trees _ _ _ _ _ _ B (or_introl Hv) r Hin) as (xs & k & Hre & _). split; [exists xs, k; now apply Hre|].
    intros ys k'. rewrite (Hjr _ ys k' Ag2). split; intro X.
    - destruct (reach_fun fo c OK _ _ _ _ _ X _ _ (Hre _ Ag1)) as [-> ->]. now apply Hre.
    - destruct (reach_fun fo c OK _ _ _ _ _ X _ _ (Hre _ Ag2)) as [-> ->]. now apply Hre. }
  split; [|split; [|split; [|split; [|split]]]].
  - eapply view_same_items; [reflexivity|exact L4|exact Ag1|exact Ag2|apply B|exact L1|].
    unfold context_length. now rewrite L2, L3.
  - rewrite Hlr. split; [exact L6|]. destruct (N.le_gt_cases (N.of_nat q) (2 * R)) as [|X]; [assumption|]. exfalso.
    assert (Hi : incl (map (fun i => n - N.of_nat q + i) (rangeN (N.of_nat q - R))) rs).
    { intros j Hj. apply in_map_iff in Hj. destruct Hj as (i & <- & Hi). apply in_rangeN in Hi.
      apply root_of_desc; [lia|lia|]. apply L8; lia. }
    apply NoDup_incl_length in Hi.
    + rewrite map_length, length_rangeN in Hi. unfold lenN in *. lia.
    + apply FinFun.Injective_map_NoDup; [intros a b; lia|apply NoDup_rangeN].
  - intros Hp H3. specialize (L9 Hp H3). rewrite L5.
    assert (Eq : q = length rs) by (unfold lenN in L9; lia). subst q.
    assert (G : forall k, (k <= length rs)%nat -> forall pre post, rs = pre ++ post -> length pre = k ->
      Forall2 (same_tree fo c fs ix' fs2 ix2) (rev pre) (down (n - R + N.of_nat k - 1) k)).
    { induction k as [|k IH]; intros Hk pre post Ep Hl.
      - destruct pre; [constructor|discriminate].
      - destruct (destruct_last pre) as [->|(pre' & r & ->)]; [discriminate|]. rewrite app_length in Hl. cbn [length] in Hl.
        rewrite rev_app_distr. cbn [rev app down]. constructor.
        + assert (Hn : nth_error rs (N.to_nat (N.of_nat k)) = Some r).
          { rewrite Nat2N.id, Ep, <- app_assoc, nth_error_app2 by lia. replace (k - length pre')%nat with 0%nat by lia. reflexivity. }
          apply Hst; [|eapply nth_error_In; eauto]. intros v xs k0 Hag.
          rewrite <- (reach_copy v (N.of_nat k) r xs k0 Hag Hn). replace (n - R + N.of_nat (S k) - 1) with (n - R + N.of_nat k) by lia. reflexivity.
        + replace (n - R + N.of_nat (S k) - 1 - 1) with (n - R + N.of_nat k - 1) by lia.
          apply (IH ltac:(lia) pre' (r :: post)); [|lia]. rewrite Ep, <- app_assoc. reflexivity. }
    specialize (G (length rs) (le_n _) rs [] ltac:(now rewrite app_nil_r) eq_refl).
    replace (n - R + N.of_nat (length rs) - 1) with (n - 1) in G by (unfold lenN in *; lia). exact G.
  - intros r2 Hr2. rewrite L5 in Hr2. apply in_down in Hr2; [|lia].
    destruct (stands_for r2) as (r & Hin & Hjr); [lia|lia|apply L8; lia|]. exists r. split; [exact Hin|]. now apply Hst.
  - intros r Hin. destruct (In_nth_error _ _ Hin) as (j & Hj).
    assert (Hjl : (j < length rs)%nat) by (apply nth_error_Some; congruence).
    exists (n - R + N.of_nat j). split.
    + rewrite L5. apply in_down; [lia|]. unfold lenN in *. lia.
    + apply Hst; [|exact Hin]. intros v xs k Hag. apply reach_copy; [exact Hag|]. now rewrite Nat2N.id.
  - rewrite L1, L4, L5. now apply loaded_forest.
Qed.
Lemma save_ok knd fs fl : exists ix2 fs2, save fo c knd OsOk fs ix' fl = Ok (ix2, fs2, None) /\
  (forall g, g <> fl -> fs2 g = fs g) /\ loaded_as fs fs2 ix2 /\
  forall knd3 ix0, rnd (ib ix0) <> None -> exists ix3, load fo c knd3 fs2 ix0 fl = Ok (ix3, None) /\ loaded_as fs fs2 ix3.
Proof.
  destruct (save_run knd fs fl) as (m & Hm & E). cbv zeta in E.
  set (fs2 := fs_set fs fl (Some (file_bytes m))) in *.
  assert (Hf : fs2 fl = Some (file_bytes m)) by (unfold fs2, fs_set; now rewrite N.eqb_refl).
  destruct (loaded_ok m knd fs fs2 fl ix' Hm Hf (bt_rnd _ _ _ _ _ _ B)) as (ix2 & E2 & L).
  exists ix2, fs2. split; [rewrite E, E2; reflexivity|]. split; [|split; [exact L|]].
  - intros g Hg. unfold fs2, fs_set. now replace (g =? fl) with false by lia.
  - intros knd3 ix0 H0. eapply loaded_ok; eauto.
Qed.
End IO.
End S.
