(** Indexes whose items fit one bucket: every tree is one node that lists them all, so a
    query is exact whatever it inspects, and whatever the length of the vectors; and what
    Load makes of such an index. *)
From Verif Require Import Base Flt Layout Alloc Prog Sorts Dist Build Index Search Spec ForestSpec OrderSpec BuildSpec
  Lib LayoutProof FltProof MemProof SortsProof NumProof StoreProof SearchProof QueryProof TreeProof PolicyProof BuildProof ForestProof AfterProof AccProof OrderProof
  IOProof WholeProof PlaneProof RoomProof OwnProof.
From Coq Require Import Permutation.
Open Scope N_scope.

Section W.
Variable fo : FOps.
Variable c : Cfg.
Hypothesis OK : CfgOK fo c.
Notation NSZ := (nodeSize fo c).
Notation K := (maxK fo c).
Notation simg := (snode_img fo c).
Notation num := (not_nan fo).
Notation V := (list (F fo)).

(** ** Queries *)
Section Q.
Variable sortIx : list N -> list N.
Variable sortPairs : list (F fo * N) -> list (F fo * N).
Hypothesis HsI : sort_slice N.ltb sortIx.
Hypothesis HsP : sort_slice (pair_less (flt fo) (feq fo)) sortPairs.
Notation query := (get_nns_by_vector fo c sortIx sortPairs).

Lemma visits_in (P : N -> Prop) v ni q limit bag ys : visits fo c v ni q limit bag ys ->
  (forall d r, In (d, r) bag -> exists xs, lists_items fo c v ni r xs /\ forall j, In j xs -> P j) -> forall j, In j ys -> P j.
Proof.
  induction 1 as [| |limit bag d i rest xs ys Hl Pm Hmin Hi Hvs IH|limit bag d i rest l r bs pl pr ys Hl Pm Hmin Hsp Hb _ _ Hvs IH]; intros HB j Hj;
    try contradiction.
  - assert (Hin : In (d, i) bag) by (eapply Permutation_in; [symmetry; exact Pm|now left]).
    destruct (HB d i Hin) as (xs' & Hl' & HP). rewrite (lists_items_fun fo c _ _ _ _ _ Hl' Hi) in HP.
    apply in_app_or in Hj. destruct Hj as [Hj|Hj]; [auto|]. apply IH; [|exact Hj].
    intros d' r' Hr'. apply (HB d' r'). eapply Permutation_in; [symmetry; exact Pm|now right].
  - exfalso. assert (Hin : In (d, i) bag) by (eapply Permutation_in; [symmetry; exact Pm|now left]).
    destruct (HB d i Hin) as (xs' & Hl' & _). eapply lists_not_splits; [apply (maxK_ge2 _ _ OK)|eauto|eauto].
Qed.

(** All roots are buckets of items and the first one in order lists them all. *)
Lemma buckets_exact fuel fs ix f q n inspect bc ids ds bc' r0 xs0 : is_float fo ->
  forest fo c (view fs ix) (n_items ix) [] f -> lenN q = vlen c ->
  (forall r, In r (rootsN (ib ix)) -> exists xs, lists_items fo c (view fs ix) (n_items ix) r xs /\ forall j, In j xs -> j < n_items ix) ->
  In r0 (rootsN (ib ix)) -> (forall r, In r (rootsN (ib ix)) -> r0 <= r) ->
  lists_items fo c (view fs ix) (n_items ix) r0 xs0 -> (forall j w, f j = Some w -> In j xs0) ->
  query fuel fs ix q n inspect bc = Ok (ids, ds, bc') -> lenN (c_nns bc) < 2 ^ iw c ->
  (0 < the_limit ix n inspect)%Z -> all_num fo f q ->
  exact_nearest fo c f q (Z.to_nat n) ids ds.
Proof.
  intros FL FO Hq Hroots Hr0 Hle Hl0 Hall E Hc Hlim Hnum.
  assert (NS : all_sides fo c num (view fs ix) (rootsN (ib ix)) q).
  { intros r d i l r' bs H1 H2 H3 H4. exfalso. destruct (Hroots r H1) as (xs & Hx & _).
    inversion H2; subst; (eapply lists_not_splits; [apply (maxK_ge2 _ _ OK)|exact Hx|eassumption]). }
  destruct (query_visits fo c FL sortIx sortPairs HsI HsP _ _ _ _ _ _ _ _ _ _ E Hc NS) as (ys & qn & Hqn & Hv & Hi & Hn).
  destruct (query_node_ok fo c OK q FL Hq) as (qn' & Hqn' & Hvec & Hnr). assert (qn' = qn) by congruence. subst qn'.
  assert (Hys : forall j, In j ys -> j < n_items ix).
  { eapply visits_in; [exact Hv|]. intros d r Hr. unfold at_start in Hr. apply in_map_iff in Hr. destruct Hr as (r' & E' & Hr).
    injection E' as _ <-. auto. }
  assert (Hall' : forall j w, f j = Some w -> In j ys).
  { intros j w Hj. specialize (Hall j w Hj).
    inversion Hv as [? ? H|? H|? ? d i rest xs ys' Hl P Hmin Hi' Hv'|? ? d i rest l r bs pl pr ys' Hl P Hmin Hs Hb Mpl Mpr Hv']; subst.
    - lia.
    - destruct (rootsN (ib ix)); [contradiction|discriminate].
    - destruct (start_min fo FL _ _ _ _ P Hmin r0 Hr0 Hle) as (-> & -> & FR).
      rewrite (lists_items_fun fo c _ _ _ _ _ Hl0 Hi') in Hall. apply in_or_app. now left.
    - exfalso. destruct (start_min fo FL _ _ _ _ P Hmin r0 Hr0 Hle) as (-> & -> & FR). eapply lists_not_splits; [apply (maxK_ge2 _ _ OK)|exact Hl0|exact Hs]. }
  assert (HD : forall j d, In j ys -> item_dist fo c (view fs ix) qn j d <-> exists w, f j = Some w /\ d = cos_gap fo q w).
  { intros j d Hj. rewrite <- Hvec. eapply item_dist_iff; eauto. }
  destruct Hn as (sc & raw & [Hnd Hsc] & Hl & Ht & Hds).
  { intros j d Hj Hd. apply HD in Hd; [|exact Hj]. destruct Hd as (w & Hw & ->). eapply Hnum; eauto. }
  exists sc, raw. split; [|auto]. split; [exact Hnd|]. intros d j. rewrite Hsc. split.
  - intros [H1 H2]. now apply HD.
  - intros (w & Hw & ->). assert (In j ys) by (eapply Hall'; eauto). split; [assumption|]. apply HD; eauto.
Qed.

(** Such a query returns if there is room for everything. *)
Lemma buckets_total fuel fs ix q n inspect bc m : 
  1 <= vlen c -> lenN q = vlen c ->
  (forall i, i < n_items ix -> exists bs, vread (view fs ix) (addr fo c i) NSZ = Ok bs) ->
  (forall r, In r (rootsN (ib ix)) -> exists xs, lists_items fo c (view fs ix) (n_items ix) r xs /\ lenN xs = m /\ forall j, In j xs -> j < n_items ix) ->
  lenN (c_nns bc) < 2 ^ iw c -> length (c_dist bc) = length (c_nns bc) -> (length (rootsN (ib ix)) <= fuel)%nat ->
  lenN (rootsN (ib ix)) * m <= lenN (c_nns bc) ->
  exists ids ds bc', query fuel fs ix q n inspect bc = Ok (ids, ds, bc').
Proof.
  intros Hv Hq Hit Hroots Hc Hd Hf Hroom.
  assert (G : forall rs, (forall r, In r rs -> In r (rootsN (ib ix))) ->
    exists zs, reach_all fo c (view fs ix) (n_items ix) rs zs (length rs) /\ lenN zs = lenN rs * m /\ forall j, In j zs -> j < n_items ix).
  { induction rs as [|r rs IH]; intro Hin.
    - exists []. split; [constructor|]. split; [reflexivity|contradiction].
    - destruct IH as (zs & Z1 & Z2 & Z3); [intros; apply Hin; now right|].
      destruct (Hroots r (Hin r (or_introl eq_refl))) as (xs & X1 & X2 & X3). exists (xs ++ zs). split.
      + change (length (r :: rs)) with (1 + length rs)%nat. constructor; [now constructor|exact Z1].
      + split; [rewrite lenN_app, lenN_cons; nia|]. intros j Hj. apply in_app_or in Hj. destruct Hj; auto. }
  destruct (G (rootsN (ib ix)) ltac:(auto)) as (zs & Z1 & Z2 & Z3).
  apply (query_total fo c sortIx sortPairs HsI fuel fs ix q n inspect bc zs _ (maxK_ge2 _ _ OK) Hq Hv Hc Hd Z1 Hf); [auto|right; lia].
Qed.
End Q.

(** ** A built index *)
Section A.
Variables (ix : idx) (f : N -> option V) (plan : list Z) (ix' : idx).
Hypothesis I : items_inv fo c ix f.
Hypothesis A : after_build fo c ix f plan ix'.
Hypothesis HK : n_items ix <= K.
Notation ni := (n_items ix).
Notation n := (nn (ib ix')).
Notation rs := (rootsN (ib ix')).
Notation R := (lenN rs).
Notation im := (simg (ib ix')).
Notation pres := (present fo f (n_items ix)).
Notation full := (pres ++ repeat 0 (N.to_nat (ni - lenN pres))).

Lemma full_len : lenN full = ni.
Proof. pose proof (present_le fo f ni). unfold lenN in *. rewrite app_length, repeat_length. lia. Qed.
Lemma full_in j : In j full -> j < ni.
Proof.
  intro Hj. apply in_app_or in Hj. destruct Hj as [Hj|Hj]; [now apply (in_present fo f)|].
  assert (Hne : (N.to_nat (ni - lenN pres) <> 0)%nat) by (intro E; rewrite E in Hj; contradiction).
  apply repeat_spec in Hj. lia.
Qed.
Lemma full_all j w : f j = Some w -> In j full.
Proof. intro H. apply in_or_app. left. apply (in_present fo f). split; [eapply ii_ext; eauto|congruence]. Qed.
(** The number of descendants in a root is the number of items. *)
Lemma root_count r : In r rs -> n_desc c (im r) = ni /\ n_children c ni (im r) = full.
Proof.
  intro Hr. pose proof (after_agrees fo c (fun _ => None) ix _ plan ix' A) as AG.
  pose proof (bt_leaf _ _ _ _ _ _ A HK r Hr _ AG) as L. destruct (bt_range _ _ _ _ _ _ A r Hr) as [H1 H2].
  inversion L as [bs Hb Hd Hi Ex|bs Hb Hd Hi Ex]; [lia|]. rewrite (AG r H2) in Hb. injection Hb as <-.
  pose proof full_len as Hl. rewrite <- Ex in Hl. unfold lenN in Hl. rewrite length_n_children in Hl.
  assert (En : n_desc c (im r) = ni) by lia. split; [exact En|]. now rewrite <- En at 1.
Qed.
(** Items, roots, copies of the roots: nothing else. *)
Lemma all_nodes : n = ni + 2 * R.
Proof.
  destruct (bt_copies _ _ _ _ _ _ A) as (k & En & Hrn & _). pose proof (bt_ni _ _ _ _ _ _ A) as Hni.
  assert (Hk : ni <= k).
  { destruct rs as [|r l] eqn:Er; [rewrite lenN_nil in En; lia|].
    pose proof (bt_range _ _ _ _ _ _ A r ltac:(rewrite Er; now left)). specialize (Hrn r (or_introl eq_refl)). lia. }
  assert (E : k - ni = R); [|lia].
  assert (L1 : (length rs <= length (map (N.add ni) (rangeN (k - ni))))%nat).
  { apply NoDup_incl_length; [apply A|]. intros r Hr. pose proof (bt_range _ _ _ _ _ _ A r Hr). specialize (Hrn r Hr).
    apply in_map_iff. exists (r - ni). split; [lia|]. apply in_rangeN. lia. }
  assert (L2 : (length (map (N.add ni) (rangeN (k - ni))) <= length rs)%nat).
  { apply NoDup_incl_length.
    - apply FinFun.Injective_map_NoDup; [|apply NoDup_rangeN]. intros a b E'. lia.
    - intros j Hj. apply in_map_iff in Hj. destruct Hj as (d & <- & Hd). apply in_rangeN in Hd.
      apply (bt_few _ _ _ _ _ _ A HK); lia. }
  rewrite map_length, length_rangeN in *. unfold lenN. lia.
Qed.
Lemma is_root j : ni <= j -> j < ni + R -> In j rs.
Proof. intros H1 H2. pose proof all_nodes. apply (bt_few _ _ _ _ _ _ A HK); lia. Qed.

(** The room in the contexts of the index. *)
Lemma weight_root r : In r rs -> bm_weight fo c ni im r = Z.of_N ni.
Proof.
  intro Hr. destruct (root_count r Hr) as [E _]. destruct (bt_range _ _ _ _ _ _ A r Hr) as [H1 H2].
  unfold bm_weight. rewrite E. replace (r <? ni) with false by lia. rewrite andb_false_r. now replace (ni <=? K) with true by lia.
Qed.
Lemma some_present : ni <> 0 -> 1 <= lenN pres.
Proof.
  intro H0. destruct (ii_last _ _ _ _ I) as [Hz|Hl]; [lia|]. assert (Hin : In (ni - 1) pres).
  { apply (in_present fo). split; [|exact Hl]. destruct (f (ni - 1)) eqn:E; [|congruence]. eapply ii_ext; eauto. }
  destruct pres; [contradiction|]. rewrite lenN_cons. lia.
Qed.

(** ** The copies of the roots *)
Definition below (a b : list N) : Prop := Forall2 N.le a b.
Lemma below_zeros l : below (repeat 0 (length l)) l.
Proof. induction l; cbn; constructor; [lia|assumption]. Qed.
Lemma below_refl l : below l l.
Proof. induction l; constructor; [lia|assumption]. Qed.
Lemma below_firstn a b : below a b -> forall k, below (firstn k a) (firstn k b).
Proof. induction 1; intros [|k]; cbn; constructor; auto. now apply IHForall2. Qed.
Lemma below_skipn a b : below a b -> forall k, below (skipn k a) (skipn k b).
Proof. induction 1; intros [|k]; cbn; [constructor|constructor|now constructor|apply IHForall2]. Qed.
Lemma below_dec a b : below a b -> le_dec a <= le_dec b.
Proof. induction 1; cbn [le_dec]; lia. Qed.
Lemma below_words k : forall m a b, below a b -> below (words k m a) (words k m b).
Proof.
  induction m as [|m IH]; intros a b H; cbn [words]; [constructor|]. constructor.
  - apply below_dec. now apply below_firstn.
  - apply IH. now apply below_skipn.
Qed.
Lemma below_children m a b : below a b -> below (n_children c m a) (n_children c m b).
Proof. intro H. unfold n_children, dec_ixs, sub. apply below_words, below_firstn, below_skipn, H. Qed.
Lemma copy_eq r : copy_image fo c (ib ix') r = firstn (N.to_nat (vlen c)) (im r) ++ repeat 0 (N.to_nat (NSZ - vlen c)).
Proof.
  pose proof (vlen_fits fo c OK) as Hf.
  assert (Hl : length (im r) = N.to_nat NSZ) by (unfold snode_img; now rewrite length_node_at).
  unfold copy_image, splice, sub, zeros. cbn [N.to_nat skipn firstn app]. f_equal.
  rewrite skipn_rep. f_equal. unfold lenN. rewrite firstn_length. lia.
Qed.
Lemma copy_below r : below (copy_image fo c (ib ix') r) (im r).
Proof.
  rewrite copy_eq. pose proof (vlen_fits fo c OK) as Hf.
  assert (Hl : length (im r) = N.to_nat NSZ) by (unfold snode_img; now rewrite length_node_at).
  rewrite <- (firstn_skipn (N.to_nat (vlen c)) (im r)) at 2. apply Forall2_app; [apply below_refl|].
  replace (N.to_nat (NSZ - vlen c)) with (length (skipn (N.to_nat (vlen c)) (im r))); [apply below_zeros|].
  rewrite skipn_length. lia.
Qed.
Lemma le_dec_app a b : le_dec (a ++ b) = le_dec a + 256 ^ lenN a * le_dec b.
Proof.
  induction a as [|x a IH]; cbn [app le_dec]; [change (lenN (@nil N)) with 0; rewrite N.pow_0_r; lia|].
  rewrite IH, lenN_cons, N.pow_add_r, N.pow_1_r. lia.
Qed.
(** Few items have a count that is copied whole. *)
Lemma copy_count r : 1 <= vlen c -> In r rs -> n_desc c (copy_image fo c (ib ix') r) = ni.
Proof.
  intros Hv Hr. destruct (root_count r Hr) as [E _].
  destruct (N.le_gt_cases (ixb c) (vlen c)) as [H|H].
  { unfold n_desc. rewrite (copy_sub fo c OK) by (rewrite N.add_0_l; exact H). exact E. }
  assert (HK2 : K < 256).
  { pose proof (maxK_fits _ _ OK) as F. rewrite (nodeSize_eq _ _ OK) in F. pose proof (fb_pos _ _ OK). pose proof (ixb_le8 _ _ OK).
    assert (off_vec fo c <= 40).
    { unfold off_vec, off_dot, align. destruct (ok_ixb _ _ OK) as [->| ->], (fl_bytes _ (ok_fl _ _ OK)) as [->| ->], (knd c); vm_compute; discriminate. }
    nia. }
  assert (Hl : length (im r) = N.to_nat NSZ) by (unfold snode_img; now rewrite length_node_at).
  pose proof (nodeSize_ge _ _ OK) as Hns.
  unfold n_desc in *. rewrite copy_eq. unfold sub in *. cbn [N.to_nat skipn] in *.
  rewrite firstn_app, firstn_firstn, firstn_length, firstn_rep by lia.
  rewrite (PlaneProof.le_dec_tail). replace (Nat.min _ _) with (N.to_nat (vlen c)) by lia.
  rewrite <- (firstn_skipn (N.to_nat (vlen c)) (firstn (N.to_nat (ixb c)) (im r))), firstn_firstn in E.
  rewrite le_dec_app in E. replace (Nat.min (N.to_nat (vlen c)) (N.to_nat (ixb c))) with (N.to_nat (vlen c)) in E by lia.
  set (a := firstn (N.to_nat (vlen c)) (im r)) in *. set (b := skipn _ _) in E.
  assert (Hla : lenN a = vlen c) by (unfold a, lenN; rewrite firstn_length; lia). rewrite Hla in E.
  assert (H256 : 256 <= 256 ^ vlen c).
  { replace 256 with (256 ^ 1) at 1 by reflexivity. apply N.pow_le_mono_r; lia. }
  assert (le_dec b = 0) by nia. nia.
Qed.
Lemma copy_at j : ni + R <= j -> j < n -> exists r, In r rs /\ im j = copy_image fo c (ib ix') r.
Proof.
  intros H1 H2. pose proof all_nodes as Ha. destruct (bt_copies _ _ _ _ _ _ A) as (k & En & _ & _ & C).
  assert (k = ni + R) by lia. subst k.
  destruct (nth_error rs (N.to_nat (j - (ni + R)))) as [r|] eqn:E.
  - exists r. split; [eapply nth_error_In; eauto|]. rewrite <- (C _ _ E). f_equal. lia.
  - apply nth_error_None in E. unfold lenN in *. lia.
Qed.
(** So every node after the items is a bucket of the size of the index. *)
Lemma node_count j : 1 <= vlen c -> ni <= j -> j < n -> n_desc c (im j) = ni.
Proof.
  intros Hv H1 H2. destruct (N.lt_ge_cases j (ni + R)) as [H|H]; [now apply root_count, is_root|].
  destruct (copy_at j H H2) as (r & Hr & ->). now apply copy_count.
Qed.
Lemma node_lists v j : 1 <= vlen c -> agrees fo c ix' v -> ni <= j -> j < n ->
  exists xs, lists_items fo c v ni j xs /\ lenN xs = ni /\ (forall x, In x xs -> x < ni) /\ (j < ni + R -> xs = full).
Proof.
  intros Hv Hag H1 H2. pose proof (node_count j Hv H1 H2) as Hd.
  assert (Hl : lists_items fo c v ni j (n_children c ni (im j))).
  { rewrite <- Hd at 2. apply li_bucket; [now apply Hag|lia|lia]. }
  exists (n_children c ni (im j)). split; [exact Hl|]. split; [unfold lenN; rewrite length_n_children; lia|].
  destruct (N.lt_ge_cases j (ni + R)) as [H|H].
  - destruct (root_count j (is_root j H1 H)) as [_ E]. rewrite E. split; [exact full_in|auto].
  - split; [|lia]. destruct (copy_at j H H2) as (r & Hr & Ej). destruct (root_count r Hr) as [_ E].
    pose proof (below_children ni _ _ (copy_below r)) as Hb. rewrite <- Ej, E in Hb.
    intros x Hx. pose proof full_in as Hfi. clear - Hb Hx Hfi. revert Hb Hfi. generalize full as l2. revert Hx. generalize (n_children c ni (im j)) as l1.
    induction l1 as [|y l1 IH]; [contradiction|]. intros Hx l2 Hb Hfi. inversion Hb; subst. destruct Hx as [<-|Hx].
    + match goal with H : y <= ?z |- _ => pose proof (Hfi z (or_introl eq_refl)) end. lia.
    + eapply IH; eauto. intros z Hz. apply Hfi. now right.
Qed.

(** ** Save and Load *)
Section L.
Hypothesis Hv : 1 <= vlen c.
Hypothesis Hne : rs <> [].
Lemma R_pos : 1 <= R.
Proof. destruct rs as [|a l] eqn:E; [congruence|]. rewrite lenN_cons. lia. Qed.
Lemma NSZ_nz : NSZ <> 0.
Proof. pose proof (nodeSize_ge _ _ OK). pose proof (ixb_pos _ _ OK). lia. Qed.
Lemma bytes_small : n * NSZ < 2 ^ iw c.
Proof. pose proof (bt_cap _ _ _ _ _ _ A) as H. unfold cap_ok in H. pose proof (cap_ok_ge n). nia. Qed.

Section M.
Variable m : mem.
Hypothesis Hm : forall i, i < n -> node_at fo c m i = im i.
Notation bytes := (mread m 0 (N.to_nat (n * NSZ))).
Notation vw := (Some (buf_of_bytes bytes)).
Lemma shows : forall i o len, i < n -> o + len <= NSZ -> vread vw (i * NSZ + o) len = Ok (sub o len (im i)).
Proof. intros i o len Hi Ho. rewrite view_bytes by assumption. now rewrite Hm. Qed.
Lemma bytes_agree : agrees fo c ix' vw.
Proof.
  intros i Hi. rewrite (cap_ok_addr _ _ _ i (bt_cap _ _ _ _ _ _ A)) by lia. rewrite <- (N.add_0_r (i * NSZ)), shows by (auto; lia).
  f_equal. unfold sub. cbn [N.to_nat skipn]. apply firstn_all2. unfold snode_img. rewrite length_node_at. lia.
Qed.
Lemma small_load knd fs fl ix0 : 2 <= ni -> fs fl = Some bytes -> Prog.rnd (ib ix0) <> None ->
  exists ix2 q, load fo c knd fs ix0 fl = Ok (ix2, None) /\ n_items ix2 = ni /\ batchMax ix2 = batchMax ix' /\ nn (ib ix2) = n /\ view fs ix2 = vw /\
    rootsN (ib ix2) = down (n - 1) q /\ (N.of_nat q = 2 * R \/ N.of_nat q + 1 = 2 * R).
Proof.
  intros H2 Hf Hr. unfold load.
  assert (E1 : exists ix1, close ix0 = Ok ix1) by (unfold close; destruct (Prog.rnd (ib ix0)); [eauto|congruence]).
  destruct E1 as (ix1 & E1). rewrite E1. cbn [rbind].
  assert (Hlen : lenN bytes = n * NSZ) by (unfold lenN; rewrite length_mread; lia).
  pose proof all_nodes as Hn. pose proof NSZ_nz as Hnz. pose proof R_pos as HR1. pose proof bytes_small as Hss.
  assert (Hopen : im_open knd fs fl = Ok (inl (mkIM knd fl (lenN bytes) (match knd with GCMem => bytes | MmapMem => [] end)))).
  { unfold im_open. rewrite Hf. destruct bytes as [|b bs] eqn:Eb; [|reflexivity]. rewrite lenN_nil in Hlen. nia. }
  rewrite Hopen. cbn [rbind im_size]. rewrite Hlen, N.mod_mul by exact Hnz. cbn [N.eqb negb].
  assert (Hview : im_view fs (mkIM knd fl (n * NSZ) (match knd with GCMem => bytes | MmapMem => [] end)) = buf_of_bytes bytes).
  { unfold im_view. cbn [im_kind im_copy im_file im_size]. destruct knd; [|reflexivity]. rewrite Hf. f_equal.
    apply firstn_all2. rewrite length_mread. lia. }
  rewrite Hview, (tix_small c (n * NSZ)) by exact Hss. rewrite N.div_mul by exact Hnz.
  assert (Hlast : n_desc c (im (n - 1)) = ni) by (apply node_count; lia).
  set (k := N.to_nat (2 * R - 1)). assert (Hk : N.of_nat k + 1 = 2 * R) by lia.
  rewrite (scan_start fo c OK vw n im shows (bt_cap _ _ _ _ _ _ A) k); [| lia | lia | lia | |].
  2:{ intros j J1 J2. rewrite Hlast. apply node_count; lia. }
  2:{ rewrite Hlast. replace (n - 1 - N.of_nat (S k)) with (ni - 1) by lia. rewrite (bt_img _ _ _ _ _ _ A) by lia.
      rewrite (ib_desc _ _ _ _ (image_bytes fo c OK ni f (ni - 1) (ii_len _ _ _ _ I))). destruct (f (ni - 1)); lia. }
  cbn [rbind]. rewrite Hlast.
  assert (Hd : drop_duplicate_root fo c vw (down (n - 1) (S k)) =
     Ok (if le_dec (sub (off_children c) (ixb c) (im (n - 1))) =? le_dec (sub (off_children c) (ixb c) (im (n - 1 - N.of_nat k)))
         then down (n - 1) k else down (n - 1) (S k))).
  { unfold drop_duplicate_root. destruct k as [|k']; [lia|]. cbn [down].
    change (n - 1 :: n - 1 - 1 :: down (n - 1 - 1 - 1) k') with (down (n - 1) (S (S k'))).
    rewrite (down_snoc (S k')), last_last, removelast_last.
    rewrite (first_child_run fo c OK vw n im shows (bt_cap _ _ _ _ _ _ A) (n - 1)); [|lia|lia]. cbn [rbind].
    rewrite (first_child_run fo c OK vw n im shows (bt_cap _ _ _ _ _ _ A) (n - 1 - N.of_nat (S k'))); [reflexivity|lia|].
    rewrite node_count by lia. lia. }
  rewrite Hd. cbn [rbind].
  rewrite (batch_max_view fo c OK vw n im shows (bt_cap _ _ _ _ _ _ A)) by (intros i Hi; now apply in_rangeN). cbn [rbind].
  eexists. exists (if le_dec (sub (off_children c) (ixb c) (im (n - 1))) =? le_dec (sub (off_children c) (ixb c) (im (n - 1 - N.of_nat k)))
         then k else S k). split; [reflexivity|]. cbn [n_items batchMax ib].
  split; [reflexivity|]. split; [rewrite (bt_batch _ _ _ _ _ _ A); reflexivity|]. split; [reflexivity|].
  split; [unfold view; cbn [ib base imemory]; f_equal; exact Hview|].
  split; [|destruct (_ =? _); lia].
  unfold rootsN. cbn [broots]. rewrite map_map. cbn [snd]. rewrite map_id. destruct (_ =? _); reflexivity.
Qed.
End M.

Definition saved_bytes (m : mem) : list N := mread m 0 (N.to_nat (n * NSZ)).
Lemma small_save knd fs fl : exists m, (forall i, i < n -> node_at fo c m i = im i) /\
  (let fs1 := fs_set fs fl (Some (saved_bytes m)) in
   save fo c knd OsOk fs ix' fl = let* (ix2, e) := load fo c knd fs1 ix' fl in Ok (ix2, fs1, e)).
Proof.
  pose proof all_nodes as Hn. pose proof R_pos as HR. pose proof (bt_ns _ _ _ _ _ _ A) as Hns.
  destruct (wf_arena _ _ _ (bt_wf _ _ _ _ _ _ A) ltac:(lia)) as (b & Hb & Hm & Hs). exists (bdata b). split.
  { intros i Hi. unfold snode_img. now rewrite Hm. }
  cbv zeta. unfold save. destruct (bt_flags _ _ _ _ _ _ A) as (_ & Hbu & _). rewrite Hbu. cbn [negb].
  rewrite tix_small by (apply bytes_small). pose proof NSZ_nz. replace (n * NSZ =? 0) with false by nia.
  rewrite (view_arena _ _ b Hb). cbn [vread]. rewrite bread_ok by nia. reflexivity.
Qed.

(** What the file of a small index gives. *)
Record small_loaded (fs2 : files) (ix2 : idx) : Prop := mkSL {
  sl_items : n_items ix2 = ni;
  sl_batch : batchMax ix2 = batchMax ix';
  sl_nodes : nn (ib ix2) = n;
  sl_view : agrees fo c ix' (view fs2 ix2);
  sl_roots : exists q, rootsN (ib ix2) = down (n - 1) q /\ (N.of_nat q = 2 * R \/ N.of_nat q + 1 = 2 * R)
}.
Lemma small_reload k fs fl ixs fs2 e : 2 <= ni -> save fo c k OsOk fs ix' fl = Ok (ixs, fs2, e) ->
  e = None /\ small_loaded fs2 ixs /\
  forall k3 ix0 ix2 e2, load fo c k3 fs2 ix0 fl = Ok (ix2, e2) -> e2 = None /\ small_loaded fs2 ix2.
Proof.
  intros H2 Es. destruct (small_save k fs fl) as (m & Hm & E0). cbv zeta in E0.
  set (fs1 := fs_set fs fl (Some (saved_bytes m))) in *.
  assert (Hf : fs1 fl = Some (mread m 0 (N.to_nat (n * NSZ)))) by (unfold fs1, fs_set; now rewrite N.eqb_refl).
  assert (G : forall k3 ix0 ix2 e2, load fo c k3 fs1 ix0 fl = Ok (ix2, e2) -> e2 = None /\ small_loaded fs1 ix2).
  { intros k3 ix0 ix2 e2 E. assert (Hr : Prog.rnd (ib ix0) <> None).
    { intro X. unfold load, close in E. rewrite X in E. discriminate. }
    destruct (small_load m Hm k3 fs1 fl ix0 H2 Hf Hr) as (ix2' & q & E' & L1 & L2 & L2' & L3 & L4 & L5). rewrite E in E'. injection E' as -> ->.
    split; [reflexivity|]. constructor; auto; [|eauto]. rewrite L3. now apply bytes_agree. }
  rewrite E0 in Es. destruct (load fo c k fs1 ix' fl) as [[ix2 e2]|] eqn:El; [|discriminate]. cbn [rbind] in Es. injection Es as <- <- <-.
  destruct (G _ _ _ _ El) as [-> S1]. split; [reflexivity|]. split; [exact S1|exact G].
Qed.
(** Its roots list items of the index, and with two trees or more the first one lists all. *)
Lemma sl_lists fs2 ix2 : 2 <= ni -> small_loaded fs2 ix2 ->
  (forall r, In r (rootsN (ib ix2)) -> exists xs, lists_items fo c (view fs2 ix2) (n_items ix2) r xs /\ lenN xs = ni /\ forall j, In j xs -> j < n_items ix2) /\
  (2 <= R -> exists r0, In r0 (rootsN (ib ix2)) /\ (forall r, In r (rootsN (ib ix2)) -> r0 <= r) /\ lists_items fo c (view fs2 ix2) (n_items ix2) r0 full).
Proof.
  intros H2 [S1 S2 S2' S3 (q & S4 & S5)]. pose proof all_nodes as Hn. pose proof R_pos as HR. rewrite S1.
  assert (Hd : forall r, In r (rootsN (ib ix2)) <-> r < n /\ n <= r + N.of_nat q).
  { intro r. rewrite S4, in_down by lia. lia. }
  split.
  - intros r Hr. apply Hd in Hr. destruct (node_lists _ r Hv S3) as (xs & X1 & X2 & X3 & _); [lia|lia|eauto].
  - intro HR2. exists (n - N.of_nat q). split; [apply Hd; lia|]. split; [intros r Hr; apply Hd in Hr; lia|].
    destruct (node_lists _ (n - N.of_nat q) Hv S3) as (xs & X1 & _ & _ & X4); [lia|lia|]. rewrite <- X4 by lia. exact X1.
Qed.
(** The room in a context. *)
Notation wt := (bm_weight fo c ni im).
Lemma wt_pos i : (0 <= wt i)%Z.
Proof. unfold bm_weight. repeat (destruct (_ && _) || destruct (_ <=? _)); lia. Qed.
Lemma wt_item i : In i pres -> wt i = 1%Z.
Proof.
  intro Hi. apply (in_present fo) in Hi. destruct Hi as [Hi Hf].
  unfold bm_weight. rewrite (bt_img _ _ _ _ _ _ A) by exact Hi.
  rewrite (ib_desc _ _ _ _ (image_bytes fo c OK ni f i (ii_len _ _ _ _ I))).
  destruct (f i); [|congruence]. cbn [N.eqb Pos.eqb andb]. now replace (i <? ni) with true by lia.
Qed.
Lemma wt_room l : NoDup l -> (forall b, In b l -> ni <= b < n) ->
  (Z.of_N (lenN pres) + sumZ (map wt l) <= Z.of_N (lenN (c_nns (create_context fo ix'))) + 1)%Z.
Proof.
  intros ND Hl. pose proof (bt_ni _ _ _ _ _ _ A) as Hni.
  assert (Hp : forall i, In i pres -> i < ni) by (intros i Hi; now apply (in_present fo) in Hi).
  pose proof (sumZ_part wt wt_pos (rangeN n) (pres ++ l)) as H.
  rewrite map_app, sumZ_app, (sumZ_same wt 1 pres wt_item) in H.
  assert (H' : (Z.of_nat (length pres) * 1 + sumZ (map wt l) <= sumZ (map wt (rangeN n)))%Z).
  { apply H.
    - assert (Hd : forall i, In i pres -> ~ In i l) by (intros i Hi Hl'; specialize (Hp i Hi); specialize (Hl i Hl'); lia).
      apply NoDup_both; [apply NoDup_present|exact ND|exact Hd].
    - intros i Hi. apply in_rangeN. apply in_app_or in Hi. destruct Hi as [Hi|Hi]; [specialize (Hp i Hi)|specialize (Hl i Hi)]; lia. }
  pose proof (bt_batch _ _ _ _ _ _ A) as Hb. unfold create_context, context_length. cbn [c_nns]. unfold lenN in *. rewrite repeat_length.
  destruct (Z.ltb_spec (batchMax ix') 1); lia.
Qed.
Lemma small_room : ni <> 0 -> 2 * R * ni <= lenN (c_nns (create_context fo ix')).
Proof.
  intro H0. pose proof all_nodes as Hn. pose proof (some_present H0) as Hp.
  set (l := map (N.add ni) (rangeN (2 * R))).
  assert (Hl : forall b, In b l -> ni <= b < n).
  { intros b Hb. apply in_map_iff in Hb. destruct Hb as (d & <- & Hd). apply in_rangeN in Hd. lia. }
  pose proof (wt_room l) as H.
  rewrite (sumZ_same (bm_weight fo c ni im) (Z.of_N ni) l) in H.
  - assert (El : length l = N.to_nat (2 * R)) by (unfold l; now rewrite map_length, length_rangeN).
    rewrite El in H. specialize (H ltac:(apply FinFun.Injective_map_NoDup; [intros a b E; lia|apply NoDup_rangeN]) Hl). lia.
  - intros r Hr. specialize (Hl r Hr). unfold bm_weight. rewrite node_count by lia.
    replace (r <? ni) with false by lia. rewrite andb_false_r. now replace (ni <=? K) with true by lia.
Qed.
Lemma sumZ_most (w : N -> Z) b l : (forall i, In i l -> w i <= b)%Z -> (sumZ (map w l) <= Z.of_nat (length l) * b)%Z.
Proof.
  unfold sumZ. induction l as [|a l IH]; intro H; cbn [map fold_right length]; [lia|].
  specialize (IH ltac:(intros; apply H; now right)). specialize (H a (or_introl eq_refl)). lia.
Qed.
Lemma small_room_most : lenN (c_nns (create_context fo ix')) <= n * N.max 2 ni.
Proof.
  pose proof (bt_batch _ _ _ _ _ _ A) as Hb. unfold create_context, context_length. cbn [c_nns]. unfold lenN at 1. rewrite repeat_length.
  destruct (Z.ltb_spec (batchMax ix') 1); [nia|]. rewrite Hb.
  assert (Hw : (sumZ (map wt (rangeN n)) <= Z.of_nat (length (rangeN n)) * Z.of_N (N.max 2 ni))%Z).
  { apply sumZ_most. intros i Hi. apply in_rangeN in Hi. destruct (N.ltb_spec i ni) as [Hl|Hl].
    - unfold bm_weight. rewrite (bt_img _ _ _ _ _ _ A) by exact Hl.
      rewrite (ib_desc _ _ _ _ (image_bytes fo c OK ni f i (ii_len _ _ _ _ I))). destruct (f i); repeat (destruct (_ && _) || destruct (_ <=? _)); lia.
    - unfold bm_weight. rewrite node_count by lia. repeat (destruct (_ && _) || destruct (_ <=? _)); lia. }
  rewrite length_rangeN in Hw. nia.
Qed.
Lemma small_room_fits : lenN (c_nns (create_context fo ix')) < 2 ^ iw c.
Proof.
  eapply N.le_lt_trans; [apply small_room_most|]. eapply N.le_lt_trans; [|apply bytes_small].
  apply N.mul_le_mono_l. pose proof (maxK_fits fo c OK). pose proof (maxK_ge2 fo c OK). pose proof (ixb_pos _ _ OK). nia.
Qed.
End L.
End A.
End W.
