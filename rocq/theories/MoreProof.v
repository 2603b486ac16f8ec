(** Two queries compared: asking for more, inspecting more. *)
From Verif Require Import Base Flt Layout Alloc Prog Sorts Dist Build Index Search Spec ForestSpec
  Lib LayoutProof FltProof SortsProof NumProof SearchProof QueryProof TopProof ForestProof AfterProof.
From Coq Require Import Permutation Sorted.
Open Scope N_scope.

(** ** The least elements of a growing set *)
Lemma firstn_combine {A B} n (a : list A) (b : list B) : firstn n (combine a b) = combine (firstn n a) (firstn n b).
Proof. revert a b. induction n as [|n IH]; intros [|x a] [|y b]; cbn; try reflexivity; now rewrite IH. Qed.
Lemma NoDup_app_l {A} (a b : list A) : NoDup (a ++ b) -> NoDup a.
Proof. intro H. apply (NoDup_firstn (length a)) in H. now rewrite firstn_app_exact in H. Qed.
Section T.
Context {A : Type}.
Variable P : A -> Prop.
Variable less : A -> A -> bool.
Hypothesis SW : strict_weak P less.

Lemma sorted_nth l : sorted less l -> forall i j x y, (i < j)%nat -> nth_error l i = Some x -> nth_error l j = Some y -> less y x = false.
Proof.
  induction 1 as [|a l S1 IH F]; intros i j x y Hij Hi Hj; [destruct i; discriminate|].
  destruct j as [|j]; [lia|]. cbn in Hj. destruct i as [|i]; cbn in Hi.
  - injection Hi as <-. rewrite Forall_forall in F. apply F. eapply nth_error_In; eauto.
  - apply (IH i j x y); auto. lia.
Qed.
Lemma less_irrefl x : P x -> less x x = false.
Proof. intro H. destruct (less x x) eqn:E; [|reflexivity]. rewrite (sw_asym _ _ SW x x H H E) in E. discriminate. Qed.

Lemma topk_pointwise k1 k2 c1 c2 r1 r2 : incl c1 c2 -> NoDup c1 -> NoDup c2 -> Forall P c2 -> (k1 <= k2)%nat ->
  is_topk less k1 c1 r1 -> is_topk less k2 c2 r2 ->
  (length r1 <= length r2)%nat /\
  forall j x y, nth_error r1 j = Some x -> nth_error r2 j = Some y -> less x y = false.
Proof.
  intros Hi N1 N2 F Hk (t1 & A1 & A2 & A3 & A4) (t2 & B1 & B2 & B3 & B4). split.
  { rewrite A2, B2. pose proof (NoDup_incl_length N1 Hi). lia. }
  rewrite Forall_forall in F.
  assert (I1 : forall x, In x r1 -> In x c2).
  { intros x H. apply Hi. eapply Permutation_in; [symmetry; exact A1|]. apply in_or_app. now left. }
  assert (I2 : forall x, In x r2 -> In x c2).
  { intros x H. eapply Permutation_in; [symmetry; exact B1|]. apply in_or_app. now left. }
  intros j x y Hx Hy. destruct (less x y) eqn:E; [|reflexivity]. exfalso.
  assert (Px : P x) by (apply F, I1; eapply nth_error_In; eauto).
  assert (Py : P y) by (apply F, I2; eapply nth_error_In; eauto).
  assert (Hin : incl (firstn (S j) r1) (firstn j r2)).
  { intros e He. apply In_nth_error in He. destruct He as (i & Hei).
    assert (Hij : (i < S j)%nat).
    { pose proof (proj1 (nth_error_Some (firstn (S j) r1) i) ltac:(congruence)) as H. rewrite firstn_length in H. lia. }
    rewrite nth_error_firstn in Hei by exact Hij.
    assert (Pe : P e) by (apply F, I1; eapply nth_error_In; eauto).
    assert (Hxe : less x e = false).
    { destruct (Nat.eq_dec i j) as [->|Hne]; [|apply (sorted_nth r1 A3 i j); auto; lia].
      rewrite Hx in Hei. injection Hei as <-. now apply less_irrefl. }
    assert (Hey : less e y = true).
    { destruct (less e y) eqn:Eey; [reflexivity|]. rewrite (sw_le_trans _ _ SW y e x) in E; auto. }
    assert (Hc : In e c2) by (apply I1; eapply nth_error_In; eauto).
    apply (Permutation_in _ B1) in Hc. apply in_app_or in Hc. destruct Hc as [Hc|Hc].
    2:{ rewrite (B4 y e) in Hey; [discriminate|eapply nth_error_In; eauto|exact Hc]. }
    apply In_nth_error in Hc. destruct Hc as (p & Hp).
    assert (Hpj : (p < j)%nat).
    { destruct (Nat.lt_trichotomy p j) as [H|[->|H]]; [exact H| |].
      - rewrite Hy in Hp. injection Hp as <-. rewrite less_irrefl in Hey by exact Py. discriminate.
      - rewrite (sorted_nth r2 B3 j p y e H Hy Hp) in Hey. discriminate. }
    apply nth_error_In with p. now rewrite nth_error_firstn. }
  assert (Nr : NoDup r1).
  { apply (Permutation_NoDup A1) in N1. now apply NoDup_app_l in N1. }
  pose proof (NoDup_incl_length (NoDup_firstn (S j) r1 Nr) Hin) as HL. rewrite !firstn_length in HL.
  pose proof (proj1 (nth_error_Some r1 j) ltac:(congruence)). lia.
Qed.

Lemma topk_recall k1 k2 u c2 rs r2 : incl c2 u -> NoDup u -> NoDup c2 -> Forall P u -> distinct less u -> (k1 <= k2)%nat ->
  is_topk less k1 u rs -> is_topk less k2 c2 r2 -> forall x, In x rs -> In x c2 -> In x r2.
Proof.
  intros Hi N1 N2 F D Hk (t1 & A1 & A2 & A3 & A4) (t2 & B1 & B2 & B3 & B4) x Hx Hc.
  pose proof (Permutation_in _ B1 Hc) as Hc'. apply in_app_or in Hc'. destruct Hc' as [|Ht]; [assumption|]. exfalso.
  rewrite Forall_forall in F.
  assert (Nb : NoDup (r2 ++ t2)) by (eapply Permutation_NoDup; eauto).
  assert (Hxr : ~ In x r2).
  { intro H. apply in_split in Ht. destruct Ht as (a & b & ->). rewrite app_assoc in Nb. apply NoDup_remove_2 in Nb.
    apply Nb. apply in_or_app. left. apply in_or_app. now left. }
  assert (Hl : length r2 = k2).
  { rewrite B2. apply Permutation_length in B1. rewrite app_length in B1. destruct t2; [contradiction|]. cbn [length] in B1. lia. }
  assert (Hincl : incl (x :: r2) rs).
  { intros y [<-|Hy]; [exact Hx|].
    assert (Hyc : In y c2) by (eapply Permutation_in; [symmetry; exact B1|apply in_or_app; now left]).
    assert (Hxy : less x y = false) by (apply B4; assumption).
    assert (Hyx : less y x = true).
    { destruct (less y x) eqn:E; [reflexivity|]. assert (x = y) by (apply D; auto). subst y. contradiction. }
    pose proof (Permutation_in _ A1 (Hi _ Hyc)) as H. apply in_app_or in H. destruct H as [H|H]; [exact H|].
    rewrite (A4 x y Hx H) in Hyx. discriminate. }
  assert (Nx : NoDup (x :: r2)) by (constructor; [exact Hxr|now apply NoDup_app_l in Nb]).
  pose proof (NoDup_incl_length Nx Hincl) as HL. cbn [length] in HL. rewrite A2 in HL. lia.
Qed.

Lemma topk_prefix k1 k2 c1 c2 r1 r2 : (forall x, In x c1 <-> In x c2) -> NoDup c1 -> NoDup c2 -> Forall P c2 -> distinct less c2 ->
  (k1 <= k2)%nat -> is_topk less k1 c1 r1 -> is_topk less k2 c2 r2 -> r1 = firstn k1 r2.
Proof.
  intros Hi N1 N2 F D Hk T1 (t2 & B1 & B2 & B3 & B4).
  assert (Hp : Permutation c1 c2) by now apply NoDup_Permutation.
  apply (topk_unique P less SW k1 c1 c2); auto.
  - rewrite Forall_forall in *. intros x H. now apply F, Hi.
  - intros x y Hx Hy. apply D; now apply Hi.
  - exists (skipn k1 r2 ++ t2). rewrite app_assoc, firstn_skipn. split; [exact B1|]. split; [rewrite firstn_length; lia|].
    assert (G : forall l n, sorted less l -> sorted less (firstn n l) /\ forall x y, In x (firstn n l) -> In y (skipn n l) -> less y x = false).
    { clear. induction l as [|a l IH]; intros n H; [rewrite firstn_nil; split; [constructor|intros ? ? []]|].
      inversion H as [|? ? S1 F1]; subst. destruct n as [|n]; [split; [constructor|intros ? ? []]|]. cbn [firstn skipn].
      destruct (IH n S1) as [I1 I2]. rewrite Forall_forall in F1. split.
      - constructor; [exact I1|]. apply Forall_forall. intros y Hy. apply F1. eapply In_firstn; eauto.
      - intros x y [<-|Hx] Hy; [|now apply I2]. apply F1. rewrite <- (firstn_skipn n l). apply in_or_app. now right. }
    destruct (G r2 k1 B3) as [G1 G2]. split; [exact G1|]. intros x y Hx Hy. apply in_app_or in Hy. destruct Hy as [Hy|Hy]; [now apply G2|].
    apply B4; [eapply In_firstn; eauto|exact Hy].
Qed.
End T.

(** ** What the two searches inspect *)
Section Q.
Variable fo : FOps.
Variable c : Cfg.
Notation NSZ := (nodeSize fo c).
Notation K := (maxK fo c).
Notation less := (pair_less (flt fo) (feq fo)).

(** The search with the larger limit inspects what the other one does, and then more. *)
Lemma loops_prefix f1 : forall f2 v ni vec l1 l2 q cnt n1 n2 c1 m1 c2 m2,
  search_loop fo c f1 v ni vec l1 q cnt n1 = Ok (c1, m1) -> search_loop fo c f2 v ni vec l2 q cnt n2 = Ok (c2, m2) ->
  (l1 <= l2)%Z -> c1 <= lenN n1 -> c2 <= lenN n2 -> lenN n1 < 2 ^ iw c -> lenN n2 < 2 ^ iw c ->
  exists y1 y2, firstn (N.to_nat c1) m1 = firstn (N.to_nat cnt) n1 ++ y1 /\
    firstn (N.to_nat c2) m2 = firstn (N.to_nat cnt) n2 ++ y1 ++ y2.
Proof.
  induction f1 as [|f1 IH]; intros f2 v ni vec l1 l2 q cnt n1 n2 c1 m1 c2 m2 E1 E2 Hl H1 H2 W1 W2.
  - cbn [search_loop] in E1. destruct ((Z.of_N cnt <? l1)%Z && negb (pq_empty q)) eqn:Es; [discriminate|]. injection E1 as <- <-.
    destruct (search_loop_expands fo c _ _ _ _ _ _ _ _ _ _ E2 H2 W2) as (ys & rest & _ & _ & Hf & _).
    exists [], ys. rewrite app_nil_r. auto.
  - rewrite search_loop_S in E1. destruct ((Z.of_N cnt <? l1)%Z && negb (pq_empty q)) eqn:Es.
    2:{ injection E1 as <- <-. destruct (search_loop_expands fo c _ _ _ _ _ _ _ _ _ _ E2 H2 W2) as (ys & rest & _ & _ & Hf & _).
        exists [], ys. rewrite app_nil_r. auto. }
    assert (Es2 : (Z.of_N cnt <? l2)%Z && negb (pq_empty q) = true).
    { apply andb_prop in Es. destruct Es as [Ea ->]. rewrite andb_true_r. lia. }
    destruct f2 as [|f2]; [cbn [search_loop] in E2; rewrite Es2 in E2; discriminate|].
    rewrite search_loop_S, Es2 in E2.
    destruct (pq_top q) as [[d i]|] eqn:Et; [|discriminate].
    apply rbind_ok in E1. destruct E1 as ([x q'] & Ep & E1). rewrite Ep in E2. cbn [rbind] in E2.
    apply rbind_ok in E1. destruct E1 as (bs & Er & E1). rewrite Er in E2. cbn [rbind] in E2. cbn zeta in E1, E2.
    destruct ((n_desc c bs =? 1) && (i <? ni)).
    + destruct (N.leb_spec (lenN n1) cnt) as [|Hlt1]; [discriminate|]. destruct (N.leb_spec (lenN n2) cnt) as [|Hlt2]; [discriminate|].
      apply rbind_ok in E1. destruct E1 as (n1' & P1 & E1). apply rbind_ok in E2. destruct E2 as (n2' & P2 & E2).
      pose proof (put_at_length _ _ _ _ P1). pose proof (put_at_length _ _ _ _ P2).
      assert (lenN n1' = lenN n1) by (unfold lenN; lia). assert (lenN n2' = lenN n2) by (unfold lenN; lia).
      apply put_at_spec in P1; [|rewrite lenN_cons, lenN_nil; lia]. apply put_at_spec in P2; [|rewrite lenN_cons, lenN_nil; lia].
      destruct (IH _ _ _ _ _ _ _ _ _ _ _ _ _ _ E1 E2 Hl) as (y1 & y2 & G1 & G2); try lia.
      exists ([i] ++ y1), y2. rewrite G1, G2, P1, P2. change (cnt + 1) with (cnt + lenN [i]).
      rewrite !(splice_firstn _ [i] cnt) by (change (lenN [i]) with 1; lia). now rewrite !app_assoc.
    + destruct (n_desc c bs <=? K).
      * apply rbind_ok in E1. destruct E1 as (n1' & P1 & E1). apply rbind_ok in E2. destruct E2 as (n2' & P2 & E2).
        pose proof (put_at_length _ _ _ _ P1). pose proof (put_at_length _ _ _ _ P2).
        assert (lenN n1' = lenN n1) by (unfold lenN; lia). assert (lenN n2' = lenN n2) by (unfold lenN; lia).
        pose proof (loop_mono fo c _ _ _ _ _ _ _ _ _ _ E1) as [M1 _]. pose proof (loop_mono fo c _ _ _ _ _ _ _ _ _ _ E2) as [M2 _].
        rewrite tix_small in P1, P2 by lia.
        assert (Hlc : lenN (n_children c (n_desc c bs) bs) = n_desc c bs) by (unfold lenN; rewrite length_n_children; lia).
        apply put_at_spec in P1; [|lia]. apply put_at_spec in P2; [|lia].
        destruct (IH _ _ _ _ _ _ _ _ _ _ _ _ _ _ E1 E2 Hl) as (y1 & y2 & G1 & G2); try lia.
        exists (n_children c (n_desc c bs) bs ++ y1), y2. rewrite G1, G2, P1, P2. rewrite <- Hlc at 1 5.
        rewrite !(splice_firstn _ (n_children c (n_desc c bs) bs)) by lia. now rewrite !app_assoc.
      * apply rbind_ok in E1. destruct E1 as (m & Em & E1). rewrite Em in E2. cbn [rbind] in E2. cbn zeta in E1, E2.
        exact (IH _ _ _ _ _ _ _ _ _ _ _ _ _ _ E1 E2 Hl H1 H2 W1 W2).
Qed.

Hypothesis OK : CfgOK fo c.
Variable sortIx : list N -> list N.
Variable sortPairs : list (F fo * N) -> list (F fo * N).
Hypothesis HsI : sort_slice N.ltb sortIx.
Hypothesis HsP : sort_slice less sortPairs.
Notation query := (get_nns_by_vector fo c sortIx sortPairs).
Definition first_queue (ix : idx) : list (F fo * N) :=
  fold_left (fun q r => pq_push less q (pq_initial fo, r)) (rootsN (ib ix)) pq_new.

Lemma query_top fuel fs ix vec n inspect bc ids ds bc' : is_float fo ->
  query fuel fs ix vec n inspect bc = Ok (ids, ds, bc') -> lenN (c_nns bc) < 2 ^ iw c ->
  exists cnt nns qn sc raw,
    search_loop fo c fuel (view fs ix) (n_items ix) vec (the_limit ix n inspect) (first_queue ix) 0 (c_nns bc) = Ok (cnt, nns) /\
    cnt <= lenN (c_nns bc) /\ query_node fo c vec = Ok qn /\
    scored fo c (view fs ix) qn (firstn (N.to_nat cnt) nns) sc /\
    (forall zs m, reach_all fo c (view fs ix) (n_items ix) (rootsN (ib ix)) zs m ->
       forall j, In j (firstn (N.to_nat cnt) nns) -> In j zs) /\
    length raw = length ids /\ ds = map (normalized_distance fo c) raw /\
    (Forall (fun p => not_nan fo (fst p)) sc -> is_topk less (Z.to_nat n) sc (combine raw ids)).
Proof.
  intros FL E Hw. unfold get_nns_by_vector in E. cbn zeta in E.
  apply rbind_ok in E. destruct E as ([cnt nns] & El & E).
  destruct (N.ltb_spec (lenN nns) cnt) as [|Hcnt]; [discriminate|].
  apply rbind_ok in E. destruct E as (qn & Eq & E). apply rbind_ok in E. destruct E as (sc & Es & E).
  destruct (N.ltb_spec (lenN (c_dist bc)) (lenN sc)) as [|Hdist]; [discriminate|].
  apply rbind_ok in E. destruct E as (sorted & Ep & E). injection E as <- <- <-.
  pose proof (loop_mono fo c _ _ _ _ _ _ _ _ _ _ El) as [_ Hlen].
  assert (Hll : lenN nns = lenN (c_nns bc)) by (unfold lenN; lia).
  set (top := firstn (Z.to_nat (Z.min n (Z.of_nat (length sc)))) sorted) in *.
  exists cnt, nns, qn, sc, (map fst top). split; [exact El|]. split; [lia|]. split; [exact Eq|].
  pose proof (score_spec fo c _ _ _ _ _ Es (sortIx_sorted sortIx HsI _)) as (S1 & S2 & S3); [discriminate|].
  split.
  { split; [exact S2|]. intros d j. rewrite S1. split.
    - intros (H1 & _ & H2). split; [|exact H2]. eapply Permutation_in; [apply HsI|exact H1].
    - intros (H1 & H2). split; [|split; [discriminate|exact H2]]. eapply Permutation_in; [symmetry; apply HsI|exact H1]. }
  split.
  { intros zs m Hre j Hj. destruct (search_loop_expands fo c _ _ _ _ _ _ _ _ _ _ El) as (ys & rest & Hx & Hc & Hf & _); [lia|lia|].
    cbn [firstn N.to_nat app] in Hf. rewrite Hf in Hj.
    pose proof (pushes_perm fo (rootsN (ib ix)) pq_new) as Hq. cbn [map app pq_new] in Hq.
    destruct (expands_perm fo c _ _ _ _ _ _ (Permutation_sym Hq) Hx) as (rest' & Hx' & _).
    destruct (expands_rest fo c _ _ _ _ _ (maxK_ge2 _ _ OK) Hx' _ _ Hre) as (zs' & m' & _ & Pz).
    eapply Permutation_in; [symmetry; exact Pz|]. apply in_or_app. auto. }
  split; [now rewrite !map_length|]. split; [now rewrite map_map|].
  intro Hnan. rewrite combine_fst_snd.
  apply (partial_sort_topk fo sortPairs HsP (fun p => not_nan fo (fst p))); [|exact Hnan|exact Ep].
  apply pair_less_sw. now apply float_total.
Qed.

Notation gaps := (all_gaps fo).
Lemma gaps_num f q sc : (forall d j, In (d, j) sc -> exists w, f j = Some w /\ d = cos_gap fo q w) -> all_num fo f q ->
  Forall (fun p => not_nan fo (fst p)) sc.
Proof. intros G Hn. apply Forall_forall. intros [d j] H. destruct (G d j H) as (w & Hw & ->). cbn [fst]. eapply Hn; eauto. Qed.
Lemma gaps_distinct f q sc : is_float fo -> (forall d j, In (d, j) sc -> exists w, f j = Some w /\ d = cos_gap fo q w) -> all_num fo f q ->
  distinct less sc.
Proof.
  intros FL G Hn [d j] [d' j'] H1 H2 X Y. pose proof (float_total fo FL) as TC.
  destruct (G _ _ H1) as (v & Hv & ->). destruct (G _ _ H2) as (v' & Hv' & ->).
  pose proof (Hn _ _ Hv) as Hd. pose proof (Hn _ _ Hv') as Hd'.
  unfold pair_less in X, Y. cbn [fst snd] in X, Y.
  apply orb_false_elim in X. apply orb_false_elim in Y. destruct X as [X1 X2], Y as [Y1 Y2].
  rewrite (tc_eq _ _ _ TC) in X2, Y2 by assumption.
  rewrite X1, Y1 in X2, Y2. cbn [negb andb] in X2, Y2. assert (j = j') by lia. subst j'. congruence.
Qed.

Lemma combine_nth_error {A B} (a : list A) (b : list B) k : length a = length b ->
  nth_error (combine a b) k = match nth_error a k, nth_error b k with Some x, Some y => Some (x, y) | _, _ => None end.
Proof.
  revert b k. induction a as [|x a IH]; intros [|y b] k H; try discriminate; destruct k; cbn; auto.
Qed.

(** Two queries with the same vector on the same forest. *)
Theorem forest_two f fs ix q fuel1 n1 i1 bc1 ids1 ds1 bc1' fuel2 n2 i2 bc2 ids2 ds2 bc2' : is_float fo ->
  forest fo c (view fs ix) (n_items ix) (rootsN (ib ix)) f -> lenN q = vlen c -> all_num fo f q ->
  query fuel1 fs ix q n1 i1 bc1 = Ok (ids1, ds1, bc1') -> lenN (c_nns bc1) < 2 ^ iw c ->
  query fuel2 fs ix q n2 i2 bc2 = Ok (ids2, ds2, bc2') -> lenN (c_nns bc2) < 2 ^ iw c ->
  (n1 <= n2)%Z -> (the_limit ix n1 i1 <= the_limit ix n2 i2)%Z ->
  (length ids1 <= length ids2)%nat /\
  (forall k j1 j2 w1 w2, nth_error ids1 k = Some j1 -> nth_error ids2 k = Some j2 -> f j1 = Some w1 -> f j2 = Some w2 ->
     nearer fo (cos_gap fo q w1, j1) (cos_gap fo q w2, j2) = false) /\
  (forall idsE dsE, exact_nearest fo c f q (Z.to_nat n1) idsE dsE -> forall j, In j ids1 -> In j idsE -> In j ids2) /\
  (the_limit ix n1 i1 = the_limit ix n2 i2 -> ids1 = firstn (Z.to_nat n1) ids2 /\ ds1 = firstn (Z.to_nat n1) ds2).
Proof.
  intros FL FO Hq Hnum E1 W1 E2 W2 Hn Hl.
  destruct (query_top _ _ _ _ _ _ _ _ _ _ FL E1 W1) as (c1 & m1 & qn & sc1 & raw1 & L1 & C1 & Q1 & [N1 S1] & Z1 & R1 & D1 & T1).
  destruct (query_top _ _ _ _ _ _ _ _ _ _ FL E2 W2) as (c2 & m2 & qn2 & sc2 & raw2 & L2 & C2 & Q2 & [N2 S2] & Z2 & R2 & D2 & T2).
  assert (qn2 = qn) by congruence. subst qn2.
  destruct (query_node_ok fo c OK q FL Hq) as (qn' & Hqn' & Hvec & Hnr). assert (qn' = qn) by congruence. subst qn'.
  destruct (forest_lists fo c _ _ _ _ FO) as (zs & m & Hre & _ & _ & Hlt & _).
  assert (G : forall ys sc, (forall d j, In (d, j) sc <-> In j ys /\ item_dist fo c (view fs ix) qn j d) -> (forall j, In j ys -> In j zs) ->
    forall d j, In (d, j) sc <-> In j ys /\ exists w, f j = Some w /\ d = cos_gap fo q w).
  { intros ys sc Hs Hz d j. rewrite Hs, <- Hvec. split; intros [H1 H2]; (split; [exact H1|]); 
    eapply (item_dist_iff fo c _ _ _ _ qn j d FL FO); eauto. }
  pose proof (G _ _ S1 (Z1 _ _ Hre)) as G1. pose proof (G _ _ S2 (Z2 _ _ Hre)) as G2. clear G.
  assert (X1 : forall d j, In (d, j) sc1 -> exists w, f j = Some w /\ d = cos_gap fo q w) by (intros d j H; apply G1 in H; tauto).
  assert (X2 : forall d j, In (d, j) sc2 -> exists w, f j = Some w /\ d = cos_gap fo q w) by (intros d j H; apply G2 in H; tauto).
  pose proof (gaps_num _ _ _ X1 Hnum) as F1. pose proof (gaps_num _ _ _ X2 Hnum) as F2. specialize (T1 F1). specialize (T2 F2).
  pose proof (NoDup_map_inv _ _ N1) as M1. pose proof (NoDup_map_inv _ _ N2) as M2.
  destruct (loops_prefix _ _ _ _ _ _ _ _ _ _ _ _ _ _ _ L1 L2 Hl C1 C2 W1 W2) as (y1 & y2 & P1 & P2). cbn [firstn N.to_nat app] in P1, P2.
  rewrite P1 in G1. rewrite P2 in G2.
  assert (Hincl : incl sc1 sc2).
  { intros [d j] H. apply G1 in H. apply G2. split; [apply in_or_app|]; tauto. }
  pose proof (pair_less_sw _ _ _ (float_total fo FL)) as SW.
  pose proof (topk_pointwise _ _ SW (Z.to_nat n1) (Z.to_nat n2) _ _ _ _ Hincl M1 M2 F2 ltac:(lia) T1 T2) as [A1 A2].
  rewrite !combine_length, R1, R2, !Nat.min_id in A1.
  assert (B1 : forall d j, In (d, j) (combine raw1 ids1) -> In (d, j) sc1).
  { intros d j H. destruct T1 as (t & Hp & _). eapply Permutation_in; [symmetry; exact Hp|]. apply in_or_app. now left. }
  assert (B2 : forall d j, In (d, j) (combine raw2 ids2) -> In (d, j) sc2).
  { intros d j H. destruct T2 as (t & Hp & _). eapply Permutation_in; [symmetry; exact Hp|]. apply in_or_app. now left. }
  assert (Y : forall (raw : list (F fo)) (ids : list N) k j, length raw = length ids -> nth_error ids k = Some j ->
     exists d, nth_error (combine raw ids) k = Some (d, j)).
  { intros raw ids k j Hlr Hk. rewrite combine_nth_error by exact Hlr. rewrite Hk.
    destruct (nth_error raw k) as [d|] eqn:Ed; [eauto|]. apply nth_error_None in Ed. pose proof (proj1 (nth_error_Some ids k) ltac:(congruence)). lia. }
  split; [exact A1|]. split; [|split].
  - intros k j1 j2 w1 w2 K1 K2 V1 V2.
    destruct (Y raw1 ids1 k j1 R1 K1) as (d1 & J1). destruct (Y raw2 ids2 k j2 R2 K2) as (d2 & J2).
    pose proof (A2 k _ _ J1 J2) as H. apply nth_error_In in J1, J2.
    destruct (X1 _ _ (B1 _ _ J1)) as (v1 & V1' & ->). destruct (X2 _ _ (B2 _ _ J2)) as (v2 & V2' & ->).
    rewrite V1 in V1'. rewrite V2 in V2'. injection V1' as <-. injection V2' as <-. exact H.
  - intros idsE dsE (scE & rawE & [NE GE] & RE & TE & _) j J1 JE.
    assert (XE : forall d i, In (d, i) scE -> exists w, f i = Some w /\ d = cos_gap fo q w) by (intros d i H; now apply GE).
    assert (IE : incl sc2 scE) by (intros [d i] H; apply GE; now apply X2).
    apply In_nth_error in J1. destruct J1 as (k1 & J1). apply In_nth_error in JE. destruct JE as (kE & JE).
    destruct (Y raw1 ids1 k1 j R1 J1) as (d1 & U1). destruct (Y rawE idsE kE j RE JE) as (dE & UE). apply nth_error_In in U1, UE.
    assert (VE : In (dE, j) scE).
    { destruct TE as (t & Hp & _). eapply Permutation_in; [symmetry; exact Hp|]. apply in_or_app. now left. }
    assert (dE = d1).
    { destruct (X1 _ _ (B1 _ _ U1)) as (v1 & V1' & ->). destruct (XE _ _ VE) as (v2 & V2' & ->). congruence. }
    subst dE.
    pose proof (topk_recall _ _ (Z.to_nat n1) (Z.to_nat n2) scE sc2 _ _ IE (NoDup_map_inv _ _ NE) M2 (gaps_num _ _ _ XE Hnum)
      (gaps_distinct _ _ _ FL XE Hnum) ltac:(lia) TE T2 (d1, j) UE (Hincl _ (B1 _ _ U1))) as H.
    eapply in_combine_r; exact H.
  - intro Heq.
    destruct (loops_prefix _ _ _ _ _ _ _ _ _ _ _ _ _ _ _ L2 L1 ltac:(lia) C2 C1 W2 W1) as (z1 & z2 & P3 & P4). cbn [firstn N.to_nat app] in P3, P4.
    assert (y1 ++ y2 = z1) by congruence. subst z1. assert (HL : length ((y1 ++ y2) ++ z2) = length y1) by congruence.
    rewrite !app_length in HL. assert (y2 = []) by (destruct y2; [reflexivity|cbn [length] in HL; lia]). subst y2. rewrite app_nil_r in G2.
    assert (E : combine raw1 ids1 = firstn (Z.to_nat n1) (combine raw2 ids2)).
    { eapply (topk_prefix _ _ SW (Z.to_nat n1) (Z.to_nat n2) sc1 sc2); eauto; [|now apply (gaps_distinct _ _ _ FL X2)|lia].
      intros [d j]. now rewrite G1, G2. }
    rewrite firstn_combine in E. apply combine_inj in E; [|exact R1|rewrite !firstn_length; lia]. destruct E as [Er Ei].
    split; [exact Ei|]. rewrite D1, D2, Er. now rewrite firstn_map.
Qed.
End Q.
