(** A loaded index answers every query as the saved one did, if its roots are in order. *)
From Verif Require Import Base Flt Layout Rng Sorts Alloc Prog Imbalance Dist Build Policy Index Search Spec ForestSpec BuildSpec OrderSpec
  Lib LayoutProof FltProof MemProof StoreProof SortsProof NumProof SearchProof QueryProof PolicyProof ConcProof TreeProof BuildProof ForestProof TopProof
  AfterProof CutProof IOProof SameProof OrderProof VisitProof PlaneProof.
From Coq Require Import Permutation Sorted.
Close Scope R_scope. Open Scope N_scope.

Lemma sorted_nth (l : list N) : StronglySorted N.lt l -> forall j k x y, nth_error l j = Some x -> nth_error l k = Some y -> (j < k)%nat -> x < y.
Proof.
  induction 1 as [|a l H IH Ha]; intros j k x y Hj Hk Hlt; [destruct j; discriminate|].
  destruct k as [|k]; [lia|]. cbn [nth_error] in Hk. destruct j as [|j]; cbn [nth_error] in Hj.
  - injection Hj as <-. rewrite Forall_forall in Ha. apply Ha. eapply nth_error_In; eauto.
  - eapply IH; eauto. lia.
Qed.
Lemma sorted_nth_iff (l : list N) : StronglySorted N.lt l -> forall j k x y, nth_error l j = Some x -> nth_error l k = Some y ->
  (x < y <-> (j < k)%nat).
Proof.
  intros S j k x y Hj Hk. split; intro H; [|eapply sorted_nth; eauto].
  destruct (Nat.lt_trichotomy j k) as [X|[X|X]]; [exact X| |].
  - subst k. rewrite Hj in Hk. injection Hk as <-. lia.
  - pose proof (sorted_nth l S k j y x Hk Hj X). lia.
Qed.
Lemma NoDup_down k : forall hi, N.of_nat k <= hi + 1 -> NoDup (down hi k).
Proof.
  induction k as [|k IH]; intros hi H; cbn [down]; [constructor|]. destruct (Nat.eq_dec k 0) as [->|Hk]; [repeat constructor; auto|].
  constructor; [|apply IH; lia]. rewrite in_down by lia. lia.
Qed.

Section S.
Variable fo : FOps.
Variable c : Cfg.
Hypothesis OK : CfgOK fo c.
Hypothesis FL : is_float fo.
Notation NSZ := (nodeSize fo c).
Notation K := (maxK fo c).
Notation simg := (snode_img fo c).
Notation V := (list (F fo)).
Notation num := (not_nan fo).
Notation less := (pair_less (flt fo) (feq fo)).

(** ** Copied nodes *)
Lemma sub_cut bs o len : length bs = N.to_nat NSZ -> o + len <= NSZ ->
  sub o len (splice 0 (sub 0 (vlen c) bs) (zeros fo c)) =
  firstn (N.to_nat (vlen c - o)) (sub o len bs) ++ repeat 0 (N.to_nat (len - (vlen c - o))).
Proof.
  intros Hl Ho. pose proof (vlen_fits fo c OK) as Hf. unfold splice, sub, zeros. cbn [N.to_nat firstn skipn app Nat.add].
  rewrite firstn_length, Nat.min_l by lia. rewrite skipn_app, firstn_length, Nat.min_l by lia. rewrite firstn_app.
  rewrite skipn_length, firstn_length, Nat.min_l by lia.
  replace (skipn (N.to_nat o) (firstn (N.to_nat (vlen c)) bs)) with (firstn (N.to_nat (vlen c) - N.to_nat o) (skipn (N.to_nat o) bs))
    by (symmetry; apply skipn_firstn_comm).
  rewrite !firstn_firstn. f_equal; [f_equal; lia|]. rewrite !skipn_rep, firstn_rep by lia. f_equal. lia.
Qed.
Notation copy bs := (splice 0 (sub 0 (vlen c) bs) (zeros fo c)).
Lemma copy_vec bs (w : V) : length bs = N.to_nat NSZ -> lenN w = vlen c -> kept fo c bs w -> n_vec fo c (copy bs) = n_vec fo c bs.
Proof.
  intros Hl Hw Hk. pose proof (nodeSize_eq _ _ OK) as Hn. pose proof (fb_pos _ _ OK) as Hfb. unfold n_vec. f_equal.
  rewrite sub_cut by lia. unfold kept in Hk. rewrite Hk. pose proof (lenN_enc_vec fo w) as Le. rewrite Hw in Le. unfold lenN in Le.
  f_equal.
  rewrite firstn_app, firstn_firstn, firstn_length, Nat.min_id. rewrite Nat.min_l by nia. rewrite Nat.sub_diag. cbn [firstn]. now rewrite app_nil_r.
Qed.
Lemma copy_vec_zeros bs : length bs = N.to_nat NSZ -> sub (off_vec fo c) (vlen c * fbytes fo) bs = repeat 0 (N.to_nat (vlen c * fbytes fo)) ->
  n_vec fo c (copy bs) = n_vec fo c bs.
Proof.
  intros Hl Hz. pose proof (nodeSize_eq _ _ OK) as Hn. pose proof (fb_pos _ _ OK) as Hfb. unfold n_vec. f_equal.
  rewrite sub_cut by lia. rewrite Hz, firstn_repeat0, <- repeat_app. f_equal. lia.
Qed.
Lemma dot_end : knd c = DotProduct -> off_dot fo c + fbytes fo <= NSZ.
Proof. intro Ek. pose proof (nodeSize_eq _ _ OK). pose proof (off_vec_eq fo c) as H1. rewrite Ek in H1. lia. Qed.
Lemma copy_factor bs e : length bs = N.to_nat NSZ -> factor_kept fo c bs e -> factor_kept fo c (copy bs) e.
Proof.
  intros Hl Hk Ek. destruct (Hk Ek) as (k & H1 & H2). pose proof (dot_end Ek) as He.
  exists (Nat.min (N.to_nat (vlen c - off_dot fo c)) k). split; [lia|]. rewrite sub_cut by lia. rewrite H2.
  pose proof (length_enc_f fo e) as Lf. rewrite firstn_app, firstn_firstn, <- app_assoc. f_equal.
  rewrite firstn_length, firstn_repeat0, <- repeat_app. f_equal. lia.
Qed.
Lemma copy_side ni im bs xs ys q : length bs = N.to_nat NSZ -> tcut fo c ni im bs xs ys -> side_value fo c (copy bs) q = side_value fo c bs q.
Proof.
  intros Hl [_ T]. unfold side_value.
  assert (Hv : n_vec fo c (copy bs) = n_vec fo c bs).
  { destruct T as [(m & Hm & Hk & _)|(Hz & _)]; [now apply (copy_vec bs (s_vec fo m))|now apply copy_vec_zeros]. }
  assert (Hd : knd c = DotProduct -> n_dot fo c (copy bs) = n_dot fo c bs).
  { intro Ek. destruct T as [(m & _ & _ & Hk & Hn & _)|(_ & Hz & _)].
    - rewrite (zero_factor fo c OK FL bs _ Ek Hk Hn). apply (zero_factor fo c OK FL _ (s_dot fo m) Ek); [|exact Hn]. now apply copy_factor.
    - unfold n_dot. f_equal. rewrite sub_cut by (auto; now apply dot_end). rewrite Hz, firstn_repeat0, <- repeat_app. f_equal. lia. }
  rewrite Hv. destruct (knd c); [reflexivity|]. now rewrite Hd.
Qed.

Section IO.
Variable ix : idx.
Variable f : N -> option V.
Variable plan : list Z.
Variable ix' : idx.
Hypothesis I : items_inv fo c ix f.
Hypothesis A : after_build fo c ix f plan ix'.
Hypothesis Hv : 3 * ixb c <= vlen c.
Hypothesis HK : K < n_items ix.
Notation ni := (n_items ix).
Notation n := (nn (ib ix')).
Notation rs := (rootsN (ib ix')).
Notation R := (lenN rs).
Hypothesis Hne : rs <> [].
Notation im := (simg (ib ix')).
Notation v0 := (nodes_view fo c ix').

(** Root [r] has the copy [r']. *)
Definition ren (r r' : N) : Prop := exists k, nth_error rs k = Some r /\ r' = n - R + N.of_nat k.
Lemma ren_range r r' : ren r r' -> In r rs /\ ni <= r < n /\ ni <= r' < n /\ im r' = copy_image fo c (ib ix') r.
Proof.
  intros (k & Hk & ->). pose proof (n_ge fo c ix f plan ix' A Hv HK Hne) as Hge. assert (Hr : In r rs) by (eapply nth_error_In; eauto).
  assert (Hkl : (k < length rs)%nat) by (apply nth_error_Some; congruence). pose proof (bt_range _ _ _ _ _ _ A r Hr).
  split; [exact Hr|]. split; [lia|]. split; [unfold lenN in *; lia|].
  eapply copy_of; eauto. now rewrite Nat2N.id.
Qed.
Lemma v0_read i : i < n -> vread v0 (addr fo c i) NSZ = Ok (im i).
Proof. intro H. now apply (nodes_view_agrees fo c ix f plan ix' A). Qed.
Lemma img_len i : length (im i) = N.to_nat NSZ.
Proof. unfold snode_img. apply length_node_at. Qed.
Lemma ren_splits r r' : ren r r' -> exists l x, splits fo c v0 r l x /\ splits fo c v0 r' l x.
Proof.
  intro H. destruct (ren_range _ _ H) as (Hr & H1 & H2 & Hc).
  pose proof (root_desc fo c ix f plan ix' A Hv HK r Hr) as Hd.
  assert (Hd' : n_desc c (im r') = ni).
  { rewrite Hc. unfold n_desc. rewrite copy_sub by (auto; pose proof (ixb_pos _ _ OK); lia). exact Hd. }
  assert (Hch : n_children c 2 (im r') = n_children c 2 (im r)).
  { apply n_children_sub. rewrite Hc. apply copy_sub; [exact OK|]. unfold off_children. lia. }
  destruct (two_children c (im r)) as (l & x & E). exists l, x. split.
  - econstructor; [apply v0_read; lia|lia|exact E].
  - econstructor; [apply v0_read; lia|lia|congruence].
Qed.
Lemma ren_side r r' q : ren r r' -> side_value fo c (im r') q = side_value fo c (im r) q.
Proof.
  intro H. destruct (ren_range _ _ H) as (Hr & H1 & H2 & Hc). destruct (ren_splits _ _ H) as (l & x & Hs & _).
  destruct (bt_cuts _ _ _ _ _ _ A Hv r Hr) as (im0 & xs & _ & D). specialize (D v0 (nodes_view_agrees fo c ix f plan ix' A)).
  destruct (divided_below fo c OK _ _ _ _ _ _ (de_here fo c v0 r) _ D _ _ _ Hs (v0_read r ltac:(lia))) as (ys & zs & Cut).
  rewrite Hc. unfold copy_image. eapply copy_side; [apply img_len|exact Cut].
Qed.

Section Q.
Variable q : V.
Hypothesis AS : all_sides fo c (finite fo) v0 rs q.
Hypothesis Up : StronglySorted N.lt rs.
Definition B (i : N) : Prop := exists r d, In r rs /\ descends fo c v0 r d i.
Definition E (a b : F fo * N) : Prop := num (fst a) /\ num (fst b) /\ eqv fo (fst a) (fst b) /\
  ((snd a = snd b /\ B (snd a) /\ flt fo (fst a) (finf fo) = true) \/ (ren (snd a) (snd b) /\ flt fo (fst a) (finf fo) = false)).
Lemma ren_lt i i' j j' : ren i i' -> ren j j' -> (i <? j) = (i' <? j').
Proof.
  intros (k & H1 & ->) (m & H2 & ->). pose proof (sorted_nth_iff _ Up _ _ _ _ H1 H2). lia.
Qed.
Lemma inf_n : num (finf fo).
Proof. now apply inf_num. Qed.
Lemma E_order a a' b b' : E a a' -> E b b' -> nearer fo a b = nearer fo a' b'.
Proof.
  destruct a as [d i], a' as [d' i'], b as [e j], b' as [e' j']. intros (N1 & N2 & Q1 & D1) (N3 & N4 & Q2 & D2). cbn [fst snd] in *.
  unfold nearer. cbn [fst snd]. f_equal; [now apply (eqv_lt fo FL)|].
  assert (Hf : feq fo d e = feq fo d' e').
  { rewrite !(tc_eq _ _ _ (float_total fo FL)) by assumption. rewrite (eqv_lt fo FL d d' e e'), (eqv_lt fo FL e e' d d') by assumption. reflexivity. }
  rewrite <- Hf. destruct (feq fo d e) eqn:Ef; [|reflexivity]. cbn [andb]. apply (eqv_feq fo FL) in Ef; [|assumption|assumption].
  assert (Hi : flt fo d (finf fo) = flt fo e (finf fo)).
  { apply (eqv_lt fo FL); auto using inf_n. apply (eqv_refl fo FL), inf_n. }
  destruct D1 as [(-> & _ & D1)|(D1 & L1)], D2 as [(-> & _ & D2)|(D2 & L2)]; try congruence. now apply ren_lt.
Qed.
Lemma E_swap x y' y x' : E x y' -> E y x' -> nearer fo x' y' = false -> nearer fo y' x' = false -> E x x' /\ E y y'.
Proof.
  destruct x as [d i], y' as [d' i'], y as [e j], x' as [e' j']. intros (N1 & N2 & Q1 & D1) (N3 & N4 & Q2 & D2) M1 M2. cbn [fst snd] in *.
  destruct (nearer_neither fo FL (e', j') (d', i') N4 N2 M1 M2) as [Q Hij]. cbn [fst snd] in Q, Hij. subst j'.
  split; (split; [assumption|]); (split; [assumption|]); cbn [fst snd]; split; auto.
  - apply (eqv_trans fo FL) with d'; auto using eqv_sym.
  - apply (eqv_trans fo FL) with e'; auto using eqv_sym.
Qed.
Lemma ren_no_list r r' xs : ren r r' -> lists_items fo c v0 ni r xs -> False.
Proof. intros H Hl. destruct (ren_splits _ _ H) as (l & x & Hs & _). eapply lists_not_splits; eauto. apply (maxK_ge2 fo c OK). Qed.
Lemma side_fin i l r bs : B i -> splits fo c v0 i l r -> vread v0 (addr fo c i) NSZ = Ok bs -> finite fo (side_value fo c bs q).
Proof. intros (r0 & d & H1 & H2) Hs Hb. eapply AS; eauto. Qed.
Lemma E_splits d i d' i' l r bs : E (d, i) (d', i') -> splits fo c v0 i l r -> vread v0 (addr fo c i) NSZ = Ok bs ->
  splits fo c v0 i' l r /\ forall bs', vread v0 (addr fo c i') NSZ = Ok bs' ->
    forall pl pr pl' pr', is_min fo pl d (fneg fo (side_value fo c bs q)) -> is_min fo pr d (side_value fo c bs q) ->
      is_min fo pl' d' (fneg fo (side_value fo c bs' q)) -> is_min fo pr' d' (side_value fo c bs' q) ->
      E (pl, l) (pl', l) /\ E (pr, r) (pr', r).
Proof.
  intros (N1 & N2 & Q1 & D) Hs Hb. cbn [fst snd] in *.
  assert (Bi : B i).
  { destruct D as [(_ & Bi & _)|(H & _)]; [exact Bi|]. exists i, 0%nat. split; [apply (ren_range _ _ H)|apply de_here]. }
  assert (G : splits fo c v0 i' l r /\ forall bs', vread v0 (addr fo c i') NSZ = Ok bs' -> side_value fo c bs' q = side_value fo c bs q).
  { destruct D as [(<- & _)|(H & _)]; [split; [exact Hs|congruence]|]. destruct (ren_splits _ _ H) as (l0 & x0 & S1 & S2).
    destruct (splits_fun fo c _ _ _ _ _ _ Hs S1) as [-> ->]. split; [exact S2|]. intros bs' Hb'.
    destruct (ren_range _ _ H) as (_ & R1 & R2 & _). rewrite v0_read in Hb, Hb' by lia. injection Hb as <-. injection Hb' as <-. now apply ren_side. }
  destruct G as [Hs' Hside]. split; [exact Hs'|]. intros bs' Hb' pl pr pl' pr' M1 M2 M3 M4. rewrite (Hside _ Hb') in M3, M4.
  pose proof (side_fin _ _ _ _ Bi Hs Hb) as Fs. pose proof (finite_num fo _ FL Fs) as Ns. pose proof (neg_num fo _ FL Ns) as Nn.
  destruct (below_closed fo c v0 rs _ _ _ Bi Hs) as [B1 B2]. destruct Fs as [F1 F2].
  pose proof (min_num fo _ _ _ M1 N1 Nn) as P1. pose proof (min_num fo _ _ _ M2 N1 Ns) as P2.
  pose proof (min_num fo _ _ _ M3 N2 Nn) as P3. pose proof (min_num fo _ _ _ M4 N2 Ns) as P4.
  split; (split; [assumption|]); (split; [assumption|]); cbn [fst snd]; (split; [|left; split; [reflexivity|split; [assumption|]]]).
  - apply (min_eqv fo FL pl d (fneg fo (side_value fo c bs q)) pl' d' (fneg fo (side_value fo c bs q))); auto. now apply (eqv_refl fo FL).
  - apply (num_lt_trans fo FL) with (y := fneg fo (side_value fo c bs q)); auto using inf_n. apply M1.
  - apply (min_eqv fo FL pr d (side_value fo c bs q) pr' d' (side_value fo c bs q)); auto. now apply (eqv_refl fo FL).
  - apply (num_lt_trans fo FL) with (y := side_value fo c bs q); auto using inf_n. apply M2.
Qed.
Definition copies : list N := down (n - 1) (length rs).
Lemma copies_perm : Permutation copies (map (fun k => n - R + N.of_nat k) (seq 0 (length rs))).
Proof.
  pose proof (n_ge fo c ix f plan ix' A Hv HK Hne) as Hge. unfold lenN in *.
  apply NoDup_Permutation; [apply NoDup_down; lia| |].
  - apply FinFun.Injective_map_NoDup; [intros a b; lia|apply seq_NoDup].
  - intro x. unfold copies. rewrite in_down by lia. split.
    + intro H. apply in_map_iff. exists (N.to_nat (x - (n - N.of_nat (length rs)))). split; [lia|]. apply in_seq. lia.
    + intro H. apply in_map_iff in H. destruct H as (k & <- & Hk). apply in_seq in Hk. lia.
Qed.
Lemma start_related : exists l, Permutation (at_start fo copies) l /\ Forall2 E (at_start fo rs) l.
Proof.
  exists (at_start fo (map (fun k => n - R + N.of_nat k) (seq 0 (length rs)))). split.
  { unfold at_start. apply Permutation_map. apply copies_perm. }
  assert (G : forall l s, (forall k r, nth_error l k = Some r -> ren r (n - R + N.of_nat (s + k))) ->
    Forall2 E (at_start fo l) (at_start fo (map (fun k => n - R + N.of_nat k) (seq s (length l))))).
  { induction l as [|r l IH]; intros s H; [constructor|]. cbn [at_start map length seq]. constructor.
    - specialize (H 0%nat r eq_refl). rewrite Nat.add_0_r in H. pose proof inf_n.
      split; [assumption|]. split; [assumption|]. split; [now apply (eqv_refl fo FL)|]. right. split; [exact H|]. now apply (num_irr fo FL).
    - apply IH. intros k r0 Hk. specialize (H (S k) r0 Hk). now rewrite <- Nat.add_succ_comm in H. }
  apply G. intros k r Hk. exists k. auto.
Qed.
Lemma copies_visit limit ys ys' : visits fo c v0 ni q limit (at_start fo rs) ys -> visits fo c v0 ni q limit (at_start fo copies) ys' -> ys' = ys.
Proof.
  intros H H'. eapply (visits_related fo c (maxK_ge2 fo c OK) v0 v0 ni q E E_order E_swap) with (3 := H); [| |apply start_related|exact H'].
  - intros d i d' i' xs (_ & _ & _ & [(X & _)|(X & _)]) Hl; cbn [snd] in X; [now subst|]. destruct (ren_no_list _ _ _ X Hl).
  - apply E_splits.
Qed.

(** ** Queries *)
Variable sortIx : list N -> list N.
Variable sortPairs : list (F fo * N) -> list (F fo * N).
Hypothesis HsI : sort_slice N.ltb sortIx.
Notation query := (get_nns_by_vector fo c sortIx sortPairs).

(** A set of nodes closed under children with numbers as side values, and roots in it. *)
Lemma query_shape fuel fs ixx w ids ds bc bc' nr inspect roots : query fuel fs ixx w nr inspect bc = Ok (ids, ds, bc') ->
  w = q -> n_items ixx = ni -> rootsN (ib ixx) = roots -> sub_view v0 (view fs ixx) -> lenN (c_nns bc) < 2 ^ iw c ->
  (forall r, In r roots -> B r \/ exists r0, ren r0 r) -> forest fo c v0 ni roots f ->
  exists ys qn sc srt, visits fo c v0 ni q (the_limit ixx nr inspect) (at_start fo roots) ys /\ query_node fo c q = Ok qn /\
    score fo c v0 qn None (sortIx ys) = Ok sc /\ partial_sort less sortPairs sc 0 (Z.min nr (Z.of_nat (length sc))) (Z.of_nat (length sc)) = Ok srt /\
    ids = map snd (firstn (Z.to_nat (Z.min nr (Z.of_nat (length sc)))) srt) /\
    ds = map (fun p => normalized_distance fo c (fst p)) (firstn (Z.to_nat (Z.min nr (Z.of_nat (length sc)))) srt).
Proof.
  intros H -> Hn Hr Sub Hw HB FO. unfold get_nns_by_vector in H. rewrite Hn, Hr in H. cbn zeta in H.
  apply rbind_ok in H. destruct H as ([cnt nns] & El & H).
  destruct (N.ltb_spec (lenN nns) cnt) as [|Hcnt]; [discriminate|].
  apply rbind_ok in H. destruct H as (qn & Eq & H). apply rbind_ok in H. destruct H as (sc & Es & H).
  destruct (N.ltb_spec (lenN (c_dist bc)) (lenN sc)) as [|Hdist]; [discriminate|].
  apply rbind_ok in H. destruct H as (srt & Ep & H). injection H as Ei Ed _.
  assert (Hvec : lenN q <= vlen c).
  { unfold query_node in Eq. destruct (N.ltb_spec (vlen c) (lenN q)); [discriminate|assumption]. }
  pose proof (loop_mono _ _ _ _ _ _ _ _ _ _ _ _ El) as [_ Hlen].
  assert (Hll : lenN nns = lenN (c_nns bc)) by (unfold lenN; lia).
  pose proof (pair_less_sw _ _ _ (float_total fo FL)) as SW.
  destruct (pushes_heap fo FL roots SW pq_new) as [Hh Hp].
  { split; [constructor|]. intros k Hk. cbn in Hk. lia. }
  unfold pq_new in Hp. rewrite app_nil_r in Hp.
  assert (Hg : Forall (grounded fo c v0 ni) (map snd (fold_left (fun q r => pq_push less q (pq_initial fo, r)) roots pq_new))).
  { eapply Permutation_Forall; [symmetry; apply (Permutation_map snd); exact Hp|]. unfold at_start. rewrite map_map. cbn [snd]. rewrite map_id.
    apply Forall_forall. intros r Hr'. destruct (fr_tree _ _ _ _ _ _ FO r Hr') as (xs & m & T). exists xs, m. apply T. }
  rewrite (loop_same fo c OK v0 _ ni Sub _ _ _ _ _ _ Hg) in El.
  set (B' := fun i => B i \/ exists r0, ren r0 i).
  assert (Bcl : forall i l r, B' i -> splits fo c v0 i l r -> B' l /\ B' r).
  { intros i l r [Bi|(r0 & H0)] Hs.
    - destruct (below_closed fo c v0 rs _ _ _ Bi Hs) as [B1 B2]. split; now left.
    - destruct (ren_splits _ _ H0) as (l0 & x0 & S1 & S2). destruct (splits_fun fo c _ _ _ _ _ _ Hs S2) as [-> ->].
      assert (Bi : B r0) by (exists r0, 0%nat; split; [apply (ren_range _ _ H0)|apply de_here]).
      destruct (below_closed fo c v0 rs _ _ _ Bi S1) as [B1 B2]. split; now left. }
  assert (Bnum : forall i l r bs, B' i -> splits fo c v0 i l r -> vread v0 (addr fo c i) NSZ = Ok bs -> num (side_value fo c bs q)).
  { intros i l r bs [Bi|(r0 & H0)] Hs Hb; apply (finite_num fo _ FL).
    - eapply side_fin; eauto.
    - destruct (ren_splits _ _ H0) as (l0 & x0 & S1 & S2). destruct (ren_range _ _ H0) as (Hr0 & R1 & R2 & _).
      rewrite v0_read in Hb by lia. injection Hb as <-. rewrite (ren_side _ _ _ H0). eapply side_fin; [|exact S1|apply v0_read; lia].
      exists r0, 0%nat. split; [exact Hr0|apply de_here]. }
  destruct (search_loop_visits fo c FL v0 ni q B' Bcl Bnum) with
    (fuel := fuel) (limit := the_limit ixx nr inspect) (q := fold_left (fun q r => pq_push less q (pq_initial fo, r)) roots pq_new)
    (cnt := 0) (nns := c_nns bc) (cnt' := cnt) (nns' := nns) as (ys & Hvi & Hc & Hf); auto; [|lia| |].
  { unfold the_limit. rewrite Hr. exact El. }
  { eapply Permutation_Forall; [symmetry; exact Hp|]. apply Forall_forall. intros p Hp'. unfold at_start in Hp'. apply in_map_iff in Hp'.
    destruct Hp' as (r & <- & Hr'). cbn [snd]. now apply HB. }
  cbn [firstn N.to_nat app] in Hf. rewrite Hf in Es.
  exists ys, qn, sc, srt. split.
  { change (Z.of_N 0) with 0%Z in Hvi. rewrite Z.sub_0_r in Hvi. eapply visits_perm; [exact Hvi|exact Hp]. }
  split; [exact Eq|]. split; [|auto].
  rewrite <- Es. symmetry. apply (score_same fo c v0); [exact Sub|]. intros j Hj.
  assert (Hj' : In j ys) by (eapply Permutation_in; [apply (proj1 HsI)|exact Hj]).
  assert (Hvi' : visits fo c v0 ni q (the_limit ixx nr inspect) (at_start fo roots) ys).
  { change (Z.of_N 0) with 0%Z in Hvi. rewrite Z.sub_0_r in Hvi. eapply visits_perm; [exact Hvi|exact Hp]. }
  destruct (visits_expands fo c _ _ _ _ _ _ Hvi') as (rest & Hx & _).
  destruct (forest_lists fo c v0 _ _ f FO) as (zs & m & Hre & _ & _ & Hlt & _).
  unfold at_start in Hx. rewrite map_map in Hx. cbn [snd] in Hx. rewrite map_id in Hx.
  destruct (expands_rest fo c _ _ _ _ _ (maxK_ge2 fo c OK) Hx _ _ Hre) as (zs' & m' & _ & Hpz).
  assert (Hin : In j zs) by (eapply Permutation_in; [symmetry; exact Hpz|]; apply in_or_app; now left).
  destruct (fr_item _ _ _ _ _ _ FO j (Hlt j Hin)) as (bs & Hb & _). eauto.
Qed.
Lemma roots_forest : forest fo c v0 ni rs f.
Proof.
  pose proof (after_forest_view fo c OK v0 ix f plan ix' Hv I A (nodes_view_agrees fo c ix f plan ix' A)) as F.
  now rewrite (bt_items _ _ _ _ _ _ A) in F.
Qed.
Lemma copies_in r : In r copies -> exists r0, ren r0 r.
Proof.
  intro H. apply (Permutation_in _ copies_perm) in H. apply in_map_iff in H. destruct H as (k & <- & Hk). apply in_seq in Hk.
  destruct (nth_error rs k) as [r0|] eqn:E0; [|apply nth_error_None in E0; lia]. exists r0, k. auto.
Qed.
Lemma copies_forest : forest fo c v0 ni copies f.
Proof.
  pose proof roots_forest as F. constructor; [apply F|apply F|]. intros r Hr. destruct (copies_in r Hr) as (r0 & k & Hk & ->).
  destruct (fr_tree _ _ _ _ _ _ F r0 (nth_error_In _ _ Hk)) as (xs & m & T). exists xs, m.
  eapply (tree_lists_eq fo c ix f); [|exact T]. intros xs' k'.
  apply (reach_copy fo c OK ix f plan ix' A Hv HK Hne); [apply (nodes_view_agrees fo c ix f plan ix' A)|now rewrite Nat2N.id].
Qed.
(** Both answer alike. *)
Lemma reload_query fuel fs fs2 ix2 nr inspect bc ids ds bc1 ids2 ds2 bc2 :
  n_items ix2 = ni -> rootsN (ib ix2) = copies -> sub_view v0 (view fs2 ix2) -> lenN (c_nns bc) < 2 ^ iw c ->
  query fuel fs ix' q nr inspect bc = Ok (ids, ds, bc1) -> query fuel fs2 ix2 q nr inspect bc = Ok (ids2, ds2, bc2) ->
  ids2 = ids /\ ds2 = ds.
Proof.
  intros Hn Hr Sub Hw Q1 Q2. pose proof (n_ge fo c ix f plan ix' A Hv HK Hne) as Hge.
  destruct (nodes_view_sub fo c fs ix f plan ix' A) as [Sub1|X]; [|lia].
  destruct (query_shape fuel fs ix' q ids ds bc bc1 nr inspect rs Q1 eq_refl (bt_items _ _ _ _ _ _ A) eq_refl Sub1 Hw) as
    (ys & qn & sc & srt & V1 & G1 & S1 & P1 & E1 & D1); [|apply roots_forest|].
  { intros r H. left. exists r, 0%nat. split; [exact H|apply de_here]. }
  destruct (query_shape fuel fs2 ix2 q ids2 ds2 bc bc2 nr inspect copies Q2 eq_refl Hn Hr Sub Hw) as
    (ys2 & qn2 & sc2 & srt2 & V2 & G2 & S2 & P2 & E2 & D2); [|apply copies_forest|].
  { intros r H. right. now apply copies_in. }
  assert (El : the_limit ix2 nr inspect = the_limit ix' nr inspect).
  { unfold the_limit. rewrite Hr. unfold copies. now rewrite length_down. }
  rewrite El in V2. pose proof (copies_visit _ _ _ V1 V2). subst ys2.
  assert (qn2 = qn) by congruence. subst qn2. assert (sc2 = sc) by congruence. subst sc2. assert (srt2 = srt) by congruence. subst srt2.
  split; congruence.
Qed.
End Q.

(** ** What Save and Load give *)
Definition reloaded (fs2 : files) (ix2 : idx) : Prop :=
  n_items ix2 = ni /\ rootsN (ib ix2) = copies /\ sub_view v0 (view fs2 ix2).
Lemma file_view m : (forall i, i < n -> node_at fo c m i = im i) -> sub_view v0 (Some (buf_of_bytes (mread m 0 (N.to_nat (n * NSZ))))).
Proof.
  intros Hm off len bs. unfold nodes_view. cbn [vread]. unfold bread. cbn [bsize bdata].
  destruct (N.leb_spec (off + len) (n * NSZ)) as [H|]; [|discriminate]. intros [= <-].
  cbn [buf_of_bytes bsize bdata]. unfold lenN at 1. rewrite length_mread, N2Nat.id. replace (off + len <=? n * NSZ) with true by lia. f_equal.
  rewrite <- (N.add_0_l off), mread_mwrite_within by (unfold lenN; rewrite length_mread; lia). rewrite N.add_0_l.
  rewrite skipn_mread by lia. rewrite firstn_mread by lia. rewrite N2Nat.id, N.add_0_l.
  apply mread_ext. intros k Hk. set (a := off + k).
  assert (Ha : a < n * NSZ) by lia.
  assert (Hp : NSZ <> 0) by (pose proof (nodeSize_pos fo c OK); lia).
  pose proof (N.div_mod' a NSZ) as Hd. rewrite (N.mul_comm NSZ) in Hd. rewrite Hd.
  apply (mread_ext_get m (smem (ib ix')) (a / NSZ * NSZ) (a / NSZ * NSZ) (N.to_nat NSZ)).
  - apply Hm. apply N.div_lt_upper_bound; lia.
  - rewrite N2Nat.id. now apply N.mod_lt.
Qed.
Lemma reload_load m knd fs2 fl ix0 : length plan = 1%nat -> 3 <= lenN (present fo f ni) ->
  (forall i, i < n -> node_at fo c m i = im i) -> fs2 fl = Some (file_bytes fo c ix' m) ->
  rnd (ib ix0) <> None -> exists ix2, load fo c knd fs2 ix0 fl = Ok (ix2, None) /\ reloaded fs2 ix2.
Proof.
  intros Hp H3 Hm Hf Hr.
  destruct (load_run fo c OK ix f plan ix' I A Hv HK Hne m Hm knd fs2 fl ix0 Hf Hr) as (ix2 & k & E2 & L1 & _ & _ & L4 & _ & _ & _ & L5 & _ & _ & _ & L9).
  exists ix2. split; [exact E2|]. split; [exact L1|]. split.
  - rewrite L5. unfold copies. f_equal. specialize (L9 Hp H3). unfold lenN in L9. lia.
  - rewrite L4. now apply file_view.
Qed.
Lemma reload_save knd fs fl : length plan = 1%nat -> 3 <= lenN (present fo f ni) ->
  exists ix2 fs2, save fo c knd OsOk fs ix' fl = Ok (ix2, fs2, None) /\ reloaded fs2 ix2 /\
  forall knd3 ix0, rnd (ib ix0) <> None -> exists ix3, load fo c knd3 fs2 ix0 fl = Ok (ix3, None) /\ reloaded fs2 ix3.
Proof.
  intros Hp H3. destruct (save_run fo c OK ix f plan ix' A Hv HK Hne knd fs fl) as (m & Hm & E0). cbv zeta in E0.
  set (fs2 := fs_set fs fl (Some (file_bytes fo c ix' m))) in *.
  assert (Hf : fs2 fl = Some (file_bytes fo c ix' m)) by (unfold fs2, fs_set; now rewrite N.eqb_refl).
  destruct (reload_load m knd fs2 fl ix' Hp H3 Hm Hf (bt_rnd _ _ _ _ _ _ A)) as (ix2 & E2 & L).
  exists ix2, fs2. split; [rewrite E0, E2; reflexivity|]. split; [exact L|]. intros knd3 ix0 H0. eapply reload_load; eauto.
Qed.
End IO.
End S.
