(** What the figures printed by cmd/precision mean (C95). *)
From Verif Require Import Base Flt Layout Rng Sorts Alloc Prog Imbalance Dist Build Policy Index Search Precision Spec ForestSpec BuildSpec RealSpec PrecSpec
  Lib LayoutProof FltProof MemProof SortsProof StoreProof SearchProof QueryProof TreeProof BuildProof ForestProof
  NumProof AfterProof TopProof MoreProof SmallProof IOProof AccProof DistProof VecProof LoadedProof PrecProof
  Concrete PropSearch PropForest PropIO PropNum PropPlane PropRoom PropLoaded.
From Coq Require Import Permutation Sorted Reals Lra.
From Flocq Require Import Core.Zaux IEEE754.BinarySingleNaN IEEE754.Binary IEEE754.Bits.
Close Scope R_scope. Open Scope N_scope.

Lemma Forall2_weak {A B} (P Q : A -> B -> Prop) l m : (forall x y, P x y -> Q x y) -> Forall2 P l m -> Forall2 Q l m.
Proof. intros H. induction 1; constructor; auto. Qed.
Lemma Forall2_second {A B} (P : A -> B -> Prop) l m : Forall2 P l m -> Forall (fun y => exists x, P x y) m.
Proof. induction 1; constructor; eauto. Qed.
Lemma forall2_at {A B} (P : A -> B -> Prop) l m : Forall2 P l m -> forall k x, nth_error l k = Some x -> exists y, nth_error m k = Some y /\ P x y.
Proof. induction 1 as [|a b l m H F IH]; intros [|k] x E; try discriminate; [injection E as <-; exists b; auto|now apply IH]. Qed.

Section E.
Variable fo : FOps.
Variable c : Cfg.
Hypothesis FL : is_float fo.
Variable f : N -> option (list (F fo)).
Variable q : list (F fo).
Lemma exact_prefix k1 k2 ids1 ds1 ids2 ds2 : exact_nearest fo c f q k1 ids1 ds1 -> exact_nearest fo c f q k2 ids2 ds2 ->
  (k1 <= k2)%nat -> all_num fo f q -> ids1 = firstn k1 ids2.
Proof.
  intros (sc1 & raw1 & [N1 G1] & R1 & T1 & _) (sc2 & raw2 & [N2 G2] & R2 & T2 & _) Hk Hnum.
  assert (X2 : forall d j, In (d, j) sc2 -> exists w, f j = Some w /\ d = cos_gap fo q w) by (intros d j H; now apply G2).
  assert (E : combine raw1 ids1 = firstn k1 (combine raw2 ids2)).
  { eapply (topk_prefix _ _ (pair_less_sw _ _ _ (float_total fo FL)) k1 k2 sc1 sc2); eauto.
    - intros [d j]. now rewrite G1, G2.
    - now apply NoDup_map_inv in N1.
    - now apply NoDup_map_inv in N2.
    - now apply (gaps_num _ _ _ _ X2).
    - now apply (gaps_distinct _ _ _ _ FL X2). }
  rewrite firstn_combine in E. apply combine_inj in E; [tauto|exact R1|rewrite !firstn_length; lia].
Qed.
Lemma exact_count k ids ds m : exact_nearest fo c f q k ids ds -> (forall i, f i <> None <-> i < m) -> length ids = Nat.min k (N.to_nat m).
Proof.
  intros (sc & raw & [ND G] & R1 & (t & _ & HL & _) & _) Hf. rewrite combine_length, R1, Nat.min_id in HL. rewrite HL. f_equal.
  rewrite <- (map_length snd). rewrite <- (length_rangeN m).
  assert (X : forall i, In i (map snd sc) <-> In i (rangeN m)).
  { intro i. rewrite in_rangeN, in_map_iff, <- Hf. split.
    - intros ([d j] & <- & H). cbn [snd]. apply G in H. destruct H as (v & -> & _). discriminate.
    - intro H. destruct (f i) as [v|] eqn:E; [|congruence]. exists (cos_gap fo q v, i). split; [reflexivity|]. apply G. eauto. }
  apply Permutation_length, NoDup_Permutation; [exact ND|apply NoDup_rangeN|exact X].
Qed.
Lemma exact_distinct k ids ds : exact_nearest fo c f q k ids ds -> NoDup ids.
Proof.
  intros (sc & raw & [ND _] & R1 & (t & P & _) & _). apply (Permutation_map snd) in P. rewrite map_app in P.
  apply (Permutation_NoDup P) in ND.
  assert (E : map snd (combine raw ids) = ids) by (clear - R1; revert ids R1; induction raw as [|a raw IH]; intros [|b ids] H; try discriminate; [reflexivity|]; cbn; f_equal; apply IH; now injection H).
  rewrite E in ND. clear - ND. induction ids as [|a ids IH]; [constructor|]. cbn [app] in ND. inversion ND as [|? ? X Y]; subst.
  constructor; [intro H; apply X, in_or_app; now left|now apply IH].
Qed.
End E.

(** ** The limits that are measured *)
(** All powers of ten up to the number of items, and 500 if there are a hundred. *)
Lemma limits_loop_in n : forall fuel j, (0 <= j)%Z -> forall l, In l (limits_loop fuel (10 ^ j) n) <->
  (exists k, (j <= k < j + Z.of_nat fuel)%Z /\ l = (10 ^ k)%Z /\ (l <= n)%Z) \/ (l = 500%Z /\ (j <= 2 < j + Z.of_nat fuel)%Z /\ (100 <= n)%Z).
Proof.
  induction fuel as [|fuel IH]; intros j Hj l.
  { cbn [limits_loop In]. split; [intros []|]. intros [(k & Hk & _)|(_ & Hk & _)]; lia. }
  cbn [limits_loop]. destruct (Z.leb_spec (10 ^ j) n) as [Hle|Hgt].
  - assert (E : (10 ^ j * 10 = 10 ^ (j + 1))%Z) by (rewrite Z.pow_add_r by lia; reflexivity).
    cbn [In]. rewrite in_app_iff, E, (IH (j + 1)%Z ltac:(lia)).
    assert (H5 : In l (if (10 ^ j =? 100)%Z then [500%Z] else []) <-> l = 500%Z /\ j = 2%Z).
    { destruct (Z.eqb_spec (10 ^ j) 100) as [E2|E2].
      - assert (j = 2)%Z as -> by (apply (Z.pow_inj_r 10); [lia|lia|lia|exact E2]). cbn [In]. intuition.
      - split; [intros []|]. intros [_ ->]. exfalso. apply E2. reflexivity. }
    rewrite H5. split.
    + intros [H|[[H1 H2]|[(k & H1 & H2 & H3)|(H1 & H2 & H3)]]].
      * left. exists j. lia.
      * right. subst j. change (10 ^ 2)%Z with 100%Z in Hle. lia.
      * left. exists k. lia.
      * right. lia.
    + intros [(k & H1 & H2 & H3)|(H1 & H2 & H3)].
      * destruct (Z.eq_dec k j) as [->|Hk]; [left; lia|]. right. right. left. exists k. lia.
      * destruct (Z.eq_dec j 2) as [->|Hk]; [right; left; lia|]. right. right. right. lia.
  - split; [intros []|]. assert (X : forall k, (j <= k)%Z -> (10 ^ j <= 10 ^ k)%Z) by (intros k Hk; apply Z.pow_le_mono_r; lia).
    intros [(k & H1 & H2 & H3)|(H1 & H2 & H3)]; [specialize (X k ltac:(lia)); lia|].
    specialize (X 2%Z ltac:(lia)). change (10 ^ 2)%Z with 100%Z in X. lia.
Qed.
Lemma limits_loop_up n : forall fuel i, (1 <= i)%Z -> StronglySorted Z.lt (limits_loop fuel i n) /\ forall l, In l (limits_loop fuel i n) -> (i <= l)%Z.
Proof.
  induction fuel as [|fuel IH]; intros i Hi; cbn [limits_loop]; [split; [constructor|intros l []]|].
  destruct (i <=? n)%Z; [|split; [constructor|intros l []]]. destruct (IH (i * 10)%Z ltac:(lia)) as [S1 S2].
  destruct (Z.eqb_spec i 100) as [->|Hne]; cbn [app].
  - split.
    + constructor; [constructor; [exact S1|]|]; apply Forall_forall; [intros l Hl; specialize (S2 l Hl); lia|].
      intros l [<-|Hl]; [lia|specialize (S2 l Hl); lia].
    + intros l [<-|[<-|Hl]]; [lia|lia|specialize (S2 l Hl); lia].
  - split; [constructor; [exact S1|]; apply Forall_forall; intros l Hl; specialize (S2 l Hl); lia|].
    intros l [<-|Hl]; [lia|specialize (S2 l Hl); lia].
Qed.
Theorem C95_limits :
  forall numItems, (numItems < 10 ^ 18)%Z ->
  StronglySorted Z.lt (limits numItems) /\
  forall l, In l (limits numItems) <->
    (exists k, (0 <= k)%Z /\ l = (10 ^ k)%Z /\ (l <= numItems)%Z) \/ (l = 500%Z /\ (100 <= numItems)%Z).
Proof.
  intros n Hn. split; [apply limits_loop_up; lia|]. intro l. unfold limits. change 1%Z with (10 ^ 0)%Z at 1. rewrite limits_loop_in by lia. split.
  - intros [(k & H1 & H2 & H3)|(H1 & H2 & H3)]; [left; exists k; lia|right; lia].
  - intros [(k & H1 & H2 & H3)|(H1 & H2)]; [left; exists k|right; lia]. split; [|lia]. split; [lia|].
    assert (X : (10 ^ k < 10 ^ 18)%Z) by lia. apply Z.pow_lt_mono_r_iff in X; lia.
Qed.
Example C95_limits_example : (20000 < 10 ^ 18)%Z /\ limits 20000 = [1; 10; 100; 500; 1000; 10000]%Z /\ limits 100 = [1; 10; 100; 500]%Z.
Proof. split; [lia|]. split; reflexivity. Qed.

Section S.
Variable fm : Fmt.
Variable c : Cfg.
Hypothesis FM : is_fmt fm.
Notation fo := (ops fm).
Hypothesis OK : CfgOK fo c.
Hypothesis Hv : 3 * ixb c <= vlen c.
Hypothesis Hlen : vlen c <= 2 ^ 20.
Variable sortIx : list N -> list N.
Variable sortPairs : list (F fo * N) -> list (F fo * N).
Variable sortU : list N -> list N.
Hypothesis HI : sort_slice N.ltb sortIx.
Hypothesis HP : sort_slice (pair_less (flt fo) (feq fo)) sortPairs.
Hypothesis HU : sorts (fun _ => True) N.ltb sortU.
Variable h : list (N * list (F fo)).
Variables ix ix' : idx.
Variable T : Z.
Variables nw fuel mfuel rfuel : nat.
Hypothesis B : build_call fo c h ix T nw fuel mfuel.
Hypothesis R : build_result fo c ix T nw fuel mfuel rfuel ix'.
Hypothesis Hne : rootsN (ib ix') <> [].
Hypothesis HM : forall i w, last_added h i = Some w -> tame fm w.
Variable numItems : N.
Hypothesis Hall : forall i, last_added h i <> None <-> i < numItems.
Hypothesis HK : maxK fo c < numItems.
Variables fs fs2 : files.
Variable ix2 : idx.
Hypothesis FF : from_file fo c fs ix' fs2 ix2.
Hypothesis Hc : lenN (c_nns (create_context fo ix2)) < 2 ^ iw c.
Variable qfuel : nat.
Notation by_item := (get_nns_by_item fo c sortIx sortPairs qfuel fs2 ix2).
Notation f := (last_added h).
Let ctx_ok (b : ctx (F fo)) : Prop :=
  length (c_nns b) = length (c_nns (create_context fo ix2)) /\ length (c_dist b) = length (c_dist (create_context fo ix2)).
Let query (j : N) (l : Z) (top : list N) : Prop := exists ds, answer fo (by_item j l (-1)%Z (create_context fo ix2)) = Ok (top, ds).

Lemma P_items : items_inv fo c ix f.
Proof. exact (proj1 (result_after fo c OK _ _ _ _ _ _ _ _ B R)). Qed.
Lemma P_count : n_items ix = numItems.
Proof.
  pose proof P_items as I. destruct (N.lt_trichotomy (n_items ix) numItems) as [H|[H|H]]; [|exact H|].
  - apply Hall in H. destruct (f (n_items ix)) as [v|] eqn:E; [|congruence]. apply (ii_ext _ _ _ _ I) in E. lia.
  - destruct (ii_last _ _ _ _ I) as [X|X]; [lia|]. apply Hall in X. lia.
Qed.
Lemma P_num j v : f j = Some v -> all_num fo f v.
Proof.
  intro E. apply (tame_all_num fm FM f v (HM j v E)). intros i w Hw. split; [|now apply (HM i)].
  pose proof (ii_len _ _ _ _ P_items j v E). pose proof (ii_len _ _ _ _ P_items i w Hw). unfold lenN in *. lia.
Qed.
Lemma P_by_item j v n ins bc : f j = Some v ->
  by_item j n ins bc = get_nns_by_vector fo c sortIx sortPairs qfuel fs2 ix2 v n ins bc.
Proof.
  intro E. apply C34_by_item_is_by_vector.
  destruct (result_after fo c OK _ _ _ _ _ _ _ _ B R) as (I & plan & A & _).
  assert (HK' : maxK fo c < n_items ix) by (rewrite P_count; exact HK).
  destruct (from_file_loaded fo c fs ix _ plan ix' fs2 ix2 OK I A Hv HK' Hne FF) as [_ S].
  destruct (C07_build_keeps_items fo c OK h ix T nw fuel mfuel rfuel ix' B R) as (C1 & _ & C3).
  rewrite (si_item _ _ _ _ _ _ S); [now apply C3|]. rewrite C1. now apply (ii_ext _ _ _ _ I j v).
Qed.
Lemma P_ctx j n ins bc ids ds bc' : ctx_ok bc -> by_item j n ins bc = Ok (ids, ds, bc') ->
  ctx_ok bc' /\ NoDup ids /\ (Z.of_nat (length ids) <= Z.max 0 n)%Z.
Proof.
  intros [C1 C2] E. unfold get_nns_by_item in E. destruct (get_item fo c fs2 ix2 j) as [v|e]; [|discriminate]. cbn [rbind] in E.
  destruct (C30_context_keeps_size fo c sortIx sortPairs HI HP _ _ _ _ _ _ _ _ _ _ E) as [D1 D2].
  destruct (C24_results_distinct_valid_sorted fo c sortIx sortPairs (fmt_is_float fm FM) HI HP _ _ _ _ _ _ _ _ _ _ E) as (X1 & _ & X2 & _).
  { unfold lenN in *. now rewrite C1. }
  split; [split; congruence|]. auto.
Qed.
Lemma P_query j l bc top ds bc' : ctx_ok bc -> by_item j l (-1)%Z bc = Ok (top, ds, bc') -> query j l top.
Proof.
  intros [C1 C2] E. exists ds. unfold get_nns_by_item in *. destruct (get_item fo c fs2 ix2 j) as [v|e]; [|discriminate]. cbn [rbind] in *.
  rewrite <- (C30_context_contents_irrelevant fo c sortIx sortPairs qfuel fs2 ix2 v l (-1)%Z bc _ C1 C2); [now rewrite E|].
  unfold lenN in *. now rewrite C1.
Qed.
Lemma P_vec_exact j v n ins bc ids ds bc' : f j = Some v -> ctx_ok bc -> by_item j n ins bc = Ok (ids, ds, bc') ->
  (Z.of_N numItems <= the_limit ix2 n ins)%Z -> exact_nearest fo c f v (Z.to_nat n) ids ds.
Proof.
  intros Ev [C1 C2] E Hl. rewrite (P_by_item j v n ins bc Ev) in E.
  assert (HK' : maxK fo c < n_items ix) by (rewrite P_count; exact HK).
  apply (C94_exact_after_reload fm c FM OK Hv Hlen sortIx sortPairs HI HP h ix ix' T nw fuel mfuel rfuel B R Hne) with
    (added := rangeN numItems) (fs := fs) (fs2 := fs2) (ix2 := ix2) (qfuel := qfuel) (inspect := ins) (bc := bc) (bc' := bc'); try assumption.
  - intros i w Hw. now apply tame_moderate, (HM i).
  - apply (NoDup_rangeN numItems).
  - intro i. now rewrite in_rangeN, Hall.
  - now apply tame_moderate, (HM j).
  - exact (ii_len _ _ _ _ P_items j v Ev).
  - unfold lenN in *. now rewrite C1.
  - rewrite length_rangeN. lia.
  - now apply (P_num j).
Qed.
Lemma P_exact nr j bc ids ds bc' : j < numItems -> ctx_ok bc -> by_item j nr (Z.of_N numItems) bc = Ok (ids, ds, bc') ->
  exists v, f j = Some v /\ exact_nearest fo c f v (Z.to_nat nr) ids ds.
Proof.
  intros Hj C E. apply Hall in Hj. destruct (f j) as [v|] eqn:Ev; [|congruence]. exists v. split; [reflexivity|].
  apply (P_vec_exact j v nr (Z.of_N numItems) bc ids ds bc' Ev C E). unfold the_limit.
  destruct (Z.eqb_spec (Z.of_N numItems) (-1)); lia.
Qed.

Lemma measured n nr ps : (1 <= nr <= 2 ^ 53)%Z -> (1 <= Z.of_nat n <= 2 ^ 53)%Z ->
  precisions fo c sortIx sortPairs sortU qfuel fs2 ix2 n numItems nr = Ok ps ->
  length ps = length (limits (Z.of_N numItems)) /\
  exists rows, length rows = n /\
  Forall2 (fun d => true_row fo c f query nr (limits (Z.of_N numItems)) (d mod numItems)) (first_draws n (kiss_new 0)) rows /\
  forall k p, nth_error ps k = Some p ->
    fin fmt64 p /\ (0 <= rv fmt64 p <= 1)%R /\ (Rabs (rv fmt64 p - mean_recall nr k rows) <= / 2 ^ 52 * (INR n + 3))%R /\
    forall l, nth_error (limits (Z.of_N numItems)) k = Some l -> (nr <= l)%Z -> (nr <= Z.of_N numItems)%Z ->
      (Z.of_N numItems <= l * Z.of_nat (length (rootsN (ib ix2))))%Z -> rv fmt64 p = 1%R.
Proof.
  intros Hn Hk E. unfold precisions in E. set (ls := limits (Z.of_N numItems)) in *.
  destruct (rounds fo c sortIx sortPairs sortU qfuel fs2 ix2 n numItems nr ls (kiss_new 0) (map (fun _ => d_of_Z 0) ls) (create_context fo ix2)) as [[sums bc]|e] eqn:Er; [|discriminate].
  cbn [rbind fst] in E. injection E as <-.
  destruct (rounds_rows fo c sortIx sortPairs sortU HU qfuel fs2 ix2 f query ctx_ok P_ctx P_query numItems nr (P_exact nr) ls n (kiss_new 0)
    (map (fun _ => d_of_Z 0) ls) (create_context fo ix2) sums bc) as (L1 & rows & L2 & FA & HN).
  - split; reflexivity.
  - apply map_length.
  - exact Er.
  - split; [rewrite map_length; exact L1|]. exists rows. split; [exact L2|]. split; [eapply Forall2_weak; [|exact FA]; cbn beta; tauto|]. apply Forall2_second in FA.
    intros k p Hp. assert (Hkl : (k < length ls)%nat) by (rewrite <- L1, <- (map_length (fun s => b64_div mode_NE s (d_of_Z (Z.of_nat n)))); apply nth_error_Some; congruence).
    destruct (nth_error ls k) as [l|] eqn:El; [|apply nth_error_None in El; lia].
    assert (Hs : nth_error sums k = Some (add_hits nr (column k rows) (d_of_Z 0))).
    { apply HN. rewrite (map_nth_error _ _ _ El). reflexivity. }
    rewrite (map_nth_error _ _ _ Hs) in Hp. injection Hp as <-.
    destruct (precision_ok nr (Z.of_nat n) rows k Hn Hk) as (A1 & A2 & A3).
    { now rewrite L2. }
    { eapply Forall_impl; [|exact FA]. cbn beta. intros row (d & _ & H). lia. }
    split; [exact A1|]. split; [exact A2|]. split.
    { rewrite INR_IZR_INZ. replace (2 ^ 52)%R with 4503599627370496%R by (cbn [pow]; lra). exact A3. }
    intros l' Hl' H1 H2 H3. injection Hl' as <-.
    destruct (precision_one nr (Z.of_nat n) rows k Hn Hk) as (_ & B2); [now rewrite L2| |exact B2].
    eapply Forall_impl; [|exact FA]. cbn beta. intros row (d & (v & ds & Ev & EX & Q) & _). set (j := d mod numItems) in *.
    split.
    + rewrite (exact_count fo c f v _ _ _ numItems EX Hall). lia.
    + destruct (forall2_at _ _ _ Q k l El) as (top & Et & (ds2 & Eq)).
      rewrite (nth_error_nth _ _ _ Et). unfold answer in Eq.
      destruct (by_item j l (-1)%Z (create_context fo ix2)) as [[[top' ds'] bc']|e] eqn:Eb; [|discriminate]. cbn [rbind fst] in Eq. injection Eq as -> ->.
      assert (EX2 : exact_nearest fo c f v (Z.to_nat l) top ds2).
      { apply (P_vec_exact j v l (-1)%Z (create_context fo ix2) top ds2 bc' Ev); [split; reflexivity|exact Eb|exact H3]. }
      rewrite (exact_prefix fo c (fmt_is_float fm FM) f v _ _ _ _ _ _ EX EX2 ltac:(lia) (P_num j v Ev)).
      intros x Hx. now apply In_firstn in Hx.
Qed.
Lemma measured_small n nr ps : (1 <= nr <= 2 ^ 53)%Z -> (1 <= Z.of_nat n <= 2 ^ 53)%Z ->
  precisions fo c sortIx sortPairs sortU qfuel fs2 ix2 n numItems nr = Ok ps ->
  forall k p l, nth_error ps k = Some p -> nth_error (limits (Z.of_N numItems)) k = Some l -> (0 <= l)%Z ->
    (rv fmt64 p <= IZR l / IZR nr + / 2 ^ 52 * (INR n + 3))%R.
Proof.
  intros Hn Hk E k p l Hp Hl H0. destruct (measured n nr ps Hn Hk E) as (_ & rows & L & FA & HN).
  destruct (HN k p Hp) as (_ & _ & A & _). apply Forall2_second in FA.
  assert (HB : Forall (fun row => (hits (fst row) (nth k (snd row) []) <= Z.to_nat l)%nat) rows).
  { eapply Forall_impl; [|exact FA]. cbn beta. intros row (d & v & ds & _ & EX & Q). apply exact_distinct in EX.
    destruct (forall2_at _ _ _ Q k l Hl) as (top & Et & (ds2 & Eq)). rewrite (nth_error_nth _ _ _ Et). unfold answer in Eq.
    destruct (by_item (d mod numItems) l (-1)%Z (create_context fo ix2)) as [[[top' ds'] bc']|e] eqn:Eb; [|discriminate]. cbn [rbind fst] in Eq. injection Eq as -> ->.
    destruct (P_ctx _ _ _ (create_context fo ix2) _ _ _ (conj eq_refl eq_refl) Eb) as (_ & _ & Hlen2).
    assert (X : (hits (fst row) top <= length top)%nat); [|lia]. unfold hits. apply NoDup_incl_length; [now apply NoDup_filter|].
    intros x Hx. apply filter_In in Hx. destruct Hx as [_ Hx]. now destruct (in_dec N.eq_dec x top). }
  assert (HT : (total_hits k rows <= length rows * Z.to_nat l)%nat).
  { clear - HB. induction HB as [|row rows H _ IH]; [cbn; lia|]. cbn [total_hits fold_right length]. fold (total_hits k rows). lia. }
  assert (HM' : (mean_recall nr k rows <= IZR l / IZR nr)%R).
  { unfold mean_recall. rewrite L in *. apply le_INR in HT. rewrite mult_INR in HT. rewrite (INR_IZR_INZ (Z.to_nat l)), Z2Nat.id in HT by exact H0.
    assert (Pn : (0 < INR n)%R) by (apply lt_0_INR; lia). assert (Pr : (0 < IZR nr)%R) by (apply IZR_lt; lia).
    replace (IZR l / IZR nr)%R with (INR n * IZR l / (IZR nr * INR n))%R by (field; split; lra).
    apply Rmult_le_compat_r; [|exact HT]. apply Rlt_le, Rinv_0_lt_compat. now apply Rmult_lt_0_compat. }
  pose proof (Rle_abs (rv fmt64 p - mean_recall nr k rows)). lra.
Qed.
End S.

(** A query for item [j] with limit [l], as the tool asks it, gives [top]. *)
Definition tool_query fo c sortIx sortPairs qfuel fs ix (j : N) (l : Z) (top : list N) : Prop :=
  exists ds, answer fo (get_nns_by_item fo c sortIx sortPairs qfuel fs ix j l (-1)%Z (create_context fo ix)) = Ok (top, ds).
(** The index has the items 0, ..., numItems - 1, more than fit one leaf, with vectors of
    moderate size and not too short, and was saved or loaded.  Round i asks for the item
    that the i-th number of the generator gives.  Each printed precision is a
    number from 0 to 1 and the mean, over the rounds, of the fraction of true nearest
    neighbours found, up to rounding. *)
Theorem C95_precision_is_mean_recall :
  forall fm c, is_fmt fm -> CfgOK (ops fm) c -> 3 * ixb c <= vlen c -> vlen c <= 2 ^ 20 ->
  forall sortIx sortPairs sortU, sort_slice N.ltb sortIx -> sort_slice (pair_less (flt (ops fm)) (feq (ops fm))) sortPairs ->
  sorts (fun _ => True) N.ltb sortU ->
  forall h ix ix' T nw fuel mfuel rfuel, build_call (ops fm) c h ix T nw fuel mfuel ->
  build_result (ops fm) c ix T nw fuel mfuel rfuel ix' -> rootsN (ib ix') <> [] ->
  (forall i w, last_added h i = Some w -> tame fm w) ->
  forall numItems, (forall i, last_added h i <> None <-> i < numItems) -> maxK (ops fm) c < numItems ->
  forall fs fs2 ix2, from_file (ops fm) c fs ix' fs2 ix2 -> lenN (c_nns (create_context (ops fm) ix2)) < 2 ^ iw c ->
  forall qfuel n numReturn ps, (1 <= numReturn <= 2 ^ 53)%Z -> (1 <= Z.of_nat n <= 2 ^ 53)%Z ->
  precisions (ops fm) c sortIx sortPairs sortU qfuel fs2 ix2 n numItems numReturn = Ok ps ->
  let ls := limits (Z.of_N numItems) in
  length ps = length ls /\
  exists rows, length rows = n /\
    Forall2 (fun d => true_row (ops fm) c (last_added h) (tool_query (ops fm) c sortIx sortPairs qfuel fs2 ix2) numReturn ls (d mod numItems))
      (first_draws n (kiss_new 0)) rows /\
    forall k p, nth_error ps k = Some p ->
      fin fmt64 p /\ (0 <= rv fmt64 p <= 1)%R /\ (Rabs (rv fmt64 p - mean_recall numReturn k rows) <= / 2 ^ 52 * (INR n + 3))%R.
Proof.
  intros fm c FM OK Hv Hlen sortIx sortPairs sortU HI HP HU h ix ix' T nw fuel mfuel rfuel B R Hne HM m Hall HK fs fs2 ix2 FF Hc qfuel n nr ps Hn Hk E ls.
  destruct (measured fm c FM OK Hv Hlen sortIx sortPairs sortU HI HP HU h ix ix' T nw fuel mfuel rfuel B R Hne HM m Hall HK fs fs2 ix2 FF Hc qfuel n nr ps Hn Hk E)
    as (L & rows & L2 & FA & HN).
  split; [exact L|]. exists rows. split; [exact L2|]. split; [exact FA|]. intros k p Hp. destruct (HN k p Hp) as (A & A2 & A3 & _). auto.
Qed.
(** For a limit that is at least numReturn and makes the search list as many entries as
    there are items, the printed precision is exactly 1: such a query looks at
    everything, so nothing is measured. *)
Theorem C95_precision_one_when_everything_is_listed :
  forall fm c, is_fmt fm -> CfgOK (ops fm) c -> 3 * ixb c <= vlen c -> vlen c <= 2 ^ 20 ->
  forall sortIx sortPairs sortU, sort_slice N.ltb sortIx -> sort_slice (pair_less (flt (ops fm)) (feq (ops fm))) sortPairs ->
  sorts (fun _ => True) N.ltb sortU ->
  forall h ix ix' T nw fuel mfuel rfuel, build_call (ops fm) c h ix T nw fuel mfuel ->
  build_result (ops fm) c ix T nw fuel mfuel rfuel ix' -> rootsN (ib ix') <> [] ->
  (forall i w, last_added h i = Some w -> tame fm w) ->
  forall numItems, (forall i, last_added h i <> None <-> i < numItems) -> maxK (ops fm) c < numItems ->
  forall fs fs2 ix2, from_file (ops fm) c fs ix' fs2 ix2 -> lenN (c_nns (create_context (ops fm) ix2)) < 2 ^ iw c ->
  forall qfuel n numReturn ps, (1 <= numReturn <= 2 ^ 53)%Z -> (1 <= Z.of_nat n <= 2 ^ 53)%Z ->
  precisions (ops fm) c sortIx sortPairs sortU qfuel fs2 ix2 n numItems numReturn = Ok ps ->
  forall k p limit, nth_error ps k = Some p -> nth_error (limits (Z.of_N numItems)) k = Some limit ->
  (numReturn <= limit)%Z -> (numReturn <= Z.of_N numItems)%Z ->
  (Z.of_N numItems <= limit * Z.of_nat (length (rootsN (ib ix2))))%Z -> fin fmt64 p /\ rv fmt64 p = 1%R.
Proof.
  intros fm c FM OK Hv Hlen sortIx sortPairs sortU HI HP HU h ix ix' T nw fuel mfuel rfuel B R Hne HM m Hall HK fs fs2 ix2 FF Hc qfuel n nr ps Hn Hk E.
  destruct (measured fm c FM OK Hv Hlen sortIx sortPairs sortU HI HP HU h ix ix' T nw fuel mfuel rfuel B R Hne HM m Hall HK fs fs2 ix2 FF Hc qfuel n nr ps Hn Hk E)
    as (L & rows & L2 & FA & HN).
  intros k p l Hp Hl H1 H2 H3. destruct (HN k p Hp) as (A & _ & _ & A4). split; [exact A|]. exact (A4 l Hl H1 H2 H3).
Qed.
(** For a limit below numReturn it is at most their quotient, however good the index. *)
Theorem C95_precision_of_small_limits :
  forall fm c, is_fmt fm -> CfgOK (ops fm) c -> 3 * ixb c <= vlen c -> vlen c <= 2 ^ 20 ->
  forall sortIx sortPairs sortU, sort_slice N.ltb sortIx -> sort_slice (pair_less (flt (ops fm)) (feq (ops fm))) sortPairs ->
  sorts (fun _ => True) N.ltb sortU ->
  forall h ix ix' T nw fuel mfuel rfuel, build_call (ops fm) c h ix T nw fuel mfuel ->
  build_result (ops fm) c ix T nw fuel mfuel rfuel ix' -> rootsN (ib ix') <> [] ->
  (forall i w, last_added h i = Some w -> tame fm w) ->
  forall numItems, (forall i, last_added h i <> None <-> i < numItems) -> maxK (ops fm) c < numItems ->
  forall fs fs2 ix2, from_file (ops fm) c fs ix' fs2 ix2 -> lenN (c_nns (create_context (ops fm) ix2)) < 2 ^ iw c ->
  forall qfuel n numReturn ps, (1 <= numReturn <= 2 ^ 53)%Z -> (1 <= Z.of_nat n <= 2 ^ 53)%Z ->
  precisions (ops fm) c sortIx sortPairs sortU qfuel fs2 ix2 n numItems numReturn = Ok ps ->
  forall k p limit, nth_error ps k = Some p -> nth_error (limits (Z.of_N numItems)) k = Some limit ->
  (rv fmt64 p <= IZR limit / IZR numReturn + / 2 ^ 52 * (INR n + 3))%R.
Proof.
  intros fm c FM OK Hv Hlen sortIx sortPairs sortU HI HP HU h ix ix' T nw fuel mfuel rfuel B R Hne HM m Hall HK fs fs2 ix2 FF Hc qfuel n nr ps Hn Hk E k p l Hp Hl.
  eapply measured_small; eauto. apply nth_error_In in Hl. apply (proj2 (limits_loop_up (Z.of_N m) 19 1%Z ltac:(lia))) in Hl. lia.
Qed.
(** The tool's comparison of the stored vectors with the added ones does not panic unless
    a component is NaN. *)
Lemma same_vec_refl fo (v : list (F fo)) : Forall (fun x => feq fo x x = true) v -> same_vec fo v v = true.
Proof. induction 1 as [|x v H F IH]; [reflexivity|]. cbn. now rewrite H, IH. Qed.
Theorem C95_stored_vectors_match :
  forall fo c, CfgOK fo c -> 3 * ixb c <= vlen c ->
  forall h ix ix' T nw fuel mfuel rfuel, build_call fo c h ix T nw fuel mfuel ->
  build_result fo c ix T nw fuel mfuel rfuel ix' -> rootsN (ib ix') <> [] -> maxK fo c < n_items ix ->
  forall fs fs2 ix2, from_file fo c fs ix' fs2 ix2 ->
  forall vs, (forall k v, nth_error vs k = Some v -> last_added h (N.of_nat k) = Some v /\ Forall (fun x => feq fo x x = true) v) ->
  check_vectors fo c fs2 ix2 0 vs = Ok true.
Proof.
  intros fo c OK Hv h ix ix' T nw fuel mfuel rfuel B R Hne HK fs fs2 ix2 FF.
  destruct (result_after fo c OK _ _ _ _ _ _ _ _ B R) as (I & plan & A & _).
  destruct (from_file_loaded fo c fs ix _ plan ix' fs2 ix2 OK I A Hv HK Hne FF) as [_ SI].
  destruct (C07_build_keeps_items fo c OK h ix T nw fuel mfuel rfuel ix' B R) as (C1 & _ & C3).
  assert (G : forall vs i, (forall k v, nth_error vs k = Some v -> last_added h (i + N.of_nat k) = Some v /\ Forall (fun x => feq fo x x = true) v) ->
    check_vectors fo c fs2 ix2 i vs = Ok true).
  { induction vs as [|v vs IH]; intros i H; [reflexivity|]. cbn [check_vectors].
    destruct (H 0%nat v eq_refl) as [Hi Hf]. rewrite N.add_0_r in Hi.
    rewrite (si_item _ _ _ _ _ _ SI) by (rewrite C1; exact (ii_ext _ _ _ _ I i v Hi)). rewrite (C3 fs i v Hi). cbn [rbind].
    rewrite (same_vec_refl fo v Hf). apply IH. intros k w Hk. replace (i + 1 + N.of_nat k) with (i + N.of_nat (S k)) by lia. now apply H. }
  intros vs H. apply G. exact H.
Qed.

(** .. and it does find differences: it succeeds only if every component compared is equal
    to the stored one; so with a NaN among the added vectors it fails. *)
Lemma same_vec_iff fo (v : list (F fo)) : forall w, same_vec fo v w = true <->
  forall p x y, nth_error v p = Some x -> nth_error w p = Some y -> feq fo x y = true.
Proof.
  induction v as [|a v IH]; intros [|b w]; cbn [same_vec].
  - split; [intros _ [|p] x y; discriminate|reflexivity].
  - split; [intros _ [|p] x y; discriminate|reflexivity].
  - split; [intros _ [|p] x y _; discriminate|reflexivity].
  - rewrite andb_true_iff, IH. split.
    + intros [H1 H2] [|p] x y; cbn; [now intros [= <-] [= <-]|apply H2].
    + intro H. split; [exact (H 0%nat a b eq_refl eq_refl)|]. intros p x y. exact (H (S p) x y).
Qed.
Theorem C95_match_means_equal :
  forall fo c fs ix vs, check_vectors fo c fs ix 0 vs = Ok true ->
  forall k v, nth_error vs k = Some v -> exists w, get_item fo c fs ix (N.of_nat k) = Ok w /\
    forall p x y, nth_error v p = Some x -> nth_error w p = Some y -> feq fo x y = true.
Proof.
  intros fo c fs ix vs. assert (G : forall vs i, check_vectors fo c fs ix i vs = Ok true ->
    forall k v, nth_error vs k = Some v -> exists w, get_item fo c fs ix (i + N.of_nat k) = Ok w /\ same_vec fo v w = true).
  { clear vs. induction vs as [|v0 vs IH]; intros i E k v Hk; [destruct k; discriminate|]. cbn [check_vectors] in E.
    destruct (get_item fo c fs ix i) as [iv|] eqn:Ei; [|discriminate]. cbn [rbind] in E. destruct (same_vec fo v0 iv) eqn:Es; [|discriminate].
    destruct k as [|k]; cbn in Hk.
    - injection Hk as <-. exists iv. rewrite N.add_0_r. auto.
    - destruct (IH _ E k v Hk) as (w & Hw). exists w. replace (i + N.of_nat (S k)) with (i + 1 + N.of_nat k) by lia. exact Hw. }
  intros E k v Hk. destruct (G vs 0 E k v Hk) as (w & H1 & H2). exists w. split; [exact H1|]. now apply same_vec_iff.
Qed.
Theorem C95_nan_is_a_mismatch :
  forall fo c, CfgOK fo c -> 3 * ixb c <= vlen c ->
  forall h ix ix' T nw fuel mfuel rfuel, build_call fo c h ix T nw fuel mfuel ->
  build_result fo c ix T nw fuel mfuel rfuel ix' -> rootsN (ib ix') <> [] -> maxK fo c < n_items ix ->
  forall fs fs2 ix2, from_file fo c fs ix' fs2 ix2 ->
  forall vs, (forall k v, nth_error vs k = Some v -> last_added h (N.of_nat k) = Some v) ->
  forall v x, In v vs -> In x v -> feq fo x x = false ->
  check_vectors fo c fs2 ix2 0 vs = Ok false.
Proof.
  intros fo c OK Hv h ix ix' T nw fuel mfuel rfuel B R Hne HK fs fs2 ix2 FF.
  destruct (result_after fo c OK _ _ _ _ _ _ _ _ B R) as (I & plan & A & _).
  destruct (from_file_loaded fo c fs ix _ plan ix' fs2 ix2 OK I A Hv HK Hne FF) as [_ SI].
  destruct (C07_build_keeps_items fo c OK h ix T nw fuel mfuel rfuel ix' B R) as (C1 & _ & C3).
  assert (G : forall vs i, (forall k v, nth_error vs k = Some v -> last_added h (i + N.of_nat k) = Some v) ->
    forall v x, In v vs -> In x v -> feq fo x x = false -> check_vectors fo c fs2 ix2 i vs = Ok false).
  { induction vs as [|v0 vs IH]; intros i H v x Hvs Hx Hf; [destruct Hvs|]. cbn [check_vectors].
    pose proof (H 0%nat v0 eq_refl) as Hi. rewrite N.add_0_r in Hi.
    rewrite (si_item _ _ _ _ _ _ SI) by (rewrite C1; exact (ii_ext _ _ _ _ I i v0 Hi)). rewrite (C3 fs i v0 Hi). cbn [rbind].
    destruct (same_vec fo v0 v0) eqn:Es; [|reflexivity]. destruct Hvs as [->|Hvs].
    - apply In_nth_error in Hx. destruct Hx as [p Hp]. pose proof (proj1 (same_vec_iff fo v v) Es p x x Hp Hp). congruence.
    - eapply IH; eauto. intros k w Hk. replace (i + 1 + N.of_nat k) with (i + N.of_nat (S k)) by lia. now apply H. }
  intros vs H v x. apply G. exact H.
Qed.

(** The twenty items, one of them with a NaN: the tool panics after building the index. *)
Definition nan_items : list (N * list (F fops32)) :=
  map (fun p => (fst p, if fst p =? 5 then fdiv fops32 (s_of_Z 0) (s_of_Z 0) :: tl (snd p) else snd p)) exq_items.
Definition nan_ix : idx := Eval vm_compute in or_else (ix0 (cA 16)) (add_all fops32 (cA 16) (ix0 (cA 16)) nan_items).
Definition nan_built : idx := Eval vm_compute in or_else nan_ix (build_single fops32 (cA 16) 100 100 100 nan_ix 2).
Example C95_nan_example :
  build_call fops32 (cA 16) nan_items nan_ix 2 1 100 100 /\ build_result fops32 (cA 16) nan_ix 2 1 100 100 100 nan_built /\
  (forall k v, nth_error (map snd nan_items) k = Some v -> last_added nan_items (N.of_nat k) = Some v) /\
  (exists v x, In v (map snd nan_items) /\ In x v /\ feq fops32 x x = false) /\
  match save fops32 (cA 16) GCMem OsOk no_files nan_built 7 with
  | Ok (ix2, fs2, None) => from_file fops32 (cA 16) no_files nan_built fs2 ix2 /\
      check_vectors fops32 (cA 16) fs2 ix2 0 (map snd nan_items) = Ok false
  | _ => False end.
Proof.
  split.
  { assert (Hn : n_items nan_ix = 20) by (vm_compute; reflexivity). constructor; rewrite ?Hn.
    - vm_compute. discriminate.
    - unfold hist_ok. apply Forall_forall. intros [i v] H. unfold nan_items, exq_items in H. rewrite map_map in H.
      apply in_map_iff in H. destruct H as (j & H & Hj). cbn [fst snd] in H.
      injection H as <- <-. apply in_rangeN in Hj. cbn [fst snd]. split.
      + eapply cap_ok_mono with (n := 20); [lia|]. vm_compute. reflexivity.
      + unfold lenN. destruct (j =? 5); reflexivity.
    - exists (kiss_new 0), 0. vm_compute. reflexivity.
    - lia.
    - lia.
    - lia.
    - eapply cap_ok_mono with (n := 1000); [|vm_compute; reflexivity]. unfold forest_room. cbn. lia.
    - unfold enough_fuel. lia. }
  split; [left; split; [reflexivity|vm_compute; reflexivity]|]. split.
  { intros k v Hk. do 20 (destruct k as [|k]; [injection Hk as <-; reflexivity|]). destruct k; discriminate. }
  split.
  { exists (fdiv fops32 (s_of_Z 0) (s_of_Z 0) :: tl (pad 16 [-2; 3; 4]%Z)), (fdiv fops32 (s_of_Z 0) (s_of_Z 0)). split.
    - do 5 right. left. reflexivity.
    - split; [now left|vm_compute; reflexivity]. }
  assert (X : match save fops32 (cA 16) GCMem OsOk no_files nan_built 7 with
    | Ok (ix2, fs2, None) => check_vectors fops32 (cA 16) fs2 ix2 0 (map snd nan_items) = Ok false
    | _ => False end) by (vm_compute; reflexivity).
  destruct (save fops32 (cA 16) GCMem OsOk no_files nan_built 7) as [[[ix2 fs2] [e|]]|e] eqn:E; try contradiction.
  split; [|exact X]. exists GCMem, 7, ix2. split; [exact E|now left].
Qed.

(** The two-worker index of twenty items after Save, three rounds: for limit 1 the tool
    prints 0.0666..., as one of the three items is not found, for limit 10, where 10 times the number of trees is more
    than 20, it prints 1. *)
Example C95_example :
  build_call fops32 (cA 16) exq_items fx_ix 2 2 100 100 /\ build_result fops32 (cA 16) fx_ix 2 2 100 100 100 io_multi /\
  rootsN (ib io_multi) = [25; 22] /\
  (forall j v, last_added exq_items j = Some v -> tame fmt32 v) /\
  (forall i, last_added exq_items i <> None <-> i < 20) /\ maxK fops32 (cA 16) = 18 /\ limits 20 = [1; 10]%Z /\
  match save fops32 (cA 16) GCMem OsOk no_files io_multi 7 with
  | Ok (ix2, fs2, None) => from_file fops32 (cA 16) no_files io_multi fs2 ix2 /\ length (rootsN (ib ix2)) = 3%nat /\
      (lenN (c_nns (create_context fops32 ix2)) <? 2 ^ iw (cA 16)) = true /\
      (let* ps := precisions fops32 (cA 16) (isort N.ltb) (isort (pair_less (flt fops32) (feq fops32))) (isort N.ltb) 400 fs2 ix2 3 20 10 in
       Ok (map bits_of_b64 ps)) = Ok [4589468260265693457; 4607182418800017408]%Z /\
      check_vectors fops32 (cA 16) fs2 ix2 0 (map snd exq_items) = Ok true
  | _ => False end.
Proof.
  split; [apply fx_call; lia|]. split; [apply io_multi_result|]. split; [vm_compute; reflexivity|].
  split; [intros j v H; now apply (exq_tame j v)|]. split.
  - intro i. pose proof C93_exact_example as (_ & _ & _ & _ & _ & H & _). rewrite <- in_rangeN. rewrite (H i). destruct (last_added exq_items i); split; try easy.
  - split; [vm_compute; reflexivity|]. split; [vm_compute; reflexivity|].
    assert (X : match save fops32 (cA 16) GCMem OsOk no_files io_multi 7 with
      | Ok (ix2, fs2, None) => length (rootsN (ib ix2)) = 3%nat /\
      (lenN (c_nns (create_context fops32 ix2)) <? 2 ^ iw (cA 16)) = true /\
      (let* ps := precisions fops32 (cA 16) (isort N.ltb) (isort (pair_less (flt fops32) (feq fops32))) (isort N.ltb) 400 fs2 ix2 3 20 10 in
       Ok (map bits_of_b64 ps)) = Ok [4589468260265693457; 4607182418800017408]%Z /\
      check_vectors fops32 (cA 16) fs2 ix2 0 (map snd exq_items) = Ok true
      | _ => False end) by (vm_compute; repeat split).
    destruct (save fops32 (cA 16) GCMem OsOk no_files io_multi 7) as [[[ix2 fs2] [e|]]|e] eqn:E; try contradiction.
    split; [|exact X]. exists GCMem, 7, ix2. split; [exact E|now left].
Qed.

Print Assumptions C95_limits.
Print Assumptions C95_precision_of_small_limits.
Print Assumptions C95_precision_is_mean_recall.
Print Assumptions C95_precision_one_when_everything_is_listed.
Print Assumptions C95_stored_vectors_match.
Print Assumptions C95_match_means_equal.
Print Assumptions C95_nan_is_a_mismatch.
