(** What an exact answer says about the item whose vector is asked for, and about items
    with equal vectors (proofs for PropSelf). *)
From Verif Require Import Base Flt Layout Rng Sorts Alloc Prog Imbalance Dist Build Policy Index Search Spec ForestSpec BuildSpec RealSpec
  Lib SortsProof LayoutProof FltProof SearchProof NumProof AccProof TopProof DistProof.
From Coq Require Import Reals Lra Permutation Sorting.Sorted.
Close Scope R_scope.
Open Scope N_scope.

(** ** Equal vectors *)
Section Dup.
Variable fo : FOps.
Variable c : Cfg.
Lemma exact_dups f q k ids ds i j v : all_num fo f q -> exact_nearest fo c f q k ids ds ->
  f i = Some v -> f j = Some v -> i < j -> In j ids ->
  exists a b d, (a < b)%nat /\ nth_error ids a = Some i /\ nth_error ids b = Some j /\ nth_error ds a = Some d /\ nth_error ds b = Some d.
Proof.
  intros NM (sc & raw & [Hnd Hsc] & Hl & (rest & Hp & Hlen & Hs & Hrest) & Eds) Hi Hj Hij Hin.
  set (g := cos_gap fo q v).
  assert (Nij : nearer fo (g, i) (g, j) = true).
  { unfold nearer. cbn [fst snd]. apply orb_true_iff. right. apply andb_true_iff. split; [exact (NM i v Hi)|]. lia. }
  assert (Hg : forall p, In p (combine raw ids ++ rest) -> exists w, f (snd p) = Some w /\ fst p = cos_gap fo q w).
  { intros [d m] Hm. apply (Permutation_in _ (Permutation_sym Hp)) in Hm. apply Hsc in Hm. exact Hm. }
  assert (Hall : forall m, f m = Some v -> In (g, m) (combine raw ids ++ rest)).
  { intros m Hm. apply (Permutation_in _ Hp). apply Hsc. exists v. split; [exact Hm|reflexivity]. }
  assert (Hgj : In (g, j) (combine raw ids)).
  { destruct (in_combine_nth raw ids j Hl Hin) as (d & Hd).
    destruct (Hg (d, j)) as (w & E1 & E2); [apply in_or_app; now left|]. cbn in E1, E2. rewrite Hj in E1. injection E1 as <-. now subst d. }
  assert (Hgi : In (g, i) (combine raw ids)).
  { pose proof (Hall i Hi) as H. apply in_app_or in H. destruct H as [H|H]; [exact H|].
    pose proof (Hrest _ _ Hgj H). congruence. }
  apply In_nth_error in Hgi. apply In_nth_error in Hgj. destruct Hgi as [a Ha], Hgj as [b Hb].
  assert (Hab : (a < b)%nat).
  { destruct (Nat.lt_trichotomy a b) as [H|[H|H]]; [exact H| |].
    - subst b. rewrite Ha in Hb. injection Hb as H. lia.
    - pose proof (sorted_nth _ _ Hs b a _ _ H Hb Ha) as X. cbn beta in X. congruence. }
  assert (Hn : forall l m t x y, length l = length m -> @nth_error (F fo * N) (combine l m) t = Some (x, y) -> nth_error l t = Some x /\ nth_error m t = Some y).
  { clear. induction l as [|z l IH]; intros m t x y E H; destruct m as [|z' m]; destruct t as [|t]; try discriminate.
    - now injection H as -> ->.
    - cbn in H |- *. apply IH; auto. }
  destruct (Hn _ _ _ _ _ Hl Ha) as [A1 A2]. destruct (Hn _ _ _ _ _ Hl Hb) as [B1 B2].
  exists a, b, (reported fo c g). rewrite Eds. repeat split; auto; now apply map_nth_error.
Qed.
(** All items have the same vector: the answer is the first [k] of them. *)
Lemma exact_all_equal f q k ids ds added v : is_float fo -> all_num fo f q -> exact_nearest fo c f q k ids ds ->
  StronglySorted N.lt added -> (forall i w, f i = Some w <-> In i added /\ w = v) ->
  ids = firstn k added /\ ds = map (fun _ => vec_distance fo c q v) ids.
Proof.
  intros FL NM EX SS Hf. set (g := cos_gap fo q v).
  assert (ND : NoDup added).
  { clear -SS. induction SS as [|a l S1 IH F]; constructor; [|exact IH]. intro H. rewrite Forall_forall in F. specialize (F a H). lia. }
  assert (Hno : forall i j, i < j -> flt fo g g = false -> nearer fo (g, j) (g, i) = false).
  { intros i j Hij Hg. unfold nearer. cbn [fst snd]. rewrite Hg. cbn [orb]. apply andb_false_iff. right. lia. }
  destruct added as [|i0 added0] eqn:Ea.
  - rewrite firstn_nil. assert (X : exact_nearest fo c f q k [] []).
    { exists [], []. split; [split; [constructor|]|].
      - intros d j. split; [intros []|]. intros (w & H & _). apply Hf in H. destruct H as [[] _].
      - split; [reflexivity|]. split; [|reflexivity]. exists []. split; [apply perm_nil|]. split; [cbn; lia|]. split; [constructor|]. intros x y []. }
    destruct (exact_nearest_unique fo c f q k _ _ _ _ FL NM EX X) as [-> ->]. now split.
  - rewrite <- Ea in *. assert (Hg : flt fo g g = false).
    { assert (N0 : not_nan fo g) by (apply (NM i0 v), Hf; rewrite Ea; split; [now left|reflexivity]).
      pose proof (pair_less_sw _ _ _ (float_total fo FL)) as SW. destruct (flt fo g g) eqn:E; [|reflexivity].
      assert (E' : pair_less (flt fo) (feq fo) (g, 0) (g, 0) = true) by (unfold pair_less; cbn [fst snd]; now rewrite E).
      pose proof (sw_asym _ _ SW (g, 0) (g, 0) N0 N0 E'). congruence. }
    assert (X : exact_nearest fo c f q k (firstn k added) (map (fun _ => vec_distance fo c q v) (firstn k added))).
    { exists (map (fun i => (g, i)) added), (map (fun _ => g) (firstn k added)). split; [split|].
      - rewrite map_map. cbn [snd]. rewrite map_id. exact ND.
      - intros d j. rewrite in_map_iff. split.
        + intros (i & [= <- <-] & Hi). exists v. split; [apply Hf; auto|reflexivity].
        + intros (w & H & ->). apply Hf in H. destruct H as [Hj ->]. exists j. auto.
      - split; [apply map_length|]. split.
        + exists (map (fun i => (g, i)) (skipn k added)).
          assert (Ec : combine (map (fun _ => g) (firstn k added)) (firstn k added) = map (fun i => (g, i)) (firstn k added)).
          { generalize (firstn k added). induction l as [|a l IH]; cbn; [reflexivity|]. now rewrite IH. }
          rewrite Ec, <- map_app, firstn_skipn. split; [apply Permutation_refl|]. split; [rewrite !map_length; apply firstn_length|].
          assert (Hsp : StronglySorted N.lt (firstn k added) /\ forall a b, In a (firstn k added) -> In b (skipn k added) -> a < b).
          { clear -SS. rewrite <- (firstn_skipn k added) in SS. revert SS. generalize (firstn k added) (skipn k added). intros l1 l2.
            induction l1 as [|a l1 IH]; intros S0; cbn in S0; [split; [constructor|intros a b []]|].
            inversion S0 as [|x l S1 F]; subst. destruct (IH S1) as [I1 I2]. rewrite Forall_forall in F. split.
            - constructor; [exact I1|]. apply Forall_forall. intros x Hx. apply F, in_or_app. now left.
            - intros x y [<-|Hx] Hy; [apply F, in_or_app; now right|now apply I2]. }
          destruct Hsp as [P1 P2]. split.
          * clear -P1 Hno Hg. induction P1 as [|a l S1 IH F]; cbn; constructor; [exact IH|].
            apply Forall_forall. intros x Hx. apply in_map_iff in Hx. destruct Hx as (b & <- & Hb). rewrite Forall_forall in F. apply Hno; auto.
          * intros x y Hx Hy. apply in_map_iff in Hx. apply in_map_iff in Hy. destruct Hx as (a & <- & Ha), Hy as (b & <- & Hb).
            apply Hno; auto.
        + rewrite map_map. reflexivity. }
    destruct (exact_nearest_unique fo c f q k _ _ _ _ FL NM EX X) as [-> ->]. now split.
Qed.
End Dup.

(** ** The item itself *)
Open Scope R_scope.
Section Self.
Variable fm : Fmt.
Hypothesis FM : is_fmt fm.
Notation fo := (ops fm).
Notation rvs := (map (rv fm)).
Notation u := (unit_of fm).
Variable c : Cfg.
Variable f : N -> option (list (F fo)).
Variable q : list (F fo).
Hypothesis Tq : tame fm q.
Hypothesis Tf : forall j v, f j = Some v -> length v = length q /\ tame fm v.
Notation e := (dist_err fm (length q)).

Lemma gap_dist j v : f j = Some v -> fin fm (cos_gap fo q v) /\ Rabs (rv fm (cos_gap fo q v) - true_gap (rvs q) (rvs v)) <= e.
Proof.
  intro H. destruct (gap_bound fm FM f q Tq Tf j v H) as [F1 E1]. split; [exact F1|]. eapply Rle_trans; [exact E1|].
  unfold dist_err. pose proof (fmt_unit fm FM). apply Rmult_le_compat_r; lra.
Qed.
(** An exact answer that leaves the item out has [k] other items, all within rounding of it. *)
Lemma exact_left_out k ids ds j : f j = Some q -> exact_nearest fo c f q k ids ds -> ~ In j ids ->
  length ids = k /\ forall i v, In i ids -> f i = Some v -> true_gap (rvs q) (rvs v) <= e.
Proof.
  intros Hj (sc & raw & [Hnd Hsc] & Hl & (rest & Hp & Hlen & Hs & Hrest) & Eds) Hout.
  assert (H0 : In (cos_gap fo q q, j) rest).
  { assert (In (cos_gap fo q q, j) sc) as H by (apply Hsc; eauto). apply (Permutation_in _ Hp) in H. apply in_app_or in H.
    destruct H as [H|H]; [|exact H]. apply in_combine_r in H. contradiction. }
  split.
  - pose proof (Permutation_length Hp) as X. rewrite app_length in X. rewrite combine_length in *.
    destruct rest as [|r rest]; [destruct H0|]. cbn in X. lia.
  - intros i v Hi Hv. destruct (in_combine_nth raw ids i Hl Hi) as (d & Hd).
    assert (d = cos_gap fo q v) as ->.
    { assert (In (d, i) sc) as X by (apply (Permutation_in _ (Permutation_sym Hp)), in_or_app; now left).
      apply Hsc in X. destruct X as (v' & E1 & E2). congruence. }
    pose proof (Hrest _ _ Hd H0) as X. destruct (gap_dist i v Hv) as [F1 E1]. destruct (gap_dist j q Hj) as [F0 _].
    apply (nearer_le fm FM) in X; auto. cbn [fst] in X. rewrite (gap_self fm FM q Tq), (proj2 (l_0 fm (fmt_laws fm FM))) in X.
    apply Rabs_bounds in E1. lra.
Qed.
(** If all others are further away than rounding errors, the item comes first. *)
Lemma exact_self_first k ids ds j : f j = Some q -> exact_nearest fo c f q k ids ds -> (1 <= k)%nat ->
  (forall i v, i <> j -> f i = Some v -> e < true_gap (rvs q) (rvs v)) ->
  exists ids' ds', ids = j :: ids' /\ ds = vec_distance fo c q q :: ds'.
Proof.
  intros Hj (sc & raw & [Hnd Hsc] & Hl & (rest & Hp & Hlen & Hs & Hrest) & Eds) Hk Hfar.
  assert (H0 : In (cos_gap fo q q, j) sc) by (apply Hsc; eauto).
  assert (HB : forall d i, In (d, i) sc -> i <> j -> nearer fo (cos_gap fo q q, j) (d, i) = false -> False).
  { intros d i Hi Hij X. apply Hsc in Hi. destruct Hi as (v & Hv & ->).
    destruct (gap_dist i v Hv) as [F1 E1]. destruct (gap_dist j q Hj) as [F0 _].
    apply (nearer_le fm FM) in X; auto. cbn [fst] in X. rewrite (gap_self fm FM q Tq), (proj2 (l_0 fm (fmt_laws fm FM))) in X.
    apply Rabs_bounds in E1. pose proof (Hfar i v Hij Hv). lra. }
  assert (Hsub : forall p, In p (combine raw ids ++ rest) -> In p sc) by (intros p X; now apply (Permutation_in _ (Permutation_sym Hp))).
  assert (Hlen0 : (1 <= length sc)%nat) by (destruct sc; [destruct H0|cbn; lia]).
  destruct raw as [|d raw]; destruct ids as [|i ids]; try discriminate; [cbn in Hlen; lia|].
  assert (Hi : In (d, i) sc) by (apply Hsub; now left).
  assert (Eij : i = j).
  { destruct (N.eq_dec i j) as [E|E]; [exact E|exfalso]. apply (HB d i Hi E).
    apply (Permutation_in _ Hp) in H0. cbn [combine app] in H0. destruct H0 as [H0|H0]; [injection H0 as _ X; congruence|].
    apply in_app_or in H0. destruct H0 as [H0|H0].
    - cbn [combine] in Hs. inversion Hs as [|x l S1 F1]; subst. rewrite Forall_forall in F1. apply (F1 _ H0).
    - apply (Hrest (d, i)); [now left|exact H0]. }
  subst i. apply Hsc in Hi. destruct Hi as (v & Hv & ->). rewrite Hj in Hv. injection Hv as <-.
  exists ids, (map (reported fo c) raw). split; [reflexivity|]. rewrite Eds. reflexivity.
Qed.
End Self.
