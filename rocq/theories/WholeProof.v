(** A query that inspects as many entries as one tree lists goes through that tree. *)
From Verif Require Import Base Flt Layout Alloc Prog Sorts Dist Build Index Search Spec ForestSpec OrderSpec
  Lib LayoutProof FltProof SortsProof NumProof SearchProof QueryProof TreeProof AfterProof AccProof OrderProof.
From Coq Require Import Permutation.
Open Scope N_scope.

Section W.
Variable fo : FOps.
Variable c : Cfg.
Hypothesis OK : CfgOK fo c.
Hypothesis FL : is_float fo.
Notation NSZ := (nodeSize fo c).
Notation K := (maxK fo c).
Notation less := (pair_less (flt fo) (feq fo)).
Notation num := (not_nan fo).

Section B.
Variables (v : option buf) (ni : N) (vec : list (F fo)).
Variable B : N -> Prop.
Hypothesis Bcl : forall i l r, B i -> splits fo c v i l r -> B l /\ B r.
Hypothesis Bnum : forall i l r bs, B i -> splits fo c v i l r -> vread v (addr fo c i) NSZ = Ok bs -> num (side_value fo c bs vec).

(** If every priority in [A] is less than every one in [C], and the nodes of [A] list no
    more items than are inspected, all of them are found. *)
Lemma visits_whole : 2 <= K -> forall limit bag ys, visits fo c v ni vec limit bag ys ->
  forall A C zs m, Permutation bag (A ++ C) ->
  Forall (fun p => num (fst p) /\ B (snd p)) A -> Forall (fun p => num (fst p)) C ->
  (forall a b, In a A -> In b C -> flt fo (fst a) (fst b) = true) ->
  reach_all fo c v ni (map snd A) zs m -> (Z.of_N (lenN zs) <= limit)%Z ->
  forall j, In j zs -> In j ys.
Proof.
  intro HK.
  assert (Front : forall d i rest A C, Permutation (A ++ C) ((d, i) :: rest) ->
    (forall p, In p rest -> nearer fo p (d, i) = false) ->
    Forall (fun p => num (fst p) /\ B (snd p)) A ->
    (forall a b, In a A -> In b C -> flt fo (fst a) (fst b) = true) -> A <> [] ->
    exists A', Permutation A ((d, i) :: A') /\ Permutation rest (A' ++ C)).
  { intros d i rest A C P Hmin FA Hlt Hne.
    assert (Hin : In (d, i) (A ++ C)) by (eapply Permutation_in; [symmetry; exact P|now left]).
    apply in_app_or in Hin. destruct Hin as [Hin|Hin].
    - destruct (in_split _ _ Hin) as (a1 & a2 & ->). exists (a1 ++ a2). split; [symmetry; apply Permutation_middle|].
      apply Permutation_cons_inv with (a := (d, i)). rewrite <- P, <- !app_assoc. cbn [app].
      symmetry. apply (Permutation_middle a1 (a2 ++ C) (d, i)).
    - exfalso. destruct A as [|a A]; [now apply Hne|].
      assert (Ha : flt fo (fst a) d = true) by (apply (Hlt a (d, i)); [now left|exact Hin]).
      assert (Hia : In a ((d, i) :: rest)) by (eapply Permutation_in; [exact P|now left]).
      destruct Hia as [<-|Hia].
      + cbn [fst] in Ha. inversion FA as [|? ? [Na _] _]; subst. cbn [fst] in Na. rewrite (num_irr fo FL _ Na) in Ha. discriminate.
      + specialize (Hmin a Hia). unfold nearer in Hmin. cbn [fst snd] in Hmin. rewrite Ha in Hmin. discriminate. }
  induction 1 as [limit bag H|limit|limit bag d i rest xs ys Hl P Hmin Hi Hv IH|limit bag d i rest l r bs pl pr ys Hl P Hmin Hs Hb Mpl Mpr Hv IH];
    intros A C zs m PA FA FC Hlt Hr Hz j Hj.
  - destruct zs; [contradiction|]. rewrite lenN_cons in Hz. lia.
  - apply Permutation_nil in PA. apply app_eq_nil in PA. destruct PA as [-> _]. inversion Hr; subst. contradiction.
  - destruct A as [|a A0]; [inversion Hr; subst; contradiction|]. set (A := a :: A0) in *.
    rewrite PA in P. destruct (Front d i rest A C) as (A' & P1 & P2); auto; [discriminate|].
    destruct (reach_all_perm fo c v ni _ _ (Permutation_map snd P1) _ _ Hr) as (ws & Hw & Hpw). cbn [map snd] in Hw.
    inversion Hw as [|? ? xs0 ys0 m0 n0 Hi0 Hb0]; subst.
    assert (xs0 = xs) as ->.
    { inversion Hi0; subst; [eapply lists_items_fun; eauto|exfalso; eapply lists_not_splits; eauto]. }
    pose proof (Permutation_Forall P1 FA) as FA1. inversion FA1; subst.
    apply (Permutation_in _ Hpw) in Hj. apply in_app_or in Hj. apply in_or_app. destruct Hj as [Hj|Hj]; [now left|right].
    refine (IH A' C ys0 _ P2 _ FC _ Hb0 _ j Hj).
    + assumption.
    + intros a' b Ha Hb. apply Hlt; [|exact Hb]. eapply Permutation_in; [symmetry; exact P1|now right].
    + rewrite (perm_lenN _ _ Hpw), lenN_app in Hz. lia.
  - destruct A as [|a A0]; [inversion Hr; subst; contradiction|]. set (A := a :: A0) in *.
    rewrite PA in P. destruct (Front d i rest A C) as (A' & P1 & P2); auto; [discriminate|].
    destruct (reach_all_perm fo c v ni _ _ (Permutation_map snd P1) _ _ Hr) as (ws & Hw & Hpw). cbn [map snd] in Hw.
    inversion Hw as [|? ? xs0 ys0 m0 n0 Hi0 Hb0]; subst.
    inversion Hi0 as [? ? Hli|? l' r' xs1 ys1 m1 n1 Hs' Hl1 Hr1]; subst; [exfalso; eapply lists_not_splits; eauto|].
    destruct (splits_fun fo c _ _ _ _ _ _ Hs Hs') as [<- <-].
    pose proof (Permutation_Forall P1 FA) as FA1. inversion FA1 as [|? ? [Nd Bi] FA2]; subst. cbn [fst snd] in Nd, Bi.
    pose proof (Bnum _ _ _ _ Bi Hs Hb) as Nm. destruct (Bcl _ _ _ Bi Hs) as [Bl Br].
    pose proof (min_num fo _ _ _ Mpr Nd Nm) as Npr. pose proof (min_num fo _ _ _ Mpl Nd (neg_num fo _ FL Nm)) as Npl.
    apply (Permutation_in _ Hpw) in Hj. rewrite <- app_assoc in Hj.
    refine (IH ((pl, l) :: (pr, r) :: A') C (xs1 ++ ys1 ++ ys0) (m1 + (n1 + n0))%nat _ _ FC _ _ _ j Hj).
    + cbn [app]. now rewrite P2.
    + constructor; [split; assumption|]. constructor; [split; assumption|exact FA2].
    + assert (Hd : forall b, In b C -> flt fo d (fst b) = true).
      { intros b Hb'. apply (Hlt (d, i) b); [|exact Hb']. eapply Permutation_in; [symmetry; exact P1|now left]. }
      assert (Hlow : forall p x b, is_min fo p d x -> num p -> In b C -> flt fo p (fst b) = true).
      { intros p x b (_ & Hp & _) Np Hb'. eapply (num_lt_trans fo FL); [exact Np|exact Nd| |exact Hp|now apply Hd].
        rewrite Forall_forall in FC. now apply FC. }
      intros a' b [<-|[<-|Ha]] Hb'; cbn [fst].
      * eapply Hlow; eauto.
      * eapply Hlow; eauto.
      * apply Hlt; [|exact Hb']. eapply Permutation_in; [symmetry; exact P1|now right].
    + cbn [map snd]. constructor; [exact Hl1|]. now constructor.
    + rewrite (perm_lenN _ _ Hpw), !lenN_app in Hz. rewrite !lenN_app. lia.
Qed.
End B.

(** The tree with the least root number is gone through. *)
Lemma whole_tree v ni vec roots r0 limit ys zs m :
  In r0 roots -> (forall r, In r roots -> r0 <= r) -> all_sides fo c (finite fo) v roots vec ->
  visits fo c v ni vec limit (at_start fo roots) ys ->
  reach fo c v ni r0 zs m -> (Z.of_N (lenN zs) <= limit)%Z -> forall j, In j zs -> In j ys.
Proof.
  intros Hr0 Hle FS Hv Hre Hz j Hj. pose proof (maxK_ge2 fo c OK) as HK.
  inversion Hv as [? ? H|? H|? ? d i rest xs ys' Hl P Hmin Hi Hv'|? ? d i rest l r bs pl pr ys' Hl P Hmin Hs Hb Mpl Mpr Hv']; subst.
  - destruct zs; [contradiction|]. rewrite lenN_cons in Hz. lia.
  - destruct roots; [contradiction|discriminate].
  - destruct (start_min fo FL _ _ _ _ P Hmin r0 Hr0 Hle) as (-> & -> & FR).
    assert (zs = xs) as ->.
    { inversion Hre; subst; [eapply lists_items_fun; eauto|exfalso; eapply lists_not_splits; eauto]. }
    apply in_or_app. now left.
  - destruct (start_min fo FL _ _ _ _ P Hmin r0 Hr0 Hle) as (-> & -> & FR).
    inversion Hre as [? ? Hli|? l' r' xs1 ys1 m1 n1 Hs' Hl1 Hr1]; subst; [exfalso; eapply lists_not_splits; eauto|].
    destruct (splits_fun fo c _ _ _ _ _ _ Hs Hs') as [<- <-].
    pose proof (B_root fo c v roots r0 Hr0) as B0. destruct (below_closed fo c v roots _ _ _ B0 Hs) as [Bl Br].
    destruct (FS r0 0%nat r0 l r bs Hr0 (de_here _ _ _ _) Hs Hb) as [F1 F2].
    pose proof (B_num fo c FL v vec roots FS _ _ _ _ B0 Hs Hb) as Nm. pose proof (neg_num fo _ FL Nm) as Nn. pose proof (inf_num fo FL) as Ni.
    assert (Npl : num pl) by (eapply min_num; eauto). assert (Npr : num pr) by (eapply min_num; eauto).
    assert (pl = fneg fo (side_value fo c bs vec)) as -> by (eapply min_least; eauto).
    assert (pr = side_value fo c bs vec) as -> by (eapply min_least; eauto).
    eapply (visits_whole v ni vec _ (below_closed fo c v roots) (B_num fo c FL v vec roots FS) HK _ _ _ Hv' [(fneg fo (side_value fo c bs vec), l); (side_value fo c bs vec, r)] rest (xs1 ++ ys1 ++ []) (m1 + (n1 + 0))%nat).
    + reflexivity.
    + constructor; [split; assumption|]. constructor; [split; assumption|constructor].
    + eapply Forall_impl; [|exact FR]. intros p [-> _]. exact Ni.
    + intros a b Ha Hb'. rewrite Forall_forall in FR. destruct (FR b Hb') as [-> _]. destruct Ha as [<-|[<-|[]]]; assumption.
    + cbn [map snd]. constructor; [exact Hl1|]. constructor; [exact Hr1|constructor].
    + rewrite app_nil_r. exact Hz.
    + rewrite app_nil_r. exact Hj.
Qed.

Variable sortIx : list N -> list N.
Variable sortPairs : list (F fo * N) -> list (F fo * N).
Hypothesis HsI : sort_slice N.ltb sortIx.
Hypothesis HsP : sort_slice less sortPairs.
Notation query := (get_nns_by_vector fo c sortIx sortPairs).

Lemma least_root (l : list N) : l <> [] -> exists r0, In r0 l /\ forall r, In r l -> r0 <= r.
Proof.
  induction l as [|a l IH]; [easy|]. intros _. destruct l as [|b l].
  - exists a. split; [now left|]. intros r [->|[]]. lia.
  - destruct IH as (r0 & H1 & H2); [discriminate|]. destruct (N.le_gt_cases a r0) as [H|H].
    + exists a. split; [now left|]. intros r [->|Hr]; [lia|]. specialize (H2 r Hr). lia.
    + exists r0. split; [now right|]. intros r [->|Hr]; [lia|auto].
Qed.

(** Inspecting as many entries as a tree lists is enough for the exact answer. *)
Lemma forest_whole_of fuel fs ix f q n inspect bc ids ds bc' :
  forest fo c (view fs ix) (n_items ix) (rootsN (ib ix)) f -> rootsN (ib ix) <> [] -> lenN q = vlen c ->
  all_sides fo c (finite fo) (view fs ix) (rootsN (ib ix)) q ->
  query fuel fs ix q n inspect bc = Ok (ids, ds, bc') -> lenN (c_nns bc) < 2 ^ iw c ->
  (forall r xs m, In r (rootsN (ib ix)) -> tree_lists fo c (view fs ix) (n_items ix) f r xs m -> (Z.of_N (lenN xs) <= the_limit ix n inspect)%Z) ->
  all_num fo f q ->
  exact_nearest fo c f q (Z.to_nat n) ids ds.
Proof.
  intros FO Hne Hq FS E Hc Hlim Hnum.
  assert (NS : all_sides fo c num (view fs ix) (rootsN (ib ix)) q).
  { intros r d i l r' bs H1 H2 H3 H4. apply (finite_num fo _ FL). eapply FS; eauto. }
  destruct (query_visits fo c FL sortIx sortPairs HsI HsP _ _ _ _ _ _ _ _ _ _ E Hc NS) as (ys & qn & Hqn & Hv & Hi & Hn).
  destruct (query_node_ok fo c OK q FL Hq) as (qn' & Hqn' & Hvec & Hnr). assert (qn' = qn) by congruence. subst qn'.
  destruct (least_root _ Hne) as (r0 & Hr0 & Hle).
  destruct (fr_tree _ _ _ _ _ _ FO r0 Hr0) as (zs & m & TL).
  assert (Hall : forall j w, f j = Some w -> In j ys).
  { intros j w Hj. eapply (whole_tree _ _ _ _ r0 _ _ zs m Hr0 Hle FS Hv); [exact (tl_reach _ _ _ _ _ _ _ _ TL)|exact (Hlim _ _ _ Hr0 TL)|eapply tl_all; eauto]. }
  assert (Hys : forall j, In j ys -> j < n_items ix).
  { destruct (visits_expands fo c _ _ _ _ _ _ Hv) as (rest & He & _). unfold at_start in He. rewrite map_map, map_id in He.
    destruct (forest_lists fo c _ _ _ _ FO) as (zs' & m' & Hre & _ & _ & Hlt & _).
    destruct (expands_rest fo c _ _ _ _ _ (maxK_ge2 _ _ OK) He _ _ Hre) as (zs2 & m2 & _ & P).
    intros j Hj. apply Hlt. eapply Permutation_in; [symmetry; exact P|]. apply in_or_app. auto. }
  assert (HD : forall j d, In j ys -> item_dist fo c (view fs ix) qn j d <-> exists w, f j = Some w /\ d = cos_gap fo q w).
  { intros j d Hj. rewrite <- Hvec. eapply item_dist_iff; eauto. }
  destruct Hn as (sc & raw & [Hnd Hsc] & Hl & Ht & Hds).
  { intros j d Hj Hd. apply HD in Hd; [|exact Hj]. destruct Hd as (w & Hw & ->). eapply Hnum; eauto. }
  exists sc, raw. split; [|auto]. split; [exact Hnd|]. intros d j. rewrite Hsc. split.
  - intros [H1 H2]. now apply HD.
  - intros (w & Hw & ->). assert (In j ys) by (eapply Hall; eauto). split; [assumption|]. apply HD; eauto.
Qed.
(** So inspecting as many as there are items is. *)
Lemma forest_whole fuel fs ix f q n inspect bc ids ds bc' :
  forest fo c (view fs ix) (n_items ix) (rootsN (ib ix)) f -> rootsN (ib ix) <> [] -> lenN q = vlen c ->
  all_sides fo c (finite fo) (view fs ix) (rootsN (ib ix)) q ->
  query fuel fs ix q n inspect bc = Ok (ids, ds, bc') -> lenN (c_nns bc) < 2 ^ iw c ->
  (Z.of_N (n_items ix) <= the_limit ix n inspect)%Z -> all_num fo f q ->
  exact_nearest fo c f q (Z.to_nat n) ids ds.
Proof.
  intros FO Hne Hq FS E Hc Hlim Hnum. eapply forest_whole_of; eauto.
  intros r xs m _ TL. pose proof (tl_len _ _ _ _ _ _ _ _ TL). lia.
Qed.
End W.
