(** Two searches whose waiting nodes correspond note the same entries. *)
From Verif Require Import Base Flt Layout Alloc Prog Sorts Dist Build Index Search Spec ForestSpec OrderSpec
  Lib LayoutProof FltProof SortsProof NumProof SearchProof QueryProof OrderProof.
From Coq Require Import Permutation.
Open Scope N_scope.

Section V.
Variable fo : FOps.
Variable c : Cfg.
Hypothesis FL : is_float fo.
Hypothesis HK2 : 2 <= maxK fo c.
Notation NSZ := (nodeSize fo c).
Notation num := (not_nan fo).
Notation TC := (float_total fo FL).

(** ** Numbers neither of which is less *)
Definition eqv (a b : F fo) : Prop := flt fo a b = false /\ flt fo b a = false.
Lemma eqv_refl a : num a -> eqv a a.
Proof. intro H. split; now apply (num_irr fo FL). Qed.
Lemma eqv_sym a b : eqv a b -> eqv b a.
Proof. intros [H1 H2]. split; assumption. Qed.
Lemma eqv_trans a b d : num a -> num b -> num d -> eqv a b -> eqv b d -> eqv a d.
Proof.
  intros Na Nb Nd [H1 H2] [H3 H4]. split.
  - apply (tc_trans _ _ _ TC d b a); assumption.
  - apply (tc_trans _ _ _ TC a b d); assumption.
Qed.
Lemma eqv_lt a a' b b' : num a -> num a' -> num b -> num b' -> eqv a a' -> eqv b b' -> flt fo a b = flt fo a' b'.
Proof.
  assert (G : forall a a' b b', num a -> num a' -> num b -> num b' -> eqv a a' -> eqv b b' -> flt fo a b = false -> flt fo a' b' = false).
  { clear a a' b b'. intros a a' b b' Na Na' Nb Nb' [H1 H2] [H3 H4] H. apply (tc_trans _ _ _ TC b' a a'); auto.
    apply (tc_trans _ _ _ TC b' b a); auto. }
  intros. destruct (flt fo a b) eqn:E1, (flt fo a' b') eqn:E2; auto.
  - rewrite (G a' a b' b) in E1; auto using eqv_sym.
  - rewrite (G a a' b b') in E2; auto.
Qed.
Lemma eqv_feq a b : num a -> num b -> feq fo a b = true <-> eqv a b.
Proof.
  intros Na Nb. rewrite (tc_eq _ _ _ TC a b Na Nb). unfold eqv. destruct (flt fo a b), (flt fo b a); cbn; intuition congruence.
Qed.
Lemma nearer_neither a b : num (fst a) -> num (fst b) -> nearer fo a b = false -> nearer fo b a = false ->
  eqv (fst a) (fst b) /\ snd a = snd b.
Proof.
  clear HK2. intros Na Nb H1 H2. unfold nearer in *. apply orb_false_iff in H1. apply orb_false_iff in H2.
  destruct H1 as [H1 H3], H2 as [H2 H4]. assert (E : eqv (fst a) (fst b)) by (split; assumption). split; [exact E|].
  rewrite (proj2 (eqv_feq _ _ Na Nb) E) in H3. rewrite (proj2 (eqv_feq _ _ Nb Na) (eqv_sym _ _ E)) in H4. cbn in H3, H4. lia.
Qed.
Lemma min_eqv p a s p' a' s' : num a -> num a' -> num s -> num s' -> is_min fo p a s -> is_min fo p' a' s' -> eqv a a' -> eqv s s' -> eqv p p'.
Proof.
  assert (G : forall p a s p' a' s', num a -> num a' -> num s -> num s' -> is_min fo p a s -> is_min fo p' a' s' -> eqv a a' -> eqv s s' ->
    flt fo p p' = false).
  { clear p a s p' a' s'. intros p a s p' a' s' Na Na' Ns Ns' M M' Ea Es. pose proof (min_num _ _ _ _ M Na Ns) as Np.
    pose proof (min_num _ _ _ _ M' Na' Ns') as Np'. destruct M as (D & M1 & M2), M' as (_ & M1' & M2'). destruct D as [-> | ->].
    - rewrite (eqv_lt a a' p' p'); auto using eqv_refl.
    - rewrite (eqv_lt s s' p' p'); auto using eqv_refl. }
  intros Na Na' Ns Ns' M M' Ea Es. split; [apply (G p a s p' a' s')|apply (G p' a' s' p a s)]; auto using eqv_sym.
Qed.

(** ** Corresponding entries *)
Section E.
Variables (v v' : option buf) (ni : N) (q : list (F fo)).
Variable E : F fo * N -> F fo * N -> Prop.
Hypothesis E_order : forall a a' b b', E a a' -> E b b' -> nearer fo a b = nearer fo a' b'.
Hypothesis E_swap : forall x y' y x', E x y' -> E y x' -> nearer fo x' y' = false -> nearer fo y' x' = false -> E x x' /\ E y y'.
Hypothesis E_lists : forall d i d' i' xs, E (d, i) (d', i') -> lists_items fo c v ni i xs -> lists_items fo c v' ni i' xs.
Hypothesis E_splits : forall d i d' i' l r bs, E (d, i) (d', i') -> splits fo c v i l r -> vread v (addr fo c i) NSZ = Ok bs ->
  splits fo c v' i' l r /\ forall bs', vread v' (addr fo c i') NSZ = Ok bs' ->
    forall pl pr pl' pr', is_min fo pl d (fneg fo (side_value fo c bs q)) -> is_min fo pr d (side_value fo c bs q) ->
      is_min fo pl' d' (fneg fo (side_value fo c bs' q)) -> is_min fo pr' d' (side_value fo c bs' q) ->
      E (pl, l) (pl', l) /\ E (pr, r) (pr', r).

Lemma pop_related x rest bag' x' rest' : (exists l, Permutation bag' l /\ Forall2 E (x :: rest) l) ->
  Permutation bag' (x' :: rest') -> (forall p, In p rest -> nearer fo p x = false) -> (forall p, In p rest' -> nearer fo p x' = false) ->
  E x x' /\ exists l, Permutation rest' l /\ Forall2 E rest l.
Proof.
  intros (l & P & F2) P' M M'. inversion F2 as [|? y' ? rest2 Hxy Hr]; subst. rewrite P in P'.
  assert (Hin : In x' (y' :: rest2)) by (eapply Permutation_in; [symmetry; exact P'|now left]).
  destruct Hin as [<-|Hin].
  - split; [exact Hxy|]. exists rest2. split; [|exact Hr]. symmetry. now apply Permutation_cons_inv in P'.
  - destruct (in_split _ _ Hin) as (u & w & ->). destruct (Forall2_app_inv_r _ _ Hr) as (ru & rw0 & Hu & Hw & ->).
    inversion Hw as [|y ? rw ? Hyx Hw']; subst.
    assert (P2 : Permutation rest' (y' :: u ++ w)).
    { apply Permutation_cons_inv with (a := x'). rewrite <- P'. rewrite perm_swap. constructor. symmetry. apply Permutation_middle. }
    destruct (E_swap x y' y x' Hxy Hyx) as [E1 E2].
    + rewrite <- (E_order y x' x y' Hyx Hxy). apply M. apply in_or_app. right. now left.
    + apply M'. eapply Permutation_in; [symmetry; exact P2|]. now left.
    + split; [exact E1|]. exists (u ++ y' :: w). split; [rewrite P2; apply Permutation_middle|].
      apply Forall2_app; [exact Hu|]. now constructor.
Qed.
Lemma related_perm bag bag2 bag' : Permutation bag bag2 -> (exists l, Permutation bag' l /\ Forall2 E bag l) ->
  exists l, Permutation bag' l /\ Forall2 E bag2 l.
Proof.
  intros P (l & Pl & F2). destruct (Permutation_Forall2 P F2) as (l2 & P2 & G). exists l2. split; [now rewrite Pl|exact G].
Qed.

Theorem visits_related limit bag ys : visits fo c v ni q limit bag ys -> forall bag' ys',
  (exists l, Permutation bag' l /\ Forall2 E bag l) -> visits fo c v' ni q limit bag' ys' -> ys' = ys.
Proof.
  induction 1 as [limit bag H|limit|limit bag d i rest xs ys Hl P Hmin Hi Hv IH|limit bag d i rest l r bs pl pr ys Hl P Hmin Hs Hb Mpl Mpr Hv IH];
    intros bag' ys' Rel Hv'.
  - inversion Hv'; subst; try lia; reflexivity.
  - destruct Rel as (l & P & F2). inversion F2; subst. symmetry in P. apply Permutation_nil in P. subst bag'.
    inversion Hv' as [| |? ? d0 i0 ? ? ? ? P0|? ? d0 i0 ? ? ? ? ? ? ? ? P0]; subst; try reflexivity; apply Permutation_nil in P0; discriminate.
  - apply (related_perm _ _ _ P) in Rel.
    inversion Hv' as [|? Hb Hy|? ? d' i' rest' xs' zs Hl' P' Hmin' Hi' Hv2|? ? d' i' rest' l' r' bs' pl' pr' zs Hl' P' Hmin' Hs' Hb' Mpl' Mpr' Hv2]; subst; try lia.
    + destruct Rel as (l & P0 & F2). apply Permutation_nil in P0. subst. inversion F2.
    + destruct (pop_related _ _ _ _ _ Rel P' Hmin Hmin') as [Ex Rel'].
      pose proof (E_lists _ _ _ _ _ Ex Hi) as Hi2. rewrite (lists_items_fun _ _ _ _ _ _ _ Hi' Hi2) in *. f_equal. eapply IH; eauto.
    + destruct (pop_related _ _ _ _ _ Rel P' Hmin Hmin') as [Ex Rel'].
      exfalso. eapply lists_not_splits; [exact HK2|eapply E_lists; eauto|exact Hs'].
  - apply (related_perm _ _ _ P) in Rel.
    inversion Hv' as [|? Hb0 Hy|? ? d' i' rest' xs' zs Hl' P' Hmin' Hi' Hv2|? ? d' i' rest' l' r' bs' pl' pr' zs Hl' P' Hmin' Hs' Hb' Mpl' Mpr' Hv2]; subst; try lia.
    + destruct Rel as (l0 & P0 & F2). apply Permutation_nil in P0. subst. inversion F2.
    + destruct (pop_related _ _ _ _ _ Rel P' Hmin Hmin') as [Ex Rel'].
      exfalso. destruct (E_splits _ _ _ _ _ _ _ Ex Hs Hb) as [Hs2 _]. eapply lists_not_splits; eauto.
    + destruct (pop_related _ _ _ _ _ Rel P' Hmin Hmin') as [Ex (l0 & P0 & F2)].
      destruct (E_splits _ _ _ _ _ _ _ Ex Hs Hb) as [Hs2 Hc]. destruct (splits_fun _ _ _ _ _ _ _ _ Hs' Hs2) as [-> ->].
      destruct (Hc _ Hb' _ _ _ _ Mpl Mpr Mpl' Mpr') as [C1 C2].
      eapply IH; [|exact Hv2]. exists ((pl', l) :: (pr', r) :: l0). split; [now rewrite P0|]. constructor; [exact C1|]. now constructor.
Qed.
End E.

(** ** The entries are determined *)
Theorem visits_determined v ni q roots limit ys ys' : all_sides fo c num v roots q ->
  visits fo c v ni q limit (at_start fo roots) ys -> visits fo c v ni q limit (at_start fo roots) ys' -> ys' = ys.
Proof.
  intros AS H H'. set (B := fun i => exists r d, In r roots /\ descends fo c v r d i).
  set (E := fun a b : F fo * N => num (fst a) /\ num (fst b) /\ eqv (fst a) (fst b) /\ snd a = snd b /\ B (snd a)).
  eapply (visits_related v v ni q E) with (5 := H); [| | | | |exact H'].
  - intros [d i] [d' i'] [e j] [e' j'] (N1 & N2 & E1 & E2 & _) (N3 & N4 & E3 & E4 & _). cbn [fst snd] in *. subst.
    unfold nearer. cbn [fst snd]. f_equal; [now apply eqv_lt|]. f_equal.
    rewrite !(tc_eq _ _ _ TC) by assumption. rewrite (eqv_lt d d' e e'), (eqv_lt e e' d d') by assumption. reflexivity.
  - intros [d i] [d' i'] [e j] [e' j'] (N1 & N2 & E1 & E2 & B1) (N3 & N4 & E3 & E4 & B2) M1 M2. cbn [fst snd] in *. subst.
    destruct (nearer_neither (e', j') (d', i') N4 N2 M1 M2) as [Q1 Q2]. cbn [fst snd] in Q1, Q2. subst j'.
    split; (split; [assumption|]); (split; [assumption|]); cbn [fst snd]; (split; [|split; [reflexivity|assumption]]).
    + apply eqv_trans with d'; auto using eqv_sym.
    + apply eqv_trans with e'; auto using eqv_sym.
  - intros d i d' i' xs (_ & _ & _ & E2 & _). cbn [snd] in E2. now subst.
  - intros d i d' i' l r bs (N1 & N2 & E1 & E2 & B1) Hs Hb. cbn [fst snd] in *. subst i'. split; [exact Hs|].
    intros bs' Hb' pl pr pl' pr' M1 M2 M3 M4. rewrite Hb in Hb'. injection Hb' as <-.
    assert (Ns : num (side_value fo c bs q)) by (destruct B1 as (r0 & k & H1 & H2); eapply AS; eauto).
    pose proof (neg_num fo _ FL Ns) as Nn. destruct (below_closed fo c v roots _ _ _ B1 Hs) as [B2 B3].
    split; (split; [eapply min_num; eauto|]); (split; [eapply min_num; eauto|]); cbn [fst snd]; (split; [|split; [reflexivity|assumption]]).
    + eapply (min_eqv pl d (fneg fo (side_value fo c bs q)) pl' d' (fneg fo (side_value fo c bs q))); auto. now apply eqv_refl.
    + eapply (min_eqv pr d (side_value fo c bs q) pr' d' (side_value fo c bs q)); auto. now apply eqv_refl.
  - exists (at_start fo roots). split; [reflexivity|]. unfold at_start.
    assert (G : forall l, incl l roots -> Forall2 E (map (fun r => (finf fo, r)) l) (map (fun r => (finf fo, r)) l)).
    { induction l as [|r l IH]; intro Hl; [constructor|]. cbn [map]. constructor; [|apply IH; intros x Hx; apply Hl; now right].
      unfold E. cbn [fst snd]. pose proof (inf_num fo FL). repeat split; auto; try (now apply (num_irr fo FL)).
      exists r, 0%nat. split; [apply Hl; now left|apply de_here]. }
    apply G. intros x Hx. exact Hx.
Qed.
End V.
