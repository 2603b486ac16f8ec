(** The k nearest are determined: two lists that both are the k least elements in order are equal. *)
From Verif Require Import Base Flt Layout Sorts Dist Index Search Spec ForestSpec Lib SortsProof NumProof.
From Coq Require Import Permutation Sorted.
Open Scope N_scope.

Section T.
Context {A : Type}.
Variable P : A -> Prop.
Variable less : A -> A -> bool.
Hypothesis SW : strict_weak P less.
Definition distinct (l : list A) : Prop := forall x y, In x l -> In y l -> less x y = false -> less y x = false -> x = y.

Lemma sorted_unique l1 : forall l2, Forall P l1 -> distinct l1 -> sorted less l1 -> sorted less l2 -> Permutation l1 l2 -> l1 = l2.
Proof.
  induction l1 as [|a l1 IH]; intros l2 F D S1 S2 Hp; [now apply Permutation_nil in Hp|].
  destruct l2 as [|b l2]; [apply Permutation_sym, Permutation_nil in Hp; discriminate|].
  inversion S1 as [|? ? S1' F1]; subst. inversion S2 as [|? ? S2' F2]; subst. rewrite Forall_forall in F1, F2.
  assert (E : a = b).
  { assert (Hb : In b (a :: l1)) by (eapply Permutation_in; [symmetry; exact Hp|now left]).
    assert (Ha : In a (b :: l2)) by (eapply Permutation_in; [exact Hp|now left]).
    destruct Hb as [|Hb]; [assumption|]. destruct Ha as [|Ha]; [now symmetry|].
    apply D; [now left|now right|now apply F2|now apply F1]. }
  subst b. f_equal. inversion F; subst. apply IH; auto.
  - intros x y Hx Hy. apply D; now right.
  - eapply Permutation_cons_inv; eauto.
Qed.
Lemma sorted_app l1 l2 : sorted less l1 -> sorted less l2 -> (forall x y, In x l1 -> In y l2 -> less y x = false) -> sorted less (l1 ++ l2).
Proof.
  intros S1 S2 H. induction S1 as [|a l1 S1 IH F]; [exact S2|]. cbn [app]. constructor.
  - apply IH. intros x y Hx. apply H. now right.
  - rewrite Forall_forall in *. intros y Hy. apply in_app_or in Hy. destruct Hy as [Hy|Hy]; [now apply F|]. apply H; [now left|exact Hy].
Qed.
Lemma topk_unique k c1 c2 r1 r2 : Forall P c1 -> distinct c1 -> Permutation c1 c2 ->
  is_topk less k c1 r1 -> is_topk less k c2 r2 -> r1 = r2.
Proof.
  intros F D Hp (t1 & A1 & A2 & A3 & A4) (t2 & B1 & B2 & B3 & B4).
  assert (G : forall r t c, Permutation c1 c -> Permutation c (r ++ t) -> sorted less r -> (forall x y, In x r -> In y t -> less y x = false) ->
    exists t', sorted less (r ++ t') /\ Permutation c1 (r ++ t')).
  { intros r t c H1 H2 H3 H4.
    assert (Ft : Forall P t).
    { rewrite Forall_forall in *. intros x Hx. apply F. eapply Permutation_in; [symmetry; eapply perm_trans; eassumption|]. apply in_or_app. now right. }
    destruct (sort_pairs2_spec P less SW t Ft) as [Hq Hs]. exists (sort_pairs2 less t). split.
    - apply sorted_app; auto. intros x y Hx Hy. apply H4; [exact Hx|]. eapply Permutation_in; [exact Hq|exact Hy].
    - rewrite H1, H2. apply Permutation_app_head. now symmetry. }
  destruct (G r1 t1 c1 (Permutation_refl _) A1 A3 A4) as (u1 & S1 & P1).
  destruct (G r2 t2 c2 Hp B1 B3 B4) as (u2 & S2 & P2).
  assert (E : r1 ++ u1 = r2 ++ u2).
  { apply sorted_unique; auto.
    - rewrite Forall_forall in *. intros x Hx. apply F. eapply Permutation_in; [symmetry; exact P1|exact Hx].
    - intros x y Hx Hy. apply D; eapply Permutation_in; try (symmetry; exact P1); assumption.
    - rewrite <- P1. exact P2. }
  assert (El : length r1 = length r2) by (rewrite A2, B2, (Permutation_length Hp); reflexivity).
  rewrite <- (firstn_app_exact r1 u1 (length r1) eq_refl), E, El. now apply firstn_app_exact.
Qed.
End T.

Lemma combine_inj {A B} (a a' : list A) (b b' : list B) : length a = length b -> length a' = length b' ->
  combine a b = combine a' b' -> a = a' /\ b = b'.
Proof.
  revert b a' b'. induction a as [|x a IH]; intros [|y b] [|x' a'] [|y' b'] H1 H2 E; try discriminate; auto.
  cbn in E. injection E as -> -> E. destruct (IH b a' b') as [-> ->]; auto.
Qed.
Lemma exact_nearest_unique fo c f q k ids ds ids' ds' : is_float fo -> all_num fo f q ->
  exact_nearest fo c f q k ids ds -> exact_nearest fo c f q k ids' ds' -> ids = ids' /\ ds = ds'.
Proof.
  intros FL Hn (sc & raw & [N1 G1] & L1 & T1 & D1) (sc' & raw' & [N2 G2] & L2 & T2 & D2).
  assert (Hp : Permutation sc sc').
  { apply NoDup_Permutation; [eapply NoDup_map_inv; exact N1|eapply NoDup_map_inv; exact N2|]. intros [d j]. now rewrite G1, G2. }
  assert (E : combine raw ids = combine raw' ids').
  { eapply (topk_unique (fun p : F fo * N => not_nan fo (fst p))); [apply pair_less_sw, float_total, FL| | |exact Hp|exact T1|exact T2].
    - rewrite Forall_forall. intros [d j] H. apply G1 in H. destruct H as (v & Hv & ->). cbn [fst]. eapply Hn; eauto.
    - intros [d j] [d' j'] H1 H2 X Y. pose proof (float_total fo FL) as TC.
      assert (Hd : not_nan fo d) by (apply G1 in H1; destruct H1 as (v & Hv & ->); eapply Hn; eauto).
      assert (Hd' : not_nan fo d') by (apply G1 in H2; destruct H2 as (v & Hv & ->); eapply Hn; eauto).
      unfold pair_less in X, Y. cbn [fst snd] in X, Y.
      apply orb_false_elim in X. apply orb_false_elim in Y. destruct X as [X1 X2], Y as [Y1 Y2].
      rewrite (tc_eq _ _ _ TC d d') in X2 by assumption. rewrite (tc_eq _ _ _ TC d' d) in Y2 by assumption.
      rewrite X1, Y1 in X2, Y2. cbn [negb andb] in X2, Y2. assert (j = j') by lia. subst j'. f_equal.
      apply G1 in H1. apply G1 in H2. destruct H1 as (v & Hv & ->), H2 as (v' & Hv' & ->). congruence. }
  destruct (combine_inj _ _ _ _ L1 L2 E) as [-> ->]. subst. auto.
Qed.
