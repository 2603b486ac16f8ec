(** Proofs about sorting and the priority queue. *)
From Verif Require Import Base Sorts Spec Lib.
From Coq Require Import Permutation Sorted.
Open Scope nat_scope.

(** ** Positions *)
Section Pos.
Context {A : Type}.
Implicit Types s : list A.

Definition tr (i j k : nat) : nat := if Nat.eqb k i then j else if Nat.eqb k j then i else k.

Lemma length_set_nth s i (a : A) : length (set_nth s i a) = length s.
Proof. revert i; induction s; intros [|i]; cbn; auto. Qed.
Lemma nth_error_set_nth s i a k :
  i < length s -> nth_error (set_nth s i a) k = if Nat.eqb k i then Some a else nth_error s k.
Proof.
  revert i k; induction s as [|x s IH]; intros i k H; cbn in H; [lia|].
  destruct i, k; cbn; auto. apply IH. lia.
Qed.
Lemma length_swap s i j : length (swap s i j) = length s.
Proof. unfold swap. destruct (nth_error s i), (nth_error s j); rewrite ?length_set_nth; auto. Qed.
Lemma nth_error_swap s i j k :
  i < length s -> j < length s -> nth_error (swap s i j) k = nth_error s (tr i j k).
Proof.
  intros Hi Hj. unfold swap, tr.
  destruct (nth_error s i) as [a|] eqn:Ei; [|apply nth_error_None in Ei; lia].
  destruct (nth_error s j) as [b|] eqn:Ej; [|apply nth_error_None in Ej; lia].
  rewrite nth_error_set_nth by (rewrite length_set_nth; lia).
  rewrite nth_error_set_nth by lia.
  destruct (Nat.eqb_spec k j), (Nat.eqb_spec k i); subst; congruence.
Qed.
Lemma tr_lt i j k n : i < n -> j < n -> k < n -> tr i j k < n.
Proof. unfold tr. destruct (Nat.eqb k i), (Nat.eqb k j); lia. Qed.
Lemma tr_tr i j k : tr i j (tr i j k) = k.
Proof.
  unfold tr. destruct (Nat.eqb_spec k i), (Nat.eqb_spec k j);
  repeat match goal with |- context [Nat.eqb ?a ?b] => destruct (Nat.eqb_spec a b) end; lia.
Qed.

Lemma set_nth_split s i a x : nth_error s i = Some x -> set_nth s i a = firstn i s ++ a :: skipn (S i) s.
Proof. revert i; induction s as [|y s IH]; intros [|i] H; cbn in *; try congruence. f_equal; auto. Qed.

Lemma Permutation_swap s i j : Permutation (swap s i j) s.
Proof.
  unfold swap. destruct (nth_error s i) as [a|] eqn:Ei; [|reflexivity].
  destruct (nth_error s j) as [b|] eqn:Ej; [|reflexivity].
  apply Permutation_sym, Permutation_nth_error.
  assert (Hi : i < length s) by (apply nth_error_Some; congruence).
  assert (Hj : j < length s) by (apply nth_error_Some; congruence).
  split; [now rewrite !length_set_nth|].
  exists (tr i j). split; [intros x y H; rewrite <- (tr_tr i j x), H; apply tr_tr|].
  intro k. pose proof (nth_error_swap s i j k Hi Hj) as E. unfold swap in E. now rewrite Ei, Ej in E.
Qed.
Lemma swap_same s i : swap s i i = s.
Proof.
  apply nth_error_ext. intro k. destruct (Nat.lt_ge_cases i (length s)) as [H|H].
  - rewrite nth_error_swap by lia. unfold tr. destruct (Nat.eqb_spec k i); congruence.
  - unfold swap. apply nth_error_None in H. now rewrite H.
Qed.
End Pos.

(** ** Comparisons by position *)
Section Less.
Context {A : Type}.
Variable P : A -> Prop.
Variable less : A -> A -> bool.
Hypothesis SW : strict_weak P less.
Implicit Types s : list A.
Notation lt_at := (less_at less).

Lemma less_at_asym s i j : Forall P s -> lt_at s i j = true -> lt_at s j i = false.
Proof.
  intros F H. unfold less_at in *. rewrite Forall_forall in F.
  destruct (nth_error s i) as [a|] eqn:Ei, (nth_error s j) as [b|] eqn:Ej; try congruence.
  eapply sw_asym; eauto using nth_error_In.
Qed.
Lemma less_at_irr s i : Forall P s -> lt_at s i i = false.
Proof. intro F. destruct (lt_at s i i) eqn:E; [|reflexivity]. pose proof (less_at_asym _ _ _ F E). congruence. Qed.
Lemma le_at_trans s i j k :
  Forall P s -> j < length s -> lt_at s j i = false -> lt_at s k j = false -> lt_at s k i = false.
Proof.
  intros F Hj H1 H2. unfold less_at in *. rewrite Forall_forall in F.
  destruct (nth_error s k) as [z|] eqn:Ek; [|reflexivity].
  destruct (nth_error s i) as [x|] eqn:Ei; [|reflexivity].
  destruct (nth_error s j) as [y|] eqn:Ej; [|apply nth_error_None in Ej; lia].
  apply (sw_le_trans P less SW x y z); eauto using nth_error_In.
Qed.
Lemma less_at_swap s i j a b :
  i < length s -> j < length s -> lt_at (swap s i j) a b = lt_at s (tr i j a) (tr i j b).
Proof. intros. unfold less_at. now rewrite !nth_error_swap. Qed.
Lemma Forall_swap s i j : Forall P s -> Forall P (swap s i j).
Proof. intro F. eapply Permutation_Forall; [apply Permutation_sym, Permutation_swap|exact F]. Qed.

Definition par (k : nat) := (k - 1) / 2.
Lemma par_spec k : 0 < k -> k = 2 * par k + 1 \/ k = 2 * par k + 2.
Proof. unfold par. intro H. pose proof (Nat.div_mod (k - 1) 2). pose proof (Nat.mod_upper_bound (k-1) 2). lia. Qed.
Lemma par_lt k : 0 < k -> par k < k.
Proof. intro H. destruct (par_spec k H); lia. Qed.
Lemma par_left i : par (2 * i + 1) = i.
Proof. assert (0 < 2 * i + 1) by lia. destruct (par_spec _ H); lia. Qed.
Lemma par_right i : par (2 * i + 2) = i.
Proof. assert (0 < 2 * i + 2) by lia. destruct (par_spec _ H); lia. Qed.

(** The first [n] positions form a min-heap below position [lo]. *)
Definition mheap s (lo n : nat) : Prop :=
  forall k, 0 < k < n -> lo <= par k -> lt_at s k (par k) = false.

Lemma mheap_min s n : Forall P s -> n <= length s -> mheap s 0 n -> forall k, k < n -> lt_at s k 0 = false.
Proof.
  intros F Hn H k. induction k as [k IH] using lt_wf_ind. intro Hk.
  destruct (Nat.eq_dec k 0) as [->|H0]; [now apply less_at_irr|].
  assert (Hp : par k < k) by (apply par_lt; lia).
  apply (le_at_trans s 0 (par k) k F); [lia| |apply H; lia]. apply IH; lia.
Qed.

(** *** heap_up *)
Definition up_inv s (n j : nat) : Prop :=
  (forall k, 0 < k < n -> k <> j -> lt_at s k (par k) = false) /\
  (forall k, 0 < k < n -> par k = j -> 0 < j -> lt_at s k (par j) = false).

Lemma heap_up_spec fuel : forall s j,
  Forall P s -> j < length s -> j < fuel -> up_inv s (length s) j ->
  mheap (heap_up less fuel s j) 0 (length s).
Proof.
  induction fuel as [|fuel IH]; intros s j F Hj Hf [I1 I2]; [lia|].
  cbn [heap_up]. fold (par j).
  destruct (Nat.eqb_spec (par j) j) as [E|E]; cbn [orb].
  - assert (j = 0) by (destruct (Nat.eq_dec j 0); [auto|pose proof (par_lt j); lia]). subst j.
    intros k Hk _. apply I1; lia.
  - assert (Hj0 : 0 < j) by (destruct j; [cbn in E; congruence|lia]).
    pose proof (par_lt j Hj0) as Hp.
    destruct (lt_at s j (par j)) eqn:El; cbn [negb].
    + assert (Hlen : length s = length (swap s (par j) j)) by (now rewrite length_swap). rewrite Hlen.
      apply IH; [now apply Forall_swap|rewrite length_swap; lia|lia|].
      rewrite length_swap. clear Hlen. set (i := par j) in *.
      assert (Hi : i < length s) by lia.
      split.
      * intros k Hk Hki. rewrite less_at_swap by lia. pose proof (par_lt k ltac:(lia)) as Hpk.
        unfold tr. destruct (Nat.eqb_spec k i); [lia|].
        destruct (Nat.eqb_spec k j) as [->|Hkj].
        -- fold i. rewrite Nat.eqb_refl. now apply less_at_asym.
        -- destruct (Nat.eqb_spec (par k) i) as [Epi|Epi].
           ++ apply (le_at_trans s j i k F Hi); [now apply less_at_asym|].
              rewrite <- Epi. apply I1; lia.
           ++ destruct (Nat.eqb_spec (par k) j) as [Epj|Epj].
              ** apply I2; auto.
              ** apply I1; lia.
      * intros k Hk Hki Hi0. rewrite less_at_swap by lia.
        pose proof (par_lt i Hi0) as Hpi. pose proof (par_lt k ltac:(lia)).
        assert (Ht : tr i j (par i) = par i) by (unfold tr; destruct (Nat.eqb_spec (par i) i), (Nat.eqb_spec (par i) j); lia).
        rewrite Ht. unfold tr. destruct (Nat.eqb_spec k i); [lia|].
        destruct (Nat.eqb_spec k j) as [->|Hkj].
        -- apply I1; lia.
        -- apply (le_at_trans s (par i) i k F Hi); [apply I1; lia|]. rewrite <- Hki. apply I1; lia.
    + intros k Hk _. destruct (Nat.eq_dec k j) as [->|]; [exact El|apply I1; lia].
Qed.
Lemma heap_up_perm fuel : forall s j, Permutation (heap_up less fuel s j) s.
Proof.
  induction fuel as [|fuel IH]; intros s j; cbn [heap_up]; [reflexivity|].
  destruct (_ || _); [reflexivity|]. rewrite IH. apply Permutation_swap.
Qed.

(** *** heap_down *)
Definition down_inv s (lo n i : nat) : Prop :=
  (forall k, 0 < k < n -> lo <= par k -> par k <> i -> lt_at s k (par k) = false) /\
  (forall k, 0 < k < n -> par k = i -> 0 < i -> lo <= par i -> lt_at s k (par i) = false).

Definition min_child s (i n : nat) : nat :=
  if Nat.ltb (S (2 * i + 1)) n && lt_at s (S (2 * i + 1)) (2 * i + 1) then S (2 * i + 1) else 2 * i + 1.
Lemma min_child_spec s i n :
  Forall P s -> n <= length s -> 2 * i + 1 < n ->
  let j := min_child s i n in
  i < j < n /\ par j = i /\ forall k, 0 < k < n -> par k = i -> lt_at s k j = false.
Proof.
  intros F Hn Hi j. unfold j, min_child. clear j.
  assert (Hc : forall k, 0 < k < n -> par k = i -> k = 2 * i + 1 \/ k = S (2 * i + 1)).
  { intros k Hk E. destruct (par_spec k); lia. }
  destruct (Nat.ltb_spec (S (2 * i + 1)) n); cbn [andb].
  - destruct (lt_at s (S (2 * i + 1)) (2 * i + 1)) eqn:El.
    + split; [lia|]. split; [replace (S (2 * i + 1)) with (2 * i + 2) by lia; apply par_right|].
      intros k Hk E. destruct (Hc k Hk E) as [->| ->]; [now apply less_at_asym|now apply less_at_irr].
    + split; [lia|]. split; [apply par_left|].
      intros k Hk E. destruct (Hc k Hk E) as [->| ->]; [now apply less_at_irr|exact El].
  - split; [lia|]. split; [apply par_left|].
    intros k Hk E. destruct (Hc k Hk E) as [->| ->]; [now apply less_at_irr|lia].
Qed.

Lemma heap_down_spec fuel : forall s lo i n,
  Forall P s -> n <= length s -> lo <= i -> n - i <= fuel -> down_inv s lo n i ->
  mheap (heap_down less fuel s i n) lo n.
Proof.
  induction fuel as [|fuel IH]; intros s lo i n F Hn Hlo Hf [I1 I2].
  - cbn [heap_down]. intros k Hk Hp. apply I1; auto. pose proof (par_lt k). lia.
  - cbn [heap_down].
    destruct (Nat.leb_spec n (2 * i + 1)) as [Hle|Hgt].
    + intros k Hk Hp. apply I1; auto. destruct (par_spec k); lia.
    + fold (min_child s i n).
      destruct (min_child_spec s i n F Hn Hgt) as (Hj & Hpj & Hmin). set (j := min_child s i n) in *.
      assert (Hi : i < length s) by lia. assert (Hjl : j < length s) by lia.
      destruct (lt_at s j i) eqn:El.
      * apply IH; [now apply Forall_swap|now rewrite length_swap|lia|lia|]. split.
        -- intros k Hk Hp Hpk. rewrite less_at_swap by lia. pose proof (par_lt k ltac:(lia)) as Hpl.
           unfold tr. destruct (Nat.eqb_spec (par k) i) as [E|E].
           ++ destruct (Nat.eqb_spec k i); [lia|]. destruct (Nat.eqb_spec k j) as [->|].
              ** now apply less_at_asym.
              ** now apply Hmin.
           ++ destruct (Nat.eqb_spec (par k) j); [lia|].
              destruct (Nat.eqb_spec k i) as [->|].
              ** apply I2; auto; lia.
              ** destruct (Nat.eqb_spec k j) as [->|]; [lia|]. apply I1; auto.
        -- intros k Hk Hp Hj0 Hl. rewrite Hpj. rewrite less_at_swap by lia. pose proof (par_lt k ltac:(lia)).
           unfold tr. rewrite Nat.eqb_refl. destruct (Nat.eqb_spec k i); [lia|]. destruct (Nat.eqb_spec k j); [lia|].
           rewrite <- Hp. apply I1; lia.
      * intros k Hk Hp. destruct (Nat.eq_dec (par k) i) as [E|E]; [|now apply I1].
        rewrite E. apply (le_at_trans s i j k F Hjl El). now apply Hmin.
Qed.
Lemma heap_down_perm fuel : forall s i n, Permutation (heap_down less fuel s i n) s.
Proof.
  induction fuel as [|fuel IH]; intros s i n; cbn [heap_down]; [reflexivity|].
  destruct (Nat.leb n _); [reflexivity|]. destruct (lt_at _ _ i); [|reflexivity].
  rewrite IH. apply Permutation_swap.
Qed.
(** Only positions below [n] change, and they are rearranged among themselves. *)
Lemma heap_down_frame fuel : forall s i n, n <= length s ->
  (forall k, n <= k -> nth_error (heap_down less fuel s i n) k = nth_error s k) /\
  (forall k, k < n -> exists k', k' < n /\ nth_error (heap_down less fuel s i n) k = nth_error s k').
Proof.
  induction fuel as [|fuel IH]; intros s i n Hn; cbn [heap_down]; [split; eauto|].
  destruct (Nat.leb_spec n (2 * i + 1)); [split; eauto|].
  fold (min_child s i n). destruct (lt_at s (min_child s i n) i); [|split; eauto].
  assert (Hj : i < min_child s i n < n).
  { unfold min_child. destruct (Nat.ltb_spec (S (2 * i + 1)) n); cbn [andb]; [destruct (lt_at _ _ _)|]; lia. }
  set (j := min_child s i n) in *.
  destruct (IH (swap s i j) j n) as [H1 H2]; [now rewrite length_swap|]. split.
  - intros k Hk. rewrite H1, nth_error_swap by lia. f_equal. unfold tr.
    destruct (Nat.eqb_spec k i), (Nat.eqb_spec k j); lia.
  - intros k Hk. destruct (H2 k Hk) as (k' & Hk' & E). exists (tr i j k'). split; [apply tr_lt; lia|].
    rewrite E. apply nth_error_swap; lia.
Qed.

(** *** The priority queue *)
Definition heap_ok s : Prop := Forall P s /\ mheap s 0 (length s).

Lemma less_at_app1 s t i j : i < length s -> j < length s -> lt_at (s ++ t) i j = lt_at s i j.
Proof. intros. unfold less_at. now rewrite !nth_error_app1. Qed.

Lemma pq_push_spec q x : heap_ok q -> P x -> heap_ok (pq_push less q x) /\ Permutation (pq_push less q x) (x :: q).
Proof.
  intros [F H] Px. unfold pq_push.
  assert (Hp : Permutation (heap_up less (length (q ++ [x])) (q ++ [x]) (length q)) (x :: q)).
  { rewrite heap_up_perm. apply Permutation_sym, Permutation_cons_append. }
  split; [|exact Hp]. split.
  - eapply Permutation_Forall; [apply Permutation_sym, Hp|]. now constructor.
  - assert (Hl : length (heap_up less (length (q ++ [x])) (q ++ [x]) (length q)) = length (q ++ [x])).
    { apply Permutation_length, heap_up_perm. }
    rewrite Hl. apply heap_up_spec.
    + apply Forall_app. auto.
    + rewrite app_length. cbn. lia.
    + rewrite app_length. cbn. lia.
    + rewrite app_length. cbn [length]. split.
      * intros k Hk Hne. pose proof (par_lt k ltac:(lia)). rewrite less_at_app1 by lia. apply H; lia.
      * intros k Hk E Hq. pose proof (par_lt k ltac:(lia)). lia.
Qed.

Lemma pq_pop_spec q : heap_ok q -> q <> [] ->
  exists x q', pq_pop less q = Ok (x, q') /\ pq_top q = Some x /\ heap_ok q' /\
    Permutation q (x :: q') /\ forall y, In y q -> less y x = false.
Proof.
  intros [F H] Hne. destruct q as [|x0 q0] eqn:Eq; [congruence|]. rewrite <- Eq in *.
  assert (Hlen : 0 < length q) by (rewrite Eq; cbn; lia).
  set (n := length q - 1). set (q1 := heap_down less (length q) (swap q 0 n) 0 n).
  destruct (heap_down_frame (length q) (swap q 0 n) 0 n) as [Hf _]; [rewrite length_swap; lia|].
  assert (Hn : nth_error q1 n = Some x0).
  { unfold q1. rewrite Hf by lia. rewrite nth_error_swap by lia.
    unfold tr. destruct (Nat.eqb_spec n 0) as [E0|E0].
    - rewrite E0, Eq. reflexivity.
    - rewrite Nat.eqb_refl, Eq. reflexivity. }
  assert (Hpop : pq_pop less q = Ok (x0, firstn n q1)).
  { unfold pq_pop. rewrite Eq at 1. fold n q1. now rewrite Hn. }
  assert (Hl1 : length q1 = length q).
  { unfold q1. rewrite (Permutation_length (heap_down_perm _ _ _ _)). apply length_swap. }
  assert (Hsplit : q1 = firstn n q1 ++ [x0]).
  { rewrite (list_split_at q1 n x0 Hn) at 1. f_equal. f_equal. apply skipn_all2. lia. }
  assert (Hperm : Permutation q (x0 :: firstn n q1)).
  { rewrite Permutation_cons_append, <- Hsplit. unfold q1. rewrite heap_down_perm.
    apply Permutation_sym, Permutation_swap. }
  exists x0, (firstn n q1). split; [exact Hpop|]. split; [now rewrite Eq|].
  split; [|split; [exact Hperm|]].
  - split.
    + eapply Permutation_Forall in F; [|exact Hperm]. now inversion F.
    + rewrite firstn_length_le by lia. intros k Hk Hp. pose proof (par_lt k ltac:(lia)).
      assert (Hq1 : mheap q1 0 n).
      { unfold q1. apply heap_down_spec; try lia.
        - now apply Forall_swap.
        - rewrite length_swap. lia.
        - split; [|lia]. intros j Hj _ Hpj. rewrite less_at_swap by lia. pose proof (par_lt j ltac:(lia)).
          unfold tr. destruct (Nat.eqb_spec j 0), (Nat.eqb_spec j n), (Nat.eqb_spec (par j) 0), (Nat.eqb_spec (par j) n); try lia.
          apply H; lia. }
      specialize (Hq1 k Hk Hp). rewrite Hsplit in Hq1. rewrite less_at_app1 in Hq1; auto; rewrite firstn_length_le; lia.
  - intros y Hy. apply In_nth_error in Hy. destruct Hy as (k & Hk).
    assert (k < length q) by (apply nth_error_Some; congruence).
    pose proof (mheap_min q (length q) F ltac:(lia) H k ltac:(lia)) as Hm.
    unfold less_at in Hm. rewrite Hk in Hm. rewrite Eq in Hm. cbn [nth_error] in Hm. exact Hm.
Qed.

(** *** Sortedness from positions *)
Lemma sorted_of_pos s : (forall i j, i < j < length s -> lt_at s j i = false) -> sorted less s.
Proof.
  unfold sorted. induction s as [|x s IH]; intro H; constructor.
  - apply IH. intros i j Hij. specialize (H (S i) (S j)). apply H. cbn. lia.
  - rewrite Forall_forall. intros y Hy. apply In_nth_error in Hy. destruct Hy as (k & Hk).
    assert (k < length s) by (apply nth_error_Some; congruence).
    specialize (H 0 (S k)). unfold less_at in H. cbn [nth_error] in H. rewrite Hk in H. apply H. cbn. lia.
Qed.
Lemma pos_of_sorted s i j : sorted less s -> i < j -> lt_at s j i = false.
Proof.
  unfold sorted. intro H. revert i j. induction H as [|x s H IH F]; intros i j Hij.
  - unfold less_at. now destruct j.
  - destruct j as [|j]; [lia|]. destruct i as [|i].
    + unfold less_at. cbn [nth_error]. destruct (nth_error s j) as [y|] eqn:E; [|reflexivity].
      rewrite Forall_forall in F. apply F. eapply nth_error_In; eauto.
    + apply (IH i j). lia.
Qed.

End Less.

(** ** Max-heaps: [heapify] is [heap_down] of the reversed order *)
Section Max.
Context {A : Type}.
Variable P : A -> Prop.
Variable less : A -> A -> bool.
Hypothesis SW : strict_weak P less.
Implicit Types s : list A.
Notation lt_at := (less_at less).
Definition gtb (x y : A) : bool := less y x.

Lemma SWg : strict_weak P gtb.
Proof.
  constructor; unfold gtb.
  - intros x y Px Py. now apply (sw_asym P less SW).
  - intros x y z Px Py Pz H1 H2. now apply (sw_le_trans P less SW z y x).
Qed.
Lemma gt_at s i j : less_at gtb s i j = lt_at s j i.
Proof. unfold less_at, gtb. destruct (nth_error s i), (nth_error s j); auto. Qed.

Lemma heapify_down fuel : forall s n i, Forall P s -> n <= length s ->
  heapify less fuel s n i = heap_down gtb fuel s i n.
Proof.
  induction fuel as [|fuel IH]; intros s n i F Hn; [reflexivity|].
  cbn [heapify heap_down]. unfold larger. rewrite !gt_at.
  replace (S (2 * i + 1)) with (2 * i + 2) by lia.
  destruct (Nat.leb_spec n (2 * i + 1)) as [Hle|Hgt].
  - replace (2 * i + 1 <? n) with false by lia. cbn [andb].
    replace (2 * i + 2 <? n) with false by lia. cbn [andb]. now rewrite Nat.eqb_refl.
  - replace (2 * i + 1 <? n) with true by lia. cbn [andb].
    destruct (Nat.ltb_spec (2 * i + 2) n) as [Hr|Hr]; cbn [andb].
    + destruct (lt_at s i (2 * i + 1)) eqn:E1.
      * destruct (lt_at s (2 * i + 1) (2 * i + 2)) eqn:E2.
        -- destruct (Nat.eqb_spec (2 * i + 2) i); [lia|]. idtac.
           assert (lt_at s i (2 * i + 2) = true) as ->.
           { destruct (lt_at s i (2 * i + 2)) eqn:E3; [reflexivity|].
             pose proof (less_at_asym P less SW _ _ _ F E1) as E1'.
             assert (lt_at s (2 * i + 1) (2 * i + 2) = false); [|congruence].
             apply (le_at_trans P less SW s (2 * i + 2) i (2 * i + 1) F); auto; lia. }
           apply IH; [now apply Forall_swap|now rewrite length_swap].
        -- destruct (Nat.eqb_spec (2 * i + 1) i); [lia|]. rewrite E1.
           apply IH; [now apply Forall_swap|now rewrite length_swap].
      * destruct (lt_at s i (2 * i + 2)) eqn:E2.
        -- destruct (Nat.eqb_spec (2 * i + 2) i); [lia|].
           assert (lt_at s (2 * i + 1) (2 * i + 2) = true) as ->.
           { destruct (lt_at s (2 * i + 1) (2 * i + 2)) eqn:E3; [reflexivity|].
             assert (lt_at s i (2 * i + 2) = false); [|congruence].
             apply (le_at_trans P less SW s (2 * i + 2) (2 * i + 1) i F); auto; lia. }
           rewrite E2. apply IH; [now apply Forall_swap|now rewrite length_swap].
        -- rewrite Nat.eqb_refl. destruct (lt_at s (2 * i + 1) (2 * i + 2)); rewrite ?E1, ?E2; reflexivity.
    + destruct (lt_at s i (2 * i + 1)) eqn:E1.
      * destruct (Nat.eqb_spec (2 * i + 1) i); [lia|]. rewrite ?E1.
        apply IH; [now apply Forall_swap|now rewrite length_swap].
      * rewrite Nat.eqb_refl. reflexivity.
Qed.

Notation xheap := (mheap gtb).

Lemma heap_down_from_spec k : forall s n, Forall P s -> n <= length s -> xheap s k n ->
  let s' := heap_down_from less s n k in
  xheap s' 0 n /\ Permutation s' s.
Proof.
  induction k as [|k IH]; intros s n F Hn H; cbn [heap_down_from]; [split; auto|].
  rewrite heapify_down by assumption.
  set (s1 := heap_down gtb (length s) s k n).
  assert (Hp : Permutation s1 s) by apply heap_down_perm.
  assert (Hl : length s1 = length s) by now apply Permutation_length.
  destruct (IH s1 n) as [H1 H2].
  - eapply Permutation_Forall; [apply Permutation_sym, Hp|exact F].
  - lia.
  - apply (heap_down_spec P gtb SWg); auto; try lia. split.
    + intros j Hj Hp1 Hp2. apply H; lia.
    + intros j Hj E Hk Hpk. pose proof (par_lt k Hk). lia.
  - split; [exact H1|]. now rewrite H2.
Qed.
Lemma build_max_heap_spec s n : Forall P s -> n <= length s ->
  xheap (build_max_heap less s n) 0 n /\ Permutation (build_max_heap less s n) s.
Proof.
  intros F Hn. apply heap_down_from_spec; auto. intros k Hk Hp.
  pose proof (Nat.div_mod n 2). pose proof (Nat.mod_upper_bound n 2). destruct (par_spec k); lia.
Qed.

Lemma extract_loop_spec k : forall s, Forall P s -> k <= length s -> xheap s 0 k ->
  (forall a b, a < b -> k <= b < length s -> lt_at s b a = false) ->
  let s' := extract_loop less s k in
  Permutation s' s /\ forall a b, a < b < length s -> lt_at s' b a = false.
Proof.
  induction k as [|i IH]; intros s F Hk H Hs; cbn [extract_loop].
  - split; [reflexivity|]. intros a b Hab. apply Hs; lia.
  - set (s1 := swap s 0 i).
    assert (F1 : Forall P s1) by now apply Forall_swap.
    assert (L1 : length s1 = length s) by apply length_swap.
    rewrite heapify_down by (auto; lia).
    destruct (heap_down_frame gtb (length s1) s1 0 i) as [Hf1 Hf2]; [lia|].
    set (s2 := heap_down gtb (length s1) s1 0 i) in *.
    assert (Hp : Permutation s2 s1) by apply heap_down_perm.
    assert (L2 : length s2 = length s1) by now apply Permutation_length.
    assert (Hmax : forall x, x < S i -> lt_at s 0 x = false).
    { intros x Hx. rewrite <- gt_at. apply (mheap_min P gtb SWg s (S i) F); auto. }
    destruct (IH s2) as [Q1 Q2].
    + eapply Permutation_Forall; [apply Permutation_sym, Hp|exact F1].
    + lia.
    + apply (heap_down_spec P gtb SWg); auto; try lia. split; [|lia].
      intros j Hj _ Hpj. unfold s1. rewrite less_at_swap by lia. pose proof (par_lt j ltac:(lia)).
      unfold tr. destruct (Nat.eqb_spec j 0), (Nat.eqb_spec j i), (Nat.eqb_spec (par j) 0), (Nat.eqb_spec (par j) i); try lia.
      apply H; lia.
    + assert (Hkey : forall a b, a < b -> i <= b < length s -> lt_at s1 b a = false).
      { intros a b Hab Hb. unfold s1. rewrite less_at_swap by lia.
        destruct (Nat.eq_dec b i) as [->|Hbi].
        - assert (tr 0 i i = 0) as -> by (unfold tr; destruct (Nat.eqb_spec i 0); [congruence|now rewrite Nat.eqb_refl]).
          apply Hmax. apply tr_lt; lia.
        - assert (tr 0 i b = b) as -> by (unfold tr; destruct (Nat.eqb_spec b 0), (Nat.eqb_spec b i); lia).
          apply Hs; [|lia]. unfold tr. destruct (Nat.eqb_spec a 0), (Nat.eqb_spec a i); lia. }
      intros a b Hab Hb. rewrite L2, L1 in Hb.
      unfold less_at. rewrite (Hf1 b) by lia.
      destruct (Nat.lt_ge_cases a i) as [Ha|Ha].
      * destruct (Hf2 a Ha) as (a' & Ha' & ->). apply (Hkey a' b); lia.
      * rewrite Hf1 by lia. apply (Hkey a b); lia.
    + split; [rewrite Q1, Hp; apply Permutation_swap|]. rewrite L2, L1 in Q2. exact Q2.
Qed.

Lemma sort_pairs2_spec : sorts P less (sort_pairs2 less).
Proof.
  intros s F. unfold sort_pairs2.
  destruct (build_max_heap_spec s (length s) F ltac:(lia)) as [H Hp].
  set (h := build_max_heap less s (length s)) in *.
  assert (Hl : length h = length s) by now apply Permutation_length.
  destruct (extract_loop_spec (length s) h) as [Q1 Q2]; auto; try lia.
  - eapply Permutation_Forall; [apply Permutation_sym, Hp|exact F].
  - split; [now rewrite Q1|]. apply sorted_of_pos.
    rewrite (Permutation_length Q1). exact Q2.
Qed.

(** *** PartialSortSlice2 *)
Lemma on_range_app (f : list A -> list A) pre h r b m :
  length pre = b -> length h = m - b -> b <= m -> on_range f (pre ++ h ++ r) b m = pre ++ f h ++ r.
Proof.
  intros Hb Hh Hm. unfold on_range. rewrite firstn_app_exact, skipn_app_exact by exact Hb.
  rewrite firstn_app_exact by exact Hh. do 2 f_equal.
  rewrite app_assoc. apply skipn_app_exact. rewrite app_length. lia.
Qed.
Lemma swap_app (l1 l2 l3 : list A) a b :
  swap (l1 ++ a :: l2 ++ b :: l3) (length l1) (length l1 + S (length l2)) = l1 ++ b :: l2 ++ a :: l3.
Proof.
  unfold swap.
  assert (E1 : nth_error (l1 ++ a :: l2 ++ b :: l3) (length l1) = Some a).
  { rewrite nth_error_app2, Nat.sub_diag by lia. reflexivity. }
  assert (E2 : nth_error (l1 ++ a :: l2 ++ b :: l3) (length l1 + S (length l2)) = Some b).
  { rewrite nth_error_app2 by lia. replace (length l1 + S (length l2) - length l1) with (S (length l2)) by lia.
    cbn [nth_error]. rewrite nth_error_app2, Nat.sub_diag by lia. reflexivity. }
  rewrite E1, E2.
  rewrite (set_nth_split _ _ b a E1).
  rewrite firstn_app_exact by reflexivity.
  replace (skipn (S (length l1)) (l1 ++ a :: l2 ++ b :: l3)) with (l2 ++ b :: l3).
  2:{ replace (l1 ++ a :: l2 ++ b :: l3) with ((l1 ++ [a]) ++ l2 ++ b :: l3) by now rewrite <- app_assoc.
      symmetry. apply skipn_app_exact. rewrite app_length. cbn. lia. }
  assert (E3 : nth_error (l1 ++ b :: l2 ++ b :: l3) (length l1 + S (length l2)) = Some b).
  { rewrite nth_error_app2 by lia. replace (length l1 + S (length l2) - length l1) with (S (length l2)) by lia.
    cbn [nth_error]. rewrite nth_error_app2, Nat.sub_diag by lia. reflexivity. }
  rewrite (set_nth_split _ _ a b E3).
  replace (l1 ++ b :: l2 ++ b :: l3) with ((l1 ++ b :: l2) ++ b :: l3) by now rewrite <- app_assoc.
  rewrite firstn_app_exact by (rewrite app_length; cbn; lia).
  rewrite <- app_assoc. cbn [app]. do 4 f_equal.
  replace ((l1 ++ b :: l2) ++ b :: l3) with ((l1 ++ b :: l2 ++ [b]) ++ l3) by (rewrite <- !app_assoc; cbn; now rewrite <- app_assoc).
  apply skipn_app_exact. rewrite app_length. cbn. rewrite app_length. cbn. lia.
Qed.

Lemma xheap_head x h y : Forall P (x :: h) -> xheap (x :: h) 0 (length (x :: h)) -> In y (x :: h) -> less x y = false.
Proof.
  intros F H Hy. apply In_nth_error in Hy. destruct Hy as (k & Hk).
  assert (k < length (x :: h)) by (apply nth_error_Some; congruence).
  pose proof (mheap_min P gtb SWg _ _ F (Nat.le_refl _) H k ltac:(lia)) as Hm.
  unfold less_at in Hm. rewrite Hk in Hm. exact Hm.
Qed.

Lemma replace_loop_spec b m : forall todo pre h done post,
  length pre = b -> length h = m - b -> b < m ->
  Forall P (h ++ done ++ todo) -> xheap h 0 (length h) ->
  (forall y z, In y done -> In z h -> less y z = false) ->
  exists h' done',
    replace_loop less (pre ++ h ++ done ++ todo ++ post) b m (m + length done) (length todo) = pre ++ h' ++ done' ++ post /\
    length h' = m - b /\ length done' = length done + length todo /\
    Permutation (h' ++ done') (h ++ done ++ todo) /\
    (forall y z, In y done' -> In z h' -> less y z = false).
Proof.
  induction todo as [|x todo IH]; intros pre h done post Hb Hh Hbm F Hx Hd.
  - exists h, done. cbn [replace_loop length app]. rewrite app_nil_r. repeat split; auto; cbn; lia.
  - cbn [replace_loop length].
    destruct h as [|h0 h]; [cbn in Hh; lia|].
    assert (Hless : lt_at (pre ++ (h0 :: h) ++ done ++ (x :: todo) ++ post) (m + length done) b = less x h0).
    { unfold less_at.
      replace (nth_error _ b) with (Some h0).
      2:{ rewrite nth_error_app2, Hb, Nat.sub_diag by lia. reflexivity. }
      replace (nth_error _ (m + length done)) with (Some x); [reflexivity|].
      replace (pre ++ (h0 :: h) ++ done ++ (x :: todo) ++ post) with ((pre ++ (h0 :: h) ++ done) ++ (x :: todo) ++ post)
        by (now rewrite <- !app_assoc).
      rewrite nth_error_app2; rewrite !app_length; cbn [length] in *; [|lia].
      replace (m + length done - _) with 0 by lia. reflexivity. }
    rewrite Hless.
    assert (Px : P x) by (rewrite Forall_forall in F; apply F; rewrite !in_app_iff; cbn; auto).
    assert (Fh : Forall P (h0 :: h)) by (apply Forall_app in F; tauto).
    destruct (less x h0) eqn:El.
    + replace (pre ++ (h0 :: h) ++ done ++ (x :: todo) ++ post) with (pre ++ h0 :: (h ++ done) ++ x :: (todo ++ post))
        by (cbn; now rewrite <- !app_assoc).
      replace (m + length done) with (b + S (length (h ++ done))) by (rewrite app_length; cbn [length] in *; lia).
      pose proof (swap_app pre (h ++ done) (todo ++ post) h0 x) as Esw. rewrite Hb in Esw. rewrite Esw.
      replace (pre ++ x :: (h ++ done) ++ h0 :: todo ++ post) with (pre ++ (x :: h) ++ (done ++ [h0]) ++ todo ++ post)
        by (cbn; now rewrite <- !app_assoc).
      rewrite on_range_app by (auto; lia).
      replace (m - b) with (length (x :: h)) by (cbn [length] in *; lia).
      set (h1 := x :: h) in *.
      assert (F1 : Forall P h1) by (unfold h1; inversion Fh; now constructor).
      rewrite heapify_down by (auto; lia).
      set (h2 := heap_down gtb (length h1) h1 0 (length h1)).
      assert (Hp2 : Permutation h2 h1) by apply heap_down_perm.
      assert (L2 : length h2 = length h1) by now apply Permutation_length.
      replace (S (b + S (length (h ++ done)))) with (m + length (done ++ [h0]))
        by (rewrite !app_length; cbn [length] in *; lia).
      rewrite Forall_forall in Fh, F1.
      destruct (IH pre h2 (done ++ [h0]) post) as (h' & done' & E & L' & Ld & Pm & Hd'); auto.
      * rewrite L2. unfold h1. cbn [length] in *. lia.
      * rewrite Forall_forall in F |- *. intros y Hy. rewrite !in_app_iff in Hy.
        assert (Hy' : In y h1 \/ In y done \/ y = h0 \/ In y todo).
        { destruct Hy as [Hy|[[Hy|[Hy|[]]]|Hy]]; auto. left. eapply Permutation_in; eauto. }
        destruct Hy' as [Hy'|[Hy'|[->|Hy']]]; [now apply F1| | |].
        -- apply F. rewrite !in_app_iff. auto.
        -- apply Fh. now left.
        -- apply F. rewrite !in_app_iff. cbn. auto.
      * rewrite L2. apply (heap_down_spec P gtb SWg); auto; try lia.
        -- now rewrite Forall_forall.
        -- split; [|lia]. intros j Hj _ Hpj. pose proof (par_lt j ltac:(lia)).
           pose proof (Hx j) as Hxj. unfold less_at in *. unfold h1 in *.
           destruct j as [|j]; [lia|]. destruct (par (S j)) as [|p] eqn:Ep; [lia|]. cbn [nth_error] in *. apply Hxj; cbn [length] in *; lia.
      * intros y z Hy Hz. rewrite in_app_iff in Hy.
        assert (Hz1 : In z h1) by (eapply Permutation_in; eauto).
        assert (Hxy0 : less h0 x = false) by (apply (sw_asym P less SW x h0); auto; apply Fh; now left).
        destruct Hz1 as [<-|Hz1].
        -- destruct Hy as [Hy|[<-|[]]]; [|exact Hxy0].
           apply (sw_le_trans P less SW x h0 y); auto; [apply Fh; now left| |apply Hd; [exact Hy|now left]].
           rewrite Forall_forall in F. apply F. rewrite !in_app_iff. auto.
        -- destruct Hy as [Hy|[<-|[]]]; [apply Hd; [exact Hy|now right]|].
           apply (xheap_head h0 h); [rewrite Forall_forall; exact Fh|exact Hx|now right].
      * exists h', done'. split; [exact E|]. split; [unfold h1 in *; cbn [length] in *; lia|]. split; [rewrite Ld, app_length; cbn; lia|]. split; [|exact Hd'].
        rewrite Pm, Hp2. unfold h1. cbn [app]. rewrite <- !app_assoc. cbn [app].
        etransitivity; [apply perm_skip; rewrite app_assoc; apply Permutation_sym, Permutation_middle|].
        rewrite perm_swap. apply perm_skip. rewrite app_assoc. rewrite <- Permutation_middle. reflexivity.
    + replace (pre ++ (h0 :: h) ++ done ++ (x :: todo) ++ post) with (pre ++ (h0 :: h) ++ (done ++ [x]) ++ todo ++ post)
        by (rewrite <- !app_assoc; reflexivity).
      replace (S (m + length done)) with (m + length (done ++ [x])) by (rewrite app_length; cbn; lia).
      destruct (IH pre (h0 :: h) (done ++ [x]) post) as (h' & done' & E & L' & Ld & Pm & Hd'); auto.
      * rewrite <- app_assoc. exact F.
      * intros y z Hy Hz. rewrite in_app_iff in Hy. destruct Hy as [Hy|[<-|[]]]; [now apply Hd|].
        pose proof (xheap_head h0 h z Fh Hx Hz). rewrite Forall_forall in Fh.
        apply (sw_le_trans P less SW z h0 x); auto; apply Fh; auto. now left.
      * exists h', done'. split; [exact E|]. split; [exact L'|]. split; [rewrite Ld, app_length; cbn; lia|]. split; [|exact Hd'].
        rewrite Pm. cbn. now rewrite <- !app_assoc.
Qed.

End Max.

(** ** Segments *)
Section Seg.
Context {A : Type}.
Implicit Types s : list A.

Lemma length_segment s b e : b <= e <= length s -> length (segment s b e) = e - b.
Proof. intro H. unfold segment. rewrite firstn_length, skipn_length. lia. Qed.
Lemma segment_app (pre h r : list A) b m : length pre = b -> length h = m - b -> segment (pre ++ h ++ r) b m = h.
Proof. intros Hb Hh. unfold segment. rewrite skipn_app_exact by exact Hb. now apply firstn_app_exact. Qed.
Lemma nth_error_firstn s n k : k < n -> nth_error (firstn n s) k = nth_error s k.
Proof.
  revert n k; induction s as [|x s IH]; intros [|n] [|k] H; cbn; auto; try lia. apply IH. lia.
Qed.
Lemma nth_error_skipn s n k : nth_error (skipn n s) k = nth_error s (n + k).
Proof. revert s; induction n as [|n IH]; intros [|x s]; cbn; auto. now destruct k. Qed.
Lemma nth_error_segment s b e k : k < e - b -> nth_error (segment s b e) k = nth_error s (b + k).
Proof. intro H. unfold segment. rewrite nth_error_firstn by exact H. apply nth_error_skipn. Qed.
Lemma in_segment s b e x : In x (segment s b e) -> exists k, b <= k < e /\ nth_error s k = Some x.
Proof.
  intro H. apply In_nth_error in H. destruct H as (k & Hk).
  assert (Hl : k < length (segment s b e)) by (apply nth_error_Some; congruence).
  unfold segment in Hl. rewrite firstn_length in Hl.
  exists (b + k). split; [lia|]. rewrite <- Hk. symmetry. apply nth_error_segment. lia.
Qed.
Lemma split3 s b e : b <= e -> s = firstn b s ++ segment s b e ++ skipn e s.
Proof.
  intro H. unfold segment. rewrite <- (firstn_skipn b s) at 1. f_equal.
  rewrite <- (firstn_skipn (e - b) (skipn b s)) at 1. f_equal.
  apply nth_error_ext. intro k. rewrite !nth_error_skipn. f_equal. lia.
Qed.
Lemma split4 s b m e : b <= m -> m <= e -> e <= length s ->
  exists pre h mid post, s = pre ++ h ++ mid ++ post /\ length pre = b /\ length h = m - b /\ length mid = e - m.
Proof.
  intros H1 H2 H3. exists (firstn b s), (segment s b m), (segment s m e), (skipn e s).
  split; [|rewrite !length_segment, firstn_length_le by lia; auto].
  rewrite (split3 s b m H1) at 1. do 2 f_equal.
  rewrite (split3 s m e H2) at 1. apply skipn_app_exact. apply firstn_length_le. lia.
Qed.
Lemma perm_segment s s' b e :
  b <= e -> Permutation s' s -> firstn b s' = firstn b s -> skipn e s' = skipn e s ->
  Permutation (segment s' b e) (segment s b e).
Proof.
  intros H Hp H1 H2. rewrite (split3 s' b e H), (split3 s b e H), H1, H2 in Hp.
  apply Permutation_app_inv_l in Hp. now apply Permutation_app_inv_r in Hp.
Qed.
Lemma firstn_pos s s' n :
  length s = length s' -> (forall k, k < n -> nth_error s' k = nth_error s k) -> firstn n s' = firstn n s.
Proof.
  intros Hl H. apply nth_error_ext. intro k. destruct (Nat.lt_ge_cases k n).
  - rewrite !nth_error_firstn by lia. auto.
  - transitivity (@None A); [|symmetry]; apply nth_error_None; rewrite firstn_length; lia.
Qed.
Lemma skipn_pos s s' n : (forall k, n <= k -> nth_error s' k = nth_error s k) -> skipn n s' = skipn n s.
Proof. intro H. apply nth_error_ext. intro k. rewrite !nth_error_skipn. apply H. lia. Qed.
End Seg.

(** ** PartialSortSlice and PartialSortSlice2 *)
Section Partial.
Context {A : Type}.
Variable P : A -> Prop.
Variable less : A -> A -> bool.
Hypothesis SW : strict_weak P less.
Implicit Types s : list A.
Notation lt_at := (less_at less).

Lemma sorted_segment s b m :
  m <= length s -> (forall i j, b <= i < j -> j < m -> lt_at s j i = false) -> sorted less (segment s b m).
Proof.
  intros Hm H. apply sorted_of_pos. intros i j Hij.
  unfold segment in Hij. rewrite firstn_length in Hij.
  unfold less_at. rewrite !nth_error_segment by lia. apply (H (b + i) (b + j)); lia.
Qed.

(** The whole slice sorted is in particular partially sorted. *)
Lemma sorted_partially s s' m :
  Permutation s' s -> sorted less s' -> m <= length s -> partially_sorted less s 0 m (length s) s'.
Proof.
  intros Hp Hs Hm. pose proof (Permutation_length Hp) as Hl.
  unfold partially_sorted. split; [|split; [|split; [|split]]].
  - unfold segment. cbn [skipn]. rewrite !Nat.sub_0_r. rewrite <- Hl at 1. now rewrite !firstn_all.
  - reflexivity.
  - rewrite !skipn_all2 by lia. reflexivity.
  - apply sorted_segment; [lia|]. intros i j H1 H2. apply pos_of_sorted; [exact Hs|lia].
  - intros x y Hx Hy. apply in_segment in Hx, Hy. destruct Hx as (i & Hi & Ei), Hy as (j & Hj & Ej).
    pose proof (pos_of_sorted less s' i j Hs ltac:(lia)) as H. unfold less_at in H. now rewrite Ei, Ej in H.
Qed.

Lemma partial_sort2_spec srt s b m e :
  sorts P less srt -> Forall P s -> 0 <= b -> b < m -> m <= e -> e <= length s -> m - b < length s ->
  exists s', partial_sort2 less srt s (Z.of_nat b) (Z.of_nat m) (Z.of_nat e) = Ok s' /\
             partially_sorted less s b m e s'.
Proof.
  intros Hsrt F Hb0 Hbm Hme He Hlt.
  unfold partial_sort2.
  replace (Z.of_nat (length s) <=? Z.of_nat m - Z.of_nat b)%Z with false by lia.
  replace (Z.of_nat e <=? Z.of_nat b)%Z with false by lia.
  replace (Z.of_nat m <=? Z.of_nat b)%Z with false by lia.
  replace (Z.of_nat e <? Z.of_nat m)%Z with false by lia.
  replace (Z.of_nat b <? 0)%Z with false by lia.
  replace (Z.of_nat (length s) <? Z.of_nat e)%Z with false by lia.
  cbn [orb]. rewrite !Nat2Z.id.
  destruct (split4 s b m e) as (pre & h & mid & post & Es & Lpre & Lh & Lmid); try lia.
  assert (Fh : Forall P (h ++ mid)).
  { rewrite Es in F. apply Forall_app in F. destruct F as [_ F]. rewrite app_assoc in F. now apply Forall_app in F. }
  subst s. rewrite on_range_app by (auto; lia).
  replace (m - b) with (length h) by lia.
  destruct (build_max_heap_spec P less SW h (length h)) as [Hx Hph]; [apply Forall_app in Fh; tauto|lia|].
  set (h1 := build_max_heap less h (length h)) in *.
  assert (L1 : length h1 = length h) by now apply Permutation_length.
  replace (e - m) with (length mid) by lia.
  destruct (replace_loop_spec P less SW b m mid pre h1 [] post) as (h' & d' & E & L' & Ld & Pm & Hd); auto; try lia.
  { cbn [app]. eapply Permutation_Forall; [|exact Fh]. apply Permutation_app_tail. now apply Permutation_sym. }
  { now rewrite L1. }
  { intros y z []. }
  cbn [length app] in E. rewrite Nat.add_0_r in E. rewrite E.
  rewrite on_range_app by (auto; lia).
  assert (Fh' : Forall P h').
  { cbn [app] in Pm. assert (Hall : Forall P (h' ++ d')).
    { eapply Permutation_Forall; [apply Permutation_sym, Pm|].
      eapply Permutation_Forall; [|exact Fh]. apply Permutation_app_tail. now apply Permutation_sym. }
    now apply Forall_app in Hall. }
  destruct (sort_pairs2_spec P less SW h' Fh') as [Hp2 Hs2].
  set (h2 := sort_pairs2 less h') in *.
  assert (L2 : length h2 = length h') by now apply Permutation_length.
  exists (pre ++ h2 ++ d' ++ post). split; [reflexivity|].
  cbn [length plus] in Ld.
  assert (Sbe : segment (pre ++ h2 ++ d' ++ post) b e = h2 ++ d').
  { rewrite (app_assoc h2). apply segment_app; auto. rewrite app_length. lia. }
  assert (Sbm : segment (pre ++ h2 ++ d' ++ post) b m = h2) by (apply segment_app; lia).
  assert (Sme : segment (pre ++ h2 ++ d' ++ post) m e = d').
  { rewrite (app_assoc pre). apply segment_app; [rewrite app_length|]; lia. }
  split; [|split; [|split; [|split]]].
  - rewrite Sbe.
    assert (segment (pre ++ h ++ mid ++ post) b e = h ++ mid) as ->.
    { rewrite (app_assoc h). apply segment_app; auto. rewrite app_length. lia. }
    rewrite Hp2, Pm. cbn [app]. now apply Permutation_app_tail.
  - rewrite !firstn_app_exact; auto.
  - replace (pre ++ h2 ++ d' ++ post) with ((pre ++ h2 ++ d') ++ post) by (now rewrite <- !app_assoc).
    replace (pre ++ h ++ mid ++ post) with ((pre ++ h ++ mid) ++ post) by (now rewrite <- !app_assoc).
    rewrite !skipn_app_exact by (rewrite !app_length; lia). reflexivity.
  - rewrite Sbm. exact Hs2.
  - rewrite Sbm, Sme. intros x y Hx2 Hy. apply Hd; [exact Hy|]. eapply Permutation_in; eauto.
Qed.

(** *** The selection loop *)
Lemma min_index_spec s : Forall P s -> forall cnt j cur,
  cur < length s -> j + cnt <= length s -> cur < j ->
  let mi := min_index less s j cnt cur in
  (mi = cur \/ j <= mi < j + cnt) /\
  lt_at s cur mi = false /\ forall c, j <= c < j + cnt -> lt_at s c mi = false.
Proof.
  intros F. induction cnt as [|cnt IH]; intros j cur Hc Hj Hlt; cbn [min_index].
  - split; [auto|]. split; [now apply (less_at_irr P less SW)|lia].
  - destruct (lt_at s j cur) eqn:E.
    + destruct (IH (S j) j) as (H1 & H2 & H3); try lia. cbn zeta.
      set (mi := min_index less s (S j) cnt j) in *.
      split; [lia|]. split.
      * apply (le_at_trans P less SW s mi j cur F); [lia|exact H2|now apply (less_at_asym P less SW)].
      * intros c Hcr. destruct (Nat.eq_dec c j) as [->|]; [exact H2|apply H3; lia].
    + destruct (IH (S j) cur) as (H1 & H2 & H3); try lia. cbn zeta.
      set (mi := min_index less s (S j) cnt cur) in *.
      split; [lia|]. split; [exact H2|].
      intros c Hcr. destruct (Nat.eq_dec c j) as [->|]; [|apply H3; lia].
      apply (le_at_trans P less SW s mi cur j F); auto.
Qed.

Lemma select_loop_spec k : forall s p e b,
  Forall P s -> b <= p -> p + k <= e -> e <= length s ->
  (forall a c, b <= a < p -> a < c < e -> lt_at s c a = false) ->
  let s' := select_loop less s p k e in
  Permutation s' s /\
  (forall i, i < b \/ e <= i -> nth_error s' i = nth_error s i) /\
  (forall a c, b <= a < p + k -> a < c < e -> lt_at s' c a = false).
Proof.
  induction k as [|k IH]; intros s p e b F Hbp Hpe He H; cbn [select_loop].
  - split; [reflexivity|]. split; [auto|]. rewrite Nat.add_0_r. exact H.
  - destruct (min_index_spec s F (e - S p) (S p) p) as (M1 & M2 & M3); try lia.
    set (mi := min_index less s (S p) (e - S p) p) in *.
    assert (Hmi : p <= mi < e) by lia.
    assert (Hsw : (if Nat.eqb mi p then s else swap s p mi) = swap s p mi).
    { destruct (Nat.eqb_spec mi p) as [->|]; [now rewrite swap_same|reflexivity]. }
    rewrite Hsw. set (s1 := swap s p mi).
    assert (L1 : length s1 = length s) by apply length_swap.
    destruct (IH s1 (S p) e b) as (Q1 & Q2 & Q3); try lia.
    + now apply Forall_swap.
    + intros a c Ha Hc. unfold s1. rewrite less_at_swap by lia.
      assert (Htc : p <= c -> p <= tr p mi c < e) by (unfold tr; destruct (Nat.eqb_spec c p), (Nat.eqb_spec c mi); lia).
      destruct (Nat.eq_dec a p) as [->|Hap].
      * assert (tr p mi p = mi) as -> by (unfold tr; now rewrite Nat.eqb_refl).
        specialize (Htc ltac:(lia)). destruct (Nat.eq_dec (tr p mi c) p) as [->|]; [exact M2|apply M3; lia].
      * assert (tr p mi a = a) as -> by (unfold tr; destruct (Nat.eqb_spec a p), (Nat.eqb_spec a mi); lia).
        apply H; [lia|]. destruct (Nat.le_gt_cases p c) as [Hpc|Hpc]; [specialize (Htc Hpc); lia|].
        unfold tr; destruct (Nat.eqb_spec c p), (Nat.eqb_spec c mi); lia.
    + split; [rewrite Q1; apply Permutation_swap|]. split.
      * intros i Hi. rewrite Q2 by exact Hi. unfold s1. rewrite nth_error_swap by lia. f_equal.
        unfold tr; destruct (Nat.eqb_spec i p), (Nat.eqb_spec i mi); lia.
      * intros a c Ha Hc. apply Q3; lia.
Qed.

Lemma sink_id s b j : (b < j -> lt_at s j (j - 1) = false) -> sink less s b j = s.
Proof.
  destruct j as [|j]; intro H; [reflexivity|]. cbn [sink].
  destruct (Nat.ltb_spec b (S j)); [|reflexivity]. cbn [andb].
  replace (S j - 1) with j in H by lia. now rewrite H.
Qed.
Lemma insertion_loop_id k : forall s b i, (forall j, i <= j < i + k -> b < j -> lt_at s j (j - 1) = false) ->
  insertion_loop less s b i k = s.
Proof.
  induction k as [|k IH]; intros s b i H; [reflexivity|]. cbn [insertion_loop].
  rewrite sink_id by (intro; apply H; lia). apply IH. intros j Hj. apply H. lia.
Qed.

(** A sorted list is what any sorter leaves, up to equivalence. *)
Lemma on_range_sorted srt s b m :
  sorts P less srt -> Forall P s -> b <= m <= length s ->
  let s' := on_range srt s b m in
  Permutation (segment s' b m) (segment s b m) /\ sorted less (segment s' b m) /\
  firstn b s' = firstn b s /\ skipn m s' = skipn m s /\ length s' = length s.
Proof.
  intros Hs F Hm. destruct (split4 s b m m) as (pre & h & mid & post & Es & Lp & Lh & Lm); try lia.
  destruct mid; [|cbn in Lm; lia]. cbn [app] in Es.
  assert (Fh : Forall P h).
  { rewrite Es in F. apply Forall_app in F. destruct F as [_ F]. now apply Forall_app in F. }
  destruct (Hs h Fh) as [Hp Hso]. pose proof (Permutation_length Hp) as Ls.
  subst s. cbn zeta. rewrite on_range_app by (auto; lia).
  rewrite !segment_app by lia.
  repeat split; auto.
  - now rewrite !firstn_app_exact.
  - rewrite (app_assoc pre), (app_assoc pre). rewrite !skipn_app_exact by (rewrite app_length; lia). reflexivity.
  - rewrite !app_length. lia.
Qed.

Lemma partial_sort_select_spec srt s b m e :
  sorts P less srt -> Forall P s -> b < m -> m <= e -> e <= length s ->
  ~ (20 < Z.of_nat e - Z.of_nat b < 5000000)%Z ->
  exists s', partial_sort less srt s (Z.of_nat b) (Z.of_nat m) (Z.of_nat e) = Ok s' /\
             partially_sorted less s b m e s'.
Proof.
  intros Hsrt F Hbm Hme He Hr. unfold partial_sort.
  replace (Z.of_nat e <=? Z.of_nat b)%Z with false by lia.
  replace (Z.of_nat m <=? Z.of_nat b)%Z with false by lia.
  replace (Z.of_nat e <? Z.of_nat m)%Z with false by lia.
  replace ((20 <? Z.of_nat e - Z.of_nat b) && (Z.of_nat e - Z.of_nat b <? 5000000))%Z with false by lia.
  replace (Z.of_nat b <? 0)%Z with false by lia.
  replace (Z.of_nat (length s) <? Z.of_nat e)%Z with false by lia.
  cbn [orb]. rewrite !Nat2Z.id.
  destruct (select_loop_spec (m - b) s b e b F) as (Q1 & Q2 & Q3); try lia.
  set (s1 := select_loop less s b (m - b) e) in *.
  replace (b + (m - b)) with m in Q3 by lia.
  assert (L1 : length s1 = length s) by now apply Permutation_length.
  assert (F1 : Forall P s1) by (eapply Permutation_Forall; [apply Permutation_sym, Q1|exact F]).
  assert (Hf : firstn b s1 = firstn b s) by (apply firstn_pos; [lia|intros; apply Q2; lia]).
  assert (Hk : skipn e s1 = skipn e s) by (apply skipn_pos; intros; apply Q2; lia).
  assert (Hps : partially_sorted less s b m e s1).
  { split; [apply perm_segment; auto; lia|]. split; [exact Hf|]. split; [exact Hk|]. split.
    - apply sorted_segment; [lia|]. intros i j H1 H2. apply Q3; lia.
    - intros x y Hx Hy. apply in_segment in Hx, Hy. destruct Hx as (i & Hi & Ei), Hy as (j & Hj & Ej).
      pose proof (Q3 i j ltac:(lia) ltac:(lia)) as H. unfold less_at in H. now rewrite Ei, Ej in H. }
  destruct (Nat.ltb_spec 15 (m - b)).
  - eexists; split; [reflexivity|].
    destruct (on_range_sorted srt s1 b m Hsrt F1 ltac:(lia)) as (R1 & R2 & R3 & R4 & R5).
    set (s2 := on_range srt s1 b m) in *.
    assert (Hk2 : skipn e s2 = skipn e s1).
    { apply skipn_pos. intros k Hk'. pose proof (f_equal (fun l => nth_error l (k - m)) R4) as E. cbn beta in E.
      rewrite !nth_error_skipn in E. now replace (m + (k - m)) with k in E by lia. }
    assert (Hp2 : Permutation s2 s1).
    { rewrite (split3 s2 b m) by lia. rewrite R3, R4, R1. now rewrite <- split3 by lia. }
    destruct Hps as (P1 & P2 & P3 & P4 & P5).
    split; [|split; [|split; [|split]]].
    + rewrite <- P1. apply perm_segment; auto. lia.
    + now rewrite R3.
    + now rewrite Hk2.
    + exact R2.
    + intros x y Hx Hy. apply P5; [eapply Permutation_in; eauto|].
      assert (segment s2 m e = segment s1 m e) as <-; [|exact Hy]. unfold segment. now rewrite R4.
  - eexists; split; [reflexivity|]. rewrite insertion_loop_id; [exact Hps|].
    intros j Hj Hbj. apply Q3; lia.
Qed.

(** Between 21 and 4 999 999 candidates the code sorts everything. *)
Lemma partial_sort_whole_spec srt s m :
  sorts P less srt -> Forall P s -> 0 < m -> m <= length s -> (20 < Z.of_nat (length s) < 5000000)%Z ->
  exists s', partial_sort less srt s 0 (Z.of_nat m) (Z.of_nat (length s)) = Ok s' /\
             partially_sorted less s 0 m (length s) s'.
Proof.
  intros Hsrt F Hm Hml Hr. unfold partial_sort.
  replace (Z.of_nat (length s) <=? 0)%Z with false by lia.
  replace (Z.of_nat m <=? 0)%Z with false by lia.
  replace (Z.of_nat (length s) <? Z.of_nat m)%Z with false by lia.
  replace ((20 <? Z.of_nat (length s) - 0) && (Z.of_nat (length s) - 0 <? 5000000))%Z with true by lia.
  cbn [orb]. eexists; split; [reflexivity|]. destruct (Hsrt s F). now apply sorted_partially.
Qed.
End Partial.

(** ** The priority queue as a bag *)
Section Queue.
Context {A : Type}.
Variable P : A -> Prop.
Variable less : A -> A -> bool.
Hypothesis SW : strict_weak P less.

(** Running operations (oldest last) on the queue; a pop of the empty queue is answered
    [None] (the library tests Empty first). *)
Fixpoint pq_run (ops : list (qop A)) : list A * list (option A) :=
  match ops with
  | [] => (pq_new, [])
  | QPush x :: r => let '(q, o) := pq_run r in (pq_push less q x, o)
  | QPop :: r =>
      let '(q, o) := pq_run r in
      match pq_pop less q with
      | Ok (x, q') => (q', Some x :: o)
      | Er _ => (q, None :: o)
      end
  end.
Definition ops_ok (ops : list (qop A)) : Prop := forall x, In (QPush x) ops -> P x.

Lemma pq_refines ops : ops_ok ops ->
  heap_ok P less (fst (pq_run ops)) /\
  exists bag, min_bag less ops (snd (pq_run ops)) bag /\ Permutation (fst (pq_run ops)) bag.
Proof.
  induction ops as [|o ops IH]; intro Hok.
  - split; [split; [constructor|intros k; cbn; lia]|]. exists []. split; constructor.
  - destruct IH as (Hh & bag & Hb & Hp); [intros x Hx; apply Hok; now right|].
    destruct o as [x|]; cbn [pq_run]; destruct (pq_run ops) as [q outs] eqn:E; cbn [fst snd] in *.
    + destruct (pq_push_spec P less SW q x Hh) as [H1 H2]; [apply Hok; now left|]. split; [exact H1|].
      exists (x :: bag). split; [now constructor|]. rewrite H2. now constructor.
    + destruct q as [|y q'].
      * cbn. split; [exact Hh|]. exists []. split; [|constructor].
        apply Permutation_nil in Hp. subst bag. now constructor.
      * destruct (pq_pop_spec P less SW (y :: q') Hh) as (x & q1 & E1 & _ & H1 & H2 & H3); [congruence|].
        rewrite E1. cbn [fst snd]. split; [exact H1|]. exists q1. split; [|reflexivity].
        econstructor; [exact Hb| |].
        -- rewrite <- Hp. exact H2.
        -- intros z Hz. apply H3. eapply Permutation_in; [apply Permutation_sym, Hp|exact Hz].
Qed.
End Queue.

(** ** Pairs *)
Section Pairs.
Context {T : Type}.
Variables (lt eqb : T -> T -> bool) (num : T -> Prop).
(** [lt] and [eqb] are the comparisons of a total order on [num]. *)
Record total_cmp : Prop := mkTot {
  tc_irr : forall x y, num x -> num y -> lt x y = true -> lt y x = false;
  tc_eq : forall x y, num x -> num y -> eqb x y = negb (lt x y) && negb (lt y x);
  tc_trans : forall x y z, num x -> num y -> num z -> lt y x = false -> lt z y = false -> lt z x = false
}.
Lemma pair_less_sw : total_cmp -> strict_weak (fun p : T * N => num (fst p)) (pair_less lt eqb).
Proof.
  intro TC. constructor.
  - intros [x i] [y j] Hx Hy. unfold pair_less. cbn [fst snd] in *.
    rewrite (tc_eq TC x y), (tc_eq TC y x) by auto.
    destruct (lt x y) eqn:E; cbn [orb negb andb].
    + intros _. rewrite (tc_irr TC x y) by auto. cbn. reflexivity.
    + destruct (lt y x) eqn:E2; cbn [orb negb andb]; intro H; [congruence|]. lia.
  - intros [x i] [y j] [z k] Hx Hy Hz. unfold pair_less. cbn [fst snd] in *.
    rewrite (tc_eq TC y x), (tc_eq TC z y), (tc_eq TC z x) by auto.
    destruct (lt y x) eqn:E1; cbn [orb negb andb]; [congruence|].
    destruct (lt z y) eqn:E2; cbn [orb negb andb]; [congruence|].
    rewrite (tc_trans TC x y z) by auto. cbn [orb negb andb].
    intros H1 H2. destruct (lt x z) eqn:E3; cbn [negb andb]; [reflexivity|].
    assert (lt x y = false) as E4.
    { apply (tc_trans TC y z x); auto. }
    assert (lt y z = false) as E5.
    { apply (tc_trans TC z x y); auto. }
    rewrite E4 in H1. rewrite E5 in H2. cbn in *. lia.
Qed.
End Pairs.

(** ** Intersection *)
Lemma nltb_sw : strict_weak (fun _ : N => True) N.ltb.
Proof. constructor; intros; lia. Qed.

Lemma count_occ_lt_sorted l x : sorted N.ltb l -> match l with [] => True | y :: _ => (x < y)%N end ->
  count_occ N.eq_dec l x = 0.
Proof.
  intros Hs Hx. apply count_occ_not_In. intro Hin. destruct l as [|y l]; [auto|].
  inversion Hs as [|? ? Hs' F]. subst. destruct Hin as [->|Hin]; [lia|].
  rewrite Forall_forall in F. specialize (F x Hin). cbn in F. lia.
Qed.
Lemma merge_common_spec fuel : forall a b, sorted N.ltb a -> sorted N.ltb b -> length a + length b <= fuel ->
  multi_inter a b (merge_common fuel a b) /\ sorted N.ltb (merge_common fuel a b) /\
  incl (merge_common fuel a b) a.
Proof.
  induction fuel as [|f IH]; intros a b Ha Hb Hl.
  - destruct a; [|cbn in Hl; lia]. destruct b; [|cbn in Hl; lia]. split; [intro; reflexivity|]. split; [constructor|intros ? []].
  - destruct a as [|x a]; [split; [intro; reflexivity|]; split; [constructor|intros ? []]|].
    destruct b as [|y b].
    { split; [intro z; cbn [merge_common count_occ]; lia|]. split; [constructor|intros ? []]. }
    cbn [merge_common].
    inversion Ha as [|? ? Ha' Fa]. inversion Hb as [|? ? Hb' Fb]. subst.
    rewrite Forall_forall in Fa, Fb. cbn [length] in Hl.
    destruct (N.ltb_spec x y) as [Hxy|Hxy].
    + destruct (IH a (y :: b) Ha' Hb) as (I1 & I2 & I3); [cbn; lia|]. split; [|split; [exact I2|intros z Hz; right; auto]].
      intro z. rewrite I1. cbn [count_occ]. destruct (N.eq_dec x z) as [->|]; [|reflexivity].
      destruct (N.eq_dec y z); [lia|].
      assert (count_occ N.eq_dec b z = 0) as ->; [|lia].
      apply count_occ_not_In. intro Hin. specialize (Fb z Hin). cbn in Fb. lia.
    + destruct (N.ltb_spec y x) as [Hyx|Hyx].
      * destruct (IH (x :: a) b Ha Hb') as (I1 & I2 & I3); [cbn; lia|]. split; [|split; [exact I2|exact I3]].
        intro z. rewrite I1. cbn [count_occ]. destruct (N.eq_dec y z) as [->|]; [|reflexivity].
        destruct (N.eq_dec x z); [lia|].
        assert (count_occ N.eq_dec a z = 0) as ->; [|lia].
        apply count_occ_not_In. intro Hin. specialize (Fa z Hin). cbn in Fa. lia.
      * assert (x = y) by lia. subst y.
        destruct (IH a b Ha' Hb') as (I1 & I2 & I3); [lia|]. split; [|split].
        -- intro z. cbn [count_occ]. rewrite I1. destruct (N.eq_dec x z); lia.
        -- constructor; [exact I2|]. rewrite Forall_forall. intros z Hz. apply Fa, I3, Hz.
        -- intros z [->|Hz]; [now left|right; auto].
Qed.
Lemma intersection_spec srt a b : sorts (fun _ => True) N.ltb srt ->
  let '(r, a', b') := intersection srt a b in
  multi_inter a b r /\ sorted N.ltb r /\
  Permutation a' a /\ sorted N.ltb a' /\ Permutation b' b /\ sorted N.ltb b'.
Proof.
  intro Hs. unfold intersection.
  assert (T : forall l : list N, Forall (fun _ => True) l) by (intro l; apply Forall_forall; auto).
  destruct (Hs a (T a)) as [Pa Sa]. destruct (Hs b (T b)) as [Pb Sb].
  destruct (merge_common_spec (length (srt a) + length (srt b)) (srt a) (srt b) Sa Sb (Nat.le_refl _)) as (I1 & I2 & _).
  split; [|auto]. intro x. rewrite I1.
  rewrite (proj1 (Permutation_count_occ N.eq_dec _ _) Pa x), (proj1 (Permutation_count_occ N.eq_dec _ _) Pb x). reflexivity.
Qed.

(** ** The executable stand-in for sort.Slice is a sorter *)
Section Isort.
Context {A : Type}.
Variable P : A -> Prop.
Variable less : A -> A -> bool.
Hypothesis SW : strict_weak P less.
Lemma insert_sorted_perm x l : Permutation (insert_sorted less x l) (x :: l).
Proof. induction l as [|y l IH]; cbn; [reflexivity|]. destruct (less x y); [reflexivity|]. rewrite IH. apply perm_swap. Qed.
Lemma insert_sorted_sorted x l : P x -> Forall P l -> sorted less l -> sorted less (insert_sorted less x l).
Proof.
  intros Px F Hs. unfold sorted in *. induction Hs as [|y l Hs IH Fy]; cbn; [repeat constructor|].
  inversion F; subst. destruct (less x y) eqn:E.
  - constructor; [constructor; auto|]. constructor; [now apply (sw_asym P less SW)|].
    rewrite Forall_forall in *. intros z Hz. apply (sw_le_trans P less SW x y z); auto. now apply (sw_asym P less SW).
  - constructor; [auto|]. eapply Permutation_Forall; [apply Permutation_sym, insert_sorted_perm|]. constructor; auto.
Qed.
Lemma isort_sorts : sorts P less (isort less).
Proof.
  intros l F. unfold isort.
  assert (G : forall l acc, Forall P l -> Forall P acc -> sorted less acc ->
     Permutation (fold_left (fun acc x => insert_sorted less x acc) l acc) (acc ++ l) /\
     sorted less (fold_left (fun acc x => insert_sorted less x acc) l acc)).
  { clear l F. induction l as [|x l IH]; intros acc F Fa Sa; cbn [fold_left].
    - rewrite app_nil_r. auto.
    - inversion F; subst. destruct (IH (insert_sorted less x acc)) as [H3 H4]; auto.
      + eapply Permutation_Forall; [apply Permutation_sym, insert_sorted_perm|]. constructor; auto.
      + now apply insert_sorted_sorted.
      + split; [|exact H4]. rewrite H3, insert_sorted_perm. apply Permutation_middle. }
  destruct (G l [] F) as [H1 H2]; [constructor|constructor|]. auto.
Qed.
End Isort.

(** ** Forms used by the property file *)
Lemma pq_is_min_bag A (P : A -> Prop) less : strict_weak P less ->
  forall ops, (forall x, In (QPush x) ops -> P x) ->
  exists bag, min_bag less ops (snd (pq_run less ops)) bag /\ Permutation (fst (pq_run less ops)) bag.
Proof. intros SW ops H. destruct (pq_refines P less SW ops H) as [_ ?]. assumption. Qed.
Lemma pq_top_pop A (P : A -> Prop) less : strict_weak P less ->
  forall ops, (forall x, In (QPush x) ops -> P x) ->
  let q := fst (pq_run less ops) in
  (q = [] /\ pq_top q = None /\ pq_empty q = true) \/
  (exists x q', pq_empty q = false /\ pq_top q = Some x /\ pq_pop less q = Ok (x, q')).
Proof.
  intros SW ops H. destruct (pq_refines P less SW ops H) as [Hh _]. cbn zeta.
  destruct (fst (pq_run less ops)) as [|y q] eqn:E; [left; auto|right].
  destruct (pq_pop_spec P less SW (y :: q) Hh) as (x & q' & E1 & E2 & _); [congruence|].
  exists x, q'. split; [reflexivity|]. auto.
Qed.
Lemma partial_sort2_main A (P : A -> Prop) less : strict_weak P less ->
  forall srt s b m e, sorts P less srt -> Forall P s ->
  b < m -> m <= e -> e <= length s -> m - b < length s ->
  exists s', partial_sort2 less srt s (Z.of_nat b) (Z.of_nat m) (Z.of_nat e) = Ok s' /\
             partially_sorted less s b m e s'.
Proof. intros. eapply partial_sort2_spec; eauto. lia. Qed.
Lemma partial_sort2_all A (P : A -> Prop) less (srt : list A -> list A) s b m e :
  sorts P less srt -> Forall P s -> (Z.of_nat (length s) <= m - b)%Z ->
  exists s', partial_sort2 less srt s b m e = Ok s' /\ Permutation s' s /\ sorted less s'.
Proof.
  intros Hs F H. unfold partial_sort2. replace (Z.of_nat (length s) <=? m - b)%Z with true by lia.
  destruct (Hs s F). eauto.
Qed.
Lemma partial_sort_counterexample :
  exists (s : list N) b m e s', b < m /\ m <= e /\ e <= length s /\
    partial_sort N.ltb (isort N.ltb) s (Z.of_nat b) (Z.of_nat m) (Z.of_nat e) = Ok s' /\
    ~ partially_sorted N.ltb s b m e s'.
Proof.
  exists (rev (rangeN 22)), 1, 2, 22. eexists.
  split; [lia|]. split; [lia|]. split; [vm_compute; lia|]. split; [vm_compute; reflexivity|].
  intros (_ & H & _). vm_compute in H. discriminate.
Qed.
