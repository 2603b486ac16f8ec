(** Properties of the sorting routines and the priority queue (C39-C43). *)
From Verif Require Import Base Sorts Spec Lib SortsProof.
From Coq Require Import Permutation.
Open Scope nat_scope.

(** C39 *)
Theorem C39_priority_queue_is_min_bag :
  forall A (P : A -> Prop) less, strict_weak P less ->
  forall ops, (forall x, In (QPush x) ops -> P x) ->
  exists bag, min_bag less ops (snd (pq_run less ops)) bag /\ Permutation (fst (pq_run less ops)) bag.
Proof. exact pq_is_min_bag. Qed.
(** Top shows the element the next Pop returns. *)
Theorem C39_top_is_next_pop :
  forall A (P : A -> Prop) less, strict_weak P less ->
  forall ops, (forall x, In (QPush x) ops -> P x) ->
  let q := fst (pq_run less ops) in
  (q = [] /\ pq_top q = None /\ pq_empty q = true) \/
  (exists x q', pq_empty q = false /\ pq_top q = Some x /\ pq_pop less q = Ok (x, q')).
Proof. exact pq_top_pop. Qed.
Example C39_example :
  strict_weak (fun _ : N => True) N.ltb /\
  pq_run N.ltb [QPop; QPush 1%N; QPop; QPush 3%N; QPush 2%N; QPush 5%N] = ([3; 5]%N, [Some 1; Some 2]%N).
Proof. split; [exact nltb_sw|reflexivity]. Qed.

(** C40 *)
Theorem C40_partial_sort_selection :
  forall A (P : A -> Prop) less, strict_weak P less ->
  forall srt s b m e, sorts P less srt -> Forall P s -> b < m -> m <= e -> e <= length s ->
  ~ (20 < Z.of_nat e - Z.of_nat b < 5000000)%Z ->
  exists s', partial_sort less srt s (Z.of_nat b) (Z.of_nat m) (Z.of_nat e) = Ok s' /\
             partially_sorted less s b m e s'.
Proof. exact @partial_sort_select_spec. Qed.
Theorem C40_partial_sort_whole :
  forall A (P : A -> Prop) less (srt : list A -> list A) s m,
  sorts P less srt -> Forall P s -> 0 < m -> m <= length s -> (20 < Z.of_nat (length s) < 5000000)%Z ->
  exists s', partial_sort less srt s 0 (Z.of_nat m) (Z.of_nat (length s)) = Ok s' /\
             partially_sorted less s 0 m (length s) s'.
Proof. exact @partial_sort_whole_spec. Qed.
(** With 21 elements and b = 1 the element before the range moves. *)
Theorem C40_partial_sort_refuted_in_general :
  exists (s : list N) b m e s', b < m /\ m <= e /\ e <= length s /\
    partial_sort N.ltb (isort N.ltb) s (Z.of_nat b) (Z.of_nat m) (Z.of_nat e) = Ok s' /\
    ~ partially_sorted N.ltb s b m e s'.
Proof. exact partial_sort_counterexample. Qed.
Example C40_example :
  partial_sort N.ltb (isort N.ltb) [9; 5; 7; 1; 8]%N 1 3 5 = Ok [9; 1; 5; 7; 8]%N /\
  sorts (fun _ => True) N.ltb (isort N.ltb).
Proof. split; [reflexivity|]. exact (isort_sorts _ _ nltb_sw). Qed.

(** C41 *)
Theorem C41_partial_sort2 :
  forall A (P : A -> Prop) less, strict_weak P less ->
  forall srt s b m e, sorts P less srt -> Forall P s ->
  b < m -> m <= e -> e <= length s -> m - b < length s ->
  exists s', partial_sort2 less srt s (Z.of_nat b) (Z.of_nat m) (Z.of_nat e) = Ok s' /\
             partially_sorted less s b m e s'.
Proof. exact partial_sort2_main. Qed.
Theorem C41_partial_sort2_whole :
  forall A (P : A -> Prop) less (srt : list A -> list A) s b m e,
  sorts P less srt -> Forall P s -> (Z.of_nat (length s) <= m - b)%Z ->
  exists s', partial_sort2 less srt s b m e = Ok s' /\ Permutation s' s /\ sorted less s'.
Proof. exact @partial_sort2_all. Qed.
Example C41_example :
  partial_sort2 N.ltb (isort N.ltb) [9; 5; 7; 1; 8]%N 1 3 5 = Ok [9; 1; 5; 7; 8]%N.
Proof. reflexivity. Qed.

(** C42 *)
Theorem C42_sort_pairs2_sorts :
  forall A (P : A -> Prop) less, strict_weak P less -> sorts P less (sort_pairs2 less).
Proof. exact @sort_pairs2_spec. Qed.
(** The order on (distance, id) pairs is such an order whenever the distances are
    totally ordered by the comparisons of their type. *)
Theorem C42_pairs_are_ordered :
  forall T (lt eqb : T -> T -> bool) num, total_cmp lt eqb num ->
  strict_weak (fun p : T * N => num (fst p)) (pair_less lt eqb).
Proof. exact @pair_less_sw. Qed.
Example C42_example : sort_pairs2 N.ltb [3; 1; 2; 1; 0]%N = [0; 1; 1; 2; 3]%N.
Proof. reflexivity. Qed.

(** C43 *)
Theorem C43_intersection :
  forall srt a b, sorts (fun _ => True) N.ltb srt ->
  let '(r, a', b') := intersection srt a b in
  multi_inter a b r /\ sorted N.ltb r /\
  Permutation a' a /\ sorted N.ltb a' /\ Permutation b' b /\ sorted N.ltb b'.
Proof. exact intersection_spec. Qed.
Example C43_example :
  intersection (isort N.ltb) [3; 1; 3; 2]%N [3; 5; 3; 1; 3]%N = ([1; 3; 3], [1; 2; 3; 3], [1; 3; 3; 3; 5])%N.
Proof. reflexivity. Qed.

Print Assumptions C39_priority_queue_is_min_bag.
Print Assumptions C39_top_is_next_pop.
Print Assumptions C40_partial_sort_selection.
Print Assumptions C40_partial_sort_whole.
Print Assumptions C40_partial_sort_refuted_in_general.
Print Assumptions C41_partial_sort2.
Print Assumptions C41_partial_sort2_whole.
Print Assumptions C42_sort_pairs2_sorts.
Print Assumptions C42_pairs_are_ordered.
Print Assumptions C43_intersection.
