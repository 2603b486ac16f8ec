(** Specification vocabulary: how many nodes a query looks at. *)
From Verif Require Import Base Flt Layout Alloc Prog Sorts Dist Build Index Search Spec ForestSpec OrderSpec.
From Coq Require Import Permutation.
Open Scope N_scope.

Section O.
Variable fo : FOps.
Variable c : Cfg.
Notation NSZ := (nodeSize fo c).

(** [visits] (OrderSpec.v) with the number of nodes taken from the bag. *)
Inductive looks (v : option buf) (ni : N) (q : list (F fo)) : Z -> list (F fo * N) -> nat -> Prop :=
| lo_full limit bag : (limit <= 0)%Z -> looks v ni q limit bag 0
| lo_empty limit : looks v ni q limit [] 0
| lo_list limit bag d i rest xs n : (0 < limit)%Z -> Permutation bag ((d, i) :: rest) ->
    (forall p, In p rest -> nearer fo p (d, i) = false) -> lists_items fo c v ni i xs ->
    looks v ni q (limit - Z.of_N (lenN xs)) rest n -> looks v ni q limit bag (S n)
| lo_split limit bag d i rest l r bs pl pr n : (0 < limit)%Z -> Permutation bag ((d, i) :: rest) ->
    (forall p, In p rest -> nearer fo p (d, i) = false) -> splits fo c v i l r ->
    vread v (addr fo c i) NSZ = Ok bs ->
    is_min fo pl d (fneg fo (side_value fo c bs q)) -> is_min fo pr d (side_value fo c bs q) ->
    looks v ni q limit ((pl, l) :: (pr, r) :: rest) n -> looks v ni q limit bag (S n).

(** From [i] no node can be reached through more than [h] split nodes. *)
Definition height_le (v : option buf) (i : N) (h : nat) : Prop := forall d j, descends fo c v i d j -> (d <= h)%nat.
End O.
(** Neither half is empty. *)
Definition both (xs ys : list N) : Prop := 1 <= lenN xs /\ 1 <= lenN ys.
