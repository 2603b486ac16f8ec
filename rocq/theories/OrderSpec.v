(** Specification vocabulary: the order in which a query looks at the nodes of a forest. *)
From Verif Require Import Base Flt Layout Alloc Prog Sorts Dist Build Index Search Spec ForestSpec.
From Coq Require Import Permutation.
Open Scope N_scope.

(** [p] is the lesser of [a] and [b]. *)
Definition is_min (fo : FOps) (p a b : F fo) : Prop := (p = a \/ p = b) /\ flt fo a p = false /\ flt fo b p = false.
(** A number that is not infinite. *)
Definition finite (fo : FOps) (x : F fo) : Prop := flt fo x (finf fo) = true /\ flt fo (fneg fo x) (finf fo) = true.

Section O.
Variable fo : FOps.
Variable c : Cfg.
Notation NSZ := (nodeSize fo c).
Notation K := (maxK fo c).

(** The side of the plane kept by a node with bytes [bs] on which [q] lies: the sign of
    their inner product (with the dot product distance, plus the square of the node's
    extra component). *)
Definition side_value (bs : list N) (q : list (F fo)) : F fo :=
  match knd c with
  | Angular => inner fo (n_vec fo c bs) q
  | DotProduct => fadd fo (inner fo (n_vec fo c bs) q) (fmul fo (n_dot fo c bs) (n_dot fo c bs))
  end.

(** A query with [limit] entries to go has the nodes of [bag] to look at, each with a
    priority.  It takes one that comes first by (priority, node number); if that node
    lists items it notes them, else it replaces it by its children: the right one with
    the lesser of its own priority and [side_value], the left one with the lesser of its
    priority and the negation.  It notes [xs] altogether. *)
Inductive visits (v : option buf) (ni : N) (q : list (F fo)) : Z -> list (F fo * N) -> list N -> Prop :=
| vi_full limit bag : (limit <= 0)%Z -> visits v ni q limit bag []
| vi_empty limit : visits v ni q limit [] []
| vi_list limit bag d i rest xs ys : (0 < limit)%Z -> Permutation bag ((d, i) :: rest) ->
    (forall p, In p rest -> nearer fo p (d, i) = false) -> lists_items fo c v ni i xs ->
    visits v ni q (limit - Z.of_N (lenN xs)) rest ys -> visits v ni q limit bag (xs ++ ys)
| vi_split limit bag d i rest l r bs pl pr ys : (0 < limit)%Z -> Permutation bag ((d, i) :: rest) ->
    (forall p, In p rest -> nearer fo p (d, i) = false) -> splits fo c v i l r ->
    vread v (addr fo c i) NSZ = Ok bs ->
    is_min fo pl d (fneg fo (side_value bs q)) -> is_min fo pr d (side_value bs q) ->
    visits v ni q limit ((pl, l) :: (pr, r) :: rest) ys -> visits v ni q limit bag ys.

(** All roots wait with priority infinity. *)
Definition at_start (roots : list N) : list (F fo * N) := map (fun r => (finf fo, r)) roots.

(** Every split node below [roots] has a side value with property [P]. *)
Definition all_sides (P : F fo -> Prop) (v : option buf) (roots : list N) (q : list (F fo)) : Prop :=
  forall r d i l r' bs, In r roots -> descends fo c v r d i -> splits fo c v i l r' ->
    vread v (addr fo c i) NSZ = Ok bs -> P (side_value bs q).
End O.
