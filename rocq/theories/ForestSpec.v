(** Specification vocabulary for the forest and for queries: what the node memory
    says, independent of how it is searched. *)
From Verif Require Import Base Flt Layout Alloc Prog Sorts Dist Build Index Search Spec.
From Coq Require Import Permutation.
Open Scope N_scope.

(** The two float types of the library (interfaces/vector.go). *)
Definition is_float (fo : FOps) : Prop := fo = fops32 \/ fo = fops64.
(** NaN is the value that differs from itself. *)
Definition not_nan (fo : FOps) (x : F fo) : Prop := feq fo x x = true.

Section F.
Variable fo : FOps.
Variable c : Cfg.
Notation NSZ := (nodeSize fo c).
Notation K := (maxK fo c).

(** ** The forest as a query sees it *)
(** Node [i] lists the items [xs] (an item itself or a bucket) .. *)
Inductive lists_items (v : option buf) (ni i : N) : list N -> Prop :=
| li_item bs : vread v (addr fo c i) NSZ = Ok bs -> n_desc c bs = 1 -> i < ni -> lists_items v ni i [i]
| li_bucket bs : vread v (addr fo c i) NSZ = Ok bs -> ~ (n_desc c bs = 1 /\ i < ni) -> n_desc c bs <= K ->
    lists_items v ni i (n_children c (n_desc c bs) bs).
(** .. or has two children. *)
Inductive splits (v : option buf) (i : N) : N -> N -> Prop :=
| sp_intro bs l r : vread v (addr fo c i) NSZ = Ok bs -> K < n_desc c bs ->
    n_children c 2 bs = [l; r] -> splits v i l r.

(** The subtree below node [i] lists [xs], in [m] nodes. *)
Inductive reach (v : option buf) (ni : N) : N -> list N -> nat -> Prop :=
| re_leaf i xs : lists_items v ni i xs -> reach v ni i xs 1
| re_split i l r xs ys m n : splits v i l r -> reach v ni l xs m -> reach v ni r ys n ->
    reach v ni i (xs ++ ys) (S (m + n)).

(** Replacing nodes of a bag by what is below them, in any order: [b] becomes [b'] and
    [xs] has been listed on the way. *)
Inductive expands (v : option buf) (ni : N) : list N -> list N -> list N -> Prop :=
| ex_done b : expands v ni b b []
| ex_leaf b i b0 b' xs ys : Permutation b (i :: b0) -> lists_items v ni i xs -> expands v ni b0 b' ys ->
    expands v ni b b' (xs ++ ys)
| ex_split b i b0 b' l r ys : Permutation b (i :: b0) -> splits v i l r -> expands v ni (l :: r :: b0) b' ys ->
    expands v ni b b' ys.

(** Exhausting a bag lists what its nodes reach. *)
Inductive reach_all (v : option buf) (ni : N) : list N -> list N -> nat -> Prop :=
| ra_nil : reach_all v ni [] [] 0
| ra_cons i b xs ys m n : reach v ni i xs m -> reach_all v ni b ys n -> reach_all v ni (i :: b) (xs ++ ys) (m + n).

(** ** Scoring *)
(** [d] is the distance of item [j] to the query node. *)
Definition item_dist (v : option buf) (qn : snode fo) (j : N) (d : F fo) : Prop :=
  exists bs, vread v (addr fo c j) NSZ = Ok bs /\ n_desc c bs = 1 /\ d = distance fo qn (snode_of fo c bs).

(** The candidates of a scored list: one pair per distinct id that is an item. *)
Definition scored (v : option buf) (qn : snode fo) (l : list N) (sc : list (F fo * N)) : Prop :=
  NoDup (map snd sc) /\ forall d j, In (d, j) sc <-> In j l /\ item_dist v qn j d.

(** The order of answers: by distance, then by id. *)
Definition nearer (p q : F fo * N) : bool := flt fo (fst p) (fst q) || (feq fo (fst p) (fst q) && (snd p <? snd q)).
(** How a raw distance is reported: its root (angular), its negation (dot product). *)
Definition reported (d : F fo) : F fo := match knd c with Angular => fsqrt fo d | DotProduct => fneg fo d end.
(** [ids] with distances [ds] are the [k] nearest of the candidates [l]: ordered by raw
    distance, then by id. *)
Definition nearest (v : option buf) (qn : snode fo) (k : nat) (l ids : list N) (ds : list (F fo)) : Prop :=
  exists sc raw, scored v qn l sc /\ length raw = length ids /\
    is_topk nearer k sc (combine raw ids) /\
    ds = map reported raw.

(** The number of candidates to inspect: -1 stands for numReturn * number of trees. *)
Definition the_limit (ix : idx) (numReturn inspect : Z) : Z :=
  if (inspect =? -1)%Z then (numReturn * Z.of_nat (length (rootsN (ib ix))))%Z else inspect.

(** ** In terms of the vectors *)
(** How far apart two vectors are: 2 - 2*cos of their angle, from dot products computed
    in the vectors' own float type (products added up from left to right); 2 if one of
    them is (numerically) zero. *)
Definition inner (q v : list (F fo)) : F fo :=
  fold_left (fadd fo) (map (fun xy => fmul fo (fst xy) (snd xy)) (combine q v)) (f0 fo).
Definition cos_gap (q v : list (F fo)) : F fo :=
  let n := fmul fo (inner q q) (inner v v) in
  if flt fo (f0 fo) n
  then fsub fo (f2 fo) (fdiv fo (fmul fo (f2 fo) (inner q v)) (fsqrt fo n))
  else f2 fo.
(** The distance the library reports for two vectors. *)
Definition vec_distance (q v : list (F fo)) : F fo := reported (cos_gap q v).
(** The items [f] says have been added, each with its [cos_gap] to the query. *)
Definition all_gaps (f : N -> option (list (F fo))) (q : list (F fo)) (sc : list (F fo * N)) : Prop :=
  NoDup (map snd sc) /\ forall d j, In (d, j) sc <-> exists v, f j = Some v /\ d = cos_gap q v.
(** [ids] with distances [ds] are the [k] nearest of all added items. *)
Definition exact_nearest (f : N -> option (list (F fo))) (q : list (F fo)) (k : nat) (ids : list N) (ds : list (F fo)) : Prop :=
  exists sc raw, all_gaps f q sc /\ length raw = length ids /\
    is_topk nearer k sc (combine raw ids) /\
    ds = map reported raw.
(** No added item has a NaN distance to the query. *)
Definition all_num (f : N -> option (list (F fo))) (q : list (F fo)) : Prop :=
  forall j v, f j = Some v -> not_nan fo (cos_gap q v).

(** ** How trees divide their items *)
(** The subtree below [i] lists [xs], and every split node in it, given by its bytes,
    divides its items in two halves related by [C]. *)
Inductive divided (C : list N -> list N -> list N -> Prop) (v : option buf) (ni : N) : N -> list N -> Prop :=
| dv_leaf i xs : lists_items v ni i xs -> divided C v ni i xs
| dv_split i l r bs xs ys : splits v i l r -> vread v (addr fo c i) NSZ = Ok bs -> C bs xs ys ->
    divided C v ni l xs -> divided C v ni r ys -> divided C v ni i (xs ++ ys).
(** [u] scaled to length 1 (left alone if its length is computed as 0 or not a number). *)
Definition unit_vec (u : list (F fo)) : list (F fo) :=
  let n := fsqrt fo (inner u u) in if flt fo (f0 fo) n then map (fun z => fdiv fo z n) u else u.
(** Of the vector [w] a node keeps as [y] the components that lie, node header included,
    within the first vlen *bytes*; the others read as 0.  (A component across that boundary
    reads as something in between.) *)
Definition keeps_part (w y : list (F fo)) : Prop :=
  (forall k, off_vec fo c + (k + 1) * fbytes fo <= vlen c -> nth_error y (N.to_nat k) = nth_error w (N.to_nat k)) /\
  (forall k, vlen c <= off_vec fo c + k * fbytes fo -> k < vlen c -> nth_error y (N.to_nat k) = Some (f0 fo)).
(** The bytes [bs] of a node keep part of the plane [w]. *)
Definition keeps_plane (bs : list N) (w : list (F fo)) : Prop := keeps_part w (n_vec fo c bs).
(** A mean of [n] vectors of [P], each divided by its length, formed one by one.  The first
    one is kept in part only. *)
Definition zip (g : F fo -> F fo -> F fo) (v w : list (F fo)) : list (F fo) := map (fun xy => g (fst xy) (snd xy)) (combine v w).
Inductive running_mean (P : list (F fo) -> Prop) : N -> list (F fo) -> Prop :=
| rm_first x y : P x -> lenN y = vlen c -> keeps_part x y -> running_mean P 1 (unit_vec y)
| rm_next n m x l : running_mean P n m -> P x -> l = fsqrt fo (inner x x) -> flt fo (f0 fo) l = true ->
    running_mean P (n + 1) (zip (fun a b => fdiv fo (fadd fo (fmul fo a (fofN fo n)) (fdiv fo b l)) (fofN fo (n + 1))) m x).
(** The items [xs] and [ys], with vectors [f], lie on the two sides of the plane [w];
    items on the plane may be on either side, a NaN counts as left. *)
Definition sides (f : N -> option (list (F fo))) (w : list (F fo)) (xs ys : list N) : Prop :=
  (forall j x, In j xs -> f j = Some x -> flt fo (f0 fo) (inner w x) = false) /\
  (forall j x, In j ys -> f j = Some x -> flt fo (f0 fo) (inner w x) = true \/ feq fo (inner w x) (f0 fo) = true).
(** A split node keeps (part of) the plane by which its items were divided, or of the
    zero vector if they were divided at random; its dot factor is 0.  The plane is the
    difference of two means of the items, scaled to length 1. *)
Definition plane_cut (f : N -> option (list (F fo))) (bs xs ys : list N) : Prop :=
  (knd c = DotProduct -> n_dot fo c bs = f0 fo) /\
  exists w, lenN w = vlen c /\ keeps_plane bs w /\
    (w = repeat (f0 fo) (N.to_nat (vlen c)) \/
     (exists p q m n, running_mean (fun x => exists j, In j (xs ++ ys) /\ f j = Some x) m p /\
        running_mean (fun x => exists j, In j (xs ++ ys) /\ f j = Some x) n q /\ m <= 201 /\ n <= 201 /\
        w = unit_vec (zip (fsub fo) p q)) /\ sides f w xs ys).
(** Neither half has more than 99.2 % of the items. *)
Definition balanced (xs ys : list N) : Prop :=
  1000 * lenN xs <= 992 * (lenN xs + lenN ys) /\ 1000 * lenN ys <= 992 * (lenN xs + lenN ys).
(** From node [i] one gets to [j] through [d] split nodes. *)
Inductive descends (v : option buf) : N -> nat -> N -> Prop :=
| de_here i : descends v i 0 i
| de_left i l r d j : splits v i l r -> descends v l d j -> descends v i (S d) j
| de_right i l r d j : splits v i l r -> descends v r d j -> descends v i (S d) j.

(** What a caller sees of a query. *)
Definition answer (r : res (list N * list (F fo) * ctx (F fo))) : res (list N * list (F fo)) :=
  let* x := r in Ok (fst x).
End F.

(** ** The resources of a Build *)
(** How many tree nodes [trees] trees over [n] items (or automatic tree count by [nw]
    workers) need at most. *)
Definition forest_room (n : N) (trees : Z) (nw : N) : N :=
  if (trees =? -1)%Z then nw * (2 * n) else Z.to_N trees * N.max 1 n.
(** Recursion bounds of the model that are never reached: [fuel] bounds the loop over
    trees, [mfuel] the depth of a tree. *)
Definition enough_fuel (n : N) (trees : Z) (fuel mfuel : nat) : Prop :=
  (Nat.max 1 (N.to_nat n) <= mfuel)%nat /\ (N.to_nat n < fuel)%nat /\ (Z.to_nat trees < fuel)%nat.
