(** Vector arithmetic and the two Distance implementations.
    /repo/vector/*.go, /repo/distance/two_means.go, /repo/distance/angular/distance.go,
    /repo/distance/dotproduct/distance.go. *)
From Verif Require Import Base Flt Layout Rng Alloc Prog.
Open Scope N_scope.

Section D.
Variable fo : FOps.
Variable c : Cfg.
Notation V := (list (F fo)).

(** ** /repo/vector *)
(** Dot / DotUnsafe: dot.go:9-31.  The sum is rounded after every product and
    every addition (no fused multiply-add, as on amd64). *)
Fixpoint dot_from (acc : F fo) (a b : V) : F fo :=
  match a, b with
  | x :: a', y :: b' => dot_from (fadd fo acc (fmul fo x y)) a' b'
  | _, _ => acc
  end.
Definition dot (a b : V) : F fo := dot_from (f0 fo) a b.
(** GetNorm / GetNormUnsafe: get_norm.go:10-16. *)
Definition norm (a : V) : F fo := fsqrt fo (dot a a).
(** Abs: abs.go:9-15. *)
Definition fabs (x : F fo) : F fo := if flt fo x (f0 fo) then fneg fo x else x.

(** ** Nodes as the distance code sees them: cached norm, dot factor, vector.
    Every access of the distance code to a node goes through these three. *)
Record snode := mkSN { s_norm : F fo; s_dot : F fo; s_vec : V }.
Definition snode_of (bs : list N) : snode :=
  mkSN (n_norm fo c bs) (n_dot fo c bs) (n_vec fo c bs).

(** Distance: angular/distance.go:80-105, dotproduct/distance.go:152-177 (same text). *)
Definition distance (x y : snode) : F fo :=
  let pp := if feq fo (s_norm x) (f0 fo) then dot (s_vec x) (s_vec x) else s_norm x in
  let qq := if feq fo (s_norm y) (f0 fo) then dot (s_vec y) (s_vec y) else s_norm y in
  let ppqq := if feq fo pp (f0 fo) then f0 fo else fmul fo pp qq in
  if flt fo (f0 fo) ppqq
  then fsub fo (f2 fo) (fdiv fo (fmul fo (f2 fo) (dot (s_vec x) (s_vec y))) (fsqrt fo ppqq))
  else f2 fo.

(** NormalizedDistance: angular/distance.go:164-166, dotproduct/distance.go:137-139. *)
Definition normalized_distance (d : F fo) : F fo :=
  match knd c with Angular => fsqrt fo d | DotProduct => fneg fo d end.

(** Normalize: angular/distance.go:65-78, dotproduct/distance.go:87-102. *)
Definition normalize (x : snode) : snode :=
  let n := norm (s_vec x) in
  if flt fo (f0 fo) n
  then mkSN (s_norm x)
            (match knd c with Angular => s_dot x | DotProduct => fdiv fo (s_dot x) n end)
            (map (fun z => fdiv fo z n) (s_vec x))
  else x.

(** InitNode: angular/distance.go:180-183; dotproduct/distance.go:225-227 does nothing. *)
Definition init_node (x : snode) : snode :=
  match knd c with
  | Angular => mkSN (dot (s_vec x) (s_vec x)) (s_dot x) (s_vec x)
  | DotProduct => x
  end.

(** Margin: angular/distance.go:107-117, dotproduct/distance.go:104-116.
    [y] is a caller-supplied slice; vectorLength elements are read from it
    through a raw pointer, so a short [y] is read out of bounds. *)
Definition margin (n : snode) (y : V) : res (F fo) :=
  if lenN y =? 0 then Er (Panic PEmptyY)
  else if lenN y <? vlen c then Er Fault
  else
    let d := dot (s_vec n) (firstn (N.to_nat (vlen c)) y) in
    Ok (match knd c with
        | Angular => d
        | DotProduct => fadd fo d (fmul fo (s_dot n) (s_dot n))
        end).

(** PQDistance: angular/distance.go:168-173, dotproduct/distance.go:141-146.
    [right] = true for SideRight. *)
Definition pq_distance (d m : F fo) (right : bool) : F fo :=
  fmin fo d (if right then m else fneg fo m).
(** PQInitialValue: angular/distance.go:175-177, dotproduct/distance.go:148-150. *)
Definition pq_initial : F fo := finf fo.

(** ** Random choices during a build *)
(** idx.random.NextSide() / NextIndex(n): random/kiss32random.go:55-64. *)
Definition draw_side : prog bool := vis d <- ADraw; Ret (side_of_draw d).
Definition draw_index (n : N) : prog N := vis d <- ADraw; plift (index_of_draw n d).

(** Side: angular/distance.go:119-136, dotproduct/distance.go:118-135. *)
Definition side (n : snode) (y : V) : prog bool :=
  do m <- plift (margin n y);
  if feq fo m (f0 fo) then draw_side else Ret (flt fo (f0 fo) m).

(** ** TwoMeans: /repo/distance/two_means.go:17-89 *)
Definition nth_node (l : list (list N)) (i : N) : res (list N) :=
  match nth_error l (N.to_nat i) with Some b => Ok b | None => Er (Panic PIndex) end.

(** CopyNode(p, src, vectorLength) into a zeroed scratch node: copies the first
    vectorLength *bytes* (/repo/utils/node.go:23-31 called at two_means.go:37-38). *)
Definition copy_to_scratch (src : list N) : list N :=
  firstn (N.to_nat (vlen c)) src ++
  repeat 0 (N.to_nat (nodeSize fo c) - Nat.min (N.to_nat (vlen c)) (length src)).

(** Lines 73-78 / 81-86: move the centroid, then InitNode, then count. *)
Definition centroid_step (p : snode) (ic : N) (vec : V) (nrm : F fo) : snode :=
  init_node (mkSN (s_norm p) (s_dot p)
    (map (fun pv => fdiv fo (fadd fo (fmul fo (fst pv) (fofN fo ic)) (fdiv fo (snd pv) nrm)) (fofN fo (ic + 1)))
         (combine (s_vec p) vec))).

(** Lines 52-88, [l] iterations left; both callers pass cosine = true. *)
Fixpoint means_loop (l : nat) (nodes : list (list N)) (p q : snode) (ic jc : N) : prog (snode * snode) :=
  match l with
  | O => Ret (p, q)
  | S l' =>
      do k <- draw_index (tix c (lenN nodes));
      do bs <- plift (nth_node nodes k);
      let nk := snode_of bs in
      let di := dscale fo ic (distance p nk) in
      let dj := dscale fo jc (distance q nk) in
      let nrm := norm (s_vec nk) in
      if negb (flt fo (f0 fo) nrm) then means_loop l' nodes p q ic jc
      else if dlt fo di dj then means_loop l' nodes (centroid_step p ic (s_vec nk) nrm) q (ic + 1) jc
      else if dlt fo dj di then means_loop l' nodes p (centroid_step q jc (s_vec nk) nrm) ic (jc + 1)
      else means_loop l' nodes p q ic jc
  end.

Definition iteration_steps : nat := 200.

Definition two_means (nodes : list (list N)) : prog (snode * snode) :=
  let cnt := tix c (lenN nodes) in
  do i <- draw_index cnt;
  do j0 <- draw_index (tix c (cnt + 2 ^ iw c - 1));
  let j := if i <=? j0 then tix c (j0 + 1) else j0 in
  do bi <- plift (nth_node nodes i);
  do bj <- plift (nth_node nodes j);
  let p := init_node (normalize (snode_of (copy_to_scratch bi))) in
  let q := init_node (normalize (snode_of (copy_to_scratch bj))) in
  means_loop iteration_steps nodes p q 1 1.

(** CreateSplit: angular/distance.go:138-162, dotproduct/distance.go:61-85.
    [m] is the split node being written. *)
Definition create_split (nodes : list (list N)) (m : snode) : prog snode :=
  do pq <- two_means nodes;
  Ret (normalize (mkSN (s_norm m) (s_dot m)
         (map (fun xy => fsub fo (fst xy) (snd xy)) (combine (s_vec (fst pq)) (s_vec (snd pq)))))).

(** ** PreProcess: dotproduct/distance.go:179-222; nothing for angular
    (angular/distance.go:61-63).  Pure part: the new dot factors of the items.
    math.Pow(x, 2.0) is taken to be x*x rounded once. *)
Definition pp_norm (v : V) : F fo :=
  let d := dot v v in
  if flt fo (f0 fo) d || feq fo (f0 fo) d then fsqrt fo d else f0 fo.
Definition pp_max (l : list (F fo)) : F fo :=
  fold_left (fun m x => if flt fo m x then x else m) l (f0 fo).
Definition pp_factor (mx n : F fo) : F fo :=
  let d := fsub fo (fsq fo mx) (fsq fo n) in
  if flt fo (f0 fo) d || feq fo (f0 fo) d then fsqrt fo d else f0 fo.
Definition dot_factors (vs : list V) : list (F fo) :=
  let ns := map pp_norm vs in map (pp_factor (pp_max ns)) ns.

End D.
