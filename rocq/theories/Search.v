(** Queries: /repo/index/annoyindex_search.go. *)
From Verif Require Import Base Flt Layout Alloc Prog Sorts Dist Build Index.
Open Scope N_scope.

(** BatchContext: annoyindex_search.go:12-16.  Both arrays have the same length. *)
Record ctx (T : Type) := mkCtx { c_nns : list N; c_dist : list (T * N) }.
Arguments mkCtx {T}. Arguments c_nns {T}. Arguments c_dist {T}.

Section Q.
Variable fo : FOps.
Variable c : Cfg.
(** The Sorter in use (interfaces/sorter.go:5-9).  With the default one (index.New,
    annoyindex.go:87-93) [sortIx] and [sortPairs] are Go's sort.Slice, which is
    external; PartialSortSlice is [partial_sort sortPairs]. *)
Variable sortIx : list N -> list N.
Variable sortPairs : list (F fo * N) -> list (F fo * N).

Notation NSZ := (nodeSize fo c).
Notation K := (maxK fo c).
Notation less := (pair_less (flt fo) (feq fo)).

(** CreateContext: annoyindex_search.go:20-40.  make with a negative length panics,
    but the length used is never negative (batchMaxNNS < 1 falls back). *)
Definition create_context (ix : idx) : ctx (F fo) :=
  let n := Z.to_nat (context_length ix) in
  mkCtx (repeat 0 n) (repeat (f0 fo, 0) n).

(** bc.nns[at:at+len(xs)] = xs as done by copy(): silently cut at the end of the
    array; a start beyond the end panics. *)
Definition put_at (nns : list N) (at_ : N) (xs : list N) : res (list N) :=
  if lenN nns <? at_ then Er (Panic PIndex)
  else let a := N.to_nat at_ in
       let ys := firstn (length nns - a) xs in
       Ok (firstn a nns ++ ys ++ skipn (a + length ys) nns).

(** Lines 93-130.  [fuel] bounds the number of queue pops (unbounded in Go). *)
Fixpoint search_loop (fuel : nat) (v : option buf) (nitems : N) (vec : list (F fo)) (limit : Z)
         (q : list (F fo * N)) (cnt : N) (nns : list N) : res (N * list N) :=
  if (Z.of_N cnt <? limit)%Z && negb (pq_empty q) then
    match fuel with
    | O => Er OutOfFuel
    | S fu =>
        match pq_top q with
        | None => Er (Panic PNil)
        | Some (d, i) =>
            let* (_, q') := pq_pop less q in
            let* bs := vread v (addr fo c i) NSZ in
            let n := n_desc c bs in
            if (n =? 1) && (i <? nitems) then
              (if lenN nns <=? cnt then Er (Panic PIndex)
               else let* nns' := put_at nns cnt [i] in
                    search_loop fu v nitems vec limit q' (cnt + 1) nns')
            else if n <=? K then
              let* nns' := put_at nns (tix c cnt) (n_children c n bs) in
              search_loop fu v nitems vec limit q' (cnt + n) nns'
            else
              let* m := margin fo c (snode_of fo c bs) vec in
              let ch := n_children c 2 bs in
              let q1 := pq_push less q' (pq_distance fo d m true, nth 1 ch 0) in
              let q2 := pq_push less q1 (pq_distance fo d m false, nth 0 ch 0) in
              search_loop fu v nitems vec limit q2 cnt nns
        end
    end
  else Ok (cnt, nns).

(** Lines 137-147: the query vector as a node.  SetVector copies len(vector)
    elements into a buffer of nodeSize bytes: a longer vector overruns it.  (A vector of
    more than 2^30 bytes panics before it overruns, as in AddItem; here: overruns.) *)
Definition query_node (vec : list (F fo)) : res (snode fo) :=
  if vlen c <? lenN vec then Er Fault
  else
    let z := zero_snode fo c in
    Ok (init_node fo c (mkSN fo (s_norm fo z) (s_dot fo z)
                             (vec ++ skipn (length vec) (s_vec fo z)))).

(** Lines 154-175: distances of the distinct candidates that are items.  [last] is
    the previous candidate.  The result is what is written to bc.nns_dist. *)
Fixpoint score (v : option buf) (qn : snode fo) (last : option N) (l : list N)
  : res (list (F fo * N)) :=
  match l with
  | [] => Ok []
  | j :: r =>
      if (match last with Some x => j =? x | None => false end) then score v qn last r
      else
        let* bs := vread v (addr fo c j) NSZ in
        let* rest := score v qn (Some j) r in
        Ok (if n_desc c bs =? 1 then (distance fo qn (snode_of fo c bs), j) :: rest else rest)
  end.

(** GetNnsByVector: lines 75-199.  Returns ids, distances and the context as the
    call leaves it.  Overflow of numReturn * len(roots) is not modelled. *)
Definition get_nns_by_vector (fuel : nat) (fs : files) (ix : idx) (vec : list (F fo))
           (numReturn inspect : Z) (bc : ctx (F fo))
  : res (list N * list (F fo) * ctx (F fo)) :=
  let v := view fs ix in
  let roots := rootsN (ib ix) in
  let limit := (if inspect =? -1 then numReturn * Z.of_nat (length roots) else inspect)%Z in
  let q0 := fold_left (fun q r => pq_push less q (pq_initial fo, r)) roots pq_new in
  let* (cnt, nns) := search_loop fuel v (n_items ix) vec limit q0 0 (c_nns bc) in
  if lenN nns <? cnt then Er (Panic PIndex)                      (* bc.nns[:cnt] *)
  else
    let cand := sortIx (firstn (N.to_nat cnt) nns) in
    let nns' := cand ++ skipn (N.to_nat cnt) nns in
    let* qn := query_node vec in
    let* sc := score v qn None cand in
    if lenN (c_dist bc) <? lenN sc then Er (Panic PIndex)        (* bc.nns_dist[cnt] *)
    else
      let n := Z.of_nat (length sc) in
      let middle := Z.min numReturn n in
      let* sorted := partial_sort less sortPairs sc 0 middle n in
      let top := firstn (Z.to_nat middle) sorted in
      Ok (map snd top, map (fun p => normalized_distance fo c (fst p)) top,
          mkCtx nns' (sorted ++ skipn (length sc) (c_dist bc))).

(** GetNnsByItem: lines 54-71. *)
Definition get_nns_by_item (fuel : nat) (fs : files) (ix : idx) (item : N)
           (numReturn inspect : Z) (bc : ctx (F fo)) :=
  let* vec := get_item fo c fs ix item in
  get_nns_by_vector fuel fs ix vec numReturn inspect bc.

End Q.
