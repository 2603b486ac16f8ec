(** What cmd/precision measures: /repo/cmd/precision/main.go:154-231.  Not modelled: the
    flags, the clock and the profiler, everything that is printed except the precisions. *)
From Verif Require Import Base Flt Layout Rng Sorts Dist Index Search.
From Flocq Require Import Core.Zaux IEEE754.BinarySingleNaN IEEE754.Binary IEEE754.Bits.
Open Scope N_scope.

(** The limits: lines 166-172.  10^19 exceeds every Go int, so 19 rounds are enough; for
    numItems of 10^18 and more i *= 10 would overflow, which is not modelled. *)
Fixpoint limits_loop (fuel : nat) (i numItems : Z) : list Z :=
  match fuel with
  | O => []
  | S fuel' =>
      if (i <=? numItems)%Z
      then i :: (if (i =? 100)%Z then [500%Z] else []) ++ limits_loop fuel' (i * 10)%Z numItems
      else []
  end.
Definition limits (numItems : Z) : list Z := limits_loop 19 1 numItems.

(** float64(found) / float64(numReturn): line 225. *)
Definition hit_rate (found : nat) (numReturn : Z) : binary64 :=
  b64_div mode_NE (d_of_Z (Z.of_nat found)) (d_of_Z numReturn).

Section P.
Variable fo : FOps.
Variable c : Cfg.
Variable sortIx : list N -> list N.
Variable sortPairs : list (F fo * N) -> list (F fo * N).
(** sort.SortSlice, as Intersection calls it. *)
Variable sortU : list N -> list N.
Variable qfuel : nat.
Variable fs : files.
Variable ix : idx.
Notation by_item := (get_nns_by_item fo c sortIx sortPairs qfuel fs ix).

(** The stored vectors are compared with the added ones: lines 154-164.  [false] stands
    for the tool's panic "Vector mismatch". *)
Fixpoint same_vec (v w : list (F fo)) : bool :=
  match v, w with
  | x :: v', y :: w' => feq fo x y && same_vec v' w'
  | _, _ => true
  end.
Fixpoint check_vectors (i : N) (vs : list (list (F fo))) : res bool :=
  match vs with
  | [] => Ok true
  | v :: vs' =>
      let* iv := get_item fo c fs ix i in
      if same_vec v iv then check_vectors (i + 1) vs' else Ok false
  end.

(** One item, all limits: lines 214-227.  Intersection leaves [closest] sorted.
    [sums] is the map prec_sum, in the order of the limits. *)
Fixpoint per_limit (j : N) (numReturn : Z) (ls : list Z) (sums : list binary64) (closest : list N) (bc : ctx (F fo)) :
    res (list binary64 * ctx (F fo)) :=
  match ls, sums with
  | l :: ls', s :: ss =>
      let* r := by_item j l (-1)%Z bc in
      let '(top, _, bc1) := r in
      let '(common, closest', _) := intersection sortU closest top in
      let s' := b64_plus mode_NE s (hit_rate (length common) numReturn) in
      let* r2 := per_limit j numReturn ls' ss closest' bc1 in
      let '(ss', bc2) := r2 in
      Ok (s' :: ss', bc2)
  | _, _ => Ok ([], bc)
  end.
(** The rounds: lines 205-228. *)
Fixpoint rounds (k : nat) (numItems : N) (numReturn : Z) (ls : list Z) (r : kiss) (sums : list binary64) (bc : ctx (F fo)) :
    res (list binary64 * ctx (F fo)) :=
  match k with
  | O => Ok (sums, bc)
  | S k' =>
      let (d, r') := kiss_next 32 r in
      let* j := index_of_draw numItems d in
      let* a := by_item j numReturn (Z.of_N numItems) bc in
      let '(closest, _, bc1) := a in
      let* b := per_limit j numReturn ls sums closest bc1 in
      let '(sums', bc2) := b in
      rounds k' numItems numReturn ls r' sums' bc2
  end.
(** The reported precisions, in the order of the limits: lines 174-185, 203 and 230-231.
    prec_n is [n]. *)
Definition precisions (n : nat) (numItems : N) (numReturn : Z) : res (list binary64) :=
  let ls := limits (Z.of_N numItems) in
  let* r := rounds n numItems numReturn ls (kiss_new 0) (map (fun _ => d_of_Z 0) ls) (create_context fo ix) in
  Ok (map (fun s => b64_div mode_NE s (d_of_Z (Z.of_nat n))) (fst r)).
End P.
