(** The exported functions of /repo/vector that take slices, and utils.Round.
    [Dist] has the loops over vectors of the right length; here the length is the
    separate argument vectorLength, and an index that is out of range panics. *)
From Verif Require Import Base Flt Layout Rng Alloc Prog Dist.
From Flocq Require Import Core.Zaux IEEE754.BinarySingleNaN IEEE754.Binary IEEE754.Bits.
Open Scope N_scope.

Section V.
Variable fo : FOps.
Notation V := (list (F fo)).

(** a[i] for a slice [a]. *)
Definition at_slice (a : V) (i : nat) : res (F fo) :=
  match nth_error a i with Some x => Ok x | None => Er (Panic PIndex) end.

(** for i := 0; i < vectorLength; i++ { sum = step(sum, a[i], b[i]) }; [k] iterations are left. *)
Fixpoint vec_loop (step : F fo -> F fo -> F fo -> F fo) (a b : V) (k i : nat) (sum : F fo) : res (F fo) :=
  match k with
  | O => Ok sum
  | S k' =>
      let* x := at_slice a i in
      let* y := at_slice b i in
      vec_loop step a b k' (S i) (step sum x y)
  end.

(** Dot: vector/dot.go:9-15. *)
Definition slice_dot (a b : V) (n : N) : res (F fo) :=
  vec_loop (fun s x y => fadd fo s (fmul fo x y)) a b (N.to_nat n) 0 (f0 fo).
(** GetNorm: vector/get_norm.go:10-12. *)
Definition slice_norm (a : V) (n : N) : res (F fo) :=
  let* d := slice_dot a a n in Ok (fsqrt fo d).
(** EuclideanDistance: vector/euclidean_distance.go:5-13. *)
Definition slice_euclid (a b : V) (n : N) : res (F fo) :=
  vec_loop (fun s x y => fadd fo s (fmul fo (fsub fo x y) (fsub fo x y))) a b (N.to_nat n) 0 (f0 fo).
(** ManhattanDistance: vector/manhattan_distance.go:5-13, Abs: vector/abs.go:9-15. *)
Definition slice_manhattan (a b : V) (n : N) : res (F fo) :=
  vec_loop (fun s x y => fadd fo s (fabs fo (fsub fo x y))) a b (N.to_nat n) 0 (f0 fo).
End V.

(** math.Floor on float64: the largest integer value not above the argument; zeros,
    infinities and NaN are returned as they are. *)
Definition floor64 (x : binary64) : binary64 :=
  match x with
  | B754_finite s m e _ =>
      if (0 <=? e)%Z then x else d_of_Z (cond_Zopp s (Zpos m) / 2 ^ (- e))%Z
  | _ => x
  end.
Definition half64 : binary64 := b64_div mode_NE (d_of_Z 1) (d_of_Z 2).
(** Round: utils/math.go:46-48. *)
Definition round64 (f : binary64) : binary64 := floor64 (b64_plus mode_NE f half64).
(** RoundPlus: utils/math.go:51-54.  [shift] is what math.Pow(10, places) gives. *)
Definition round_plus (shift f : binary64) : binary64 := b64_div mode_NE (round64 (b64_mult mode_NE f shift)) shift.
