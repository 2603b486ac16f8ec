(** Specification vocabulary over the real numbers: what the library's distances are
    meant to approximate. *)
From Verif Require Import Base Flt Layout ForestSpec.
From Coq Require Import Reals.
From Flocq Require Import Core.Raux Core.Defs IEEE754.Binary.
Open Scope R_scope.

(** A float type with the real numbers its values stand for and its rounding unit. *)
Record Fmt := mkFmt {
  ops : FOps;
  rv : F ops -> R;               (* the real number a finite value stands for *)
  fin : F ops -> Prop;           (* neither infinite nor NaN *)
  fprec : Z;                     (* bits of precision *)
  femin : Z                      (* exponent of the smallest positive value *)
}.
Definition fmt32 : Fmt := mkFmt fops32 (B2R 24 128) (fun x => is_finite 24 128 x = true) 24 (-149).
Definition fmt64 : Fmt := mkFmt fops64 (B2R 53 1024) (fun x => is_finite 53 1024 x = true) 53 (-1074).
Definition is_fmt (fm : Fmt) : Prop := fm = fmt32 \/ fm = fmt64.
(** The rounding unit: 2^-24 for float32, 2^-53 for float64. *)
Definition unit_of (fm : Fmt) : R := / 2 ^ Z.to_nat (fprec fm).

(** Vectors of real numbers. *)
Fixpoint rdot (x y : list R) : R :=
  match x, y with a :: x', b :: y' => a * b + rdot x' y' | _, _ => 0 end.
Definition rlen (x : list R) : R := sqrt (rdot x x).
(** 2 - 2*cos of the angle between two vectors: the square of the distance of the
    points in which they meet the unit sphere. *)
Definition true_gap (x y : list R) : R := 2 - 2 * (rdot x y / (rlen x * rlen y)).

(** Vectors on which nothing overflows or underflows: at most 2^20 components, all finite
    and of size at most 2^20; a length of at least 2^-20. *)
Definition tame (fm : Fmt) (x : list (F (ops fm))) : Prop :=
  INR (length x) <= 2 ^ 20 /\ Forall (fun a => fin fm a /\ Rabs (rv fm a) <= 2 ^ 20) x /\ / 2 ^ 20 <= rlen (map (rv fm) x).

(** A reported distance [d] of [x] and [y] is right up to [e].  Angular: its square is
    within [e] of the true value, or it is NaN and the true value is at most [e].  Dot
    product: its negation is within [e] of the true value. *)
Definition close_distance (fm : Fmt) (k : kind) (d : F (ops fm)) (x y : list (F (ops fm))) (e : R) : Prop :=
  let t := true_gap (map (rv fm) x) (map (rv fm) y) in
  match k with
  | Angular => (fin fm d /\ Rabs (rv fm d * rv fm d - t) <= e) \/ (feq (ops fm) d d = false /\ t <= e)
  | DotProduct => fin fm d /\ Rabs (- rv fm d - t) <= e
  end.
(** The rounding error of distances between vectors of [n] components. *)
Definition dist_err (fm : Fmt) (n : nat) : R := (10 * INR n + 75) * unit_of fm.

(** The difference of two vectors, the square of their Euclidean distance, and their
    Manhattan distance. *)
Fixpoint rdiff (x y : list R) : list R :=
  match x, y with a :: x', b :: y' => (a - b) :: rdiff x' y' | _, _ => [] end.
Definition sq_dist (x y : list R) : R := rdot (rdiff x y) (rdiff x y).
Definition abs_dist (x y : list R) : R := fold_right (fun a s => Rabs a + s) 0 (rdiff x y).
(** Like [tame], but the vector may be short or zero. *)
Definition moderate (fm : Fmt) (x : list (F (ops fm))) : Prop :=
  INR (length x) <= 2 ^ 20 /\ Forall (fun a => fin fm a /\ Rabs (rv fm a) <= 2 ^ 20) x.
