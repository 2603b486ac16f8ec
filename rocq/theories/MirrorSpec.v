(** Specification vocabulary: other coordinates for the same vectors (C111). *)
From Verif Require Import Base Flt.

(** One coordinate of the new vectors: the next old one, the next old one with the
    opposite sign, or zero. *)
Inductive coord := Keep | Flip | Zero.
Fixpoint embed (fo : FOps) (m : list coord) (x : list (F fo)) : list (F fo) :=
  match m, x with
  | [], _ => x
  | Zero :: m', _ => f0 fo :: embed fo m' x
  | Keep :: m', a :: x' => a :: embed fo m' x'
  | Flip :: m', a :: x' => fneg fo a :: embed fo m' x'
  | _, [] => []
  end.
