(** Specification vocabulary: reported distances as real numbers. *)
From Verif Require Import Base Flt Layout ForestSpec RealSpec.
From Coq Require Import Reals.
Open Scope R_scope.

(** [x] with every component times [k]. *)
Definition scale (k : R) (x : list R) : list R := map (Rmult k) x.
(** A reported distance as a real number; NaN, reported for some nearly parallel vectors
    (C78), counts as 0. *)
Definition shown (fm : Fmt) (d : F (ops fm)) : R := if feq (ops fm) d d then rv fm d else 0.
