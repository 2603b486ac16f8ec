(** Specification vocabulary: multiplying a vector by a power of two. *)
From Verif Require Import Base Flt ForestSpec RealSpec.
From Coq Require Import Reals.
From Flocq Require Import Core.Zaux Core.Raux.
Open Scope R_scope.

(** Tame vectors whose components are 0 or at least 2^-20 in size. *)
Definition plain (fm : Fmt) (x : list (F (ops fm))) : Prop :=
  tame fm x /\ Forall (fun a => rv fm a = 0 \/ / 2 ^ 20 <= Rabs (rv fm a)) x.
(** [y] is [x] times 2^k. *)
Definition times_pow (fm : Fmt) (k : Z) (x y : list (F (ops fm))) : Prop :=
  Forall2 (fun a b => rv fm b = bpow radix2 k * rv fm a) x y.
