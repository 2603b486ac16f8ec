(** splitImbalance: /repo/index/annoyindex.go:457-464, in IEEE double precision
    (the executable specification of binary64 from Coq's standard library). *)
From Verif Require Import Base.
From Coq Require Import Floats.SpecFloat.
Open Scope Z_scope.

Definition d_int (n : N) : spec_float := binary_normalize 53 1024 (Z.of_N n) 0 false. (* float64(len(..)) *)
Definition d_1em9 : spec_float := S754_finite false 4835703278458517 (-82).   (* 1e-9  *)
Definition d_one : spec_float := S754_finite false 4503599627370496 (-52).    (* 1     *)
Definition d_095 : spec_float := S754_finite false 8556839292003942 (-53).    (* 0.95  *)
Definition d_099 : spec_float := S754_finite false 8917127262193582 (-53).    (* 0.99  *)

(** math.Max on non-NaN operands. *)
Definition d_max (x y : spec_float) : spec_float := if SFltb y x then x else y.

(** Lines 459-463. *)
Definition split_imbalance (l r : N) : spec_float :=
  let ls := d_int l in
  let rs := d_int r in
  let f := SFdiv 53 1024 ls (SFadd 53 1024 (SFadd 53 1024 ls rs) d_1em9) in
  d_max f (SFsub 53 1024 d_one f).

(** annoyindex.go:381-385: the attempt is accepted. *)
Definition split_good (l r : N) : bool := SFltb (split_imbalance l r) d_095.
(** annoyindex.go:392-396: no (more) randomising. *)
Definition split_usable (l r : N) : bool := SFleb (split_imbalance l r) d_099.
