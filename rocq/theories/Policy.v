(** Build policies: /repo/index/policy/index_policy_single.go, index_policy_multi.go. *)
From Verif Require Import Base Imbalance.
From Coq Require Import Floats.SpecFloat.
Open Scope Z_scope.

Inductive policy := SingleWorker | MultiWorker.

(** float64(n) for a Go int. *)
Definition d_intZ (z : Z) : spec_float := binary_normalize 53 1024 z 0 false.

(** int(math.Floor(x)) for a finite x. *)
Definition floor_int (x : spec_float) : Z :=
  match x with
  | S754_finite s m e =>
      let z := if s then Zneg m else Zpos m in
      if 0 <=? e then z * 2 ^ e else z / 2 ^ (- e)
  | _ => 0
  end.

(** index_policy_multi.go:34-37: trees for worker [w] of [nw]. *)
Definition trees_for_worker (trees : Z) (nw w : nat) : Z :=
  if trees =? -1 then trees
  else floor_int (SFdiv 53 1024 (d_intZ (trees + Z.of_nat w)) (d_intZ (Z.of_nat nw))).

(** index_policy_multi.go:26-31: the number of goroutines; [ncpu] is runtime.NumCPU().
    A negative wg.Add panics. *)
Definition worker_count (nworkers : Z) (ncpu : N) : res nat :=
  let n := if nworkers =? -1 then Z.of_N (N.max 1 (ncpu mod 2 ^ 32)) else nworkers in
  if n <? 0 then Er (Panic PWaitGroup) else Ok (Z.to_nat n).

(** The treesPerWorker values handed to ThreadBuild, by worker number, with the
    multi-worker policy: index_policy_multi.go:22-49.  The single-worker policy
    (index_policy_single.go:11-16) calls ThreadBuild once, with all trees and worker
    number 0, and ignores the number of threads: [build_single] in Index.v. *)
Definition work_plan (trees nworkers : Z) (ncpu : N) : res (list Z) :=
  let* nw := worker_count nworkers ncpu in
  Ok (map (trees_for_worker trees nw) (seq 0 nw)).
