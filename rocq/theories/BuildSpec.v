(** Specification vocabulary for a whole Build: which calls the theorems are about. *)
From Verif Require Import Base Flt Layout Rng Alloc Prog Build Policy Index Spec ForestSpec LayoutProof MemProof StoreProof.
Open Scope N_scope.

Section B.
Variable fo : FOps.
Variable c : Cfg.

(** [ix] is a new index (any seed, any allocation hint) after the additions [h], and
    Build is called on it for [T] trees (-1: automatic) by [nw] workers.  The last two
    fields: the forest fits the index type's address range, and the model's recursion
    bounds are large enough. *)
Record build_call (h : list (N * list (F fo))) (ix : idx) (T : Z) (nw fuel mfuel : nat) : Prop := mkCall {
  bc_vlen : 1 <= vlen c;
  bc_hist : hist_ok fo c h;
  bc_added : exists r hint, add_all fo c (new_index fo c (Some r) hint) h = Ok ix;
  bc_trees : (-1 <= T)%Z;
  bc_workers : (0 < nw)%nat;
  bc_small : (T + Z.of_nat nw < 2 ^ 53)%Z;
  bc_room : cap_ok fo c (n_items ix + 2 * forest_room (n_items ix) T (N.of_nat nw));
  bc_fuel : enough_fuel (n_items ix) T fuel mfuel
}.

(** The goroutines that Build starts with the multi-worker policy. *)
Definition build_workers (ix : idx) (s0 : bst) (T : Z) (nw fuel mfuel rfuel : nat) : list (prog unit) :=
  workers fo c fuel mfuel rfuel (n_items ix) (rnd s0) (map (trees_for_worker T nw) (seq 0 nw)).

(** [ps] and [s] can be the goroutines and the shared state at some moment of it. *)
Definition during_build (ix : idx) (T : Z) (nw fuel mfuel rfuel : nat) (ps : list (prog unit)) (s : bst) : Prop :=
  exists s0, build_pre fo c ix = Ok s0 /\
    pool_steps c (build_workers ix s0 T nw fuel mfuel rfuel, s0) (ps, s).

(** Build has ended with [ix'], with either policy (all schedules, all draws). *)
Definition build_result (ix : idx) (T : Z) (nw fuel mfuel rfuel : nat) (ix' : idx) : Prop :=
  (nw = 1%nat /\ build_single fo c fuel mfuel rfuel ix T = Ok ix') \/
  (exists nworkers ncpu, worker_count nworkers ncpu = Ok nw /\
     build_multi fo c fuel mfuel rfuel ix T nworkers ncpu ix').

(** Two indexes answer alike about their items. *)
Record same_items (fs1 : files) (ix1 : idx) (fs2 : files) (ix2 : idx) : Prop := mkSame {
  si_count : n_items ix2 = n_items ix1;
  si_item : forall i, i < n_items ix1 -> get_item fo c fs2 ix2 i = get_item fo c fs1 ix1 i;
  si_dist : forall i j, i < n_items ix1 -> j < n_items ix1 ->
    get_distance fo c fs2 ix2 i j = get_distance fo c fs1 ix1 i j;
  si_room : context_length ix2 = context_length ix1
}.
(** The trees below [r1] and [r2] list the same items in the same order and have the same size. *)
Definition same_tree (fs1 : files) (ix1 : idx) (fs2 : files) (ix2 : idx) (r1 r2 : N) : Prop :=
  (exists xs m, reach fo c (view fs1 ix1) (n_items ix1) r1 xs m) /\
  forall xs m, reach fo c (view fs1 ix1) (n_items ix1) r1 xs m <-> reach fo c (view fs2 ix2) (n_items ix2) r2 xs m.

(** Two indexes that no caller can tell apart: the same counts, roots, context size and
    generator state, and the same bytes wherever both have nodes. *)
Record same_index (ix1 ix2 : idx) : Prop := mkSameIndex {
  sx_items : n_items ix2 = n_items ix1;
  sx_nodes : nn (ib ix2) = nn (ib ix1);
  sx_roots : rootsN (ib ix2) = rootsN (ib ix1);
  sx_batch : batchMax ix2 = batchMax ix1;
  sx_rnd : rnd (ib ix2) = rnd (ib ix1);
  sx_flags : iloaded ix2 = iloaded ix1 /\ ibuilt ix2 = ibuilt ix1;
  sx_bytes : forall fs off len, 0 < nn (ib ix1) -> off + len <= nn (ib ix1) * nodeSize fo c ->
    vread (view fs ix2) off len = vread (view fs ix1) off len
}.
End B.

(** The result of a program that does nothing but draw random numbers, given the
    numbers; [None] if it does anything else, fails, or there are too few or too many. *)
Fixpoint drawn {A} (p : prog A) (ds : list N) : option A :=
  match p with
  | Ret a => match ds with [] => Some a | _ => None end
  | Fail _ => None
  | @Vis _ X e k =>
      match e in act X return (X -> prog A) -> option A with
      | ADraw => fun k => match ds with d :: r => drawn (k d) r | [] => None end
      | _ => fun _ => None
      end k
  end.
