(** The multi-worker Build when no two draws overlap (/repo/index/policy/index_policy_multi.go:28-62,
    /repo/index/annoyindex.go:236-299).  [Prog.mstep] lets a draw return anything, because
    workers use idx.random without a lock.  When there is no other worker, or when draws
    happen not to overlap, a draw is an ordinary call of Next on the shared generator
    (/repo/random/kiss.go): that is the semantics below. *)
From Verif Require Import Base Flt Layout Rng Alloc Prog Build Policy Index.
Open Scope N_scope.

Section X.
Variable c : Cfg.
Definition exact_draw (w : nat) {X} (e : act X) (s : bst) : X -> bst -> Prop :=
  match e in act X return X -> bst -> Prop with
  | ADraw => fun x t => exec c w ADraw s = Ok (x, t)
  | _ => fun _ _ => True
  end.

Inductive xpool_steps {A} : list (prog A) * bst -> list (prog A) * bst -> Prop :=
| xs_refl x : xpool_steps x x
| xs_step ps s w X (e : act X) k x s' z :
    nth_error ps w = Some (Vis e k) ->
    mstep c w X e s x s' -> exact_draw w e s x s' ->
    xpool_steps (firstn w ps ++ [k x] ++ skipn (S w) ps, s') z ->
    xpool_steps (ps, s) z.
End X.

(** [Index.build_multi] with exact draws. *)
Definition build_multi_exact (fo : FOps) (c : Cfg) (fuel mfuel rfuel : nat) (ix : idx) (trees nworkers : Z) (ncpu : N) (ix' : idx) : Prop :=
  exists plan s0 ps s1,
    build_pre fo c ix = Ok s0 /\
    work_plan trees nworkers ncpu = Ok plan /\
    xpool_steps c (workers fo c fuel mfuel rfuel (n_items ix) (rnd s0) plan, s0) (ps, s1) /\
    ps = map (fun _ => Ret tt) plan /\
    build_post fo c ix s1 = Ok ix'.
