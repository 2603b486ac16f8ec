(** Specification vocabulary for concurrent builds: what it means for a worker to go
    wrong, to be blocked, or to race with another one.  Nothing here mentions how the
    build works. *)
From Verif Require Import Base Layout Alloc Prog.
Open Scope N_scope.

Section C.
Variable c : Cfg.

(** The states of all schedules that start from the given workers. *)
Definition reachable {A} (ps : list (prog A)) (s : bst) (ps' : list (prog A)) (s' : bst) : Prop :=
  pool_steps c (ps, s) (ps', s').

(** Worker [w] can take a step. *)
Definition can_step {A} (w : nat) (p : prog A) (s : bst) : Prop :=
  match p with Vis e k => exists x s', mstep c w _ e s x s' | _ => False end.

(** Worker [w] has returned, or the model's bound on random retries has cut it off. *)
Definition finished {A} (p : prog A) : Prop :=
  match p with Ret _ => True | Fail e => e = Unlucky | Vis _ _ => False end.

(** Worker [w] is about to do something illegal: it has panicked, it is about to touch
    memory outside the arena its pointer refers to (or through nil), to call a method
    of a nil generator, or to unlock a mutex it does not hold. *)
Definition going_wrong {A} (w : nat) (p : prog A) (s : bst) : Prop :=
  match p with
  | Ret _ => False
  | Fail e => e <> Unlucky
  | Vis e _ =>
      (exists er, exec c w e s = Er er) \/
      match e with
      | AUnlockNN => l_nn s <> Some w
      | AUnlockRoots => l_roots s <> Some w
      | AUnlockNodes => ~ (l_w s = Some w /\ l_wh s = true)
      | ARUnlock => ~ In w (l_r s)
      | _ => False
      end
  end.

(** ** Races *)
Inductive loc :=
| LNodeCount | LCapacity | LNodePtr | LRoots | LGenerator
| LBytes (p : ptr) (off len : N)      (* bytes of an arena *)
| LArena.                             (* all bytes of the allocator's arena *)
(** The shared locations an action accesses; [true] = writes. *)
Definition accesses {X} (e : act X) : list (loc * bool) :=
  match e with
  | AGetNN => [(LNodeCount, false)]   | ASetNN _ => [(LNodeCount, true)]
  | AGetNS => [(LCapacity, false)]    | ASetNS _ => [(LCapacity, true)]
  | AGetBase => [(LNodePtr, false)]
  | ARealloc _ => [(LNodePtr, true); (LArena, false)]
  | ARead p off len => [(LBytes p off len, false)]
  | AWrite p off bs => [(LBytes p off (lenN bs), true)]
  | AGetRoots => [(LRoots, false)]    | ASetRoots _ => [(LRoots, true)]
  | ADraw => [(LGenerator, true)]
  | _ => []
  end.
Definition overlap (a b : loc) : Prop :=
  match a, b with
  | LNodeCount, LNodeCount | LCapacity, LCapacity | LNodePtr, LNodePtr
  | LRoots, LRoots | LGenerator, LGenerator => True
  | LBytes p o n, LBytes p' o' n' => p = p' /\ o < o' + n' /\ o' < o + n
  | LBytes _ _ _, LArena | LArena, LBytes _ _ _ | LArena, LArena => True
  | _, _ => False
  end.
(** Two pending actions of different workers conflict. *)
Definition conflict {X Y} (e : act X) (d : act Y) : Prop :=
  exists a b u v, In (a, u) (accesses e) /\ In (b, v) (accesses d) /\ overlap a b /\ (u = true \/ v = true).
Definition is_draw {X} (e : act X) : Prop := match e with ADraw => True | _ => False end.

(** Worker [w] claimed node [i] (ghost). *)
Definition claimed (s : bst) (i : N) (w : nat) : Prop := In (i, w) (owner s).
End C.
