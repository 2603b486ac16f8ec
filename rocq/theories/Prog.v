(** Index-building code as programs over explicit shared-state actions.

    The build runs as several goroutines over one shared AnnoyIndexImpl.  A worker
    is a [prog]: a tree of actions on the shared state.  The same program is
    - run to completion alone ([run]) for the single-worker policy, whose lock
      methods are empty (/repo/index/policy/index_policy_single.go:18-40), and
    - interleaved action by action with the other workers ([mstep], [pool_step])
      for the multi-worker policy (/repo/index/policy/index_policy_multi.go). *)
From Verif Require Import Base Layout Rng Alloc.
Open Scope N_scope.

(** Shared state during a build: the fields of AnnoyIndexImpl
    (/repo/index/annoyindex.go:24-52) that the build touches, the allocator, and
    the policy's mutexes (index_policy_multi.go:16-20). *)
Record bst := mkB {
  heap : arenas;              (* every byte slice the allocator ever made *)
  al : ptr;                   (* allocator.memory *)
  base : ptr;                 (* idx._nodes *)
  nn : N;                     (* idx._n_nodes *)
  ns : N;                     (* idx._nodes_size *)
  broots : list (nat * N);    (* idx._roots; the worker number is a ghost annotation *)
  rnd : option kiss;          (* idx.random; None = nil interface *)
  owner : list (N * nat);     (* ghost: which worker claimed which node number *)
  l_nn : option nat;          (* nNodesMutex holder *)
  l_roots : option nat;       (* rootsMutex holder *)
  l_w : option nat;           (* nodesMutex: writer that holds it or waits for readers to leave *)
  l_wh : bool;                (* nodesMutex: the writer actually holds it *)
  l_r : list nat              (* nodesMutex: current readers *)
}.

Definition set_heap h a b (s : bst) := mkB h a b (nn s) (ns s) (broots s) (rnd s) (owner s) (l_nn s) (l_roots s) (l_w s) (l_wh s) (l_r s).
Definition set_arenas h (s : bst) := set_heap h (al s) (base s) s.
Definition set_nn n o (s : bst) := mkB (heap s) (al s) (base s) n (ns s) (broots s) (rnd s) o (l_nn s) (l_roots s) (l_w s) (l_wh s) (l_r s).
Definition set_ns n (s : bst) := mkB (heap s) (al s) (base s) (nn s) n (broots s) (rnd s) (owner s) (l_nn s) (l_roots s) (l_w s) (l_wh s) (l_r s).
Definition set_roots r (s : bst) := mkB (heap s) (al s) (base s) (nn s) (ns s) r (rnd s) (owner s) (l_nn s) (l_roots s) (l_w s) (l_wh s) (l_r s).
Definition set_rnd r (s : bst) := mkB (heap s) (al s) (base s) (nn s) (ns s) (broots s) r (owner s) (l_nn s) (l_roots s) (l_w s) (l_wh s) (l_r s).
Definition set_lnn l (s : bst) := mkB (heap s) (al s) (base s) (nn s) (ns s) (broots s) (rnd s) (owner s) l (l_roots s) (l_w s) (l_wh s) (l_r s).
Definition set_lroots l (s : bst) := mkB (heap s) (al s) (base s) (nn s) (ns s) (broots s) (rnd s) (owner s) (l_nn s) l (l_w s) (l_wh s) (l_r s).
Definition set_lnodes w h r (s : bst) := mkB (heap s) (al s) (base s) (nn s) (ns s) (broots s) (rnd s) (owner s) (l_nn s) (l_roots s) w h r.

(** The actions.  One action is one access to shared state or one mutex
    operation; everything between two actions is local to the goroutine. *)
Inductive act : Type -> Type :=
| ALockNN : act unit        | AUnlockNN : act unit      (* nNodesMutex *)
| ALockNodesReq : act unit  | ALockNodesAcq : act unit  (* nodesMutex.Lock: announce, then wait for readers *)
| AUnlockNodes : act unit                               (* nodesMutex.Unlock *)
| ARLock : act unit         | ARUnlock : act unit       (* nodesMutex.RLock / RUnlock *)
| ALockRoots : act unit     | AUnlockRoots : act unit   (* rootsMutex *)
| AGetNN : act N            | ASetNN (n : N) : act unit (* idx._n_nodes *)
| AGetNS : act N            | ASetNS (n : N) : act unit (* idx._nodes_size *)
| AGetBase : act ptr                                    (* read idx._nodes *)
| ARealloc (bytes : N) : act unit                       (* idx._nodes = allocator.Reallocate(bytes) *)
| ARead (p : ptr) (off len : N) : act (list N)          (* load bytes through a raw pointer *)
| AWrite (p : ptr) (off : N) (bs : list N) : act unit   (* store bytes through a raw pointer *)
| ADraw : act N                                         (* idx.random.Next() *)
| AGetRoots : act (list (nat * N)) | ASetRoots (l : list (nat * N)) : act unit. (* idx._roots *)

Inductive prog (A : Type) : Type :=
| Ret (a : A)
| Fail (e : err)
| Vis (X : Type) (e : act X) (k : X -> prog A).
Arguments Ret {A} a. Arguments Fail {A} e. Arguments Vis {A X} e k.

Fixpoint pbind {A B} (p : prog A) (f : A -> prog B) : prog B :=
  match p with
  | Ret a => f a
  | Fail e => Fail e
  | Vis e k => Vis e (fun x => pbind (k x) f)
  end.
Notation "'do' x '<-' p ';' k" := (pbind p (fun x => k))
  (at level 200, x pattern, p at level 100, k at level 200, right associativity).
Notation "'vis!' e ';' k" := (Vis e (fun _ => k)) (at level 200, e at level 100, k at level 200, right associativity).
Notation "'vis' x '<-' e ';' k" := (Vis e (fun x => k)) (at level 200, x pattern, e at level 100, k at level 200, right associativity).

Definition plift {A} (r : res A) : prog A := match r with Ok a => Ret a | Er e => Fail e end.

Fixpoint pmap {A B} (f : A -> prog B) (l : list A) : prog (list B) :=
  match l with
  | [] => Ret []
  | a :: r => do b <- f a; do bs <- pmap f r; Ret (b :: bs)
  end.

Section E.
Variable c : Cfg.

(** Node numbers claimed by worker [w] when _n_nodes moves from [a] to [b] (ghost). *)
Definition claim (w : nat) (a b : N) (o : list (N * nat)) : list (N * nat) :=
  if a <? b then map (fun k => (a + k, w)) (rangeN (b - a)) ++ o else o.

(** Effect of one action performed by worker [w].  Mutex actions have no effect
    here: this is the single-worker policy (index_policy_single.go:18-40). *)
Definition exec (w : nat) {X} (e : act X) (s : bst) : res (X * bst) :=
  match e in act X return res (X * bst) with
  | ALockNN | AUnlockNN | ALockNodesReq | ALockNodesAcq | AUnlockNodes
  | ARLock | ARUnlock | ALockRoots | AUnlockRoots => Ok (tt, s)
  | AGetNN => Ok (nn s, s)
  | ASetNN n => Ok (tt, set_nn n (claim w (nn s) n (owner s)) s)
  | AGetNS => Ok (ns s, s)
  | ASetNS n => Ok (tt, set_ns n s)
  | AGetBase => Ok (base s, s)
  | ARealloc bytes =>
      let (h, p) := reallocate (heap s) (al s) bytes in Ok (tt, set_heap h p p s)
  | ARead p off len =>
      match arena_at (heap s) p with
      | Some b => let* bs := bread b off len in Ok (bs, s)
      | None => Er Fault
      end
  | AWrite p off bs =>
      match p with
      | Some g =>
          match nth_error (heap s) g with
          | Some b => let* b' := bwrite b off bs in
                      Ok (tt, set_arenas (firstn g (heap s) ++ [b'] ++ skipn (S g) (heap s)) s)
          | None => Er Fault
          end
      | None => Er Fault
      end
  | ADraw =>
      match rnd s with
      | Some r => let (d, r') := kiss_next (iw c) r in Ok (d, set_rnd (Some r') s)
      | None => Er (Panic PNil)
      end
  | AGetRoots => Ok (broots s, s)
  | ASetRoots l => Ok (tt, set_roots l s)
  end.

(** A lone worker run to completion. *)
Fixpoint run (w : nat) {A} (p : prog A) (s : bst) : res (A * bst) :=
  match p with
  | Ret a => Ok (a, s)
  | Fail e => Er e
  | Vis e k => let* (x, s') := exec w e s in run w (k x) s'
  end.

(** ** Interleaved execution (multi-worker policy)
    [mstep w e s x s'] : worker [w] can perform [e] in [s], obtaining [x].
    - Mutexes block; an RWMutex writer that has announced itself keeps new
      readers out until it has locked and unlocked (sync.RWMutex).
    - idx.random is read and written by all workers with no lock around it
      (the read lock only excludes reallocation), so a draw is modelled as an
      arbitrary TIX and an arbitrary next generator state. *)
Inductive mstep (w : nat) : forall X, act X -> bst -> X -> bst -> Prop :=
| m_lock_nn s : l_nn s = None -> mstep w unit ALockNN s tt (set_lnn (Some w) s)
| m_unlock_nn s : l_nn s = Some w -> mstep w unit AUnlockNN s tt (set_lnn None s)
| m_req s : l_w s = None -> mstep w unit ALockNodesReq s tt (set_lnodes (Some w) false (l_r s) s)
| m_acq s : l_w s = Some w -> l_wh s = false -> l_r s = [] ->
    mstep w unit ALockNodesAcq s tt (set_lnodes (Some w) true [] s)
| m_unlock_nodes s : l_w s = Some w -> l_wh s = true ->
    mstep w unit AUnlockNodes s tt (set_lnodes None false (l_r s) s)
| m_rlock s : l_w s = None -> mstep w unit ARLock s tt (set_lnodes None false (w :: l_r s) s)
| m_runlock s : In w (l_r s) ->
    mstep w unit ARUnlock s tt (set_lnodes (l_w s) (l_wh s) (remove Nat.eq_dec w (l_r s)) s)
| m_lock_roots s : l_roots s = None -> mstep w unit ALockRoots s tt (set_lroots (Some w) s)
| m_unlock_roots s : l_roots s = Some w -> mstep w unit AUnlockRoots s tt (set_lroots None s)
| m_draw s d r : d < 2 ^ iw c -> rnd s <> None -> mstep w N ADraw s d (set_rnd (Some r) s)
| m_get_nn s : mstep w N AGetNN s (nn s) s
| m_set_nn s n : mstep w unit (ASetNN n) s tt (set_nn n (claim w (nn s) n (owner s)) s)
| m_get_ns s : mstep w N AGetNS s (ns s) s
| m_set_ns s n : mstep w unit (ASetNS n) s tt (set_ns n s)
| m_get_base s : mstep w ptr AGetBase s (base s) s
| m_realloc s b s' : exec w (ARealloc b) s = Ok (tt, s') -> mstep w unit (ARealloc b) s tt s'
| m_read s p off len bs : exec w (ARead p off len) s = Ok (bs, s) -> mstep w _ (ARead p off len) s bs s
| m_write s p off bs s' : exec w (AWrite p off bs) s = Ok (tt, s') -> mstep w _ (AWrite p off bs) s tt s'
| m_get_roots s : mstep w _ AGetRoots s (broots s) s
| m_set_roots s l : mstep w unit (ASetRoots l) s tt (set_roots l s).

(** A pool of goroutines: worker number = position. *)
Inductive pool_step {A} : list (prog A) * bst -> list (prog A) * bst -> Prop :=
| ps_intro ps s w X (e : act X) k x s' :
    nth_error ps w = Some (Vis e k) ->
    mstep w X e s x s' ->
    pool_step (ps, s) (firstn w ps ++ [k x] ++ skipn (S w) ps, s').

(** Every schedule: any finite sequence of pool steps. *)
Inductive pool_steps {A} : list (prog A) * bst -> list (prog A) * bst -> Prop :=
| pss_refl x : pool_steps x x
| pss_step x y z : pool_steps x y -> pool_step y z -> pool_steps x z.

End E.
