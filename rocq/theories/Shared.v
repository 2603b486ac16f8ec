(** Two indexes made by one builder, and the GoRandom generator.
    /repo/builder/index.go:77-113: Build() stores the allocator it creates in the builder
    (lines 83-85) and hands the same one to index.New on every call. *)
From Verif Require Import Base Flt Layout Rng Alloc Prog Index.
Open Scope N_scope.

(** ** Indexes that share their build allocator *)
(** [share src dst]: [dst] after [src] has used the allocator they share.  The byte
    slices and the allocator's own fields (ptr, ptrSize, memory) are those [src] left;
    [dst]'s _nodes pointer and counters are its own.  Simplification: the random
    generator object, which is shared as well, is not passed on. *)
Definition share (src dst : idx) : idx :=
  let s := ib src in let d := ib dst in
  set_ib (mkB (heap s) (al s) (base d) (nn d) (ns d) (broots d) (rnd d) (owner d)
              (l_nn d) (l_roots d) (l_w d) (l_wh d) (l_r d)) dst.

Section I.
Variable fo : FOps.
Variable c : Cfg.

(** index.New (annoyindex.go:74-114) with an allocator in the state [h], [p]. *)
Definition new_index_on (h : arenas) (p : ptr) (r : option kiss) (hint : N) : idx :=
  let (h', p') := if 0 <? hint then reallocate h p (tix c (nodeSize fo c * hint) * 3 / 2) else (h, p) in
  mkIdx (set_heap h' p' None (no_bst r)) 0 0 false false None.

(** Build() called twice on one builder (generators [r1], [r2]; hint as set). *)
Definition two_indexes (r1 r2 : option kiss) (hint : N) : idx * idx :=
  let a := new_index_on [] None r1 hint in
  let b := new_index_on (heap (ib a)) (al (ib a)) r2 hint in
  (share b a, b).

(** A call on one of the two. *)
Definition on_first (f : idx -> res idx) (p : idx * idx) : res (idx * idx) :=
  let* a := f (fst p) in Ok (a, share a (snd p)).
Definition on_second (f : idx -> res idx) (p : idx * idx) : res (idx * idx) :=
  let* b := f (snd p) in Ok (share b (fst p), b).
End I.

(** ** GoRandom: /repo/random/gorand.go *)
(** math/rand is external: [G] is the state of a *rand.Rand, [seeded s] the state after
    NewSource(s)/Seed(s), [intn n g] the result of Intn(n) and the next state. *)
Section G.
Variable G : Type.
Variable seeded : Z -> G.
Variable intn : N -> G -> N * G.

Record gorand := mkGR { gr_rng : G; gr_seed : N }.
(** NewGoRandomWithSeed: lines 19-25; [clock] is time.Now().UnixNano(). *)
Definition gr_new (clock : Z) (seed : N) : gorand := mkGR (seeded clock) seed.
(** Next: lines 27-29. *)
Definition gr_next (g : gorand) : N * gorand :=
  let (x, r) := intn (2 ^ 31 - 1) (gr_rng g) in (x mod 2 ^ 32, mkGR r (gr_seed g)).
(** GetSeed, SetSeed: lines 50-56. *)
Definition gr_get_seed (g : gorand) : N := gr_seed g.
Definition gr_set_seed (s : N) (g : gorand) : gorand := mkGR (seeded (Z.of_N s)) (gr_seed g).
(** CloneAndReset: lines 58-60. *)
Definition gr_clone (clock : Z) (g : gorand) : gorand := gr_new clock (gr_seed g).
(** The next [n] results of Next. *)
Fixpoint gr_draws (n : nat) (g : gorand) : list N :=
  match n with O => [] | S k => let (x, g') := gr_next g in x :: gr_draws k g' end.
End G.
