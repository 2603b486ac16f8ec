(** Memory allocators.
    - GoGCIndexBuildAllocatorImpl: /repo/index/memory/gc_index_build_allocator.go
    - the two file allocators' bookkeeping: /repo/index/memory/index_allocator_mmap.go,
      /repo/index/memory/index_allocator_gcmem.go *)
From Verif Require Import Base.
Open Scope N_scope.

(** ** Build allocator *)
(** All byte slices ever made by [make([]byte, n)]; a raw pointer to the start of
    one of them is its position in this list ([None] is the nil pointer).  Old
    slices stay: a stale [unsafe.Pointer] still refers to the old bytes. *)
Definition arenas := list buf.
Definition ptr := option nat.

Definition arena_at (h : arenas) (p : ptr) : option buf :=
  match p with None => None | Some g => nth_error h g end.

(** ptrSize of the allocator whose current memory is [al]: 0 when [al] is nil
    (lines 8-11, 20-24). *)
Definition ptr_size (h : arenas) (al : ptr) : N :=
  match arena_at h al with Some b => bsize b | None => 0 end.

(** Reallocate: lines 26-49.  A fresh zeroed slice receives the old [ptrSize]
    bytes.  Not modelled: [make] failing for want of memory. *)
Definition reallocate (h : arenas) (al : ptr) (byteSize : N) : arenas * ptr :=
  match arena_at h al with
  | Some b =>
      if byteSize <? bsize b then (h, al)
      else (h ++ [mkBuf byteSize (mwrite mempty 0 (mread (bdata b) 0 (N.to_nat (bsize b))))],
            Some (length h))
  | None => (h ++ [buf_zero byteSize], Some (length h))
  end.

(** Free: lines 20-24. *)
Definition alloc_free : ptr := None.

(** ** File allocators: the [indexes] map shared by mmap and GC variants. *)
(** A handle is identified by a number; [reg_names] is the Go map
    fqFile -> handle, newest binding first. *)
Record registry := mkReg { reg_next : nat; reg_map : list (N * nat) }.

Definition reg_empty : registry := mkReg 0 [].
Definition reg_delete (f : N) (m : list (N * nat)) : list (N * nat) :=
  filter (fun e => negb (fst e =? f)) m.
(** Successful Open: index_allocator_mmap.go:93-103, index_allocator_gcmem.go:84-93. *)
Definition reg_open (r : registry) (f : N) : registry * nat :=
  (mkReg (S (reg_next r)) ((f, reg_next r) :: reg_delete f (reg_map r)), reg_next r).
(** Get: index_allocator_mmap.go:61-64, index_allocator_gcmem.go:48-51. *)
Definition reg_get (r : registry) (f : N) : option nat :=
  match find (fun e => fst e =? f) (reg_map r) with Some (_, h) => Some h | None => None end.
(** Close of a handle opened for file [f] deletes the entry under that *name*
    (index_allocator_mmap.go:33-34, index_allocator_gcmem.go:33-34). *)
Definition reg_close (r : registry) (f : N) : registry :=
  mkReg (reg_next r) (reg_delete f (reg_map r)).
