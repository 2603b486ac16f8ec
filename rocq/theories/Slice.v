(** The slice GetItem returns: /repo/index/annoyindex.go:145-147 with GetVector of the
    node types (/repo/distance/angular/node.go:47-49, /repo/distance/dotproduct/node.go:23-25).

    unsafe.Slice makes a []TV whose elements are bytes of the index: of the byte slice
    the build allocator handed out last.  That byte slice stays alive as long as the
    caller holds the result.  Indexes loaded from a file are not covered here. *)
From Verif Require Import Base Flt Layout Alloc Prog Dist Build Index.
Open Scope N_scope.

(** Which byte slice of the allocator, and where in it the vector starts. *)
Record slice := mkSlice { sl_arena : nat; sl_off : N }.

Section S.
Variable fo : FOps.
Variable c : Cfg.

(** The slice GetItem(i) returns; the index has been added to ([_nodes] is not nil). *)
Definition get_slice (ix : idx) (i : N) : option slice :=
  match base (ib ix) with
  | Some g => Some (mkSlice g (addr fo c i + off_vec fo c))
  | None => None
  end.
(** Reading all its elements, possibly after more calls on the index. *)
Definition slice_read (ix : idx) (s : slice) : res (list (F fo)) :=
  let* bs := vread (nth_error (heap (ib ix)) (sl_arena s)) (sl_off s) (vlen c * fbytes fo) in
  Ok (dec_vec fo c bs).
(** Assigning all its elements: copy(s, w). *)
Definition slice_write (ix : idx) (s : slice) (w : list (F fo)) : res idx :=
  let* (_, b) := exec c 0 (AWrite (Some (sl_arena s)) (sl_off s) (enc_vec fo w)) (ib ix) in
  Ok (mkIdx b (n_items ix) (batchMax ix) (iloaded ix) (ibuilt ix) (imemory ix)).
End S.
