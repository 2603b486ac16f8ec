(** Memory layout of a node.
    Models /repo/distance/angular/node.go:17-41, /repo/distance/dotproduct/node.go:12-17
    and the two constructors /repo/distance/angular/distance.go:19-38,
    /repo/distance/dotproduct/distance.go:19-38, on a 64-bit platform. *)
From Verif Require Import Base Flt.
Open Scope N_scope.

(** Which of the two Distance implementations is in use. *)
Inductive kind := Angular | DotProduct.

(** [ixb] is unsafe.Sizeof(TIX(0)) (4 for uint32, 8 for uint64:
    /repo/interfaces/index.go:7-9); [vlen] is the vector length as a TIX. *)
Record Cfg := mkCfg { ixb : N; vlen : N; knd : kind }.

(** Bits of TIX. *)
Definition iw (c : Cfg) : N := 8 * ixb c.
(** TIX(x). *)
Definition tix (c : Cfg) (x : N) : N := wrap (iw c) x.
Definition u64 (x : N) : N := wrap 64 x.

Section L.
Variable fo : FOps.
Variable c : Cfg.

(** Go struct layout: a field starts at the next multiple of its alignment. *)
Definition align (off a : N) : N := ((off + a - 1) / a) * a.

(** Offsetof(n.children): right after n_descendants (node.go:24,39). *)
Definition off_children : N := ixb c.
(** dot_factor (dotproduct/node.go:15); absent in the angular node. *)
Definition off_dot : N := align (3 * ixb c) (fbytes fo).
(** Offsetof(n.v): the vector follows the 3 TIX words (angular/node.go:40), or
    the dot factor (dotproduct/node.go:16). *)
Definition off_vec : N :=
  match knd c with Angular => off_dot | DotProduct => off_dot + fbytes fo end.

(** nodeSize: angular/distance.go:27-30, dotproduct/distance.go:27-30. *)
Definition nodeSize : N := tix c (u64 (off_vec + u64 (vlen c * fbytes fo))).

(** maxNumChildren, called K in the comments: angular/distance.go:33-35,
    dotproduct/distance.go:33-35 (uintptr subtraction, so modulo 2^64). *)
Definition maxK : N := tix c (u64 (nodeSize + 2 ^ 64 - ixb c) / ixb c).

(** MapNodeToMemory: the byte offset of node [i] is computed in TIX arithmetic
    (angular/distance.go:52-59, dotproduct/distance.go:52-59). *)
Definition addr (i : N) : N := tix c (i * nodeSize).

(** ** Encoding of the fields *)
Definition enc_ix (x : N) : list N := le_enc (N.to_nat (ixb c)) x.
Definition enc_ixs (l : list N) : list N := flat_map enc_ix l.
Definition enc_f (x : F fo) : list N := le_enc (N.to_nat (fbytes fo)) (enc fo x).
Definition enc_vec (v : list (F fo)) : list N := flat_map enc_f v.
Definition dec_f (bs : list N) : F fo := dec fo (le_dec bs).

(** Reading [n] consecutive [k]-byte little-endian words. *)
Fixpoint words (k n : nat) (bs : list N) : list N :=
  match n with O => [] | S n' => le_dec (firstn k bs) :: words k n' (skipn k bs) end.
Definition dec_ixs (n : N) (bs : list N) : list N := words (N.to_nat (ixb c)) (N.to_nat n) bs.
Definition dec_vec (bs : list N) : list (F fo) :=
  map (dec fo) (words (N.to_nat (fbytes fo)) (N.to_nat (vlen c)) bs).

(** The fields of a node image given as the list of its [nodeSize] bytes. *)
Definition sub (off len : N) (bs : list N) : list N := firstn (N.to_nat len) (skipn (N.to_nat off) bs).
(** GetNumberOfDescendants: angular/node.go:79-81, dotproduct/node.go:55-57. *)
Definition n_desc (bs : list N) : N := le_dec (sub 0 (ixb c) bs).
(** GetNorm reads a TV at the children field: angular/node.go:87-89, dotproduct/node.go:63-65. *)
Definition n_norm (bs : list N) : F fo := dec_f (sub off_children (fbytes fo) bs).
(** dot_factor: dotproduct/node.go:15. *)
Definition n_dot (bs : list N) : F fo := dec_f (sub off_dot (fbytes fo) bs).
(** GetVector: angular/node.go:47-49, dotproduct/node.go:23-25. *)
Definition n_vec (bs : list N) : list (F fo) :=
  dec_vec (sub off_vec (vlen c * fbytes fo) bs).
(** GetChildren()[0..n): angular/node.go:63-69, dotproduct/node.go:39-45. *)
Definition n_children (n : N) (bs : list N) : list N :=
  dec_ixs n (sub off_children (n * ixb c) bs).

End L.
