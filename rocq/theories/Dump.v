(** What verbose logging says about nodes. *)
From Verif Require Import Base Flt Layout Alloc Prog Build Index.
Open Scope N_scope.

Section D.
Variable fo : FOps.
Variable c : Cfg.

(** The three kinds of lines of DumpNode: utils/dump.go:9-31.  (The formatting of numbers
    by fmt is not modelled.) *)
Inductive dump : Type :=
| DLeaf (vec : list (F fo))
| DInternal (children : list N)
| DSplit (norm : F fo) (vec : list (F fo)).
Definition dump_bytes (bs : list N) : dump :=
  if n_desc c bs =? 1 then DLeaf (n_vec fo c bs)
  else if n_desc c bs <=? maxK fo c then DInternal (n_children c (n_desc c bs) bs)
  else DSplit (n_norm fo c bs) (n_vec fo c bs).
Definition dump_node (v : option buf) (i : N) : res dump :=
  let* bs := vread v (addr fo c i) (nodeSize fo c) in Ok (dump_bytes bs).

(** The lines that Save and Load print with verbose logging, one per node:
    annoyindex_io.go:23-29 and 103-117. *)
Fixpoint dump_all (v : option buf) (is : list N) : res (list dump) :=
  match is with
  | [] => Ok []
  | i :: is' => let* d := dump_node v i in let* ds := dump_all v is' in Ok (d :: ds)
  end.
Definition node_lines (fs : files) (ix : idx) : res (list dump) := dump_all (view fs ix) (rangeN (nn (ib ix))).
End D.
Arguments DLeaf {fo}. Arguments DInternal {fo}. Arguments DSplit {fo}.
