(** What a file of whole nodes says, for the outcome of Load (C110). *)
From Verif Require Import Base Flt Layout.
Open Scope N_scope.

Section S.
Variable fo : FOps.
Variable c : Cfg.

(** The little-endian word of TIX size at byte [off]. *)
Definition word (off : N) (bs : list N) : N := le_dec (firstn (N.to_nat (ixb c)) (skipn (N.to_nat off) bs)).
(** The number of descendants and the first child written in node [i]. *)
Definition count_of (bs : list N) (i : N) : N := word (i * nodeSize fo c) bs.
Definition child_of (bs : list N) (i : N) : N := word (i * nodeSize fo c + ixb c) bs.
End S.

(** The last [k] of [n] values are equal and the one before them, if any, is different. *)
Definition run_of (count : N -> N) (n k : N) : Prop :=
  1 <= k <= n /\ (forall i, n - k <= i -> i < n -> count i = count (n - 1)) /\ (k < n -> count (n - k - 1) <> count (n - 1)).

(** The numbers of the last [k] of [n] nodes, last one first. *)
Definition from_the_end (n k : N) : list N := map (fun j => n - 1 - j) (map N.of_nat (seq 0 (N.to_nat k))).

(** The trees Load finds: the run, without its lowest node if that has the same first
    child as the last node. *)
Definition trees_of (child : N -> N) (n k : N) : list N :=
  from_the_end n (if (2 <=? k) && (child (n - 1) =? child (n - k)) then k - 1 else k).

(** What one node adds to the size of the lists of a query. *)
Definition share (maxDesc items : N) (count : N -> N) (i : N) : Z :=
  if ((count i =? 1) && (i <? items))%N then 1%Z else if (count i <=? maxDesc)%N then Z.of_N (count i) else 0%Z.
