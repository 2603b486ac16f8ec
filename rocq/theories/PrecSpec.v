(** What the figures of cmd/precision should be. *)
From Verif Require Import Base Flt Layout Rng Sorts Index Search Spec ForestSpec.
From Coq Require Import Reals.
Open Scope N_scope.

(** How many of [wanted] are in [got]. *)
Definition hits (wanted got : list N) : nat :=
  length (filter (fun x => if in_dec N.eq_dec x got then true else false) wanted).
(** The mean recall of the answers in column [k]: each row is the list of true nearest
    neighbours of a query and the answers it got, one per limit. *)
Definition total_hits (k : nat) (rows : list (list N * list (list N))) : nat :=
  fold_right (fun row acc => (hits (fst row) (nth k (snd row) []) + acc)%nat) 0%nat rows.
Definition mean_recall (numReturn : Z) (k : nat) (rows : list (list N * list (list N))) : R :=
  (INR (total_hits k rows) / (IZR numReturn * INR (length rows)))%R.

(** What a generator draws first. *)
Fixpoint first_draws (k : nat) (r : kiss) : list N :=
  match k with O => [] | S k' => fst (kiss_next 32 r) :: first_draws k' (snd (kiss_next 32 r)) end.

Section P.
Variable fo : FOps.
Variable c : Cfg.
(** One round of the measurement on an index with items [f]: the item [j] that was asked
    for, the true nearest neighbours [fst row], and an answer for each limit. *)
Definition true_row (f : N -> option (list (F fo))) (query : N -> Z -> list N -> Prop) (numReturn : Z) (ls : list Z)
    (j : N) (row : list N * list (list N)) : Prop :=
  exists v ds, f j = Some v /\ exact_nearest fo c f v (Z.to_nat numReturn) (fst row) ds /\ Forall2 (query j) ls (snd row).
End P.
