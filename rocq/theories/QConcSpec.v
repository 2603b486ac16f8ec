(** What it means that goroutines querying one index do not disturb each other. *)
From Verif Require Import Base Flt Layout Alloc Prog Sorts Dist Build Index Search QConc.
Open Scope N_scope.

Section S.
Variable fo : FOps.
Variable c : Cfg.
Variable sortIx : list N -> list N.
Variable sortPairs : list (F fo * N) -> list (F fo * N).

(** The answer of a call made by a goroutine that has the index to itself. *)
Definition sole_answer (fuel : nat) (fs : files) (ix : idx) (q : qcall fo) (bc : ctx (F fo)) : res (list N * list (F fo)) :=
  match q with
  | ByVector _ vec n k => let* (r, _) := get_nns_by_vector fo c sortIx sortPairs fuel fs ix vec n k bc in Ok r
  | ByItem _ i n k => let* (r, _) := get_nns_by_item fo c sortIx sortPairs fuel fs ix i n k bc in Ok r
  | Between _ i j => let* d := get_distance fo c fs ix i j in Ok ([], [d])
  | Item _ i => let* v := get_item fo c fs ix i in Ok ([], v)
  end.

(** A goroutine has finished with [r]. *)
Definition ended {T A} (p : qprog T A) (r : res A) : Prop := p = qlift r.

(** What an action touches: index memory, or a stretch of one of the two arrays of a
    context; [true] for a write. *)
Inductive place :=
| PNodes (off len : N)
| PNns (ctx : nat) (i n : N)
| PDist (ctx : nat) (i n : N).
Definition touched {T X} (k : nat) (e : qact T X) : list (place * bool) :=
  match e with
  | QRead off len => [(PNodes off len, false)]
  | QSet i _ => [(PNns k i 1, true)]
  | QCopy i xs => [(PNns k i (N.of_nat (length xs)), true)]
  | QSort n => [(PNns k 0 n, false); (PNns k 0 n, true)]
  | QGet i => [(PNns k i 1, false)]
  | QPair i _ => [(PDist k i 1, true)]
  | QSortPairs _ n => [(PDist k 0 (Z.to_N n), false); (PDist k 0 (Z.to_N n), true)]
  | QTop i => [(PDist k i 1, false)]
  end.
Definition meet (a b : place) : Prop :=
  match a, b with
  | PNodes o n, PNodes o' n' => o < o' + n' /\ o' < o + n
  | PNns k i n, PNns k' i' n' | PDist k i n, PDist k' i' n' => k = k' /\ i < i' + n' /\ i' < i + n
  | _, _ => False
  end.
(** The next actions of two goroutines race. *)
Definition races {T A} (s t : nat * qprog T A) : Prop :=
  match s, t with
  | (k, QVis e _), (k', QVis d _) =>
      exists a b u v, In (a, u) (touched k e) /\ In (b, v) (touched k' d) /\ meet a b /\ (u = true \/ v = true)
  | _, _ => False
  end.
End S.
