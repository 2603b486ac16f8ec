(** Queries as programs over explicit actions, so that several goroutines can be
    interleaved: /repo/index/annoyindex_search.go and GetItem (annoyindex.go:145-147).

    The index is shared and only read; every other access of a query goes to the
    BatchContext it was handed.  An action is one access to the index memory or to an
    array of the context.  What happens between two actions (priority queue, margins,
    distances, the node [v_node] made for the query vector, lines 137-145) is local to
    the goroutine.  Coarser than the code: sorting an array in place is one action, a
    Pair is written at once, idx._roots and idx._n_items are read once at the start. *)
From Verif Require Import Base Flt Layout Alloc Prog Sorts Dist Build Index Search.
Open Scope N_scope.

Inductive qact (T : Type) : Type -> Type :=
| QRead (off len : N) : qact T (list N)              (* bytes of idx._nodes *)
| QSet (i x : N) : qact T unit                       (* bc.nns[i] = x, line 107 *)
| QCopy (i : N) (xs : list N) : qact T unit          (* copy(bc.nns[i:], xs), lines 112-114 *)
| QSort (n : N) : qact T unit                        (* nns := bc.nns[:n]; SortSlice(nns), lines 134-135 *)
| QGet (i : N) : qact T N                            (* nns[i], line 156 *)
| QPair (i : N) (p : T * N) : qact T unit            (* *bc.nns_dist[i] = p, lines 168-170 *)
| QSortPairs (m n : Z) : qact T unit                 (* PartialSortSlice(bc.nns_dist[:n], 0, m, n), line 191 *)
| QTop (i : N) : qact T (T * N).                     (* *nns_dist[i], lines 194-195 *)
Arguments QRead {T}. Arguments QSet {T}. Arguments QCopy {T}. Arguments QSort {T}. Arguments QGet {T}.
Arguments QPair {T}. Arguments QSortPairs {T}. Arguments QTop {T}.

Inductive qprog (T A : Type) : Type :=
| QRet (a : A)
| QFail (e : err)
| QVis (X : Type) (e : qact T X) (k : X -> qprog T A).
Arguments QRet {T A} a. Arguments QFail {T A} e. Arguments QVis {T A X} e k.

Fixpoint qbind {T A B} (p : qprog T A) (f : A -> qprog T B) : qprog T B :=
  match p with
  | QRet a => f a
  | QFail e => QFail e
  | QVis e k => QVis e (fun x => qbind (k x) f)
  end.
Definition qlift {T A} (r : res A) : qprog T A := match r with Ok a => QRet a | Er e => QFail e end.
Definition qdo {T X} (e : qact T X) : qprog T X := QVis e QRet.
Notation "'qry' x '<-' p ';' k" := (qbind p (fun x => k))
  (at level 200, x pattern, p at level 100, k at level 200, right associativity).

Section Q.
Variable fo : FOps.
Variable c : Cfg.
Variable sortIx : list N -> list N.
Variable sortPairs : list (F fo * N) -> list (F fo * N).

Notation T := (F fo).
Notation NSZ := (nodeSize fo c).
Notation K := (maxK fo c).
Notation less := (pair_less (flt fo) (feq fo)).
Notation qprog := (qprog T).
Notation qact := (qact T).

(** Effect of an action of a goroutine that uses context [bc] of an index with memory [v]. *)
Definition qexec (v : option buf) {X} (e : qact X) (bc : ctx T) : res (X * ctx T) :=
  match e in QConc.qact _ X return res (X * ctx T) with
  | QRead off len => let* bs := vread v off len in Ok (bs, bc)
  | QSet i x =>
      if lenN (c_nns bc) <=? i then Er (Panic PIndex)
      else let* l := put_at (c_nns bc) i [x] in Ok (tt, mkCtx l (c_dist bc))
  | QCopy i xs => let* l := put_at (c_nns bc) i xs in Ok (tt, mkCtx l (c_dist bc))
  | QSort n =>
      if lenN (c_nns bc) <? n then Er (Panic PIndex)
      else let k := N.to_nat n in
           Ok (tt, mkCtx (sortIx (firstn k (c_nns bc)) ++ skipn k (c_nns bc)) (c_dist bc))
  | QGet i => match nth_error (c_nns bc) (N.to_nat i) with Some x => Ok (x, bc) | None => Er (Panic PIndex) end
  | QPair i p =>
      let k := N.to_nat i in
      if lenN (c_dist bc) <=? i then Er (Panic PIndex)
      else Ok (tt, mkCtx (c_nns bc) (firstn k (c_dist bc) ++ [p] ++ skipn (S k) (c_dist bc)))
  | QSortPairs m n =>
      let k := Z.to_nat n in
      let* s := partial_sort less sortPairs (firstn k (c_dist bc)) 0 m n in
      Ok (tt, mkCtx (c_nns bc) (s ++ skipn k (c_dist bc)))
  | QTop i => match nth_error (c_dist bc) (N.to_nat i) with Some p => Ok (p, bc) | None => Er (Panic PIndex) end
  end.

(** Lines 93-130. *)
Fixpoint qloop (fuel : nat) (nitems : N) (vec : list T) (limit : Z) (q : list (T * N)) (cnt : N) : qprog N :=
  if (Z.of_N cnt <? limit)%Z && negb (pq_empty q) then
    match fuel with
    | O => QFail OutOfFuel
    | S fu =>
        match pq_top q with
        | None => QFail (Panic PNil)
        | Some (d, i) =>
            qry (_, q') <- qlift (pq_pop less q);
            qry bs <- qdo (QRead (addr fo c i) NSZ);
            let n := n_desc c bs in
            if (n =? 1) && (i <? nitems) then
              qry _ <- qdo (QSet cnt i);
              qloop fu nitems vec limit q' (cnt + 1)
            else if n <=? K then
              qry _ <- qdo (QCopy (tix c cnt) (n_children c n bs));
              qloop fu nitems vec limit q' (cnt + n)
            else
              qry m <- qlift (margin fo c (snode_of fo c bs) vec);
              let ch := n_children c 2 bs in
              let q1 := pq_push less q' (pq_distance fo d m true, nth 1 ch 0) in
              let q2 := pq_push less q1 (pq_distance fo d m false, nth 0 ch 0) in
              qloop fu nitems vec limit q2 cnt
        end
    end
  else QRet cnt.

(** Lines 154-175: [k] candidates are left, the next one is at position [i] and
    [cnt] pairs have been written. *)
Fixpoint qscore (k : nat) (i : N) (qn : snode fo) (last : option N) (cnt : N) : qprog N :=
  match k with
  | O => QRet cnt
  | S k' =>
      qry j <- qdo (QGet i);
      if (match last with Some x => j =? x | None => false end) then qscore k' (i + 1) qn last cnt
      else
        qry bs <- qdo (QRead (addr fo c j) NSZ);
        if n_desc c bs =? 1 then
          qry _ <- qdo (QPair cnt (distance fo qn (snode_of fo c bs), j));
          qscore k' (i + 1) qn (Some j) (cnt + 1)
        else qscore k' (i + 1) qn (Some j) cnt
  end.

(** Lines 193-196. *)
Fixpoint qtops (k : nat) (i : N) : qprog (list (T * N)) :=
  match k with
  | O => QRet []
  | S k' => qry p <- qdo (QTop i); qry r <- qtops k' (i + 1); QRet (p :: r)
  end.

(** GetNnsByVector: lines 75-199. *)
Definition qvector (fuel : nat) (roots : list N) (nitems : N) (vec : list T) (numReturn inspect : Z)
  : qprog (list N * list T) :=
  let limit := (if inspect =? -1 then numReturn * Z.of_nat (length roots) else inspect)%Z in
  let q0 := fold_left (fun q r => pq_push less q (pq_initial fo, r)) roots pq_new in
  qry cnt <- qloop fuel nitems vec limit q0 0;
  qry _ <- qdo (QSort cnt);
  qry qn <- qlift (query_node fo c vec);
  qry n <- qscore (N.to_nat cnt) 0 qn None 0;
  let middle := Z.min numReturn (Z.of_N n) in
  qry _ <- qdo (QSortPairs middle (Z.of_N n));
  qry top <- qtops (Z.to_nat middle) 0;
  QRet (map snd top, map (fun p => normalized_distance fo c (fst p)) top).

(** GetItem: annoyindex.go:145-147. *)
Definition qitem (i : N) : qprog (list T) :=
  qry bs <- qdo (QRead (addr fo c i + off_vec fo c) (vlen c * fbytes fo)); QRet (dec_vec fo c bs).

(** The calls that only look at an index.  The answers of all four have the form
    (ids, numbers). *)
Inductive qcall :=
| ByVector (vec : list T) (numReturn inspect : Z)     (* GetNnsByVector *)
| ByItem (item : N) (numReturn inspect : Z)           (* GetNnsByItem: lines 54-71 *)
| Between (i j : N)                                   (* GetDistance: lines 43-50 *)
| Item (i : N).                                       (* GetItem *)

Definition qcode (fuel : nat) (roots : list N) (nitems : N) (q : qcall) : qprog (list N * list T) :=
  match q with
  | ByVector vec n k => qvector fuel roots nitems vec n k
  | ByItem i n k => qry vec <- qitem i; qvector fuel roots nitems vec n k
  | Between i j =>
      qry x <- qdo (QRead (addr fo c i) NSZ);
      qry y <- qdo (QRead (addr fo c j) NSZ);
      QRet ([], [normalized_distance fo c (distance fo (snode_of fo c x) (snode_of fo c y))])
  | Item i => qry vec <- qitem i; QRet ([], vec)
  end.

(** One goroutine alone. *)
Fixpoint qrun (v : option buf) {A} (p : qprog A) (bc : ctx T) : res (A * ctx T) :=
  match p with
  | QRet a => Ok (a, bc)
  | QFail e => Er e
  | QVis e k => let* (x, bc') := qexec v e bc in qrun v (k x) bc'
  end.

(** Goroutines: each has the number of the context it uses.  One step is one action
    of one of them; a goroutine whose action fails stops there (in Go a panic that is
    not recovered ends the process). *)
Definition put {A} (l : list A) (n : nat) (x : A) : list A := firstn n l ++ [x] ++ skipn (S n) l.
Inductive qstep (v : option buf) {A} : list (nat * qprog A) * list (ctx T) -> list (nat * qprog A) * list (ctx T) -> Prop :=
| qs_ok ps cs w k X (e : qact X) f bc x bc' :
    nth_error ps w = Some (k, QVis e f) -> nth_error cs k = Some bc -> qexec v e bc = Ok (x, bc') ->
    qstep v (ps, cs) (put ps w (k, f x), put cs k bc')
| qs_fail ps cs w k X (e : qact X) f bc r :
    nth_error ps w = Some (k, QVis e f) -> nth_error cs k = Some bc -> qexec v e bc = Er r ->
    qstep v (ps, cs) (put ps w (k, QFail r), cs).
Inductive qsteps (v : option buf) {A} : list (nat * qprog A) * list (ctx T) -> list (nat * qprog A) * list (ctx T) -> Prop :=
| qss_refl x : qsteps v x x
| qss_step x y z : qsteps v x y -> qstep v y z -> qsteps v x z.

(** The same, driven by a list of goroutine numbers (for concrete schedules). *)
Definition qturn (v : option buf) {A} (s : list (nat * qprog A) * list (ctx T)) (w : nat) : list (nat * qprog A) * list (ctx T) :=
  let (ps, cs) := s in
  match nth_error ps w with
  | Some (k, QVis e f) =>
      match nth_error cs k with
      | Some bc =>
          match qexec v e bc with
          | Ok (x, bc') => (put ps w (k, f x), put cs k bc')
          | Er r => (put ps w (k, QFail r), cs)
          end
      | None => s
      end
  | _ => s
  end.

End Q.
