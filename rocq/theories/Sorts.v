(** Sorting and the priority queue: /repo/sort/*.go, /repo/interfaces/sorter.go,
    /repo/utils/math.go, and Go's container/heap. *)
From Verif Require Import Base.
Open Scope nat_scope.

Section S.
Context {A : Type}.
(** Less on elements (for pairs: /repo/interfaces/sorter.go:34-37, 63-66). *)
Variable less : A -> A -> bool.

(** A Go slice of pairs is modelled as the list of its elements.  The slices hold
    pointers to pairs; no two entries of one slice are the same pointer in the
    library's uses, so exchanging pointers is exchanging values. *)
Definition less_at (s : list A) (i j : nat) : bool :=
  match nth_error s i, nth_error s j with Some a, Some b => less a b | _, _ => false end.

Fixpoint set_nth (s : list A) (i : nat) (a : A) : list A :=
  match s, i with
  | [], _ => []
  | _ :: r, O => a :: r
  | x :: r, S i' => x :: set_nth r i' a
  end.

(** Swap: sorter.go:68-70. *)
Definition swap (s : list A) (i j : nat) : list A :=
  match nth_error s i, nth_error s j with
  | Some a, Some b => set_nth (set_nth s i b) j a
  | _, _ => s
  end.

(** Operate on the sub-slice s[b:m] in place. *)
Definition on_range (f : list A -> list A) (s : list A) (b m : nat) : list A :=
  firstn b s ++ f (firstn (m - b) (skipn b s)) ++ skipn m s.

(** sort.Slice (Go standard library, external).  Executable stand-in used when a
    concrete result is computed; theorems take the sorter as a parameter. *)
Fixpoint insert_sorted (x : A) (l : list A) : list A :=
  match l with
  | [] => [x]
  | y :: r => if less x y then x :: y :: r else y :: insert_sorted x r
  end.
Definition isort (l : list A) : list A := fold_left (fun acc x => insert_sorted x acc) l [].

(** *** PartialSortSlice: /repo/sort/partial_sort.go:7-49 *)

(** Inner loop lines 27-31: scan positions j, j+1, .., j+cnt-1. *)
Fixpoint min_index (s : list A) (j cnt cur : nat) : nat :=
  match cnt with
  | O => cur
  | S cnt' => min_index s (S j) cnt' (if less_at s j cur then j else cur)
  end.

(** Outer loop lines 23-37, [k] iterations starting at position [p]. *)
Fixpoint select_loop (s : list A) (p k e : nat) : list A :=
  match k with
  | O => s
  | S k' =>
      let mi := min_index s (S p) (e - S p) p in
      select_loop (if Nat.eqb mi p then s else swap s p mi) (S p) k' e
  end.

(** Lines 44-46: sink element [j] towards [b]. *)
Fixpoint sink (s : list A) (b j : nat) : list A :=
  match j with
  | O => s
  | S j' => if Nat.ltb b j && less_at s j j' then sink (swap s j j') b j' else s
  end.
(** Lines 43-47: [k] iterations starting at position [i]. *)
Fixpoint insertion_loop (s : list A) (b i k : nat) : list A :=
  match k with O => s | S k' => insertion_loop (sink s b i) b (S i) k' end.

(** [srt] is SortPairs (sort.Slice).  Positions are Go ints, hence [Z]. *)
Definition partial_sort (srt : list A -> list A) (s : list A) (b m e : Z) : res (list A) :=
  if ((e <=? b) || (m <=? b) || (e <? m))%Z then Ok s
  else if ((20 <? e - b) && (e - b <? 5000000))%Z then Ok (srt s)
  else if ((b <? 0) || (Z.of_nat (length s) <? e))%Z then
    (if (e - b =? 1)%Z then Ok s else Er (Panic PIndex))
  else
    let b' := Z.to_nat b in let m' := Z.to_nat m in let e' := Z.to_nat e in
    let n := m' - b' in
    let s1 := select_loop s b' n e' in
    if Nat.ltb 15 n then Ok (on_range srt s1 b' m')
    else Ok (insertion_loop s1 b' (S b') (n - 1)).

(** *** heapify / maxHeapify: /repo/sort/sort.go:66-83, /repo/sort/partial_sort.go:85-102
    (the two are textually the same up to argument order). *)
Definition larger (s : list A) (n cur cand : nat) : nat :=
  if Nat.ltb cand n && less_at s cur cand then cand else cur.
Fixpoint heapify (fuel : nat) (s : list A) (n i : nat) : list A :=
  match fuel with
  | O => s
  | S f =>
      let l1 := larger s n i (2 * i + 1) in
      let l2 := larger s n l1 (2 * i + 2) in
      if Nat.eqb l2 i then s else heapify f (swap s i l2) n l2
  end.

(** buildMaxHeap, partial_sort.go:79-83, and the first loop of SortPairs2,
    sort.go:56-58: i = n/2-1 downto 0. *)
Fixpoint heap_down_from (s : list A) (n k : nat) : list A :=
  match k with O => s | S k' => heap_down_from (heapify (length s) s n k') n k' end.
Definition build_max_heap (s : list A) (n : nat) : list A := heap_down_from s n (n / 2).

(** Second loop of SortPairs2, sort.go:60-63: i = k-1 downto 0. *)
Fixpoint extract_loop (s : list A) (k : nat) : list A :=
  match k with
  | O => s
  | S i => let s1 := swap s 0 i in extract_loop (heapify (length s1) s1 i 0) i
  end.
(** SortPairs2: sort.go:53-64. *)
Definition sort_pairs2 (s : list A) : list A :=
  extract_loop (build_max_heap s (length s)) (length s).

(** *** PartialSortSlice2: /repo/sort/partial_sort.go:51-77 *)
(** Lines 68-73, [k] iterations starting at position [i]. *)
Fixpoint replace_loop (s : list A) (b m i k : nat) : list A :=
  match k with
  | O => s
  | S k' =>
      let s1 := if less_at s i b
                then on_range (fun h => heapify (length h) h (m - b) 0) (swap s b i) b m
                else s in
      replace_loop s1 b m (S i) k'
  end.
Definition partial_sort2 (srt : list A -> list A) (s : list A) (b m e : Z) : res (list A) :=
  if (Z.of_nat (length s) <=? m - b)%Z then Ok (srt s)
  else if ((e <=? b) || (m <=? b) || (e <? m))%Z then Ok s
  else if ((b <? 0) || (Z.of_nat (length s) <? e))%Z then Er (Panic PIndex)
  else
    let b' := Z.to_nat b in let m' := Z.to_nat m in let e' := Z.to_nat e in
    let s1 := on_range (fun h => build_max_heap h (m' - b')) s b' m' in
    let s2 := replace_loop s1 b' m' m' (e' - m') in
    Ok (on_range sort_pairs2 s2 b' m').

(** *** PriorityQueue: /repo/sort/priority_queue.go over container/heap *)
(** container/heap.up. *)
Fixpoint heap_up (fuel : nat) (s : list A) (j : nat) : list A :=
  match fuel with
  | O => s
  | S f =>
      let i := (j - 1) / 2 in
      if Nat.eqb i j || negb (less_at s j i) then s else heap_up f (swap s i j) i
  end.
(** container/heap.down. *)
Fixpoint heap_down (fuel : nat) (s : list A) (i n : nat) : list A :=
  match fuel with
  | O => s
  | S f =>
      let j1 := 2 * i + 1 in
      if Nat.leb n j1 then s
      else
        let j := if Nat.ltb (S j1) n && less_at s (S j1) j1 then S j1 else j1 in
        if less_at s j i then heap_down f (swap s i j) j n else s
  end.
(** NewPriorityQueue: priority_queue.go:14-19. *)
Definition pq_new : list A := [].
(** Push: priority_queue.go:29-31 with heap.Push and Pairs.Push (sorter.go:72-74). *)
Definition pq_push (q : list A) (x : A) : list A :=
  let q' := q ++ [x] in heap_up (length q') q' (length q).
(** Pop: priority_queue.go:33-35 with heap.Pop and Pairs.Pop (sorter.go:76-82).
    heap.Pop on an empty heap panics. *)
Definition pq_pop (q : list A) : res (A * list A) :=
  match q with
  | [] => Er (Panic PIndex)
  | _ =>
      let n := length q - 1 in
      let q1 := heap_down (length q) (swap q 0 n) 0 n in
      match nth_error q1 n with
      | Some x => Ok (x, firstn n q1)
      | None => Er (Panic PIndex)
      end
  end.
(** Top: priority_queue.go:37-42; nil when empty. *)
Definition pq_top (q : list A) : option A := nth_error q 0.
(** Empty: priority_queue.go:25-27. *)
Definition pq_empty (q : list A) : bool := Nat.eqb (length q) 0.

(** ContainsFirst / ContainsSecond: sorter.go:41-57, for an equality test on a projection. *)
Definition contains_by {B} (proj : A -> B) (eqb : B -> B -> bool) (s : list A) (v : B) : bool :=
  existsb (fun e => eqb (proj e) v) s.

End S.

(** Pair.Less: /repo/interfaces/sorter.go:34-37 (and Pairs.Less, lines 63-66). *)
Definition pair_less {T} (lt eq : T -> T -> bool) (p q : T * N) : bool :=
  lt (fst p) (fst q) || (eq (fst p) (fst q) && (snd p <? snd q)%N).

(** Intersection: /repo/utils/math.go:17-45, on the two slices after SortSlice. *)
Fixpoint merge_common (fuel : nat) (a b : list N) : list N :=
  match fuel with
  | O => []
  | S f =>
      match a, b with
      | x :: a', y :: b' =>
          if (x <? y)%N then merge_common f a' b
          else if (y <? x)%N then merge_common f a b'
          else x :: merge_common f a' b'
      | _, _ => []
      end
  end.
(** The result, and the two argument slices as the call leaves them. *)
Definition intersection (srt : list N -> list N) (a b : list N) : list N * list N * list N :=
  let a' := srt a in let b' := srt b in
  (merge_common (length a' + length b') a' b', a', b').
