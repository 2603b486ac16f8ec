(** Specification vocabulary used in the property statements.  Independent of the
    model's helper functions: plain lists, maps and orders. *)
From Verif Require Import Base.
From Coq Require Import Permutation Sorted.
Open Scope N_scope.

(** What a history of additions leaves at each index: the last one wins. *)
Fixpoint last_added {V} (h : list (N * V)) (i : N) : option V :=
  match h with
  | [] => None
  | (j, v) :: r => match last_added r i with
                   | Some v' => Some v'
                   | None => if j =? i then Some v else None
                   end
  end.

(** One more than the largest index used. *)
Definition extent {V} (h : list (N * V)) : N := fold_right (fun jv m => N.max (fst jv + 1) m) 0 h.

(** ** Orders *)
(** [less] is a strict weak order on the elements satisfying [P]. *)
Record strict_weak {A} (P : A -> Prop) (less : A -> A -> bool) : Prop := mkSW {
  sw_asym : forall x y, P x -> P y -> less x y = true -> less y x = false;
  sw_le_trans : forall x y z, P x -> P y -> P z ->
      less y x = false -> less z y = false -> less z x = false
}.
(** In order: no later element is less than an earlier one. *)
Definition sorted {A} (less : A -> A -> bool) (l : list A) : Prop :=
  StronglySorted (fun x y => less y x = false) l.
(** What a sorting routine does (the contract of Go's sort.Slice). *)
Definition sorts {A} (P : A -> Prop) (less : A -> A -> bool) (f : list A -> list A) : Prop :=
  forall l, Forall P l -> Permutation (f l) l /\ sorted less (f l).

Definition segment {A} (l : list A) (b e : nat) : list A := firstn (e - b) (skipn b l).

(** [s'] is [s] with the [m-b] smallest elements of [s[b:e]] in order at [b:m]. *)
Definition partially_sorted {A} (less : A -> A -> bool) (s : list A) (b m e : nat) (s' : list A) : Prop :=
  Permutation (segment s' b e) (segment s b e) /\
  firstn b s' = firstn b s /\ skipn e s' = skipn e s /\
  sorted less (segment s' b m) /\
  forall x y, In x (segment s' b m) -> In y (segment s' m e) -> less y x = false.

(** A queue of which the least element is taken first, as a bag. *)
Inductive qop (A : Type) := QPush (x : A) | QPop.
Arguments QPush {A} x. Arguments QPop {A}.
(** [min_bag less ops outs bag]: the operations [ops] (oldest last) can produce [outs]
    (one entry per pop, newest first; [None] for a pop of the empty queue) and leave [bag]. *)
Inductive min_bag {A} (less : A -> A -> bool) : list (qop A) -> list (option A) -> list A -> Prop :=
| mb_nil : min_bag less [] [] []
| mb_push ops outs bag x : min_bag less ops outs bag -> min_bag less (QPush x :: ops) outs (x :: bag)
| mb_pop_empty ops outs : min_bag less ops outs [] -> min_bag less (QPop :: ops) (None :: outs) []
| mb_pop ops outs bag x bag' :
    min_bag less ops outs bag -> Permutation bag (x :: bag') ->
    (forall y, In y bag -> less y x = false) ->
    min_bag less (QPop :: ops) (Some x :: outs) bag'.

(** Multiset intersection: each value as often as it occurs in both. *)
Definition multi_inter (a b r : list N) : Prop :=
  forall x, count_occ N.eq_dec r x = Nat.min (count_occ N.eq_dec a x) (count_occ N.eq_dec b x).

(** ** Handles of opened files *)
Inductive hop := HOpen (f : N) | HClose (h : nat).
(** What is open after a trace (oldest operation last): (handle, file), newest first.
    Handles are numbered in order of opening. *)
Fixpoint opens_of (t : list hop) : nat :=
  match t with [] => O | HOpen _ :: r => S (opens_of r) | HClose _ :: r => opens_of r end.
Fixpoint live_of (t : list hop) : list (nat * N) :=
  match t with
  | [] => []
  | HOpen f :: r => (opens_of r, f) :: live_of r
  | HClose h :: r => filter (fun e => negb (Nat.eqb (fst e) h)) (live_of r)
  end.
(** Each file is open at most once and only open handles are closed. *)
Fixpoint one_handle_per_file (t : list hop) : Prop :=
  match t with
  | [] => True
  | HOpen f :: r => ~ In f (map snd (live_of r)) /\ one_handle_per_file r
  | HClose h :: r => In h (map fst (live_of r)) /\ one_handle_per_file r
  end.
(** The newest open handle of a file. *)
Definition newest (t : list hop) (f : N) : option nat :=
  match find (fun e => snd e =? f) (live_of t) with Some (h, _) => Some h | None => None end.

(** ** Sorting, continued *)
(** What sort.Slice is relied on for: it rearranges, and it sorts when the comparison
    is a strict weak order on the elements. *)
Definition sort_slice {A} (less : A -> A -> bool) (f : list A -> list A) : Prop :=
  (forall l, Permutation (f l) l) /\ forall P, strict_weak P less -> sorts P less f.

(** [res] are the [k] least elements of [cands], in order. *)
Definition is_topk {A} (less : A -> A -> bool) (k : nat) (cands res : list A) : Prop :=
  exists rest, Permutation cands (res ++ rest) /\ length res = Nat.min k (length cands) /\
    sorted less res /\ forall x y, In x res -> In y rest -> less y x = false.
