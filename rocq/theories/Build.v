(** Building the forest: /repo/index/annoyindex.go:236-484. *)
From Verif Require Import Base Flt Layout Rng Alloc Prog Imbalance Dist.
Open Scope N_scope.

Section B.
Variable fo : FOps.
Variable c : Cfg.
Variable nitems : N.                 (* idx._n_items, constant during a build *)

Notation NSZ := (nodeSize fo c).
Notation K := (maxK fo c).

(** allocateSize: annoyindex.go:466-484.  [locked] : threadedBuildPolicy != nil.
    float64(n+1)*1.5 truncated is (n+1)*3/2 (exact below 2^52). *)
Definition grow (n : N) : N := tix c ((tix c (n + 1)) * 3 / 2).
Definition allocate_size (numNodes : N) (locked : bool) : prog unit :=
  vis n <- AGetNS;
  if n <? numNodes then
    do _ <- (if locked then vis! ALockNodesReq; vis! ALockNodesAcq; Ret tt else Ret tt);
    vis n' <- AGetNS;
    let new := N.max numNodes (grow n') in
    vis! ARealloc (tix c (new * NSZ));
    vis! ASetNS new;
    if locked then vis! AUnlockNodes; Ret tt else Ret tt
  else Ret tt.

(** Claim the next node number: annoyindex.go:312-317 and 438-442. *)
Definition claim_node : prog N :=
  vis! ALockNN;
  vis n <- AGetNN;
  do _ <- allocate_size (tix c (n + 1)) true;
  vis item <- AGetNN;
  vis! ASetNN (tix c (item + 1));
  vis! AUnlockNN;
  Ret item.

(** The leaf ("bucket") case: annoyindex.go:309-343. *)
Definition make_leaf (indices : list N) (isRoot : bool) : prog N :=
  do item <- claim_node;
  vis! ARLock;
  vis p <- AGetBase;
  vis! AWrite p (addr fo c item) (enc_ix c (if isRoot then nitems else tix c (lenN indices)));
  do _ <- (if lenN indices =? 0 then Ret tt
           else vis! AWrite p (addr fo c item + off_children c) (enc_ixs c indices); Ret tt);
  vis! ARUnlock;
  Ret item.

(** Distribute [indices] by the side each one is assigned: lines 368-379, 404-408. *)
Fixpoint partition_by (f : N * list N -> prog bool) (l : list (N * list N)) : prog (list N * list N) :=
  match l with
  | [] => Ret ([], [])
  | x :: r =>
      do s <- f x;
      do lr <- partition_by f r;
      Ret (if s then (fst lr, fst x :: snd lr) else (fst x :: fst lr, snd lr))
  end.

(** Lines 362-386: up to three hyperplanes. *)
Fixpoint attempts (k : nat) (nodes : list (N * list N)) (m : snode fo) (cur : list N * list N)
  : prog (snode fo * (list N * list N)) :=
  match k with
  | O => Ret (m, cur)
  | S k' =>
      do m' <- create_split fo c (map snd nodes) m;
      do lr <- partition_by (fun x => side fo c m' (n_vec fo c (snd x))) nodes;
      if split_good (lenN (fst lr)) (lenN (snd lr)) then Ret (m', lr)
      else attempts k' nodes m' lr
  end.

(** Lines 390-409: randomise sides until the split is usable.  Unbounded in Go. *)
Fixpoint randomise (fuel : nat) (nodes : list (N * list N)) (m : snode fo) (cur : list N * list N)
  : prog (snode fo * (list N * list N)) :=
  if split_usable (lenN (fst cur)) (lenN (snd cur)) then Ret (m, cur)
  else match fuel with
  | O => Fail Unlucky
  | S f =>
      do lr <- partition_by (fun _ => draw_side) nodes;
      randomise f nodes (mkSN fo (s_norm fo m) (s_dot fo m) (repeat (f0 fo) (N.to_nat (vlen c)))) lr
  end.

(** The scratch node [m] before its first use (lines 356-360: zeroed bytes). *)
Definition zero_snode : snode fo := snode_of fo c (repeat 0 (N.to_nat NSZ)).

(** The bytes of [m] once number of descendants and the two children are set
    (lines 411-415, 422-436). *)
Definition split_image (desc c0 c1 : N) (m : snode fo) : list N :=
  let hdr := enc_ix c desc ++ enc_ixs c [c0; c1] in
  let pad := repeat 0 (N.to_nat (off_dot fo c) - length hdr) in
  hdr ++ pad ++
  (match knd c with Angular => [] | DotProduct => enc_f fo (s_dot fo m) end) ++
  enc_vec fo (s_vec fo m).

(** Lines 438-448: append a copy of [m]; CopyNode is given vectorLength as the
    number of *bytes* to copy (/repo/utils/node.go:23-31). *)
Definition store_split (img : list N) : prog N :=
  do item <- claim_node;
  vis! ARLock;
  vis p <- AGetBase;
  vis! AWrite p (addr fo c item) (firstn (N.to_nat (vlen c)) img);
  vis! ARUnlock;
  Ret item.

(** Read the node images of the given indices: lines 349-353 (and the vectors at
    370-374).  All reads happen while the read lock is held; item nodes are not
    written during a build, so one snapshot stands for the repeated reads. *)
Definition read_nodes (p : ptr) (indices : list N) : prog (list (N * list N)) :=
  pmap (fun j => vis bs <- ARead p (addr fo c j) NSZ; Ret (j, bs)) indices.

(** makeTree: annoyindex.go:291-455.  [fuel] bounds the recursion depth,
    [rfuel] the randomising loop. *)
Fixpoint make_tree (fuel rfuel : nat) (indices : list N) (isRoot : bool) : prog N :=
  match fuel with
  | O => Fail OutOfFuel
  | S fu =>
      match indices, isRoot with
      | [j], false => Ret j
      | _, _ =>
        let lenIdx := tix c (lenN indices) in
        if (lenIdx <=? K) && (negb isRoot || (nitems <=? K) || (lenIdx =? 1))
        then make_leaf indices isRoot
        else
          vis! ARLock;
          vis p <- AGetBase;
          do nodes <- read_nodes p indices;
          do mlr <- attempts 3 nodes zero_snode ([], []);
          vis! ARUnlock;
          do mlr' <- randomise rfuel nodes (fst mlr) (snd mlr);
          let m := fst mlr' in
          let l := fst (snd mlr') in
          let r := snd (snd mlr') in
          let desc := if isRoot then nitems else tix c (lenN indices) in
          do cc <- (if lenN r <? lenN l
                    then do cr <- make_tree fu rfuel r false;
                         do cl <- make_tree fu rfuel l false; Ret (cl, cr)
                    else do cl <- make_tree fu rfuel l false;
                         do cr <- make_tree fu rfuel r false; Ret (cl, cr));
          store_split (split_image desc (fst cc) (snd cc) m)
      end
  end.

(** Lines 262-274: the indices of the items that have been added. *)
Definition collect_items : prog (list N) :=
  vis! ARLock;
  vis p <- AGetBase;
  do ds <- pmap (fun i => vis bs <- ARead p (addr fo c i) (ixb c); Ret (i, le_dec bs)) (rangeN nitems);
  vis! ARUnlock;
  Ret (map fst (filter (fun id => 1 <=? snd id) ds)).

(** Lines 248-280: the loop of one worker; [trees] is treesPerWorker. *)
Fixpoint tree_loop (fuel mfuel rfuel : nat) (trees : Z) (acc : list N) : prog (list N) :=
  match fuel with
  | O => Fail OutOfFuel
  | S fu =>
      do stop <- (if (trees =? -1)%Z
                  then vis! ALockNN; vis n <- AGetNN; vis! AUnlockNN; Ret (tix c (2 * nitems) <=? n)
                  else Ret (trees <=? Z.of_nat (length acc))%Z);
      if stop : bool then Ret acc
      else
        do indices <- collect_items;
        do r <- make_tree mfuel rfuel indices true;
        tree_loop fu mfuel rfuel trees (acc ++ [r])
  end.

(** ThreadBuild: lines 237-285.  The worker's own generator ([rnd], lines 241-244)
    is passed down but never drawn from: makeTree uses idx.random (lines 366, 375,
    406), so [worker] only labels the roots (ghost). *)
Definition thread_build (fuel mfuel rfuel : nat) (trees : Z) (worker : nat) : prog unit :=
  do rs <- tree_loop fuel mfuel rfuel trees [];
  vis! ALockRoots;
  vis old <- AGetRoots;
  vis! ASetRoots (old ++ map (fun r => (worker, r)) rs);
  vis! AUnlockRoots;
  Ret tt.

End B.
