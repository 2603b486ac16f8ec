(** The AnnoyIndex API: /repo/index/annoyindex.go:24-234, /repo/index/annoyindex_io.go,
    GetDistance and CreateContext of /repo/index/annoyindex_search.go. *)
From Verif Require Import Base Flt Layout Rng Alloc Prog Dist Build Policy.
Open Scope N_scope.

(** ** The file system and file-backed memory *)
Definition files := N -> option (list N).      (* file name -> contents *)
Definition fs_set (fs : files) (f : N) (bs : option (list N)) : files :=
  fun g => if g =? f then bs else fs g.

(** The two IndexAllocator implementations. *)
Inductive imkind := MmapMem | GCMem.

(** An opened index (interfaces.AllocatedIndex).  [im_size] is Size() at open time.
    GC memory keeps a private copy of the bytes; mmap (MAP_SHARED) shows the
    file's current contents. *)
Record imem := mkIM { im_kind : imkind; im_file : N; im_size : N; im_copy : list N }.

Definition im_view (fs : files) (im : imem) : buf :=
  match im_kind im with
  | GCMem => buf_of_bytes (im_copy im)
  | MmapMem =>
      let bs := match fs (im_file im) with Some b => b | None => [] end in
      (* pages past the current end of file fault (SIGBUS); simplification: byte
         rather than page granularity, and an unlinked file is not distinguished *)
      buf_of_bytes (firstn (N.to_nat (im_size im)) bs)
  end.

Inductive ioerr := ENoEnt | EInval | ENotBuilt | ESize | ECreate | EWrite.

(** ** The index object *)
Record idx := mkIdx {
  ib : bst;                 (* arenas, _nodes when built in memory, _n_nodes, _nodes_size, _roots, random *)
  n_items : N;              (* _n_items *)
  batchMax : Z;             (* batchMaxNNS *)
  iloaded : bool;           (* indexLoaded *)
  ibuilt : bool;            (* indexBuilt *)
  imemory : option imem     (* indexMemory; _nodes points into it when loaded *)
}.

Definition set_ib b (ix : idx) := mkIdx b (n_items ix) (batchMax ix) (iloaded ix) (ibuilt ix) (imemory ix).

(** The roots, without the ghost worker annotation. *)
Definition rootsN (s : bst) : list N := map snd (broots s).

(** The bytes idx._nodes points at. *)
Definition view (fs : files) (ix : idx) : option buf :=
  match base (ib ix) with
  | Some g => nth_error (heap (ib ix)) g
  | None => match imemory ix with Some im => Some (im_view fs im) | None => None end
  end.

Definition vread (v : option buf) (off len : N) : res (list N) :=
  match v with Some b => bread b off len | None => Er Fault end.

Section I.
Variable fo : FOps.
Variable c : Cfg.
Notation NSZ := (nodeSize fo c).
Notation K := (maxK fo c).

Definition no_bst (r : option kiss) : bst := mkB [] None None 0 0 [] r [] None None None false [].

(** New: annoyindex.go:74-114.  float64(x)*1.5 truncated is x*3/2. *)
Definition new_index (r : option kiss) (hint : N) : idx :=
  let s := no_bst r in
  let s' := if 0 <? hint
            then let (h, p) := reallocate [] None (tix c (NSZ * hint) * 3 / 2) in set_heap h p None s
            else s in
  mkIdx s' 0 0 false false None.

(** AddItem: annoyindex.go:149-179 (verbose logging omitted).  InitNode's value is
    computed from [v], which has just been stored.  SetVector copies through arrays of
    2^30 bytes and panics for more (angular/node.go:51-57, dotproduct/node.go:27-33). *)
Definition add_prog (i : N) (v : list (F fo)) : prog unit :=
  do _ <- allocate_size fo c (tix c (i + 1)) false;
  vis p <- AGetBase;
  vis! AWrite p (addr fo c i) (enc_ix c 1);
  vis! AWrite p (addr fo c i + off_vec fo c) (enc_vec fo v);
  match knd c with
  | Angular => vis! AWrite p (addr fo c i + off_children c) (enc_f fo (dot fo v v)); Ret tt
  | DotProduct => Ret tt
  end.

Definition add_item (ix : idx) (i : N) (v : list (F fo)) : res idx :=
  if iloaded ix then Er (Panic PLoaded)
  else if negb (vlen c =? tix c (lenN v)) then Er (Panic PLength)
  else if 2 ^ 30 <? lenN v * fbytes fo then Er (Panic PIndex)
  else
    let* (_, s) := run c 0 (add_prog i v) (ib ix) in
    Ok (mkIdx s (if n_items ix <=? i then tix c (i + 1) else n_items ix)
              (batchMax ix) (iloaded ix) (ibuilt ix) (imemory ix)).

(** GetItem: annoyindex.go:145-147.  The Go slice aliases index memory; the model
    gives its contents at the time of the call. *)
Definition get_item (fs : files) (ix : idx) (i : N) : res (list (F fo)) :=
  let* bs := vread (view fs ix) (addr fo c i + off_vec fo c) (vlen c * fbytes fo) in
  Ok (dec_vec fo c bs).

(** The fields of node [i] that the distance code looks at. *)
Definition node_fields (v : option buf) (i : N) : res (snode fo) :=
  let* bs := vread v (addr fo c i) NSZ in Ok (snode_of fo c bs).

(** GetDistance: annoyindex_search.go:43-50. *)
Definition get_distance (fs : files) (ix : idx) (i j : N) : res (F fo) :=
  let* x := node_fields (view fs ix) i in
  let* y := node_fields (view fs ix) j in
  Ok (normalized_distance fo c (distance fo x y)).

(** PreProcess (called at annoyindex.go:191). *)
Definition preprocess (nitems : N) : prog unit :=
  match knd c with
  | Angular => Ret tt
  | DotProduct =>
      vis p <- AGetBase;
      do vs <- pmap (fun i => vis bs <- ARead p (addr fo c i + off_vec fo c) (vlen c * fbytes fo);
                              Ret (dec_vec fo c bs)) (rangeN nitems);
      do _ <- pmap (fun (id : N * F fo) =>
                      vis! AWrite p (addr fo c (fst id) + off_dot fo c) (enc_f fo (snd id)); Ret tt)
                   (combine (rangeN nitems) (dot_factors fo vs));
      Ret tt
  end.

(** Build, lines 197-214: append copies of the roots.  CopyNode copies vectorLength bytes. *)
Definition copy_roots : prog unit :=
  vis rs <- AGetRoots;
  let k := tix c (lenN rs) in
  vis n <- AGetNN;
  do _ <- allocate_size fo c (tix c (n + k)) false;
  do _ <- pmap (fun ir : N * N =>
                  vis n <- AGetNN;
                  vis p <- AGetBase;
                  vis bs <- ARead p (addr fo c (snd ir)) (vlen c);
                  vis! AWrite p (addr fo c (tix c (n + fst ir))) bs;
                  Ret tt)
               (combine (rangeN k) (map snd rs));
  vis n <- AGetNN;
  vis! ASetNN (tix c (n + k));
  Ret tt.

(** Lines 217-229 (and annoyindex_io.go:101-112): the size of a query context. *)
Fixpoint batch_max (v : option buf) (nitems : N) (ids : list N) (acc : Z) : res Z :=
  match ids with
  | [] => Ok acc
  | i :: r =>
      let* bs := vread v (addr fo c i) (ixb c) in
      let d := le_dec bs in
      batch_max v nitems r
        (if ((d =? 1) && (i <? nitems))%N then acc + 1
         else if (d <=? K)%N then acc + Z.of_N d else acc)%Z
  end.

(** Build, lines 181-193: the part before the policy runs. *)
Definition build_pre (ix : idx) : res bst :=
  if iloaded ix then Er (Panic PLoaded)
  else if ibuilt ix then Er (Panic PBuilt)
  else
    let* (_, s) := run c 0 (preprocess (n_items ix)) (ib ix) in
    Ok (set_nn (n_items ix) [] s).

(** Build, lines 197-229: the part after the policy has run. *)
Definition build_post (ix : idx) (s : bst) : res idx :=
  let* (_, s') := run c 0 copy_roots s in
  let* bm := batch_max (arena_at (heap s') (base s')) (n_items ix) (rangeN (nn s')) (-1)%Z in
  Ok (mkIdx s' (n_items ix) bm (iloaded ix) true (imemory ix)).

(** The workers of one Build call.  ThreadBuild starts by calling a method on
    idx.random (annoyindex.go:241), which panics when it is nil. *)
Definition workers (fuel mfuel rfuel : nat) (nitems : N) (r : option kiss) (plan : list Z) : list (prog unit) :=
  map (fun wt => match r with
                 | Some _ => thread_build fo c nitems fuel mfuel rfuel (snd wt) (fst wt)
                 | None => Fail (Panic PNil)
                 end)
      (combine (seq 0 (length plan)) plan).

(** Build with the single-worker policy, as a function. *)
Definition build_single (fuel mfuel rfuel : nat) (ix : idx) (trees : Z) : res idx :=
  let* s0 := build_pre ix in
  match rnd s0 with
  | None => Er (Panic PNil)
  | Some _ =>
      let* (_, s1) := run c 0 (thread_build fo c (n_items ix) fuel mfuel rfuel trees 0) s0 in
      build_post ix s1
  end.

(** Build with the multi-worker policy: [ix'] is a possible result under some
    schedule of the workers (all of which must have returned: wg.Wait()). *)
Definition build_multi (fuel mfuel rfuel : nat) (ix : idx) (trees nworkers : Z) (ncpu : N) (ix' : idx) : Prop :=
  exists plan s0 ps s1,
    build_pre ix = Ok s0 /\
    work_plan trees nworkers ncpu = Ok plan /\
    pool_steps c (workers fuel mfuel rfuel (n_items ix) (rnd s0) plan, s0) (ps, s1) /\
    ps = map (fun _ => Ret tt) plan /\
    build_post ix s1 = Ok ix'.

(** Close: annoyindex.go:117-138.  indexBuilt and batchMaxNNS keep their values.
    idx.random.CloneAndReset() is a nil dereference when random is nil.  The error
    of indexMemory.Close is not modelled. *)
Definition close (ix : idx) : res idx :=
  match rnd (ib ix) with
  | None => Er (Panic PNil)
  | Some r =>
      Ok (mkIdx (mkB (heap (ib ix)) alloc_free None 0 0 [] (Some (kiss_clone r)) []
                     (l_nn (ib ix)) (l_roots (ib ix)) (l_w (ib ix)) (l_wh (ib ix)) (l_r (ib ix)))
                0 (batchMax ix) false (ibuilt ix) None)
  end.

(** IndexAllocator.Open: index_allocator_mmap.go:66-104, index_allocator_gcmem.go:53-94.
    An empty file: mmap(2) fails with EINVAL; the GC variant takes &data[0] of an
    empty slice.  Other OS failures are not modelled. *)
Definition im_open (k : imkind) (fs : files) (f : N) : res (imem + ioerr) :=
  match fs f with
  | None => Ok (inr ENoEnt)
  | Some [] => match k with MmapMem => Ok (inr EInval) | GCMem => Er (Panic PIndex) end
  | Some bs => Ok (inl (mkIM k f (lenN bs) (match k with GCMem => bs | MmapMem => [] end)))
  end.

(** Load, lines 69-81: collect trailing nodes with one and the same descendant
    count.  The loop counter is unsigned, so [i >= 0] always holds: below node 0 it
    wraps around to 2^w - 1.  [fuel] iterations at most. *)
Fixpoint scan_roots (fuel : nat) (v : option buf) (i : N) (m : option N) (acc : list N)
  : res (list N * option N) :=
  match fuel with
  | O => Er OutOfFuel
  | S fu =>
      let* bs := vread v (addr fo c i) (ixb c) in
      let k := le_dec bs in
      if (match m with None => true | Some m' => k =? m' end)
      then scan_roots fu v (tix c (i + 2 ^ iw c - 1)) (Some k) (acc ++ [i])
      else Ok (acc, m)
  end.

(** GetChildren()[0]. *)
Definition first_child (v : option buf) (i : N) : res N :=
  let* bs := vread v (addr fo c i) (ixb c) in
  if le_dec bs =? 0 then Er (Panic PIndex)
  else let* ch := vread v (addr fo c i + off_children c) (ixb c) in Ok (le_dec ch).

(** Load, lines 83-91. *)
Definition drop_duplicate_root (v : option buf) (roots : list N) : res (list N) :=
  match roots with
  | r0 :: _ :: _ =>
      let* a := first_child v r0 in
      let* b := first_child v (last roots 0) in
      Ok (if a =? b then removelast roots else roots)
  | _ => Ok roots
  end.

(** Load: annoyindex_io.go:42-124.  The result carries the Go error, if any. *)
Definition load (k : imkind) (fs : files) (ix : idx) (f : N) : res (idx * option ioerr) :=
  let* ix0 := close ix in
  let* o := im_open k fs f in
  match o with
  | inr e => Ok (ix0, Some e)
  | inl im =>
      if negb (im_size im mod NSZ =? 0) then
        let* ix1 := close ix0 in Ok (ix1, Some ESize)
      else
        let v := Some (im_view fs im) in
        let n := tix c (im_size im) / NSZ in
        let* (roots, m) := scan_roots (N.to_nat n + 2) v (tix c (n + 2 ^ iw c - 1)) None [] in
        let* roots' := drop_duplicate_root v roots in
        let items := match m with Some x => x | None => 0 end in
        let* bm := batch_max v items (rangeN n) (-1)%Z in
        let s := ib ix0 in
        Ok (mkIdx (mkB (heap s) (al s) None n (ns s) (map (fun r => (0%nat, r)) roots') (rnd s) []
                       (l_nn s) (l_roots s) (l_w s) (l_wh s) (l_r s))
                  items bm true true (Some im), None)
  end.

(** What the operating system does to one Save call. *)
Inductive os_save := OsOk | OsCreateFails | OsWriteFails (written : nat).

(** Save: annoyindex_io.go:11-40.  os.Create truncates an existing file before the
    index bytes are read for writing.  write(2) from unmapped pages fails (EFAULT). *)
Definition save (k : imkind) (os : os_save) (fs : files) (ix : idx) (f : N)
  : res (idx * files * option ioerr) :=
  if negb (ibuilt ix) then Ok (ix, fs, Some ENotBuilt)
  else match os with
  | OsCreateFails => Ok (ix, fs, Some ECreate)
  | _ =>
      let fs0 := fs_set fs f (Some []) in
      let len := tix c (nn (ib ix) * NSZ) in
      match (if len =? 0 then Ok [] else vread (view fs0 ix) 0 len) with
      | Er e =>
          match imemory ix with
          | Some im => match im_kind im with
                       | MmapMem => Ok (ix, fs0, Some EWrite)
                       | GCMem => Er e
                       end
          | None => Er e
          end
      | Ok bs =>
          match os with
          | OsWriteFails n => Ok (ix, fs_set fs f (Some (firstn n bs)), Some EWrite)
          | _ =>
              let fs1 := fs_set fs f (Some bs) in
              let* (ix', e) := load k fs1 ix f in
              Ok (ix', fs1, e)
          end
      end
  end.

(** File-system states that a crash during Save can leave behind: before the
    create, or after it with any prefix of the data written. *)
Definition save_crash_states (fs : files) (ix : idx) (f : N) (fs' : files) : Prop :=
  fs' = fs \/
  (ibuilt ix = true /\
   exists n bs, (bs = [] \/ vread (view (fs_set fs f (Some [])) ix) 0 (tix c (nn (ib ix) * NSZ)) = Ok bs) /\
                fs' = fs_set fs f (Some (firstn n bs))).

(** CreateContext: annoyindex_search.go:20-40: the length of the two arrays. *)
Definition context_length (ix : idx) : Z :=
  if (batchMax ix <? 1)%Z then Z.of_N (nn (ib ix)) * 2 else batchMax ix.

End I.
