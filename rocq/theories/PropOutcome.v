(** What Load makes of any file of whole nodes (C110). *)
From Verif Require Import Base Flt Layout Rng Sorts Alloc Prog Dist Build Policy Index Search Spec ForestSpec BuildSpec LoadSpec
  Lib LayoutProof MemProof StoreProof QueryProof TreeProof PolicyProof BuildProof ForestProof AfterProof IOProof LoadProof
  Concrete PropLone.
Open Scope N_scope.

Lemma run_exists (count : N -> N) n : 1 <= n -> exists k, run_of count n k.
Proof.
  intro Hn. set (P := fun k => forall i, n - k <= i -> i < n -> count i = count (n - 1)).

  assert (G : forall t d, N.of_nat d + N.of_nat t + 1 = n -> P (N.of_nat d + 1) -> exists k, run_of count n k).
  { induction t as [|t IH]; intros d Hd Hp.
    - exists n. split; [lia|]. split; [|lia]. intros i H1 H2. apply Hp; lia.
    - destruct (N.eq_dec (count (n - (N.of_nat d + 1) - 1)) (count (n - 1))) as [E|E].
      + apply (IH (S d)); [lia|]. intros i H1 H2. destruct (N.eq_dec i (n - (N.of_nat d + 1) - 1)) as [->|]; [exact E|]. apply Hp; lia.
      + exists (N.of_nat d + 1). split; [lia|]. split; [exact Hp|now intros _]. }
  apply (G (N.to_nat (n - 1)) 0%nat); [lia|]. intros i H1 H2. f_equal. lia.
Qed.
Lemma run_unique count n k k' : run_of count n k -> run_of count n k' -> k = k'.
Proof.
  assert (H : forall a b, run_of count n a -> run_of count n b -> a < b -> False).
  { intros a b (A1 & A2 & A3) (B1 & B2 & B3) L. apply A3; [lia|]. apply B2; lia. }
  intros A B. destruct (N.lt_trichotomy k k') as [L|[E|L]]; [exfalso; eauto|exact E|exfalso; eauto].
Qed.
Lemma from_the_end_down n : forall k, N.of_nat k <= n -> from_the_end n (N.of_nat k) = down (n - 1) k.
Proof.
  assert (H : forall k s, map (fun j => n - 1 - j) (map N.of_nat (seq s k)) = down (n - 1 - N.of_nat s) k).
  { induction k as [|k IH]; intros s; cbn [seq map down]; [reflexivity|]. f_equal. rewrite IH. f_equal. lia. }
  intros k Hk. unfold from_the_end. rewrite Nat2N.id, H. f_equal. lia.
Qed.

Section S.
Variable fo : FOps.
Variable c : Cfg.
Hypothesis OK : CfgOK fo c.
Notation NSZ := (nodeSize fo c).
Variable bs : list N.
Variable n : N.
Hypothesis Hlen : lenN bs = n * NSZ.
Hypothesis Hroom : (n + 1) * NSZ <= 2 ^ iw c.
Notation vw := (Some (buf_of_bytes bs)).
Notation cnt := (count_of fo c bs).
Notation chd := (child_of fo c bs).

Lemma word_read off : off + ixb c <= lenN bs -> exists w, vread vw off (ixb c) = Ok w /\ le_dec w = word c off bs.
Proof.
  intro H. cbn [vread]. eexists. split; [apply bread_ok; exact H|]. unfold word. f_equal. cbn [buf_of_bytes bdata].
  replace off with (0 + off) at 1 by lia. rewrite mread_mwrite_within by lia. reflexivity.
Qed.
Lemma small_addr i : i < n -> addr fo c i = i * NSZ.
Proof. intro Hi. unfold addr. apply tix_small. pose proof (nodeSize_pos fo c OK). nia. Qed.
Lemma cnt_read i : i < n -> exists w, vread vw (addr fo c i) (ixb c) = Ok w /\ le_dec w = cnt i.
Proof. intro Hi. rewrite small_addr by exact Hi. apply word_read. pose proof (nodeSize_ge fo c OK). nia. Qed.
Lemma chd_read i : i < n -> cnt i <> 0 -> first_child fo c vw i = Ok (chd i).
Proof.
  intros Hi Hc. unfold first_child. destruct (cnt_read i Hi) as (w & Ew & Hw). rewrite Ew. cbn [rbind]. rewrite Hw.
  replace (cnt i =? 0) with false by lia. rewrite small_addr by exact Hi.
  destruct (word_read (i * NSZ + off_children c)) as (u & Eu & Hu); [unfold off_children; pose proof (nodeSize_ge fo c OK); nia|].
  rewrite Eu. cbn [rbind]. rewrite Hu. reflexivity.
Qed.
Lemma chd_none i : i < n -> cnt i = 0 -> first_child fo c vw i = Er (Panic PIndex).
Proof. intros Hi Hc. unfold first_child. destruct (cnt_read i Hi) as (w & Ew & Hw). rewrite Ew. cbn [rbind]. now rewrite Hw, Hc. Qed.
Lemma n_small : n < 2 ^ iw c.
Proof. pose proof (nodeSize_pos fo c OK). nia. Qed.
Lemma pred_index i : 1 <= i -> i <= n -> tix c (i + 2 ^ iw c - 1) = i - 1.
Proof.
  intros H1 H2. pose proof n_small. unfold tix, wrap. replace (i + 2 ^ iw c - 1) with ((i - 1) + 1 * 2 ^ iw c) by lia.
  rewrite N.mod_add by apply pow_pos. apply N.mod_small. lia.
Qed.
Lemma scan_rest m : forall k i acc fuel, i < n -> N.of_nat k <= i -> (k < fuel)%nat ->
  (forall j, i < j + N.of_nat k -> j <= i -> cnt j = m) -> cnt (i - N.of_nat k) <> m ->
  scan_roots fo c fuel vw i (Some m) acc = Ok (acc ++ down i k, Some m).
Proof.
  induction k as [|k IH]; intros i acc fuel Hi Hk Hf Hall Hstop; (destruct fuel as [|fuel]; [lia|]); cbn [scan_roots];
    destruct (cnt_read i Hi) as (w & Ew & Hw); rewrite Ew; cbn [rbind]; rewrite Hw.
  - rewrite N.sub_0_r in Hstop. replace (cnt i =? m) with false by lia. cbn [down]. now rewrite app_nil_r.
  - rewrite (Hall i) by lia. rewrite N.eqb_refl, pred_index by lia.
    rewrite IH; [cbn [down]; now rewrite <- app_assoc| | | | |]; try lia.
    + intros j H1 H2. apply Hall; lia.
    + replace (i - 1 - N.of_nat k) with (i - N.of_nat (S k)) by lia. exact Hstop.
Qed.
Lemma scan_file k fuel : run_of cnt n k -> k < n -> (N.to_nat k < fuel)%nat ->
  scan_roots fo c fuel vw (tix c (n + 2 ^ iw c - 1)) None [] = Ok (from_the_end n k, Some (cnt (n - 1))).
Proof.
  intros (R1 & R2 & R3) Hk Hf. rewrite pred_index by lia. destruct fuel as [|fuel]; [lia|]. cbn [scan_roots].
  destruct (cnt_read (n - 1)) as (w & Ew & Hw); [lia|]. rewrite Ew. cbn [rbind]. rewrite Hw, pred_index by lia.
  rewrite (scan_rest (cnt (n - 1)) (N.to_nat (k - 1))); try lia.
  - replace k with (N.of_nat (S (N.to_nat (k - 1)))) at 2 by lia. rewrite from_the_end_down by lia. reflexivity.
  - intros j H1 H2. apply R2; lia.
  - replace (n - 1 - 1 - N.of_nat (N.to_nat (k - 1))) with (n - k - 1) by lia. apply R3. exact Hk.
Qed.
Lemma batch_file ni : forall ids acc, (forall i, In i ids -> i < n) ->
  batch_max fo c vw ni ids acc = Ok (acc + fold_right Z.add 0 (map (share (maxK fo c) ni cnt) ids))%Z.
Proof.
  induction ids as [|i ids IH]; intros acc Hi; cbn [batch_max map fold_right].
  - f_equal. lia.
  - destruct (cnt_read i) as (w & Ew & Hw); [apply Hi; now left|]. rewrite Ew. cbn [rbind]. rewrite Hw.
    rewrite IH by (intros; apply Hi; now right). f_equal. unfold share. destruct ((cnt i =? 1) && (i <? ni)); [lia|]. destruct (cnt i <=? maxK fo c); lia.
Qed.
Lemma last_down : forall k hi, last (down hi (S k)) 0 = hi - N.of_nat k.
Proof.
  induction k as [|k IH]; intro hi; [cbn; lia|]. change (down hi (S (S k))) with (hi :: down (hi - 1) (S k)).
  change (last (hi :: down (hi - 1) (S k)) 0) with (last (down (hi - 1) (S k)) 0). rewrite IH. lia.
Qed.
Lemma removelast_down : forall k hi, removelast (down hi (S k)) = down hi k.
Proof.
  induction k as [|k IH]; intro hi; [reflexivity|]. change (down hi (S (S k))) with (hi :: down (hi - 1) (S k)).
  change (removelast (hi :: down (hi - 1) (S k))) with (hi :: removelast (down (hi - 1) (S k))). rewrite IH. reflexivity.
Qed.
Lemma drop_file k : run_of cnt n k -> k < n ->
  drop_duplicate_root fo c vw (from_the_end n k) =
  (if (2 <=? k) && (cnt (n - 1) =? 0) then Er (Panic PIndex) else Ok (trees_of chd n k)).
Proof.
  intros (R1 & R2 & R3) Hk. unfold trees_of. replace k with (N.of_nat (N.to_nat k)) at 1 by lia. rewrite from_the_end_down by lia.
  destruct (N.to_nat k) as [|[|j]] eqn:Ek; [lia| |].
  - replace k with 1 by lia. change (2 <=? 1) with false. cbn [andb]. change 1 with (N.of_nat 1). rewrite from_the_end_down by lia. reflexivity.
  - replace (2 <=? k) with true by lia. cbn [andb].
    assert (D : down (n - 1) (S (S j)) = n - 1 :: n - 1 - 1 :: down (n - 1 - 1 - 1) j) by reflexivity.
    unfold drop_duplicate_root. rewrite D. rewrite <- D. rewrite last_down, removelast_down.
    replace (n - 1 - N.of_nat (S j)) with (n - k) by lia.
    destruct (N.eqb_spec (cnt (n - 1)) 0) as [E0|E0].
    + rewrite chd_none by (lia || exact E0). reflexivity.
    + rewrite chd_read by (lia || exact E0). cbn [rbind].
      rewrite chd_read by (rewrite ?R2; lia || exact E0). cbn [rbind].
      destruct (chd (n - 1) =? chd (n - k)).
      * replace (k - 1) with (N.of_nat (S j)) by lia. rewrite from_the_end_down by lia. reflexivity.
      * replace k with (N.of_nat (S (S j))) by lia. rewrite from_the_end_down by lia. reflexivity.
Qed.
Lemma in_range i : In i (rangeN n) -> i < n.
Proof. unfold rangeN. rewrite in_map_iff. intros (j & <- & Hj). apply in_seq in Hj. lia. Qed.

Lemma load_file k kd fs a fl : run_of cnt n k -> fs fl = Some bs -> rnd (ib a) <> None ->
  (k = n -> load fo c kd fs a fl = Er Fault) /\
  (k < n -> 2 <= k -> cnt (n - 1) = 0 -> load fo c kd fs a fl = Er (Panic PIndex)) /\
  (k < n -> k = 1 \/ cnt (n - 1) <> 0 -> exists ix, load fo c kd fs a fl = Ok (ix, None) /\
     n_items ix = cnt (n - 1) /\ rootsN (ib ix) = trees_of chd n k /\ nn (ib ix) = n /\
     batchMax ix = (fold_right Z.add 0 (map (share (maxK fo c) (cnt (n - 1)) cnt) (rangeN n)) - 1)%Z /\
     ibuilt ix = true /\ iloaded ix = true).
Proof.
  intros R Hf Hr. pose proof R as (R1 & R2 & R3). pose proof (nodeSize_pos fo c OK) as Hs. split.
  - intros ->. apply (load_falls_off fo c OK bs n (cnt (n - 1)) Hlen Hroom); auto; [|lia].
    intros i Hi. rewrite <- (R2 i) by lia. unfold n_desc, file_node, count_of, word, sub. f_equal. cbn [N.to_nat skipn].
    rewrite firstn_firstn. f_equal. pose proof (nodeSize_ge fo c OK). lia.
  - assert (E1 : exists r, rnd (ib a) = Some r) by (destruct (rnd (ib a)) as [r|]; [now exists r|congruence]).
    destruct E1 as (r & E1).
    assert (Hopen : im_open kd fs fl = Ok (inl (mkIM kd fl (lenN bs) (match kd with GCMem => bs | MmapMem => [] end)))).
    { unfold im_open. rewrite Hf. destruct bs as [|b l]; [rewrite lenN_nil in Hlen; nia|reflexivity]. }
    assert (EL : k < n -> load fo c kd fs a fl =
      let* roots' := drop_duplicate_root fo c vw (from_the_end n k) in
      let* bm := batch_max fo c vw (cnt (n - 1)) (rangeN n) (-1)%Z in
      Ok (mkIdx (mkB (heap (ib a)) alloc_free None n 0 (map (fun x => (0%nat, x)) roots') (Some (kiss_clone r)) []
                     (l_nn (ib a)) (l_roots (ib a)) (l_w (ib a)) (l_wh (ib a)) (l_r (ib a)))
                (cnt (n - 1)) bm true true (Some (mkIM kd fl (lenN bs) (match kd with GCMem => bs | MmapMem => [] end))), None)).
    { intro Hk. unfold load, close. rewrite E1. cbn [rbind]. rewrite Hopen. cbn [rbind im_size]. rewrite Hlen at 1. rewrite N.mod_mul by lia. cbn [N.eqb negb].
      rewrite (file_view kd fs fl bs Hf), (tix_small c (lenN bs)) by nia.
      replace (lenN bs / NSZ) with n by (rewrite Hlen, N.div_mul by lia; reflexivity).
      rewrite (scan_file k) by (auto; lia). cbn [rbind]. reflexivity. }
    split.
    + intros Hk H2 H0. rewrite EL by exact Hk. rewrite (drop_file k R Hk). replace (2 <=? k) with true by lia. rewrite H0. reflexivity.
    + intros Hk H1. rewrite EL by exact Hk. rewrite (drop_file k R Hk). replace ((2 <=? k) && (cnt (n - 1) =? 0)) with false by lia.
      cbn [rbind]. rewrite batch_file by (intros; now apply in_range). cbn [rbind]. eexists. split; [reflexivity|].
      cbn [n_items ib nn batchMax ibuilt iloaded]. unfold rootsN. cbn [broots]. rewrite map_map, map_id. repeat split. lia.
Qed.
End S.

(** ** C110 *)
(** Every file of whole nodes ends with one run of nodes of the same descendant count;
    its length and that count decide what Load does. *)
Theorem C110_outcome_of_load :
  forall fo c, CfgOK fo c -> forall bs n, 1 <= n -> lenN bs = n * nodeSize fo c -> (n + 1) * nodeSize fo c <= 2 ^ iw c ->
  let count := count_of fo c bs in let child := child_of fo c bs in
  exists k, run_of count n k /\ (forall k', run_of count n k' -> k' = k) /\
  forall kd fs a fl, fs fl = Some bs -> rnd (ib a) <> None ->
  (k = n -> load fo c kd fs a fl = Er Fault) /\
  (k < n -> 2 <= k -> count (n - 1) = 0 -> load fo c kd fs a fl = Er (Panic PIndex)) /\
  (k < n -> k = 1 \/ count (n - 1) <> 0 -> exists ix, load fo c kd fs a fl = Ok (ix, None) /\
     n_items ix = count (n - 1) /\ rootsN (ib ix) = trees_of child n k /\ nn (ib ix) = n /\
     batchMax ix = (fold_right Z.add 0 (map (share (maxK fo c) (count (n - 1)%N) count) (rangeN n)) - 1)%Z /\
     ibuilt ix = true /\ iloaded ix = true).
Proof.
  intros fo c OK bs n Hn Hlen Hroom count child. destruct (run_exists count n Hn) as (k & R). exists k. split; [exact R|].
  split; [intros k' R'; now apply (run_unique count n)|]. intros kd fs a fl Hf Hr. now apply load_file.
Qed.
(** Exactly the files Load accepts. *)
Theorem C110_accepted_files :
  forall fo c, CfgOK fo c -> forall bs n, 1 <= n -> lenN bs = n * nodeSize fo c -> (n + 1) * nodeSize fo c <= 2 ^ iw c ->
  forall kd fs a fl, fs fl = Some bs -> rnd (ib a) <> None ->
  let count := count_of fo c bs in
  (exists ix, load fo c kd fs a fl = Ok (ix, None)) <->
  (exists i, i < n /\ count i <> count (n - 1)) /\ (2 <= n -> count (n - 2) = count (n - 1) -> count (n - 1) <> 0).
Proof.
  intros fo c OK bs n Hn Hlen Hroom kd fs a fl Hf Hr count.
  destruct (C110_outcome_of_load fo c OK bs n Hn Hlen Hroom) as (k & R & U & O). destruct (O kd fs a fl Hf Hr) as (O1 & O2 & O3).
  fold count in R, O1, O2, O3.
  pose proof R as (R1 & R2 & R3). split.
  - intros (ix & E). assert (Hk : k < n) by (destruct (N.eq_dec k n) as [H|H]; [rewrite (O1 H) in E; discriminate|lia]).
    split; [exists (n - k - 1); split; [lia|now apply R3]|]. intros H2 He H0.
    assert (2 <= k). { destruct (N.eq_dec k 1) as [->|]; [|lia]. exfalso. apply R3; [lia|]. replace (n - 1 - 1) with (n - 2) by lia. exact He. }
    rewrite O2 in E by assumption. discriminate.
  - intros ((i & Hi & Hne) & H0). assert (Hk : k < n).
    { destruct (N.eq_dec k n) as [->|]; [|lia]. exfalso. apply Hne, R2; lia. }
    destruct O3 as (ix & E & _); [exact Hk| |eauto]. destruct (N.eq_dec k 1) as [|Hk1]; [now left|right]. apply H0; [lia|]. apply R2; lia.
Qed.

(** Files of 20-byte nodes: a list of counts and first children. *)
Definition file_of (l : list (N * N)) : list N := flat_map (fun x => le_enc 4 (fst x) ++ le_enc 4 (snd x) ++ repeat 0 12) l.
Definition load_it (l : list (N * N)) : res (N * list N * Z) :=
  let* (ix, e) := load fops32 (cA 2) MmapMem (fs_set no_files 7 (Some (file_of l))) (ix0 (cA 2)) 7 in
  Ok (n_items ix, rootsN (ib ix), batchMax ix).
Example C110_example :
  CfgOK fops32 (cA 2) /\ nodeSize fops32 (cA 2) = 20 /\ rnd (ib (ix0 (cA 2))) <> None /\
  lenN (file_of [(1, 0); (9, 4); (9, 5); (9, 4)]) = 4 * 20 /\ (4 + 1) * 20 <= 2 ^ iw (cA 2) /\
  run_of (count_of fops32 (cA 2) (file_of [(1, 0); (9, 4); (9, 5); (9, 4)])) 4 3 /\
  (* three roots, the lowest of them a copy of the last *)
  load_it [(1, 0); (9, 4); (9, 5); (9, 4)] = Ok (9, [3; 2], 0%Z) /\
  (* three roots, none of them a copy *)
  load_it [(1, 0); (9, 6); (9, 5); (9, 4)] = Ok (9, [3; 2; 1], 0%Z) /\
  (* a single node without descendants at the end *)
  load_it [(1, 0); (0, 0)] = Ok (0, [1], 0%Z) /\
  (* two of them *)
  load_it [(1, 0); (0, 0); (0, 0)] = Er (Panic PIndex) /\
  (* all counts equal *)
  load_it [(2, 0); (2, 1)] = Er Fault.
Proof.
  split; [now apply cA_ok|]. split; [reflexivity|]. split; [discriminate|]. split; [reflexivity|]. split; [vm_compute; discriminate|]. split.
  - split; [lia|]. split; [|intros _; vm_compute; discriminate]. intros i H1 H2. assert (H : i = 1 \/ i = 2 \/ i = 3) by lia.
    destruct H as [->|[->| ->]]; reflexivity.
  - repeat split; vm_compute; reflexivity.
Qed.
Print Assumptions C110_outcome_of_load.
Print Assumptions C110_accepted_files.
