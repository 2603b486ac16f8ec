(** One builder, several indexes (C63); GoRandom (C64); negative tree counts (C65). *)
From Verif Require Import Base Flt Layout Rng Alloc Prog Dist Build Policy Index Builder Shared Spec ForestSpec BuildSpec
  Lib LayoutProof FltProof MemProof StoreProof ActsProof PolicyProof BuildProof ForestProof Concrete NegProof PropSearch PropForest.
Open Scope N_scope.

(** ** C63 *)
(** [new_index_on] with an unused allocator is [new_index]. *)
Lemma new_index_on_fresh fo c r hint : new_index_on fo c [] None r hint = new_index fo c r hint.
Proof. unfold new_index_on, new_index. destruct (0 <? hint); reflexivity. Qed.

(** Two indexes from one builder are not independent.  First run: six items in the
    first, then one in the second; item 0 of the first now reads as the second's.
    Second run: one item in the second, the first is closed, one more item in the
    second; its earlier item is gone. *)
Definition sh_add (i : N) (v : list Z) (ix : idx) : res idx := add_item fops32 (cA 2) ix i (fv v).
Definition sh_start : idx * idx := two_indexes fops32 (cA 2) (Some (kiss_new 0)) (Some (kiss_new 0)) 0.
Definition sh_run1 : res (idx * idx) :=
  let* p1 := on_first (sh_add 0 [1; 2]%Z) sh_start in
  let* p2 := on_first (sh_add 5 [5; 6]%Z) p1 in
  on_second (sh_add 0 [3; 4]%Z) p2.
Definition sh_run2 : res (idx * idx) :=
  let* p1 := on_second (sh_add 0 [3; 4]%Z) sh_start in
  let* p2 := on_first close p1 in
  on_second (sh_add 9 [5; 6]%Z) p2.
Theorem C63_one_builder_two_indexes_interfere :
  CfgOK fops32 (cA 2) /\
  match sh_run1 with
  | Ok (a, _) => rbits (get_item fops32 (cA 2) no_files a 0) = Ok (bits (fv [3; 4]%Z))
  | Er _ => False end /\
  match sh_run2 with
  | Ok (_, b) => n_items b = 10 /\ rbits (get_item fops32 (cA 2) no_files b 0) = Ok (bits (fv [0; 0]%Z)) /\
      rbits (get_item fops32 (cA 2) no_files b 9) = Ok (bits (fv [5; 6]%Z))
  | Er _ => False end.
Proof. split; [now apply cA_ok|]. split; vm_compute; repeat split. Qed.

(** What is safe: the first index has been closed, or has been loaded from a file,
    before the second is used for the first time.  Then the second keeps its items,
    whatever was added to the first before, and the first keeps showing what it showed. *)
Definition unused (ix : idx) : Prop :=
  exists h p r, ix = mkIdx (set_heap h p None (no_bst r)) 0 0 false false None.
Lemma unused_inv fo c a b : CfgOK fo c -> al (ib a) = None -> unused b -> items_inv fo c (share a b) (fun _ => None).
Proof.
  intros OK Ha (h & p & r & ->). pose proof (pow_iw_pos _ _ OK) as Hp. unfold share. cbn [ib set_ib set_heap no_bst].
  constructor; cbn [n_items ib iloaded imemory ns set_ib]; try discriminate; auto; try lia.
  - constructor; cbn [ns heap al base]; auto; rewrite Ha; cbn; auto; lia.
  - intro i. unfold snode_img, smem, cur_mem. cbn [heap al]. rewrite Ha. apply node_at_mempty.
Qed.
Lemma two_unused fo c r1 r2 hint : unused (snd (two_indexes fo c r1 r2 hint)).
Proof.
  unfold two_indexes. cbn [snd]. unfold new_index_on at 1. destruct (if 0 <? hint then _ else _) as [h p].
  exists h, p, r2. reflexivity.
Qed.
Lemma share_unused a b : unused b -> unused (share a b).
Proof. intros (h & p & r & ->). exists (heap (ib a)), (al (ib a)), r. reflexivity. Qed.
Theorem C63_second_index_after_first_is_closed :
  forall fo c, CfgOK fo c -> forall r1 r2 hint h1 h2 a1 b1,
  hist_ok fo c h2 ->
  on_first (fun ix => add_all fo c ix h1) (two_indexes fo c r1 r2 hint) = Ok (a1, b1) ->
  (forall a2 b2, on_first close (a1, b1) = Ok (a2, b2) ->
     exists a3 b3, on_second (fun ix => add_all fo c ix h2) (a2, b2) = Ok (a3, b3) /\
       n_items a3 = 0 /\ n_items b3 = extent h2 /\
       forall fs i v, last_added h2 i = Some v -> get_item fo c fs b3 i = Ok v) /\
  (forall k fs f a2 e b2, load fo c k fs a1 f = Ok (a2, e) -> b2 = share a2 b1 ->
     exists a3 b3, on_second (fun ix => add_all fo c ix h2) (a2, b2) = Ok (a3, b3) /\
       n_items a3 = n_items a2 /\ (forall fs', view fs' a3 = view fs' a2) /\ n_items b3 = extent h2 /\
       forall fs i v, last_added h2 i = Some v -> get_item fo c fs b3 i = Ok v).
Proof.
  intros fo c OK r1 r2 hint h1 h2 a1 b1 Hh E1.
  assert (U1 : unused b1).
  { unfold on_first in E1. apply rbind_ok in E1. destruct E1 as (a & _ & E1). injection E1 as <- <-. apply share_unused, two_unused. }
  assert (G : forall a2, al (ib a2) = None -> exists b3, add_all fo c (share a2 b1) h2 = Ok b3 /\ n_items b3 = extent h2 /\
     forall fs i v, last_added h2 i = Some v -> get_item fo c fs b3 i = Ok v).
  { intros a2 Ha. destruct (add_all_inv fo c OK h2 _ _ (unused_inv fo c a2 b1 OK Ha U1) Hh) as (b3 & E & I & Hn & _).
    assert (H0 : n_items (share a2 b1) = 0) by (destruct U1 as (h & p & r & ->); reflexivity).
    exists b3. split; [exact E|]. rewrite H0, N.max_0_l in Hn. split; [exact Hn|]. intros fs i v Hl.
    rewrite (get_item_spec fo c OK _ _ fs i I); [now rewrite Hl|]. rewrite Hn. eapply last_added_extent; eauto. }
  assert (C : forall x x', close x = Ok x' -> al (ib x') = None /\ base (ib x') = None /\ n_items x' = 0).
  { intros x x' E. unfold close in E. destruct (rnd (ib x)); [|discriminate]. injection E as <-. auto. }
  split.
  - intros a2 b2 E2. unfold on_first in E2. cbn [fst snd] in E2. apply rbind_ok in E2. destruct E2 as (a & E2 & E). injection E as <- <-.
    destruct (C _ _ E2) as (A1 & _ & A3). destruct (G a A1) as (b3 & E3 & Hn & Hg).
    exists (share b3 a), b3. unfold on_second. cbn [fst snd]. rewrite E3. cbn [rbind]. auto.
  - intros k fs f a2 e b2 E2 ->.
    assert (A : al (ib a2) = None /\ base (ib a2) = None).
    { unfold load in E2. apply rbind_ok in E2. destruct E2 as (ix0 & Ec & E2). destruct (C _ _ Ec) as (A1 & A2 & _).
      apply rbind_ok in E2. destruct E2 as ([im|er] & _ & E2); [|injection E2 as <- <-; auto].
      destruct (negb _).
      - apply rbind_ok in E2. destruct E2 as (ix1 & Ec1 & E2). injection E2 as <- <-. destruct (C _ _ Ec1) as (B1 & B2 & _). auto.
      - cbn zeta in E2. apply rbind_ok in E2. destruct E2 as ([roots m] & _ & E2). apply rbind_ok in E2. destruct E2 as (roots' & _ & E2).
        apply rbind_ok in E2. destruct E2 as (bm & _ & E2). injection E2 as <- <-. auto. }
    destruct A as [A1 A2]. destruct (G a2 A1) as (b3 & E3 & Hn & Hg).
    exists (share b3 a2), b3. unfold on_second. cbn [fst snd]. rewrite E3. cbn [rbind]. split; [reflexivity|]. split; [reflexivity|].
    split; [|auto]. intro fs'. unfold view, share. cbn [set_ib ib base imemory]. now rewrite A2.
Qed.
(** Both conditions can be met. *)
Example C63_example :
  match on_first (fun ix => add_all fops32 (cA 2) ix [(0, fv [1; 2]%Z); (5, fv [5; 6]%Z)]) sh_start with
  | Ok p => match on_first close p with
            | Ok q => match on_second (fun ix => add_all fops32 (cA 2) ix [(0, fv [3; 4]%Z)]) q with
                      | Ok (_, b) => rbits (get_item fops32 (cA 2) no_files b 0) = Ok (bits (fv [3; 4]%Z))
                      | Er _ => False end
            | Er _ => False end
  | Er _ => False end.
Proof. vm_compute. reflexivity. Qed.

(** ** C64 *)
(** Whatever math/rand does: the seed given to NewGoRandomWithSeed has no influence on
    what is drawn; SetSeed decides all later draws but is not what GetSeed reports, and a
    clone neither repeats the draws of its original nor follows its seed: it draws what a
    generator made at that moment with any seed would draw. *)
Theorem C64_gorandom_ignores_its_seed :
  forall G (seeded : Z -> G) (intn : N -> G -> N * G) clock s1 s2 n,
  gr_draws G intn n (gr_new G seeded clock s1) = gr_draws G intn n (gr_new G seeded clock s2) /\
  gr_get_seed G (gr_new G seeded clock s1) = s1.
Proof.
  intros G seeded intn clock s1 s2 n. split; [|reflexivity]. unfold gr_new. generalize (seeded clock).
  induction n as [|n IH]; intro g; cbn [gr_draws]; [reflexivity|]. unfold gr_next at 1 2. cbn [gr_rng gr_seed].
  destruct (intn _ g) as [x g']. f_equal. apply IH.
Qed.
Lemma draws_rng G intn n : forall g g' : gorand G, gr_rng G g = gr_rng G g' -> gr_draws G intn n g = gr_draws G intn n g'.
Proof.
  induction n as [|n IH]; intros g g' H; cbn [gr_draws]; [reflexivity|]. unfold gr_next. rewrite H.
  destruct (intn _ (gr_rng G g')) as [x r]. f_equal. now apply IH.
Qed.
Theorem C64_gorandom_set_seed_and_clone :
  forall G (seeded : Z -> G) (intn : N -> G -> N * G) (g g' : gorand G) s clock n,
  gr_draws G intn n (gr_set_seed G seeded s g) = gr_draws G intn n (gr_set_seed G seeded s g') /\
  gr_get_seed G (gr_set_seed G seeded s g) = gr_get_seed G g /\
  gr_draws G intn n (gr_clone G seeded clock g) = gr_draws G intn n (gr_new G seeded clock s) /\
  gr_get_seed G (gr_clone G seeded clock g) = gr_get_seed G g.
Proof.
  intros. split; [now apply draws_rng|]. split; [reflexivity|]. split; [now apply draws_rng|reflexivity].
Qed.
(** With a generator that counts up from its seed: two generators made with seed 7 at
    different times draw differently, and so does a clone. *)
Example C64_example :
  let draws := gr_draws Z (fun _ g => (Z.to_N g, g + 1)%Z) 3 in
  let new := gr_new Z (fun s => s) in
  draws (new 1000%Z 7) = [1000; 1001; 1002] /\ draws (new 2000%Z 7) = [2000; 2001; 2002] /\
  draws (gr_clone Z (fun s => s) 3000 (gr_set_seed Z (fun s => s) 9 (new 1000%Z 7))) = [3000; 3001; 3002] /\
  draws (gr_set_seed Z (fun s => s) 9 (new 1000%Z 7)) = [9; 10; 11] /\
  gr_get_seed Z (gr_set_seed Z (fun s => s) 9 (new 1000%Z 7)) = 7.
Proof. vm_compute. repeat split. Qed.

(** ** C65 *)
Lemma map_const_repeat {A B} (x : B) n (l : list A) : length l = n -> map (fun _ => x) l = repeat x n.
Proof. intros <-. induction l; cbn; congruence. Qed.
(** A tree count of -1 means automatic, counts from 0 are taken as given.  Other
    negative counts are not rejected.  With the single-worker policy they do what
    0 does: the index counts as built and has no tree. *)
Theorem C65_single_negative_count_is_zero :
  forall fo c, CfgOK fo c ->
  forall T, (T <= 0)%Z -> T <> (-1)%Z ->
  forall fuel mfuel rfuel ix,
  build_single fo c fuel mfuel rfuel ix T = build_single fo c fuel mfuel rfuel ix 0 /\
  forall h ix', build_call fo c h ix 0 1 fuel mfuel -> build_single fo c fuel mfuel rfuel ix T = Ok ix' ->
  rootsN (ib ix') = [] /\ ibuilt ix' = true /\ n_items ix' = n_items ix.
Proof.
  intros fo c OK T H0 H1 fuel mfuel rfuel ix.
  assert (E : build_single fo c fuel mfuel rfuel ix T = build_single fo c fuel mfuel rfuel ix 0).
  { unfold build_single, thread_build. destruct fuel as [|fu]; [reflexivity|]. cbn [tree_loop].
    replace (T =? -1)%Z with false by lia. cbn [length]. replace (T <=? Z.of_nat 0)%Z with true by lia. reflexivity. }
  split; [exact E|]. intros h ix' B R. rewrite E in R.
  destruct (C10_exact_number_of_trees fo c OK h ix 0 1 fuel mfuel rfuel ix' B ltac:(lia) (or_introl (conj eq_refl R))) as [Hl _].
  split; [destruct (rootsN (ib ix')) as [|x l]; [reflexivity|rewrite lenN_cons in Hl; lia]|].
  unfold build_single in R. apply rbind_ok in R. destruct R as (s0 & _ & R). destruct (rnd s0); [|discriminate].
  apply rbind_ok in R. destruct R as ([u s1] & _ & R). unfold build_post in R.
  apply rbind_ok in R. destruct R as ([v s2] & _ & R). apply rbind_ok in R. destruct R as (bm & _ & R).
  injection R as <-. auto.
Qed.
(** With the multi-worker policy the share of a worker can come out as -1, which means
    automatic.  With [nw] workers, the count [-nw] is the same as -1, and every count
    from [-nw] to -2 puts the first [-T] workers in automatic mode and gives the others
    nothing to do. *)
Theorem C65_multi_negative_count_is_automatic :
  forall nw ncpu T, (2 <= nw <= 2 ^ 52)%Z -> (- nw <= T <= -2)%Z ->
  work_plan T nw ncpu = Ok (repeat (-1)%Z (Z.to_nat (- T)) ++ repeat 0%Z (Z.to_nat (nw + T))) /\
  work_plan (-1) nw ncpu = Ok (repeat (-1)%Z (Z.to_nat nw)) /\
  forall fo c fuel mfuel rfuel ix ix',
  build_multi fo c fuel mfuel rfuel ix (- nw) nw ncpu ix' <-> build_multi fo c fuel mfuel rfuel ix (-1) nw ncpu ix'.
Proof.
  intros nw ncpu T Hnw HT.
  assert (W : worker_count nw ncpu = Ok (Z.to_nat nw)).
  { unfold worker_count. replace (nw =? -1)%Z with false by lia. now replace (nw <? 0)%Z with false by lia. }
  assert (P : forall t, (- nw <= t <= -2)%Z ->
    work_plan t nw ncpu = Ok (repeat (-1)%Z (Z.to_nat (- t)) ++ repeat 0%Z (Z.to_nat (nw + t)))).
  { intros t Ht. unfold work_plan. rewrite W. cbn [rbind]. f_equal.
    replace (Z.to_nat nw) with (Z.to_nat (- t) + Z.to_nat (nw + t))%nat by lia. rewrite seq_app, map_app.
    rewrite Nat.add_0_l. f_equal.
    - rewrite <- map_const_repeat with (l := seq 0 (Z.to_nat (- t))) by apply seq_length. apply map_ext_in.
      intros w Hw. apply in_seq in Hw. rewrite negative_share by lia. now replace (t + Z.of_nat w <? 0)%Z with true by lia.
    - rewrite <- map_const_repeat with (l := seq (Z.to_nat (- t)) (Z.to_nat (nw + t))) by apply seq_length. apply map_ext_in.
      intros w Hw. apply in_seq in Hw. rewrite negative_share by lia. now replace (t + Z.of_nat w <? 0)%Z with false by lia. }
  assert (A : work_plan (-1) nw ncpu = Ok (repeat (-1)%Z (Z.to_nat nw))).
  { unfold work_plan. rewrite W. cbn [rbind]. f_equal.
    rewrite <- map_const_repeat with (l := seq 0 (Z.to_nat nw)) by apply seq_length. reflexivity. }
  split; [now apply P|]. split; [exact A|]. intros.
  assert (Q : work_plan (- nw) nw ncpu = work_plan (-1) nw ncpu).
  { rewrite A, (P (- nw)%Z) by lia. rewrite Z.opp_involutive, Z.add_opp_diag_r. now rewrite app_nil_r. }
  unfold build_multi. now rewrite Q.
Qed.
Example C65_example :
  work_plan (-2) 2 8 = Ok [-1; -1]%Z /\ work_plan (-2) 4 8 = Ok [-1; -1; 0; 0]%Z /\
  match build_single fops32 (cA 1) 10 10 100 auto_ix (-7) with
  | Ok ix => n_items ix = 5 /\ rootsN (ib ix) = [] | Er _ => False end.
Proof. vm_compute. repeat split. Qed.

Print Assumptions C63_one_builder_two_indexes_interfere.
Print Assumptions C63_second_index_after_first_is_closed.
Print Assumptions C64_gorandom_ignores_its_seed.
Print Assumptions C64_gorandom_set_seed_and_clone.
Print Assumptions C65_single_negative_count_is_zero.
Print Assumptions C65_multi_negative_count_is_automatic.
