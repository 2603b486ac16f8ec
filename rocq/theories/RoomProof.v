(** How much room a query needs in its context, and how much the contexts an index
    creates have. *)
From Verif Require Import Base Flt Layout Alloc Prog Sorts Dist Build Index Search Spec ForestSpec OrderSpec
  Lib LayoutProof FltProof SortsProof NumProof SearchProof QueryProof TreeProof AfterProof AccProof OrderProof WholeProof.
From Coq Require Import Permutation.
Open Scope N_scope.

Section R.
Variable fo : FOps.
Variable c : Cfg.
Notation NSZ := (nodeSize fo c).
Notation K := (maxK fo c).
Notation less := (pair_less (flt fo) (feq fo)).
Notation num := (not_nan fo).

(** ** The search needs no more room than it uses *)
Lemma put_at_front n a b xs a' :
  put_at a n xs = Ok a' -> n + lenN xs <= lenN a -> n + lenN xs <= lenN b ->
  firstn (N.to_nat n) a = firstn (N.to_nat n) b ->
  exists b', put_at b n xs = Ok b' /\ length b' = length b /\
    firstn (N.to_nat (n + lenN xs)) a' = firstn (N.to_nat (n + lenN xs)) b'.
Proof.
  intros E Ha Hb Hf. destruct (put_at_ok b n xs) as (b' & Eb); [lia|]. exists b'. split; [exact Eb|].
  split; [eapply put_at_length; eauto|].
  rewrite (put_at_spec _ _ _ _ E Ha), (put_at_spec _ _ _ _ Eb Hb), !splice_firstn by assumption. now rewrite Hf.
Qed.
Lemma loop_room fuel : forall v ni vec limit q cnt a b cnt' a',
  search_loop fo c fuel v ni vec limit q cnt a = Ok (cnt', a') ->
  cnt' <= lenN a -> lenN a < 2 ^ iw c -> cnt' <= lenN b -> lenN b < 2 ^ iw c ->
  firstn (N.to_nat cnt) a = firstn (N.to_nat cnt) b ->
  exists b', search_loop fo c fuel v ni vec limit q cnt b = Ok (cnt', b') /\
    firstn (N.to_nat cnt') a' = firstn (N.to_nat cnt') b'.
Proof.
  induction fuel as [|fu IH]; intros v ni vec limit q cnt a b cnt' a' E Ha Wa Hb Wb Hf.
  - cbn [search_loop] in *. destruct (_ && _); [discriminate|]. injection E as <- <-. eauto.
  - rewrite search_loop_S in *. destruct (_ && _); [|injection E as <- <-; eauto].
    destruct (pq_top q) as [[d i]|]; [|discriminate].
    destruct (pq_pop less q) as [[x q']|]; cbn [rbind] in *; [|discriminate].
    destruct (vread v (addr fo c i) NSZ) as [bs|]; cbn [rbind] in *; [|discriminate]. cbn zeta in *.
    destruct ((n_desc c bs =? 1) && (i <? ni)).
    + destruct (N.leb_spec (lenN a) cnt) as [|Hlt]; [discriminate|]. apply rbind_ok in E. destruct E as (a1 & E1 & E).
      pose proof (loop_mono _ _ _ _ _ _ _ _ _ _ _ _ E) as [Hm _]. pose proof (put_at_length _ _ _ _ E1) as Hl.
      assert (La : lenN a1 = lenN a) by (unfold lenN; lia).
      destruct (put_at_front _ _ b _ _ E1) as (b1 & Eb & Hlb & Hfb); rewrite ?lenN_cons, ?lenN_nil; try lia; [exact Hf|].
      assert (Lb : lenN b1 = lenN b) by (unfold lenN; lia).
      replace (lenN b <=? cnt) with false by lia. rewrite Eb. cbn [rbind].
      apply (IH _ _ _ _ _ _ _ _ _ _ E); lia || exact Hfb.
    + destruct (n_desc c bs <=? K).
      * apply rbind_ok in E. destruct E as (a1 & E1 & E).
        pose proof (loop_mono _ _ _ _ _ _ _ _ _ _ _ _ E) as [Hm _]. pose proof (put_at_length _ _ _ _ E1) as Hl.
        assert (La : lenN a1 = lenN a) by (unfold lenN; lia).
        rewrite tix_small in * by lia.
        assert (Hn : lenN (n_children c (n_desc c bs) bs) = n_desc c bs) by (unfold lenN; rewrite length_n_children; lia).
        destruct (put_at_front _ _ b _ _ E1) as (b1 & Eb & Hlb & Hfb); rewrite ?Hn; try lia; [exact Hf|].
        assert (Lb : lenN b1 = lenN b) by (unfold lenN; lia).
        rewrite Eb. cbn [rbind]. rewrite Hn in Hfb.
        apply (IH _ _ _ _ _ _ _ _ _ _ E); lia || exact Hfb.
      * destruct (margin fo c (snode_of fo c bs) vec) as [m|]; cbn [rbind] in *; [|discriminate].
        eapply IH; eauto.
Qed.
Lemma score_length v qn : forall l last sc, score fo c v qn last l = Ok sc -> (length sc <= length l)%nat.
Proof.
  induction l as [|j l IH]; intros last sc E; cbn [score] in E; [injection E as <-; cbn; lia|].
  destruct (match last with Some x => j =? x | None => false end).
  - apply IH in E. cbn [length]. lia.
  - apply rbind_ok in E. destruct E as (bs & _ & E). apply rbind_ok in E. destruct E as (rest & E & Eq).
    apply IH in E. destruct (n_desc c bs =? 1); injection Eq as <-; cbn [length]; lia.
Qed.

Variable sortIx : list N -> list N.
Variable sortPairs : list (F fo * N) -> list (F fo * N).
Hypothesis HsI : sort_slice N.ltb sortIx.
Hypothesis HsP : sort_slice less sortPairs.
Notation query := (get_nns_by_vector fo c sortIx sortPairs).

(** A query notes some number of entries; that much room is enough for the same answer. *)
Lemma query_room fuel fs ix vec n inspect b1 ids ds b1' :
  query fuel fs ix vec n inspect b1 = Ok (ids, ds, b1') -> lenN (c_nns b1) < 2 ^ iw c ->
  exists cnt, cnt <= lenN (c_nns b1) /\
    (is_float fo -> all_sides fo c num (view fs ix) (rootsN (ib ix)) vec ->
       exists ys, lenN ys = cnt /\ visits fo c (view fs ix) (n_items ix) vec (the_limit ix n inspect) (at_start fo (rootsN (ib ix))) ys) /\
    forall b2, cnt <= lenN (c_nns b2) -> lenN (c_nns b2) < 2 ^ iw c -> cnt <= lenN (c_dist b2) ->
      exists b2', query fuel fs ix vec n inspect b2 = Ok (ids, ds, b2').
Proof.
  intros E Hw. unfold get_nns_by_vector in E. cbn zeta in E.
  apply rbind_ok in E. destruct E as ([cnt nns] & El & E).
  destruct (N.ltb_spec (lenN nns) cnt) as [|Hcnt]; [discriminate|].
  apply rbind_ok in E. destruct E as (qn & Eq & E). apply rbind_ok in E. destruct E as (sc & Es & E).
  destruct (N.ltb_spec (lenN (c_dist b1)) (lenN sc)) as [|Hdist]; [discriminate|].
  apply rbind_ok in E. destruct E as (srt & Ep & E). injection E as Ei Ed _.
  pose proof (loop_mono _ _ _ _ _ _ _ _ _ _ _ _ El) as [_ Hlen].
  assert (Hll : lenN nns = lenN (c_nns b1)) by (unfold lenN; lia).
  exists cnt. split; [lia|]. split.
  - intros FL AS.
    assert (Hvec : lenN vec <= vlen c).
    { unfold query_node in Eq. destruct (N.ltb_spec (vlen c) (lenN vec)); [discriminate|assumption]. }
    pose proof (pair_less_sw _ _ _ (float_total fo FL)) as SW.
    set (B := fun i => exists r d, In r (rootsN (ib ix)) /\ descends fo c (view fs ix) r d i).
    destruct (pushes_heap fo FL (rootsN (ib ix)) SW pq_new) as [Hh Hp].
    { split; [constructor|]. intros k Hk. cbn in Hk. lia. }
    unfold pq_new in Hp. rewrite app_nil_r in Hp.
    destruct (search_loop_visits fo c FL (view fs ix) (n_items ix) vec B (below_closed fo c _ _)) with
      (fuel := fuel) (limit := the_limit ix n inspect) (q := fold_left (fun q r => pq_push less q (pq_initial fo, r)) (rootsN (ib ix)) pq_new)
      (cnt := 0) (nns := c_nns b1) (cnt' := cnt) (nns' := nns) as (ys & Hv & Hc & Hf); auto; [|lia| |].
    { intros i l r bs (r0 & d & Hr & Hd) Hs Hb. eapply AS; eauto. }
    { eapply Permutation_Forall; [symmetry; exact Hp|]. apply Forall_forall. intros p Hp'. unfold at_start in Hp'. apply in_map_iff in Hp'.
      destruct Hp' as (r & <- & Hr). cbn [snd]. exists r, 0%nat. split; [exact Hr|apply de_here]. }
    exists ys. split; [lia|]. change (Z.of_N 0) with 0%Z in Hv. rewrite Z.sub_0_r in Hv. eapply visits_perm; [exact Hv|exact Hp].
  - intros b2 H1 H2 H3. unfold get_nns_by_vector. cbn zeta.
    destruct (loop_room _ _ _ _ _ _ _ _ (c_nns b2) _ _ El ltac:(lia) Hw H1 H2 eq_refl) as (nns2 & El2 & Hf2).
    rewrite El2. cbn [rbind].
    pose proof (loop_mono _ _ _ _ _ _ _ _ _ _ _ _ El2) as [_ Hlen2].
    assert (Hll2 : lenN nns2 = lenN (c_nns b2)) by (unfold lenN; lia).
    replace (lenN nns2 <? cnt) with false by lia. rewrite Eq. cbn [rbind]. rewrite <- Hf2, Es. cbn [rbind].
    apply score_length in Es. rewrite (Permutation_length (proj1 HsI _)), firstn_length in Es.
    replace (lenN (c_dist b2) <? lenN sc) with false by (unfold lenN in *; lia).
    rewrite Ep. cbn [rbind]. eexists. f_equal. f_equal. f_equal; assumption.
Qed.
(** So a query that returns with one context returns the same with a larger one .. *)
Lemma query_more_room fuel fs ix vec n inspect b1 b2 ids ds b1' :
  query fuel fs ix vec n inspect b1 = Ok (ids, ds, b1') -> lenN (c_nns b1) < 2 ^ iw c ->
  lenN (c_nns b1) <= lenN (c_nns b2) -> lenN (c_nns b1) <= lenN (c_dist b2) -> lenN (c_nns b2) < 2 ^ iw c ->
  exists b2', query fuel fs ix vec n inspect b2 = Ok (ids, ds, b2').
Proof. intros E Hw H1 H2 H3. destruct (query_room _ _ _ _ _ _ _ _ _ _ E Hw) as (cnt & Hc & _ & H). apply H; lia. Qed.
(** .. and the same with any other context with which it returns. *)
Lemma query_any_room fuel fs ix vec n inspect b1 b2 ids1 ds1 b1' ids2 ds2 b2' :
  query fuel fs ix vec n inspect b1 = Ok (ids1, ds1, b1') -> lenN (c_nns b1) < 2 ^ iw c ->
  query fuel fs ix vec n inspect b2 = Ok (ids2, ds2, b2') -> lenN (c_nns b2) < 2 ^ iw c ->
  ids1 = ids2 /\ ds1 = ds2.
Proof.
  intros E1 W1 E2 W2.
  set (b := mkCtx (repeat 0 (Nat.max (length (c_nns b1)) (length (c_nns b2)))) (repeat (f0 fo, 0) (Nat.max (length (c_nns b1)) (length (c_nns b2))))).
  assert (H : lenN (c_nns b1) <= lenN (c_nns b) /\ lenN (c_nns b2) <= lenN (c_nns b) /\ lenN (c_nns b1) <= lenN (c_dist b) /\ lenN (c_nns b2) <= lenN (c_dist b) /\ lenN (c_nns b) < 2 ^ iw c).
  { unfold b, lenN in *. cbn [c_nns c_dist]. rewrite !repeat_length. lia. }
  destruct H as (H1 & H2 & H3 & H4 & H5).
  destruct (query_more_room _ _ _ _ _ _ _ b _ _ _ E1 W1 H1 H3 H5) as (x & X).
  destruct (query_more_room _ _ _ _ _ _ _ b _ _ _ E2 W2 H2 H4 H5) as (y & Y).
  rewrite X in Y. injection Y as -> -> _. auto.
Qed.
End R.
