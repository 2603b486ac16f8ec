(** Queries. *)
From Verif Require Import Base Flt Layout Rng Alloc Prog Sorts Dist Build Policy Index Search Spec ForestSpec Lib LayoutProof SortsProof.
From Coq Require Import Permutation Sorted.
Open Scope N_scope.

(** ** The queue, whatever the comparison *)
Section PQ.
Context {A : Type}.
Variable less : A -> A -> bool.
Lemma pq_push_perm q x : Permutation (pq_push less q x) (x :: q).
Proof. unfold pq_push. rewrite heap_up_perm. apply Permutation_sym, Permutation_cons_append. Qed.
Lemma pq_pop_any q : q <> [] ->
  exists x q', pq_pop less q = Ok (x, q') /\ pq_top q = Some x /\ Permutation q (x :: q').
Proof.
  intro H. destruct q as [|x0 q0] eqn:Eq; [congruence|]. rewrite <- Eq in *.
  assert (Hlen : (0 < length q)%nat) by (rewrite Eq; cbn; lia).
  set (n := (length q - 1)%nat). set (q1 := heap_down less (length q) (swap q 0 n) 0 n).
  assert (Hl1 : length q1 = length q).
  { unfold q1. rewrite (Permutation_length (heap_down_perm less _ _ _ _)). apply length_swap. }
  assert (Hn : nth_error q1 n = Some x0).
  { unfold q1. destruct (heap_down_frame less (length q) (swap q 0 n) 0 n) as [Hf _]; [rewrite length_swap; lia|].
    rewrite Hf by lia. rewrite nth_error_swap by lia. unfold tr.
    destruct (Nat.eqb_spec n 0) as [E|E]; [|rewrite Nat.eqb_refl]; [rewrite E|]; now rewrite Eq. }
  exists x0, (firstn n q1). split.
  - unfold pq_pop. rewrite Eq. rewrite <- Eq. fold n. fold q1. now rewrite Hn.
  - split; [now rewrite Eq|].
    assert (Hq1 : q1 = firstn n q1 ++ [x0]).
    { rewrite <- (firstn_skipn n q1) at 1. f_equal. apply nth_error_ext. intro k. rewrite nth_error_skipn.
      destruct k as [|k]; [rewrite Nat.add_0_r; exact Hn|]. cbn [nth_error].
      transitivity (@None A); [apply nth_error_None; lia|destruct k; reflexivity]. }
    transitivity q1.
    + unfold q1. symmetry. rewrite heap_down_perm. apply Permutation_swap.
    + rewrite Hq1 at 1. symmetry. apply Permutation_cons_append.
Qed.
Lemma select_loop_perm k : forall s p e, Permutation (select_loop less s p k e) s.
Proof.
  induction k as [|k IH]; intros s p e; cbn [select_loop]; [reflexivity|]. cbn zeta. rewrite IH.
  destruct (Nat.eqb _ _); [reflexivity|apply Permutation_swap].
Qed.
Lemma sink_perm j : forall s b, Permutation (sink less s b j) s.
Proof.
  induction j as [|j IH]; intros s b; cbn [sink]; [reflexivity|]. destruct (_ && _); [|reflexivity].
  rewrite IH. apply Permutation_swap.
Qed.
Lemma insertion_loop_perm k : forall s b i, Permutation (insertion_loop less s b i k) s.
Proof. induction k as [|k IH]; intros s b i; cbn [insertion_loop]; [reflexivity|]. rewrite IH. apply sink_perm. Qed.
End PQ.

Section Q.
Variable fo : FOps.
Variable c : Cfg.
Notation NSZ := (nodeSize fo c).
Notation K := (maxK fo c).
Notation less := (pair_less (flt fo) (feq fo)).
Notation lists_items := (ForestSpec.lists_items fo c).
Notation splits := (ForestSpec.splits fo c).
Notation reach := (ForestSpec.reach fo c).
Notation expands := (ForestSpec.expands fo c).
Notation reach_all := (ForestSpec.reach_all fo c).
Notation item_dist := (ForestSpec.item_dist fo c).
Notation scored := (ForestSpec.scored fo c).
Notation answer := (ForestSpec.answer fo).

Lemma length_n_children n bs : length (n_children c n bs) = N.to_nat n.
Proof. unfold n_children, dec_ixs. apply length_words. Qed.
Lemma two_children bs : exists l r, n_children c 2 bs = [l; r].
Proof.
  pose proof (length_n_children 2 bs) as H. destruct (n_children c 2 bs) as [|l [|r [|]]]; cbn in H; try lia. eauto.
Qed.

Lemma put_at_spec nns a xs nns' : put_at nns a xs = Ok nns' -> a + lenN xs <= lenN nns ->
  nns' = firstn (N.to_nat a) nns ++ xs ++ skipn (N.to_nat (a + lenN xs)) nns.
Proof.
  unfold put_at. destruct (N.ltb_spec (lenN nns) a); [discriminate|]. intros [= <-] H'. unfold lenN in *.
  rewrite (firstn_all2 xs) by lia. do 3 f_equal. lia.
Qed.
Lemma put_at_length nns a xs nns' : put_at nns a xs = Ok nns' -> length nns' = length nns.
Proof.
  unfold put_at. destruct (N.ltb_spec (lenN nns) a) as [|H]; [discriminate|]. intros [= <-]. unfold lenN in *.
  rewrite !app_length, firstn_length_le by lia. rewrite skipn_length, firstn_length. lia.
Qed.

(** One round of the search loop. *)
Lemma search_loop_S fu v ni vec limit q cnt nns :
  search_loop fo c (S fu) v ni vec limit q cnt nns =
  if (Z.of_N cnt <? limit)%Z && negb (pq_empty q) then
        match pq_top q with
        | None => Er (Panic PNil)
        | Some (d, i) =>
            let* (_, q') := pq_pop less q in
            let* bs := vread v (addr fo c i) NSZ in
            let n := n_desc c bs in
            if (n =? 1) && (i <? ni) then
              (if lenN nns <=? cnt then Er (Panic PIndex)
               else let* nns' := put_at nns cnt [i] in
                    search_loop fo c fu v ni vec limit q' (cnt + 1) nns')
            else if n <=? K then
              let* nns' := put_at nns (tix c cnt) (n_children c n bs) in
              search_loop fo c fu v ni vec limit q' (cnt + n) nns'
            else
              let* m := margin fo c (snode_of fo c bs) vec in
              let ch := n_children c 2 bs in
              let q1 := pq_push less q' (pq_distance fo d m true, nth 1 ch 0) in
              let q2 := pq_push less q1 (pq_distance fo d m false, nth 0 ch 0) in
              search_loop fo c fu v ni vec limit q2 cnt nns
        end
  else Ok (cnt, nns).
Proof. reflexivity. Qed.

Lemma loop_mono fuel : forall v ni vec limit q cnt nns cnt' nns',
  search_loop fo c fuel v ni vec limit q cnt nns = Ok (cnt', nns') -> cnt <= cnt' /\ length nns' = length nns.
Proof.
  induction fuel as [|fu IH]; intros v ni vec limit q cnt nns cnt' nns' E.
  - cbn [search_loop] in E. destruct (_ && _); [discriminate|]. injection E as <- <-. lia.
  - rewrite search_loop_S in E. destruct (_ && _); [|injection E as <- <-; lia].
    destruct (pq_top q) as [[d i]|]; [|discriminate].
    apply rbind_ok in E. destruct E as ([x q'] & _ & E). apply rbind_ok in E. destruct E as (bs & _ & E).
    cbn zeta in E. destruct (_ && _).
    + destruct (_ <=? _); [discriminate|]. apply rbind_ok in E. destruct E as (nns1 & E1 & E).
      apply IH in E. apply put_at_length in E1. lia.
    + destruct (_ <=? _).
      * apply rbind_ok in E. destruct E as (nns1 & E1 & E). apply IH in E. apply put_at_length in E1. lia.
      * apply rbind_ok in E. destruct E as (m & _ & E). apply IH in E. exact E.
Qed.

Lemma expands_perm v ni b b0 b' xs : Permutation b b0 -> expands v ni b0 b' xs ->
  exists b'', expands v ni b b'' xs /\ Permutation b'' b'.
Proof.
  intros Hp H. destruct H.
  - exists b. split; [constructor|exact Hp].
  - exists b'. split; [|reflexivity]. eapply ex_leaf; eauto. now rewrite Hp.
  - exists b'. split; [|reflexivity]. eapply ex_split; eauto. now rewrite Hp.
Qed.

Lemma splice_firstn (nns xs : list N) a :
  a + lenN xs <= lenN nns ->
  firstn (N.to_nat (a + lenN xs)) (firstn (N.to_nat a) nns ++ xs ++ skipn (N.to_nat (a + lenN xs)) nns) =
  firstn (N.to_nat a) nns ++ xs.
Proof.
  intro H. unfold lenN in *. rewrite app_assoc. apply firstn_app_exact.
  rewrite app_length, firstn_length_le by lia. lia.
Qed.

Lemma search_loop_expands fuel : forall v ni vec limit q cnt nns cnt' nns',
  search_loop fo c fuel v ni vec limit q cnt nns = Ok (cnt', nns') ->
  cnt' <= lenN nns -> lenN nns < 2 ^ iw c ->
  exists ys rest, expands v ni (map snd q) rest ys /\ cnt' = cnt + lenN ys /\
    firstn (N.to_nat cnt') nns' = firstn (N.to_nat cnt) nns ++ ys /\
    ((limit <= Z.of_N cnt')%Z \/ rest = []).
Proof.
  induction fuel as [|fu IH]; intros v ni vec limit q cnt nns cnt' nns' E Hc Hw.
  - cbn [search_loop] in E. destruct ((Z.of_N cnt <? limit)%Z && negb (pq_empty q)) eqn:Es; [discriminate|].
    injection E as <- <-. exists [], (map snd q). split; [constructor|]. rewrite lenN_nil, app_nil_r.
    split; [lia|]. split; [reflexivity|]. unfold pq_empty in Es. destruct q; [now right|left]. cbn in Es. lia.
  - rewrite search_loop_S in E.
    destruct ((Z.of_N cnt <? limit)%Z && negb (pq_empty q)) eqn:Es.
    2:{ injection E as <- <-. exists [], (map snd q). split; [constructor|]. rewrite lenN_nil, app_nil_r.
        split; [lia|]. split; [reflexivity|]. unfold pq_empty in Es. destruct q; [now right|left]. cbn in Es. lia. }
    destruct (pq_top q) as [[d i]|] eqn:Et; [|discriminate].
    apply rbind_ok in E. destruct E as ([x q'] & Ep & E). apply rbind_ok in E. destruct E as (bs & Er & E).
    cbn zeta in E.
    assert (Hq : Permutation (map snd q) (i :: map snd q')).
    { assert (Hne : q <> []) by (intros ->; discriminate).
      destruct (pq_pop_any less q Hne) as (x1 & q1 & Ep1 & Et1 & Hp).
      rewrite Ep in Ep1. injection Ep1 as <- <-. rewrite Et in Et1. injection Et1 as <-.
      apply (Permutation_map snd) in Hp. exact Hp. }
    destruct ((n_desc c bs =? 1) && (i <? ni)) eqn:Ei.
    + destruct (N.leb_spec (lenN nns) cnt) as [|Hlt]; [discriminate|].
      apply rbind_ok in E. destruct E as (nns1 & E1 & E).
      pose proof (put_at_length _ _ _ _ E1) as Hl1.
      apply put_at_spec in E1; [|rewrite lenN_cons, lenN_nil; lia].
      assert (Hl : lenN nns1 = lenN nns) by (unfold lenN; lia). 
      destruct (IH _ _ _ _ _ _ _ _ _ E) as (ys & rest & Hx & Hcnt & Hf & Hs); [lia|lia|].
      exists ([i] ++ ys), rest. split; [|split; [|split; [|exact Hs]]].
      * eapply ex_leaf; [exact Hq| |exact Hx]. eapply li_item; eauto; lia.
      * rewrite lenN_app, lenN_cons, lenN_nil. lia.
      * rewrite Hf, E1. change (cnt + 1) with (cnt + lenN [i]).
        rewrite (splice_firstn nns [i] cnt) by (change (lenN [i]) with 1; lia). now rewrite app_assoc.
    + destruct (N.leb_spec (n_desc c bs) K) as [Hk|Hk].
      * apply rbind_ok in E. destruct E as (nns1 & E1 & E).
        pose proof (put_at_length _ _ _ _ E1) as Hl1.
        pose proof (loop_mono _ _ _ _ _ _ _ _ _ _ E) as [Hm _].
        rewrite tix_small in E1 by lia.
        assert (Hlc : lenN (n_children c (n_desc c bs) bs) = n_desc c bs).
        { unfold lenN. rewrite length_n_children. lia. }
        apply put_at_spec in E1; [|lia].
        assert (Hl : lenN nns1 = lenN nns) by (unfold lenN; lia).
        destruct (IH _ _ _ _ _ _ _ _ _ E) as (ys & rest & Hx & Hcnt & Hf & Hs); [lia|lia|].
        exists (n_children c (n_desc c bs) bs ++ ys), rest. split; [|split; [|split; [|exact Hs]]].
        -- eapply ex_leaf; [exact Hq| |exact Hx]. eapply li_bucket; eauto. lia.
        -- rewrite lenN_app. lia.
        -- rewrite Hf, E1. rewrite <- Hlc at 1. rewrite (splice_firstn nns) by lia. now rewrite app_assoc.
      * apply rbind_ok in E. destruct E as (m & Em & E).
        destruct (two_children bs) as (l & r & Hch). rewrite Hch in E. cbn [nth] in E.
        destruct (IH _ _ _ _ _ _ _ _ _ E) as (ys & rest & Hx & Hcnt & Hf & Hs); [lia|lia|].
        set (q2 := pq_push less _ _) in *.
        assert (Hq2 : Permutation (l :: r :: map snd q') (map snd q2)).
        { unfold q2. symmetry. rewrite (Permutation_map snd (pq_push_perm less _ _)). cbn [map snd].
          apply perm_skip. rewrite (Permutation_map snd (pq_push_perm less _ _)). reflexivity. }
        destruct (expands_perm _ _ _ _ _ _ Hq2 Hx) as (rest' & Hx' & Hp').
        exists ys, rest'. split; [|split; [exact Hcnt|split; [exact Hf|]]].
        -- eapply ex_split; [exact Hq| |exact Hx']. econstructor; eauto.
        -- destruct Hs as [Hs| ->]; [now left|right]. now apply Permutation_nil, Permutation_sym.
Qed.

Lemma reach_all_perm v ni b b' : Permutation b b' -> forall xs m, reach_all v ni b xs m ->
  exists ys, reach_all v ni b' ys m /\ Permutation xs ys.
Proof.
  induction 1 as [|i b b' Hp IH|i j b|b1 b2 b3 H1 IH1 H2 IH2]; intros xs m H.
  - exists xs. auto.
  - inversion H as [|? ? xs0 ys0 m0 n0 Hi Hb]; subst. destruct (IH _ _ Hb) as (ys & Hy & Hpy).
    exists (xs0 ++ ys). split; [now constructor|]. now rewrite Hpy.
  - inversion H as [|? ? xs0 ys0 m0 n0 Hi Hb]; subst. inversion Hb as [|? ? xs1 ys1 m1 n1 Hi1 Hb1]; subst.
    exists (xs1 ++ xs0 ++ ys1). split.
    + replace (m0 + (m1 + n1))%nat with (m1 + (m0 + n1))%nat by lia. constructor; [exact Hi1|]. now constructor.
    + rewrite !app_assoc. apply Permutation_app_tail, Permutation_app_comm.
  - destruct (IH1 _ _ H) as (ys & Hy & Hp1). destruct (IH2 _ _ Hy) as (zs & Hz & Hp2).
    exists zs. split; [exact Hz|]. now rewrite Hp1.
Qed.

Lemma expands_reach v ni b b' xs : expands v ni b b' xs -> b' = [] ->
  exists ys m, reach_all v ni b ys m /\ Permutation xs ys.
Proof.
  induction 1 as [b|b i b0 b' xs ys Hp Hl Hx IH|b i b0 b' l r ys Hp Hl Hx IH]; intro Hb.
  - subst b. exists [], 0%nat. split; [constructor|reflexivity].
  - destruct (IH Hb) as (zs & m & Hz & Hpz).
    destruct (reach_all_perm v ni _ _ (Permutation_sym Hp) (xs ++ zs) (1 + m)) as (ws & Hw & Hpw).
    { constructor; [now constructor|exact Hz]. }
    exists ws, (1 + m)%nat. split; [exact Hw|]. now rewrite Hpz.
  - destruct (IH Hb) as (zs & m & Hz & Hpz).
    inversion Hz as [|? ? xs0 ys0 m0 n0 Hi Hb0]; subst. inversion Hb0 as [|? ? xs1 ys1 m1 n1 Hi1 Hb1]; subst.
    destruct (reach_all_perm v ni _ _ (Permutation_sym Hp) ((xs0 ++ xs1) ++ ys1) (S (m0 + m1) + n1)) as (ws & Hw & Hpw).
    { constructor; [econstructor; eauto|exact Hb1]. }
    exists ws, (S (m0 + m1) + n1)%nat. split; [exact Hw|]. rewrite Hpz. now rewrite app_assoc.
Qed.

(** ** Scoring *)
Lemma item_dist_fun v qn j d d' : item_dist v qn j d -> item_dist v qn j d' -> d = d'.
Proof. intros (bs & H1 & _ & ->) (bs' & H2 & _ & ->). congruence. Qed.

Lemma score_spec v qn : forall l last sc, score fo c v qn last l = Ok sc ->
  StronglySorted (fun x y => x <= y) l -> (forall x, last = Some x -> Forall (fun y => x <= y) l) ->
  (forall d j, In (d, j) sc <-> In j l /\ last <> Some j /\ item_dist v qn j d) /\
  NoDup (map snd sc) /\
  (forall j, In j l -> last <> Some j -> exists bs, vread v (addr fo c j) NSZ = Ok bs).
Proof.
  induction l as [|j l IH]; intros last sc E Hs Hlast.
  - injection E as <-. cbn. split; [|split; [constructor|tauto]]. intros d j. tauto.
  - cbn [score] in E. inversion Hs as [|? ? Hs' Hall]; subst.
    destruct (match last with Some x => j =? x | None => false end) eqn:El.
    + assert (Hlj : last = Some j) by (destruct last; [f_equal; lia|discriminate]).
      destruct (IH last sc E Hs') as (H1 & H2 & H3).
      { intros x Hx. specialize (Hlast x Hx). now inversion Hlast. }
      split; [|split; [exact H2|]].
      * intros d k. rewrite H1. cbn [In]. split; [intuition|]. intros [[->|H] [Hn Hd]]; [congruence|auto].
      * intros k [->|Hk] Hn; [congruence|auto].
    + apply rbind_ok in E. destruct E as (bs & Er & E). apply rbind_ok in E. destruct E as (rest & E & Eq).
      destruct (IH (Some j) rest E Hs') as (H1 & H2 & H3).
      { intros x [= <-]. exact Hall. }
      assert (Hlj : last <> Some j) by (destruct last; [intros [= ->]; lia|discriminate]).
      assert (Hle : forall k, In k l -> last <> Some k).
      { intros k Hk Hl. specialize (Hlast k Hl). inversion Hlast as [|? ? Hjk _]; subst.
        rewrite Forall_forall in Hall. specialize (Hall k Hk). assert (k = j) by lia. congruence. }
      destruct (N.eqb_spec (n_desc c bs) 1) as [Hd1|Hd1]; injection Eq as <-.
      * split; [|split].
        -- intros d k. cbn [In]. rewrite H1. split.
           ++ intros [[= <- <-]|(Hk & Hn & Hd)]; [|auto]. split; [now left|]. split; [exact Hlj|]. exists bs. auto.
           ++ intros [[->|Hk] [Hn Hd]].
              ** left. f_equal. eapply item_dist_fun; [|exact Hd]. exists bs. auto.
              ** destruct (N.eq_dec j k) as [->|Hjk].
                 --- left. f_equal. eapply item_dist_fun; [|exact Hd]. exists bs. auto.
                 --- right. split; [exact Hk|]. split; [congruence|exact Hd].
        -- cbn [map snd]. constructor; [|exact H2]. intro Hin. apply in_map_iff in Hin. destruct Hin as ([d k] & Hk & Hin).
           cbn in Hk. subst k. apply H1 in Hin. intuition.
        -- intros k [<-|Hk] Hn; [eauto|]. destruct (N.eq_dec j k) as [->|Hjk]; [eauto|]. apply H3; congruence.
      * split; [|split; [exact H2|]].
        -- intros d k. cbn [In]. rewrite H1. split; [intuition|].
           intros [[->|Hk] [Hn Hd]].
           ++ destruct Hd as (bs' & Hr' & Hd' & _). congruence.
           ++ split; [exact Hk|]. split; [|exact Hd]. intros [= ->]. destruct Hd as (bs' & Hr' & Hd' & _). congruence.
        -- intros k [<-|Hk] Hn; [eauto|]. destruct (N.eq_dec j k) as [->|Hjk]; [eauto|]. apply H3; congruence.
Qed.

(** ** The whole query *)
Variable sortIx : list N -> list N.
Variable sortPairs : list (F fo * N) -> list (F fo * N).
Hypothesis HsI : sort_slice N.ltb sortIx.
Hypothesis HsP : sort_slice less sortPairs.

Lemma sortIx_sorted l : StronglySorted (fun x y => x <= y) (sortIx l).
Proof.
  destruct HsI as [_ H]. destruct (H (fun _ => True) nltb_sw l) as [_ Hs]; [now apply Forall_forall|].
  unfold sorted in Hs. induction Hs as [|x l' Hs IH F]; constructor; auto.
  eapply Forall_impl; [|exact F]. intros y Hy. cbn beta in Hy. lia.
Qed.

Lemma pushes_perm roots : forall q,
  Permutation (map snd (fold_left (fun q r => pq_push less q (pq_initial fo, r)) roots q)) (map snd q ++ roots).
Proof.
  induction roots as [|r roots IH]; intro q; cbn [fold_left]; [now rewrite app_nil_r|].
  rewrite IH. rewrite (Permutation_map snd (pq_push_perm less _ _)). cbn [map snd app].
  apply Permutation_middle.
Qed.

Lemma partial_sort_perm sc m sorted : partial_sort less sortPairs sc 0 m (Z.of_nat (length sc)) = Ok sorted ->
  Permutation sorted sc.
Proof.
  unfold partial_sort. destruct (_ || _ || _)%Z; [intros [= <-]; reflexivity|].
  destruct (_ && _)%Z; [intros [= <-]; apply HsP|].
  destruct (_ || _)%Z; [destruct (_ =? _)%Z; [intros [= <-]; reflexivity|discriminate]|].
  cbn zeta. set (s1 := select_loop _ _ _ _ _).
  assert (H1 : Permutation s1 sc) by apply select_loop_perm.
  destruct (Nat.ltb _ _); intros [= <-].
  - unfold on_range. cbn [firstn skipn Z.to_nat app]. rewrite Nat.sub_0_r, (proj1 HsP).
    now rewrite firstn_skipn.
  - rewrite insertion_loop_perm. exact H1.
Qed.

Lemma get_nns_inv fuel fs ix vec numReturn inspect bc ids ds bc' :
  get_nns_by_vector fo c sortIx sortPairs fuel fs ix vec numReturn inspect bc = Ok (ids, ds, bc') ->
  lenN (c_nns bc) < 2 ^ iw c ->
  exists ys rest qn sc sorted,
    expands (view fs ix) (n_items ix) (rootsN (ib ix)) rest ys /\
    ((the_limit ix numReturn inspect <= Z.of_N (lenN ys))%Z \/ rest = []) /\
    query_node fo c vec = Ok qn /\
    (forall j, In j ys -> exists bs, vread (view fs ix) (addr fo c j) NSZ = Ok bs) /\
    scored (view fs ix) qn ys sc /\
    partial_sort less sortPairs sc 0 (Z.min numReturn (Z.of_nat (length sc))) (Z.of_nat (length sc)) = Ok sorted /\
    Permutation sorted sc /\
    (let top := firstn (Z.to_nat (Z.min numReturn (Z.of_nat (length sc)))) sorted in
     ids = map snd top /\ ds = map (fun p => normalized_distance fo c (fst p)) top) /\
    length (c_nns bc') = length (c_nns bc) /\ length (c_dist bc') = length (c_dist bc).
Proof.
  intros E Hw. unfold get_nns_by_vector in E. cbn zeta in E.
  apply rbind_ok in E. destruct E as ([cnt nns] & El & E).
  destruct (N.ltb_spec (lenN nns) cnt) as [|Hcnt]; [discriminate|].
  apply rbind_ok in E. destruct E as (qn & Eq & E). apply rbind_ok in E. destruct E as (sc & Es & E).
  destruct (N.ltb_spec (lenN (c_dist bc)) (lenN sc)) as [|Hdist]; [discriminate|].
  apply rbind_ok in E. destruct E as (sorted & Ep & E). injection E as <- <- <-.
  pose proof (loop_mono _ _ _ _ _ _ _ _ _ _ El) as [_ Hlen].
  assert (Hll : lenN nns = lenN (c_nns bc)) by (unfold lenN; lia).
  destruct (search_loop_expands _ _ _ _ _ _ _ _ _ _ El) as (ys & rest & Hx & Hc & Hf & Hst); [lia|lia|].
  cbn [firstn N.to_nat app] in Hf. rewrite N.add_0_l in Hc. 
  rewrite Hf in Es, E || rewrite Hf in Es.
  pose proof (score_spec _ _ _ _ _ Es (sortIx_sorted ys)) as (S1 & S2 & S3); [discriminate|].
  assert (Hin : forall j, In j (sortIx ys) <-> In j ys).
  { intro j. destruct HsI as [Hp _]. split; apply Permutation_in; [apply Hp|apply Permutation_sym, Hp]. }
  pose proof (pushes_perm (rootsN (ib ix)) pq_new) as Hq. cbn [map app pq_new] in Hq.
  destruct (expands_perm _ _ _ _ _ _ (Permutation_sym Hq) Hx) as (rest' & Hx' & Hr').
  pose proof (partial_sort_perm _ _ _ Ep) as Hps.
  exists ys, rest', qn, sc, sorted. split; [exact Hx'|]. split.
  { unfold the_limit. rewrite <- Hc. destruct Hst as [Hst| ->]; [now left|right]. now apply Permutation_nil, Permutation_sym. }
  split; [exact Eq|]. split.
  { intros j Hj. apply S3; [now apply Hin|discriminate]. }
  split; [split; [exact S2|]; intros d j; rewrite S1, Hin; intuition discriminate|].
  split; [exact Ep|]. split; [exact Hps|]. split; [split; reflexivity|].
  cbn [c_nns c_dist]. split.
  - rewrite app_length, skipn_length. rewrite (Permutation_length (proj1 HsI _)).
    rewrite Hf. unfold lenN in *. lia.
  - rewrite app_length, skipn_length, (Permutation_length Hps). unfold lenN in *. lia.
Qed.

(** The final selection. *)
Lemma partial_sort_topk (P : F fo * N -> Prop) sc k sorted' :
  strict_weak P less -> Forall P sc ->
  partial_sort less sortPairs sc 0 (Z.min k (Z.of_nat (length sc))) (Z.of_nat (length sc)) = Ok sorted' ->
  is_topk less (Z.to_nat k) sc (firstn (Z.to_nat (Z.min k (Z.of_nat (length sc)))) sorted').
Proof.
  intros SW F E. pose proof (partial_sort_perm _ _ _ E) as Hp. pose proof (Permutation_length Hp) as Hl.
  set (n := length sc) in *. set (m := Z.to_nat (Z.min k (Z.of_nat n))).
  assert (Hm : m = Nat.min (Z.to_nat k) n) by (unfold m; lia).
  exists (skipn m sorted'). rewrite firstn_skipn. split; [now symmetry|].
  split; [rewrite firstn_length; lia|].
  destruct (Nat.eq_dec m 0) as [H0|H0].
  { rewrite H0. cbn [firstn]. split; [constructor|]. intros x y []. }
  assert (Hps : partially_sorted less sc 0 m n sorted').
  { destruct HsP as [_ HS]. specialize (HS P SW).
    replace (Z.min k (Z.of_nat n)) with (Z.of_nat m) in E by lia.
    assert (Hdec : (20 < Z.of_nat n < 5000000)%Z \/ ~ (20 < Z.of_nat n < 5000000)%Z) by lia.
    destruct Hdec as [Hd|Hd].
    - destruct (partial_sort_whole_spec P less sortPairs sc m HS F) as (s' & E' & Hs'); [lia|unfold n in *; lia|exact Hd|].
      fold n in E', Hs'. rewrite E in E'. injection E' as <-. exact Hs'.
    - destruct (partial_sort_select_spec P less SW sortPairs sc 0 m n HS F) as (s' & E' & Hs'); [lia|lia|unfold n; lia|lia|].
      change (Z.of_nat 0) with 0%Z in E'. rewrite E in E'. injection E' as <-. exact Hs'. }
  destruct Hps as (_ & _ & _ & H4 & H5). unfold segment in *. cbn [skipn] in *. rewrite Nat.sub_0_r in *.
  split; [exact H4|]. intros x y Hx Hy. apply H5; [exact Hx|].
  rewrite firstn_all2; [exact Hy|]. rewrite skipn_length. lia.
Qed.

(** ** Degenerate queries, the meaning of -1, contexts *)
Lemma nns_minus_one fuel fs ix vec n bc :
  (n * Z.of_nat (length (rootsN (ib ix))) <> -1)%Z ->
  get_nns_by_vector fo c sortIx sortPairs fuel fs ix vec n (-1) bc =
  get_nns_by_vector fo c sortIx sortPairs fuel fs ix vec n (n * Z.of_nat (length (rootsN (ib ix)))) bc.
Proof.
  intro H. unfold get_nns_by_vector. cbn zeta. rewrite Z.eqb_refl.
  destruct (Z.eqb_spec (n * Z.of_nat (length (rootsN (ib ix)))) (-1)); [congruence|reflexivity].
Qed.

Lemma no_work fuel v ni vec limit q cnt nns :
  (limit <= Z.of_N cnt)%Z \/ q = [] -> search_loop fo c fuel v ni vec limit q cnt nns = Ok (cnt, nns).
Proof.
  intro H. assert (Hs : (Z.of_N cnt <? limit)%Z && negb (pq_empty q) = false).
  { destruct H as [H| ->]; [lia|]. cbn. apply andb_false_r. }
  destruct fuel; cbn [search_loop]; now rewrite Hs.
Qed.
Lemma sortIx_nil : sortIx [] = [].
Proof. destruct HsI as [H _]. apply Permutation_nil, Permutation_sym, H. Qed.
Lemma empty_query fuel fs ix vec n inspect bc :
  lenN vec <= vlen c ->
  (the_limit ix n inspect <= 0)%Z \/ rootsN (ib ix) = [] ->
  get_nns_by_vector fo c sortIx sortPairs fuel fs ix vec n inspect bc = Ok ([], [], bc).
Proof.
  intros Hv H. unfold get_nns_by_vector. cbn zeta. rewrite no_work.
  2:{ destruct H as [H| ->]; [left; exact H|now right]. }
  cbn [rbind]. replace (lenN (c_nns bc) <? 0) with false by lia.
  cbn [N.to_nat firstn]. rewrite sortIx_nil.
  unfold query_node. replace (vlen c <? lenN vec) with false by lia. cbn [rbind score].
  replace (lenN (c_dist bc) <? lenN (@nil (F fo * N))) with false by (rewrite lenN_nil; lia).
  cbn [length Z.of_nat]. unfold partial_sort. cbn [Z.leb orb rbind].
  change (0 <=? 0)%Z with true. cbn [orb rbind]. rewrite firstn_nil. cbn [map app skipn].
  destruct bc; reflexivity.
Qed.
Lemma non_positive_return fuel fs ix vec n inspect bc ids ds bc' : (n <= 0)%Z ->
  get_nns_by_vector fo c sortIx sortPairs fuel fs ix vec n inspect bc = Ok (ids, ds, bc') -> ids = [] /\ ds = [].
Proof.
  intros Hn E. unfold get_nns_by_vector in E. cbn zeta in E.
  apply rbind_ok in E. destruct E as ([cnt nns] & El & E). destruct (_ <? _); [discriminate|].
  apply rbind_ok in E. destruct E as (qn & Eq & E). apply rbind_ok in E. destruct E as (sc & Es & E).
  destruct (_ <? _); [discriminate|].
  apply rbind_ok in E. destruct E as (sorted & Ep & E). injection E as <- <- _.
  replace (Z.to_nat (Z.min n (Z.of_nat (length sc)))) with O by lia. now split.
Qed.

(** Agreement of two runs of the loop on arrays of equal size. *)
Definition same_front (n : N) (a b : list N) : Prop :=
  length a = length b /\ firstn (N.to_nat n) a = firstn (N.to_nat n) b.
Lemma put_at_agree n a b xs :
  same_front n a b -> n < 2 ^ iw c ->
  match put_at a n xs, put_at b n xs with
  | Ok a', Ok b' => same_front (n + lenN xs) a' b'
  | Er e, Er e' => e = e'
  | _, _ => False
  end.
Proof.
  intros [Hl Hf] Hn. unfold put_at. replace (lenN b) with (lenN a) by (unfold lenN; lia).
  destruct (N.ltb_spec (lenN a) n) as [|Hle]; [reflexivity|]. unfold lenN in Hle.
  rewrite Hf. split.
  - rewrite !app_length, !skipn_length, !firstn_length. lia.
  - rewrite <- Hl. set (ys := firstn (length a - N.to_nat n) xs).
    rewrite !app_assoc. set (p := firstn (N.to_nat n) b ++ ys).
    destruct (Nat.le_gt_cases (length xs) (length a - N.to_nat n)) as [Hx|Hx].
    + assert (Hp : length p = N.to_nat (n + lenN xs)).
      { unfold p, ys, lenN. rewrite app_length, firstn_length_le by (rewrite <- Hl; lia). rewrite firstn_length. lia. }
      now rewrite !firstn_app_exact.
    + assert (Hy : length ys = (length a - N.to_nat n)%nat) by (unfold ys; rewrite firstn_length; lia).
      rewrite !skipn_all2 by lia. reflexivity.
Qed.

Definition loop_agree (r1 r2 : res (N * list N)) : Prop :=
  match r1, r2 with
  | Ok (n1, a), Ok (n2, b) => n1 = n2 /\ length a = length b /\ (n1 <= lenN a -> same_front n1 a b)
  | Er e1, Er e2 => e1 = e2
  | _, _ => False
  end.

(** Once more has been counted than there is room for, nothing comes back. *)
Lemma loop_agree_gen fuel : forall v ni vec limit q cnt a b,
  length a = length b -> (cnt <= lenN a -> same_front cnt a b) -> lenN a < 2 ^ iw c ->
  loop_agree (search_loop fo c fuel v ni vec limit q cnt a) (search_loop fo c fuel v ni vec limit q cnt b).
Proof.
  induction fuel as [|fu IH]; intros v ni vec limit q cnt a b Hl Hf Hw.
  - cbn [search_loop]. destruct (_ && _); [reflexivity|]. cbn. auto.
  - rewrite !search_loop_S. destruct (_ && _); [|cbn; auto].
    destruct (pq_top q) as [[d i]|]; [|reflexivity].
    destruct (pq_pop less q) as [[x q']|]; cbn [rbind]; [|reflexivity].
    destruct (vread v (addr fo c i) NSZ) as [bs|]; cbn [rbind]; [|reflexivity]. cbn zeta.
    assert (Hlab : lenN b = lenN a) by (unfold lenN; lia).
    destruct ((n_desc c bs =? 1) && (i <? ni)).
    + rewrite Hlab. destruct (N.leb_spec (lenN a) cnt) as [|Hlt]; [reflexivity|].
      pose proof (put_at_agree cnt a b [i] (Hf ltac:(lia)) ltac:(lia)) as Hp.
      destruct (put_at a cnt [i]) as [a'|] eqn:Ea, (put_at b cnt [i]) as [b'|] eqn:Eb; try easy; cbn [rbind].
      apply put_at_length in Ea, Eb. apply IH; auto; try lia.
      unfold lenN in *. lia.
    + destruct (n_desc c bs <=? K).
      * assert (Hgen : forall a' b', put_at a (tix c cnt) (n_children c (n_desc c bs) bs) = Ok a' ->
                    put_at b (tix c cnt) (n_children c (n_desc c bs) bs) = Ok b' ->
                    cnt + n_desc c bs <= lenN a' -> same_front (cnt + n_desc c bs) a' b').
        { intros a' b' Ea Eb Hle. pose proof (put_at_length _ _ _ _ Ea).
          assert (Hc : cnt <= lenN a) by (unfold lenN in *; lia). rewrite tix_small in Ea, Eb by lia.
          pose proof (put_at_agree cnt a b (n_children c (n_desc c bs) bs) (Hf Hc) ltac:(lia)) as Hp.
          rewrite Ea, Eb in Hp. unfold lenN in Hp. rewrite length_n_children, N2Nat.id in Hp. exact Hp. }
        assert (Hok : forall y, put_at a (tix c cnt) y = Er (Panic PIndex) /\ put_at b (tix c cnt) y = Er (Panic PIndex) \/
                      exists a' b', put_at a (tix c cnt) y = Ok a' /\ put_at b (tix c cnt) y = Ok b').
        { intro y. unfold put_at. rewrite Hlab. destruct (_ <? _); eauto. }
        destruct (Hok (n_children c (n_desc c bs) bs)) as [[-> ->]|(a' & b' & Ea & Eb)]; [reflexivity|].
        rewrite Ea, Eb. cbn [rbind]. specialize (Hgen a' b' Ea Eb). apply put_at_length in Ea, Eb.
        apply IH; auto; try lia. unfold lenN in *. lia.
      * destruct (margin fo c (snode_of fo c bs) vec) as [m|]; cbn [rbind]; [|reflexivity]. apply IH; auto.
Qed.

Lemma context_reuse fuel fs ix vec n inspect b1 b2 :
  length (c_nns b1) = length (c_nns b2) -> length (c_dist b1) = length (c_dist b2) ->
  lenN (c_nns b1) < 2 ^ iw c ->
  answer (get_nns_by_vector fo c sortIx sortPairs fuel fs ix vec n inspect b1) =
  answer (get_nns_by_vector fo c sortIx sortPairs fuel fs ix vec n inspect b2).
Proof.
  intros H1 H2 Hw. unfold answer, get_nns_by_vector. cbn zeta.
  set (q0 := fold_left _ _ _). set (lim := if (inspect =? -1)%Z then _ else _).
  pose proof (loop_agree_gen fuel (view fs ix) (n_items ix) vec lim q0 0 (c_nns b1) (c_nns b2) H1) as H.
  assert (H' : loop_agree (search_loop fo c fuel (view fs ix) (n_items ix) vec lim q0 0 (c_nns b1))
                          (search_loop fo c fuel (view fs ix) (n_items ix) vec lim q0 0 (c_nns b2))).
  { apply H; auto. intros _. split; [exact H1|reflexivity]. }
  clear H. destruct (search_loop _ _ _ _ _ _ _ _ _ (c_nns b1)) as [[n1 a]|e1], (search_loop _ _ _ _ _ _ _ _ _ (c_nns b2)) as [[n2 b]|e2];
    try easy; cbn [rbind]; [|cbn in H'; now subst].
  destruct H' as (<- & Hl & Hf). replace (lenN b) with (lenN a) by (unfold lenN; lia).
  destruct (N.ltb_spec (lenN a) n1) as [|Hle]; [reflexivity|].
  destruct (Hf Hle) as [_ Hfr]. rewrite Hfr.
  destruct (query_node fo c vec) as [qn|]; cbn [rbind]; [|reflexivity].
  destruct (score _ _ _ _ _ _) as [sc|]; cbn [rbind]; [|reflexivity].
  replace (lenN (c_dist b2)) with (lenN (c_dist b1)) by (unfold lenN; lia).
  destruct (_ <? _); [reflexivity|]. destruct (partial_sort _ _ _ _ _ _) as [s|]; reflexivity.
Qed.
Lemma context_size_kept fuel fs ix vec n inspect bc ids ds bc' :
  get_nns_by_vector fo c sortIx sortPairs fuel fs ix vec n inspect bc = Ok (ids, ds, bc') ->
  length (c_nns bc') = length (c_nns bc) /\ length (c_dist bc') = length (c_dist bc).
Proof.
  intro E. unfold get_nns_by_vector in E. cbn zeta in E.
  apply rbind_ok in E. destruct E as ([cnt nns] & El & E).
  destruct (N.ltb_spec (lenN nns) cnt) as [|Hcnt]; [discriminate|].
  apply rbind_ok in E. destruct E as (qn & Eq & E). apply rbind_ok in E. destruct E as (sc & Es & E).
  destruct (N.ltb_spec (lenN (c_dist bc)) (lenN sc)) as [|Hdist]; [discriminate|].
  apply rbind_ok in E. destruct E as (sorted & Ep & E). injection E as _ _ <-. cbn [c_nns c_dist].
  pose proof (loop_mono _ _ _ _ _ _ _ _ _ _ El) as [_ Hlen].
  rewrite !app_length, !skipn_length, (Permutation_length (proj1 HsI _)), firstn_length,
    (Permutation_length (partial_sort_perm _ _ _ Ep)). unfold lenN in *. lia.
Qed.

(** ** Query vectors of the wrong length *)
Lemma long_vector fuel fs ix vec n inspect bc : vlen c < lenN vec ->
  (exists e, get_nns_by_vector fo c sortIx sortPairs fuel fs ix vec n inspect bc = Er e) /\
  ((the_limit ix n inspect <= 0)%Z \/ rootsN (ib ix) = [] ->
   get_nns_by_vector fo c sortIx sortPairs fuel fs ix vec n inspect bc = Er Fault).
Proof.
  intro Hv. assert (Hq : query_node fo c vec = Er Fault).
  { unfold query_node. now replace (vlen c <? lenN vec) with true by lia. }
  unfold get_nns_by_vector. cbn zeta. split.
  - destruct (search_loop _ _ _ _ _ _ _ _ _ _) as [[cnt nns]|e]; cbn [rbind]; [|eauto].
    destruct (_ <? _); [eauto|]. rewrite Hq. cbn [rbind]. eauto.
  - intro H. rewrite no_work.
    2:{ destruct H as [H| ->]; [left; exact H|now right]. }
    cbn [rbind]. replace (lenN (c_nns bc) <? 0) with false by lia. now rewrite Hq.
Qed.

Lemma short_vector fuel fs ix vec n inspect bc :
  (forall r, In r (rootsN (ib ix)) -> exists a b, splits (view fs ix) r a b) -> rootsN (ib ix) <> [] ->
  (0 < the_limit ix n inspect)%Z -> 2 <= K -> lenN vec < vlen c -> fuel <> O ->
  get_nns_by_vector fo c sortIx sortPairs fuel fs ix vec n inspect bc =
  Er (if lenN vec =? 0 then Panic PEmptyY else Fault).
Proof.
  intros Hs Hne Hl HK Hv Hf. destruct fuel as [|fu]; [congruence|].
  unfold get_nns_by_vector. cbn zeta.
  set (q0 := fold_left _ _ _). set (limit := (if (inspect =? -1)%Z then _ else _)).
  assert (Hlim : limit = the_limit ix n inspect) by reflexivity. rewrite <- Hlim in Hl. clearbody limit.
  assert (Hq : Permutation (map snd q0) (rootsN (ib ix))) by (unfold q0; now rewrite pushes_perm).
  assert (Hq0 : q0 <> []).
  { intro E. rewrite E in Hq. apply Permutation_nil in Hq. congruence. }
  rewrite search_loop_S. replace (Z.of_N 0 <? limit)%Z with true by lia.
  destruct (pq_pop_any less q0 Hq0) as ([d i] & q' & Ep & Et & Hp).
  replace (negb (pq_empty q0)) with true by (destruct q0; [congruence|reflexivity]). cbn [andb].
  rewrite Et, Ep. cbn [rbind].
  destruct (Hs i) as (a & b & [bs a' b' E1 E2 E3]).
  { apply (Permutation_in _ Hq). apply (in_map snd) with (x := (d, i)). apply (Permutation_in _ (Permutation_sym Hp)). now left. }
  rewrite E1. cbn [rbind]. cbn zeta.
  replace (n_desc c bs =? 1) with false by lia. cbn [andb]. replace (n_desc c bs <=? K) with false by lia.
  unfold margin. destruct (lenN vec =? 0); [reflexivity|]. replace (lenN vec <? vlen c) with true by lia. reflexivity.
Qed.

(** ** Listing the whole forest *)
Lemma lists_items_fun v ni i xs ys : lists_items v ni i xs -> lists_items v ni i ys -> xs = ys.
Proof. intros H1 H2. destruct H1, H2; try congruence; assert (bs0 = bs) by congruence; subst; tauto. Qed.
Lemma splits_fun v i l r l' r' : splits v i l r -> splits v i l' r' -> l = l' /\ r = r'.
Proof. intros H1 H2. destruct H1 as [bs l r R1 _ C1], H2 as [bs' l' r' R2 _ C2]. assert (bs' = bs) by congruence. subst. split; congruence. Qed.
Lemma lists_not_splits v ni i xs l r : 2 <= K -> lists_items v ni i xs -> splits v i l r -> False.
Proof.
  intros HK H1 H2. destruct H2 as [bs l r R2 K2 C2]. destruct H1 as [bs' R1 D1 _|bs' R1 _ D1]; assert (bs' = bs) by congruence; subst; lia.
Qed.

Lemma expands_rest v ni b b' ys : 2 <= K -> expands v ni b b' ys -> forall zs m, reach_all v ni b zs m ->
  exists zs' m', reach_all v ni b' zs' m' /\ Permutation zs (ys ++ zs').
Proof.
  intros HK. induction 1 as [b|b i b0 b' xs ys Hp Hl Hx IH|b i b0 b' l r ys Hp Hl Hx IH]; intros zs m Hr.
  - exists zs, m. auto.
  - destruct (reach_all_perm v ni _ _ Hp _ _ Hr) as (ws & Hw & Hpw).
    inversion Hw as [|? ? xs0 ys0 m0 n0 Hi Hb]; subst.
    assert (xs0 = xs) as ->.
    { inversion Hi; subst; [eapply lists_items_fun; eauto|exfalso; eapply lists_not_splits; eauto]. }
    destruct (IH _ _ Hb) as (zs' & m' & Hz' & Hp'). exists zs', m'. split; [exact Hz'|].
    rewrite Hpw, Hp'. now rewrite app_assoc.
  - destruct (reach_all_perm v ni _ _ Hp _ _ Hr) as (ws & Hw & Hpw).
    inversion Hw as [|? ? xs0 ys0 m0 n0 Hi Hb]; subst.
    inversion Hi as [? ? Hli|? l' r' xs1 ys1 m1 n1 Hs Hl1 Hr1]; subst; [exfalso; eapply lists_not_splits; eauto|].
    destruct (splits_fun _ _ _ _ _ _ Hl Hs) as [<- <-].
    destruct (IH (xs1 ++ ys1 ++ ys0) (m1 + (n1 + n0))%nat) as (zs' & m' & Hz' & Hp').
    { constructor; [exact Hl1|]. now constructor. }
    exists zs', m'. split; [exact Hz'|]. rewrite Hpw, <- app_assoc. exact Hp'.
Qed.

(** If every tree reachable from [b] is finite and [limit] is at least the number of
    listed entries, a finished search has listed them all. *)
Lemma exhausted v ni b b' ys zs m limit : 2 <= K ->
  expands v ni b b' ys -> reach_all v ni b zs m ->
  (limit <= Z.of_N (lenN ys))%Z \/ b' = [] -> (Z.of_N (lenN zs) <= limit)%Z -> Permutation ys zs.
Proof.
  intros HK Hx Hr Hs Hl. destruct (expands_rest _ _ _ _ _ HK Hx _ _ Hr) as (zs' & m' & Hr' & Hp).
  pose proof (Permutation_length Hp) as Hlen. rewrite app_length in Hlen.
  assert (zs' = []) as ->.
  { destruct Hs as [Hs| ->].
    - unfold lenN in *. destruct zs'; [reflexivity|]. cbn in Hlen. lia.
    - now inversion Hr'. }
  rewrite app_nil_r in Hp. now symmetry.
Qed.

(** ** Queries that cannot fail *)
Lemma put_at_ok nns a xs : a <= lenN nns -> exists nns', put_at nns a xs = Ok nns'.
Proof. intro H. unfold put_at. replace (lenN nns <? a) with false by lia. eauto. Qed.

Lemma search_loop_total fuel : forall v ni vec limit q cnt nns zs m,
  2 <= K -> lenN vec = vlen c -> 1 <= vlen c -> lenN nns < 2 ^ iw c ->
  reach_all v ni (map snd q) zs m -> (m <= fuel)%nat ->
  (limit + Z.of_N K - 1 <= Z.of_N (lenN nns))%Z \/ cnt + lenN zs <= lenN nns ->
  cnt <= lenN nns ->
  exists cnt' nns', search_loop fo c fuel v ni vec limit q cnt nns = Ok (cnt', nns') /\ cnt' <= lenN nns.
Proof.
  induction fuel as [|fu IH]; intros v ni vec limit q cnt nns zs m HK Hv Hv1 Hw Hr Hm Hroom Hcnt.
  - assert (q = []) as ->.
    { destruct q as [|[d i] q]; [reflexivity|]. cbn [map snd] in Hr. inversion Hr as [|? ? ? ? m0 n0 Hi Hb]; subst.
      inversion Hi; subst; lia. }
    rewrite no_work by now right. eauto.
  - rewrite search_loop_S.
    destruct ((Z.of_N cnt <? limit)%Z && negb (pq_empty q)) eqn:Es; [|eauto].
    assert (Hne : q <> []) by (intros ->; unfold pq_empty in Es; cbn in Es; lia).
    destruct (pq_pop_any less q Hne) as ([d i] & q' & Ep & Et & Hp).
    rewrite Et, Ep. cbn [rbind].
    apply (Permutation_map snd) in Hp. cbn [map snd] in Hp.
    destruct (reach_all_perm v ni _ _ Hp _ _ Hr) as (ws & Hws & Hpw).
    pose proof (Permutation_length Hpw) as Hlw.
    inversion Hws as [|? ? xs0 ys0 m0 n0 Hi Hb]; subst. rewrite app_length in Hlw.
    inversion Hi as [? ? Hli|? l r xs1 ys1 m1 n1 Hs Hl1 Hr1]; subst.
    + destruct Hli as [bs Hrd Hd Hin|bs Hrd Hd HdK]; rewrite Hrd; cbn [rbind]; cbn zeta.
      * replace ((n_desc c bs =? 1) && (i <? ni)) with true by lia.
        cbn [length] in Hlw.
        assert (Hlt : cnt < lenN nns) by (unfold lenN in *; lia).
        replace (lenN nns <=? cnt) with false by lia.
        destruct (put_at_ok nns cnt [i]) as (nns' & Epa); [lia|]. rewrite Epa. cbn [rbind].
        pose proof (put_at_length _ _ _ _ Epa) as Hl'.
        assert (Hll : lenN nns' = lenN nns) by (unfold lenN; lia). rewrite <- Hll in *.
        eapply IH; eauto; try lia. unfold lenN in *. lia.
      * replace ((n_desc c bs =? 1) && (i <? ni)) with false by lia.
        replace (n_desc c bs <=? K) with true by lia.
        rewrite length_n_children in Hlw.
        assert (Hlt : cnt + n_desc c bs <= lenN nns) by (unfold lenN in *; lia).
        rewrite tix_small by lia.
        destruct (put_at_ok nns cnt (n_children c (n_desc c bs) bs)) as (nns' & Epa); [lia|]. rewrite Epa. cbn [rbind].
        pose proof (put_at_length _ _ _ _ Epa) as Hl'.
        assert (Hll : lenN nns' = lenN nns) by (unfold lenN; lia). rewrite <- Hll in *.
        eapply IH; eauto; try lia. unfold lenN in *. lia.
    + destruct Hs as [bs l r Hrd HdK Hch]. rewrite Hrd. cbn [rbind]. cbn zeta.
      replace ((n_desc c bs =? 1) && (i <? ni)) with false by lia.
      replace (n_desc c bs <=? K) with false by lia.
      unfold margin at 1. replace (lenN vec =? 0) with false by lia. replace (lenN vec <? vlen c) with false by lia.
      cbn [rbind]. rewrite Hch. cbn [nth].
      match goal with |- context [search_loop fo c fu v ni vec limit ?q2 cnt nns] => set (q2' := q2) end.
      assert (Hq2 : Permutation (l :: r :: map snd q') (map snd q2')).
      { unfold q2'. symmetry. rewrite (Permutation_map snd (pq_push_perm less _ _)). cbn [map snd].
        apply perm_skip. rewrite (Permutation_map snd (pq_push_perm less _ _)). reflexivity. }
      destruct (reach_all_perm v ni _ _ Hq2 (xs1 ++ ys1 ++ ys0) (m1 + (n1 + n0))) as (ws & Hws2 & Hp2).
      { constructor; [exact Hl1|]. now constructor. }
      pose proof (Permutation_length Hp2) as Hl2. rewrite !app_length in *.
      eapply IH; eauto; try lia. unfold lenN in *. lia.
Qed.

Lemma score_total v qn : forall l last, (forall j, In j l -> exists bs, vread v (addr fo c j) NSZ = Ok bs) ->
  exists sc, score fo c v qn last l = Ok sc /\ (length sc <= length l)%nat.
Proof.
  induction l as [|j l IH]; intros last H; cbn [score]; [eexists; split; [reflexivity|cbn; lia]|].
  assert (H' : forall k, In k l -> exists bs, vread v (addr fo c k) NSZ = Ok bs) by (intros; apply H; now right).
  destruct (match last with Some x => j =? x | None => false end).
  - destruct (IH last H') as (sc & E & Hl). exists sc. split; [exact E|cbn; lia].
  - destruct (H j (or_introl eq_refl)) as (bs & ->). cbn [rbind].
    destruct (IH (Some j) H') as (sc & -> & Hl). cbn [rbind].
    destruct (n_desc c bs =? 1); eexists; (split; [reflexivity|cbn; lia]).
Qed.
Lemma partial_sort_total sc k : exists s,
  partial_sort less sortPairs sc 0 (Z.min k (Z.of_nat (length sc))) (Z.of_nat (length sc)) = Ok s.
Proof.
  unfold partial_sort. destruct (_ || _ || _)%Z; [eauto|]. destruct (_ && _)%Z; [eauto|].
  replace ((0 <? 0) || (Z.of_nat (length sc) <? Z.of_nat (length sc)))%Z with false by lia.
  cbn zeta. destruct (Nat.ltb _ _); eauto.
Qed.

Theorem query_total fuel fs ix vec n inspect bc zs m :
  2 <= K -> lenN vec = vlen c -> 1 <= vlen c -> lenN (c_nns bc) < 2 ^ iw c ->
  length (c_dist bc) = length (c_nns bc) ->
  reach_all (view fs ix) (n_items ix) (rootsN (ib ix)) zs m -> (m <= fuel)%nat ->
  (forall j, In j zs -> exists bs, vread (view fs ix) (addr fo c j) NSZ = Ok bs) ->
  (the_limit ix n inspect + Z.of_N K - 1 <= Z.of_N (lenN (c_nns bc)))%Z \/ lenN zs <= lenN (c_nns bc) ->
  exists ids ds bc', get_nns_by_vector fo c sortIx sortPairs fuel fs ix vec n inspect bc = Ok (ids, ds, bc').
Proof.
  intros HK Hv Hv1 Hw Hd Hr Hf Hrd Hroom. unfold get_nns_by_vector. cbn zeta.
  set (q0 := fold_left _ _ _).
  pose proof (pushes_perm (rootsN (ib ix)) pq_new) as Hq. fold q0 in Hq. cbn [map app pq_new] in Hq.
  destruct (reach_all_perm _ _ _ _ (Permutation_sym Hq) _ _ Hr) as (zs' & Hr' & Hpz).
  pose proof (Permutation_length Hpz) as Hlz.
  destruct (search_loop_total fuel (view fs ix) (n_items ix) vec (the_limit ix n inspect) q0 0 (c_nns bc) zs' m)
    as (cnt & nns & El & Hc); auto; try lia.
  { unfold lenN in *. lia. }
  unfold the_limit in El. rewrite El. cbn [rbind].
  pose proof (loop_mono _ _ _ _ _ _ _ _ _ _ El) as [_ Hlen].
  assert (Hll : lenN nns = lenN (c_nns bc)) by (unfold lenN; lia).
  replace (lenN nns <? cnt) with false by lia.
  destruct (search_loop_expands _ _ _ _ _ _ _ _ _ _ El Hc Hw) as (ys & rest & Hx & Hcy & Hfr & Hst).
  cbn [firstn N.to_nat app] in Hfr. rewrite Hfr.
  destruct (expands_rest _ _ _ _ _ HK Hx _ _ Hr') as (zs2 & m2 & _ & Hp2).
  unfold query_node. replace (vlen c <? lenN vec) with false by lia. cbn [rbind].
  match goal with |- context [score fo c _ ?qn None _] => set (qn' := qn) end.
  destruct (score_total (view fs ix) qn' (sortIx ys) None) as (sc & Es & Hls).
  { intros j Hj. apply Hrd. eapply Permutation_in; [apply Permutation_sym, Hpz|].
    eapply Permutation_in; [apply Permutation_sym, Hp2|]. apply in_or_app. left.
    eapply Permutation_in; [apply HsI|exact Hj]. }
  rewrite Es. cbn [rbind]. rewrite (Permutation_length (proj1 HsI ys)) in Hls.
  replace (lenN (c_dist bc) <? lenN sc) with false by (unfold lenN in *; lia).
  destruct (partial_sort_total sc n) as (s & Ep). rewrite Ep. cbn [rbind]. eauto.
Qed.

End Q.
