(** Load as a function of the file's bytes; saving a loaded index again; cyclic files. *)
From Coq Require Import Permutation.
From Verif Require Import Base Flt Layout Rng Sorts Alloc Prog Dist Build Policy Index Search Spec ForestSpec
  Lib LayoutProof SearchProof SameProof.
Open Scope N_scope.

Lemma file_view k fs f bs : fs f = Some bs ->
  im_view fs (mkIM k f (lenN bs) (match k with GCMem => bs | MmapMem => [] end)) = buf_of_bytes bs.
Proof. intro H. destruct k; [rewrite (mmap_view _ _ _ H)|]; reflexivity. Qed.

Lemma bread_all bs : bread (buf_of_bytes bs) 0 (lenN bs) = Ok bs.
Proof.
  unfold bread. cbn [bsize bdata buf_of_bytes]. replace (0 + lenN bs <=? lenN bs) with true by lia. f_equal.
  unfold lenN. rewrite Nnat.Nat2N.id. apply mread_mwrite_same.
Qed.

Section L.
Variable fo : FOps.
Variable c : Cfg.
Notation NSZ := (nodeSize fo c).

Lemma close_gives ix ix0 : close ix = Ok ix0 ->
  base (ib ix0) = None /\ imemory ix0 = None /\ n_items ix0 = 0 /\ nn (ib ix0) = 0 /\ rootsN (ib ix0) = [] /\
  iloaded ix0 = false /\ rnd (ib ix0) <> None.
Proof.
  unfold close. destruct (rnd (ib ix)) as [r|]; [|discriminate]. intros [= <-]. cbn. repeat split; congruence.
Qed.

Lemma load_content k fs a f k' fs' b g bs : fs f = Some bs -> fs' g = Some bs -> bs <> [] ->
  rnd (ib a) <> None -> rnd (ib b) <> None ->
  match load fo c k fs a f, load fo c k' fs' b g with
  | Ok (a', e), Ok (b', e') =>
      e' = e /\ n_items b' = n_items a' /\ nn (ib b') = nn (ib a') /\ rootsN (ib b') = rootsN (ib a') /\ iloaded b' = iloaded a' /\
      (forall fs1 fs2, fs1 f = Some bs -> fs2 g = Some bs -> view fs2 b' = view fs1 a') /\
      (e = None -> batchMax b' = batchMax a' /\ ibuilt a' = true /\ ibuilt b' = true)
  | Er e, Er e' => e' = e
  | _, _ => False
  end.
Proof.
  intros H H' Hne Ha Hb. unfold load.
  destruct (close a) as [a0|e] eqn:Eca; [|exfalso; unfold close in Eca; destruct (rnd (ib a)); congruence].
  destruct (close b) as [b0|e] eqn:Ecb; [|exfalso; unfold close in Ecb; destruct (rnd (ib b)); congruence]. cbn [rbind].
  destruct (close_gives _ _ Eca) as (_ & _ & _ & _ & _ & _ & Ra). destruct (close_gives _ _ Ecb) as (_ & _ & _ & _ & _ & _ & Rb).
  unfold im_open. rewrite H, H'. destruct bs as [|x bs0] eqn:Ebs; [congruence|]. rewrite <- Ebs in *. cbn [rbind im_size].
  rewrite (file_view k fs f bs) by assumption. rewrite (file_view k' fs' g bs) by assumption.
  destruct (negb _).
  - destruct (close a0) as [a1|e] eqn:Ec1; [|exfalso; unfold close in Ec1; destruct (rnd (ib a0)); congruence].
    destruct (close b0) as [b1|e] eqn:Ec2; [|exfalso; unfold close in Ec2; destruct (rnd (ib b0)); congruence]. cbn [rbind].
    destruct (close_gives _ _ Ec1) as (A1 & A2 & A3 & A4 & A5 & A6 & _). destruct (close_gives _ _ Ec2) as (B1 & B2 & B3 & B4 & B5 & B6 & _).
    split; [reflexivity|]. split; [congruence|]. split; [congruence|]. split; [congruence|]. split; [congruence|].
    split; [|discriminate]. intros fs1 fs2 _ _. unfold view. now rewrite A1, A2, B1, B2.
  - destruct (scan_roots _ _ _ _ _ _) as [[roots m]|]; cbn [rbind]; [|reflexivity].
    destruct (drop_duplicate_root _ _ _ _) as [roots'|]; cbn [rbind]; [|reflexivity].
    destruct (batch_max _ _ _ _ _ _) as [bm|]; cbn [rbind]; [|reflexivity].
    repeat (split; [reflexivity|]). split; [|auto]. intros fs1 fs2 H1 H2. unfold view. cbn [ib base imemory].
    now rewrite (file_view k fs1 f bs), (file_view k' fs2 g bs) by assumption.
Qed.

Lemma load_ok_gives k fs a f bs a' : fs f = Some bs -> load fo c k fs a f = Ok (a', None) ->
  bs <> [] /\ rnd (ib a) <> None /\ rnd (ib a') <> None /\ lenN bs mod NSZ = 0 /\ nn (ib a') = tix c (lenN bs) / NSZ /\ ibuilt a' = true /\ iloaded a' = true /\
  base (ib a') = None /\
  imemory a' = Some (mkIM k f (lenN bs) (match k with GCMem => bs | MmapMem => [] end)).
Proof.
  intros H E. unfold load in E. destruct (close a) as [a0|] eqn:Ec; [|discriminate]. cbn [rbind] in E.
  assert (Ha : rnd (ib a) <> None) by (unfold close in Ec; destruct (rnd (ib a)); congruence).
  destruct (close_gives _ _ Ec) as (_ & _ & _ & _ & _ & _ & Ra).
  unfold im_open in E. rewrite H in E. destruct bs as [|x bs0] eqn:Ebs; [destruct k; discriminate|]. rewrite <- Ebs in *. cbn [rbind im_size] in E.
  destruct (N.eqb_spec (lenN bs mod NSZ) 0) as [Hm|Hm]; cbn [negb] in E; [|destruct (close a0); discriminate].
  rewrite (file_view k fs f bs) in E by assumption.
  destruct (scan_roots _ _ _ _ _ _) as [[roots m]|]; cbn [rbind] in E; [|discriminate].
  destruct (drop_duplicate_root _ _ _ _) as [roots'|]; cbn [rbind] in E; [|discriminate].
  destruct (batch_max _ _ _ _ _ _) as [bm|]; cbn [rbind] in E; [|discriminate].
  injection E as <-. cbn. rewrite Ebs. repeat split; try congruence; eauto; try discriminate.
Qed.
End L.

Lemma load_view fo c k fs a f bs a' : fs f = Some bs -> load fo c k fs a f = Ok (a', None) ->
  forall fs', fs' f = Some bs \/ k = GCMem -> view fs' a' = Some (buf_of_bytes bs).
Proof.
  intros H E fs' H'. destruct (load_ok_gives _ _ _ _ _ _ _ _ H E) as (_ & _ & _ & _ & _ & _ & _ & E1 & E2).
  unfold view. rewrite E1, E2. destruct H' as [H'| ->]; [now rewrite file_view|reflexivity].
Qed.

Section R.
Variable fo : FOps.
Variable c : Cfg.
Hypothesis OK : CfgOK fo c.
Notation NSZ := (nodeSize fo c).

Lemma resave k fs a f bs a' k' g : fs f = Some bs -> load fo c k fs a f = Ok (a', None) -> lenN bs < 2 ^ iw c ->
  g <> f \/ k = GCMem ->
  exists a2, save fo c k' OsOk fs a' g = Ok (a2, fs_set fs g (Some bs), None) /\
    n_items a2 = n_items a' /\ nn (ib a2) = nn (ib a') /\ rootsN (ib a2) = rootsN (ib a') /\ batchMax a2 = batchMax a' /\
    ibuilt a2 = true /\ iloaded a2 = true /\
    forall fs1 fs2, fs1 f = Some bs -> fs2 g = Some bs -> view fs2 a2 = view fs1 a'.
Proof.
  intros H E Hs Hg. destruct (load_ok_gives _ _ _ _ _ _ _ _ H E) as (Hne & Ra & Ra' & Hm & Hn & Hb & Hl & _ & _).
  pose proof (nodeSize_pos fo c OK) as HN.
  assert (Hlen : tix c (nn (ib a') * NSZ) = lenN bs).
  { rewrite Hn, (tix_small c (lenN bs)) by assumption.
    pose proof (N.div_mod' (lenN bs) NSZ) as D. rewrite Hm in D. rewrite tix_small; lia. }
  unfold save. rewrite Hb. cbn [negb]. rewrite Hlen.
  assert (Hne0 : lenN bs <> 0) by (destruct bs; [congruence|unfold lenN; cbn [length]; lia]).
  replace (lenN bs =? 0) with false by lia.
  rewrite (load_view fo c k fs a f bs a' H E (fs_set fs g (Some []))).
  2:{ destruct Hg as [Hg|Hg]; [left|right; exact Hg]. unfold fs_set. replace (f =? g) with false by lia. exact H. }
  cbn [vread]. rewrite bread_all.
  assert (H2 : fs_set fs g (Some bs) g = Some bs) by (unfold fs_set; now rewrite N.eqb_refl).
  pose proof (load_content fo c k fs a f k' (fs_set fs g (Some bs)) a' g bs H H2 Hne Ra Ra') as L. rewrite E in L.
  destruct (load fo c k' (fs_set fs g (Some bs)) a' g) as [[a2 e2]|] eqn:E2; [|contradiction].
  destruct L as (-> & L1 & L2 & L3 & L4 & L5 & L6). destruct (L6 eq_refl) as (L7 & _ & L8). cbn [rbind].
  exists a2. split; [reflexivity|]. repeat (split; [congruence|]). exact L5.
Qed.

(** ** Searches that cannot end *)
Variable sortIx : list N -> list N.
Variable sortPairs : list (F fo * N) -> list (F fo * N).
Notation less := (pair_less (flt fo) (feq fo)).

Lemma loop_forever v ni (C : N -> Prop) : (forall i, C i -> exists l r, splits fo c v i l r /\ C l /\ C r) ->
  forall fuel vec limit q cnt nns, vlen c <= lenN vec -> lenN vec <> 0 -> (Z.of_N cnt < limit)%Z -> q <> [] -> Forall C (map snd q) ->
  search_loop fo c fuel v ni vec limit q cnt nns = Er OutOfFuel.
Proof.
  intro HC. pose proof (maxK_ge2 fo c OK) as HK.
  induction fuel as [|fu IH]; intros vec limit q cnt nns Hv Hv0 Hc Hne Hq.
  - cbn [search_loop]. replace (Z.of_N cnt <? limit)%Z with true by lia. destruct q; [congruence|reflexivity].
  - rewrite search_loop_S. replace (Z.of_N cnt <? limit)%Z with true by lia.
    replace (negb (pq_empty q)) with true by (destruct q; [congruence|reflexivity]). cbn [andb].
    destruct (pq_pop_any less q Hne) as ([d i] & q1 & Ep & Et & Hp). rewrite Et, Ep. cbn [rbind].
    apply (Permutation_map snd) in Hp. cbn [map snd] in Hp. rewrite Hp in Hq. inversion Hq as [|? ? Hi Hq1]; subst.
    destruct (HC i Hi) as (l & r & Hs & Hl & Hr). inversion Hs as [bs ? ? R1 D1 C1]; subst.
    rewrite R1. cbn [rbind]. cbn zeta.
    replace (n_desc c bs =? 1) with false by lia. cbn [andb]. replace (n_desc c bs <=? maxK fo c) with false by lia.
    unfold margin. replace (lenN vec =? 0) with false by lia. replace (lenN vec <? vlen c) with false by lia. cbn [rbind].
    apply IH; auto.
    + intro X. match type of X with pq_push _ ?q0 ?x = [] => pose proof (pq_push_perm less q0 x) as Y end.
      rewrite X in Y. now apply Permutation_nil in Y.
    + rewrite C1. cbn [nth].
      rewrite (Permutation_map snd (pq_push_perm less _ _)). cbn [map snd]. constructor; [exact Hl|].
      rewrite (Permutation_map snd (pq_push_perm less _ _)). cbn [map snd]. constructor; [exact Hr|exact Hq1].
Qed.

Lemma query_forever fs ix (C : N -> Prop) : (forall i, C i -> exists l r, splits fo c (view fs ix) i l r /\ C l /\ C r) ->
  rootsN (ib ix) <> [] -> Forall C (rootsN (ib ix)) ->
  forall fuel vec n inspect bc, vlen c <= lenN vec -> lenN vec <> 0 -> (0 < the_limit ix n inspect)%Z ->
  get_nns_by_vector fo c sortIx sortPairs fuel fs ix vec n inspect bc = Er OutOfFuel.
Proof.
  intros HC Hne HR fuel vec n inspect bc Hv Hv0 Hl. unfold get_nns_by_vector. cbv zeta. unfold the_limit in Hl.
  rewrite (loop_forever _ _ C HC); [reflexivity|assumption|assumption|exact Hl| |].
  - intro X. pose proof (pushes_perm fo (rootsN (ib ix)) pq_new) as P. rewrite X in P. cbn in P. apply Permutation_nil in P. congruence.
  - rewrite (pushes_perm fo (rootsN (ib ix)) pq_new). exact HR.
Qed.
End R.
