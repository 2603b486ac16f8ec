(** Proofs about goroutines that query one index. *)
From Verif Require Import Base Flt Layout Alloc Prog Sorts Dist Build Index Search Spec ForestSpec Lib SortsProof SearchProof QConc QConcSpec.
From Coq Require Import Permutation.
Open Scope N_scope.

(** ** Replacing an element *)
Lemma put_length {A} (l : list A) n x : (n < length l)%nat -> length (put l n x) = length l.
Proof. intro H. unfold put. rewrite !app_length, firstn_length_le, skipn_length by lia. cbn. lia. Qed.
Lemma put_eq {A} (l : list A) n x : (n < length l)%nat -> nth_error (put l n x) n = Some x.
Proof.
  intro H. unfold put. rewrite nth_error_app2; rewrite firstn_length_le by lia; [|lia].
  now rewrite Nat.sub_diag.
Qed.
Lemma put_ne {A} (l : list A) n m x : (n < length l)%nat -> m <> n -> nth_error (put l n x) m = nth_error l m.
Proof.
  intros H Hne. unfold put. destruct (Nat.lt_ge_cases m n).
  - rewrite nth_error_app1 by (rewrite firstn_length_le; lia).
    revert n m H Hne H0. induction l as [|a l IH]; intros [|n] [|m] H Hne H0; cbn in *; try lia; auto. apply IH; lia.
  - rewrite nth_error_app2; rewrite firstn_length_le by lia; [|lia].
    destruct (m - n)%nat as [|j] eqn:E; [lia|]. cbn [app nth_error].
    rewrite <- (firstn_skipn (S n) l) at 2. rewrite nth_error_app2; rewrite firstn_length_le by lia; [f_equal; lia|lia].
Qed.
Lemma some_lt {A} (l : list A) n x : nth_error l n = Some x -> (n < length l)%nat.
Proof. intro H. apply nth_error_Some. congruence. Qed.

Section S.
Variable fo : FOps.
Variable c : Cfg.
Variable sortIx : list N -> list N.
Variable sortPairs : list (F fo * N) -> list (F fo * N).
Notation T := (F fo).
Notation NSZ := (nodeSize fo c).
Notation K := (maxK fo c).
Notation less := (pair_less (flt fo) (feq fo)).
Notation qexec := (qexec fo sortIx sortPairs).
Notation qrun := (qrun fo sortIx sortPairs).
Notation qstep := (qstep fo sortIx sortPairs).
Notation qsteps := (qsteps fo sortIx sortPairs).
Notation qloop := (qloop fo c).
Notation qscore := (qscore fo c).
Notation qtops := (qtops fo).

(** ** Interleaving *)
Section I.
Variable v : option buf.
Context {A : Type}.
Notation pool := (list (nat * qprog T A) * list (ctx T))%type.
Notation ids := (map (@fst nat (qprog T A))).

(** Every goroutine of [s] still comes to the end it would come to from [s0]. *)
Definition on_course (s0 s : pool) : Prop :=
  ids (fst s) = ids (fst s0) /\ length (snd s) = length (snd s0) /\
  forall w k p0 b0, nth_error (fst s0) w = Some (k, p0) -> nth_error (snd s0) k = Some b0 ->
  exists p b, nth_error (fst s) w = Some (k, p) /\ nth_error (snd s) k = Some b /\
    (qrun v p b = qrun v p0 b0).

Lemma ids_nth (s : list (nat * qprog T A)) w k p : nth_error s w = Some (k, p) -> nth_error (ids s) w = Some k.
Proof. intro H. now apply (map_nth_error fst) in H. Qed.
Lemma ids_put (s : list (nat * qprog T A)) w k p p' : nth_error s w = Some (k, p) -> ids (put s w (k, p')) = ids s.
Proof.
  intro H. pose proof (some_lt _ _ _ H) as L. apply nth_error_ext. intro m. rewrite !nth_error_map.
  destruct (Nat.eq_dec m w) as [->|Hm]; [now rewrite put_eq, H|now rewrite put_ne].
Qed.

Lemma course_step s0 s s' : NoDup (ids (fst s0)) -> on_course s0 s -> qstep v s s' -> on_course s0 s'.
Proof.
  intros ND (C1 & C2 & C3) St.
  inversion St as [ps cs w k X e f bc x bc' Hw Hk He|ps cs w k X e f bc r Hw Hk He]; subst; cbn [fst snd] in *.
  - pose proof (some_lt _ _ _ Hw) as Lw. pose proof (some_lt _ _ _ Hk) as Lk.
    split; [cbn [fst]; rewrite (ids_put _ _ _ _ _ Hw); exact C1|]. split; [cbn [snd]; now rewrite put_length|]. cbn [fst snd].
    intros w' k' p0 b0 H1 H2. destruct (C3 _ _ _ _ H1 H2) as (p & b & H3 & H4 & E).
    destruct (Nat.eq_dec w' w) as [->|Hne].
    + rewrite Hw in H3. injection H3 as <- <-. rewrite Hk in H4. injection H4 as <-.
      exists (f x), bc'. rewrite !put_eq by assumption. repeat split. rewrite <- E. cbn [QConc.qrun]. now rewrite He.
    + assert (k' <> k).
      { intros ->. apply Hne. apply ids_nth in H3. apply ids_nth in Hw. rewrite C1 in *.
        apply (proj1 (NoDup_nth_error _) ND); [now apply some_lt in H3|congruence]. }
      exists p, b. rewrite !put_ne by auto. auto.
  - pose proof (some_lt _ _ _ Hw) as Lw.
    split; [cbn [fst]; rewrite (ids_put _ _ _ _ _ Hw); exact C1|]. split; [exact C2|]. cbn [fst snd].
    intros w' k' p0 b0 H1 H2. destruct (C3 _ _ _ _ H1 H2) as (p & b & H3 & H4 & E).
    destruct (Nat.eq_dec w' w) as [->|Hne].
    + rewrite Hw in H3. injection H3 as <- <-. rewrite Hk in H4. injection H4 as <-.
      exists (QFail r), bc. rewrite put_eq by assumption. repeat split; [exact Hk|]. rewrite <- E. cbn [QConc.qrun]. now rewrite He.
    + exists p, b. rewrite put_ne by auto. auto.
Qed.

Lemma course s0 s : NoDup (ids (fst s0)) -> qsteps v s0 s -> on_course s0 s.
Proof.
  intros ND St. induction St as [x|x y z St IH H].
  - split; [reflexivity|]. split; [reflexivity|]. intros w k p0 b0 H1 H2. exists p0, b0. auto.
  - exact (course_step _ _ _ ND (IH ND) H).
Qed.

(** A goroutine that has not finished can go on. *)
Lemma no_wait (s : pool) w k X (e : qact T X) f : nth_error (fst s) w = Some (k, QVis e f) ->
  (k < length (snd s))%nat -> exists s', qstep v s s'.
Proof.
  destruct s as [ps cs]. cbn [fst snd]. intros Hw Hk. apply nth_error_Some in Hk.
  destruct (nth_error cs k) as [bc|] eqn:Ek; [|easy].
  destruct (qexec v e bc) as [[x bc']|r] eqn:Ee; eexists; [eapply qs_ok|eapply qs_fail]; eauto.
Qed.

Lemma no_races (s : pool) w w' t t' : NoDup (ids (fst s)) -> w <> w' ->
  nth_error (fst s) w = Some t -> nth_error (fst s) w' = Some t' -> ~ races t t'.
Proof.
  intros ND Hne H H' R. destruct t as [k p], t' as [k' p'].
  assert (Hk : k <> k').
  { intros ->. apply Hne. apply ids_nth in H. apply ids_nth in H'.
    apply (proj1 (NoDup_nth_error _) ND); [now apply some_lt in H|congruence]. }
  unfold races in R. destruct p as [| |X e f]; [easy|easy|]. destruct p' as [| |Y d g]; [easy|easy|].
  destruct R as (a & b & u & u' & Ia & Ib & M & W).
  destruct e, d; cbn [touched In] in Ia, Ib;
    repeat match goal with
    | H : _ \/ _ |- _ => destruct H
    | H : False |- _ => destruct H
    | H : (_, _) = (_, _) |- _ => injection H as <- <-
    | H : true = _ |- _ => clear H
    end; cbn [meet] in M; try (destruct M; congruence); try easy.
Qed.
End I.

(** ** A lone goroutine computes what the functional model says *)
Lemma qrun_bind v {A B} (p : qprog T A) (f : A -> qprog T B) bc :
  qrun v (qbind p f) bc = let* (a, bc') := qrun v p bc in qrun v (f a) bc'.
Proof.
  revert bc. induction p as [a|e|X e k IH]; intro bc; cbn [qbind QConc.qrun]; [reflexivity|reflexivity|].
  destruct (qexec v e bc) as [[x bc']|r]; cbn [rbind]; [apply IH|reflexivity].
Qed.
Lemma qrun_lift v {A B} (r : res A) (f : A -> qprog T B) bc :
  qrun v (qbind (qlift r) f) bc = let* a := r in qrun v (f a) bc.
Proof. destruct r; reflexivity. Qed.
Lemma qrun_do v {X B} (e : qact T X) (f : X -> qprog T B) bc :
  qrun v (qbind (qdo e) f) bc = let* (x, bc') := qexec v e bc in qrun v (f x) bc'.
Proof. reflexivity. Qed.

Lemma qloop_run v ni vec limit : forall fuel q cnt nns ds,
  qrun v (qloop fuel ni vec limit q cnt) (mkCtx nns ds) =
  let* (cnt', nns') := search_loop fo c fuel v ni vec limit q cnt nns in Ok (cnt', mkCtx nns' ds).
Proof.
  induction fuel as [|fu IH]; intros q cnt nns ds.
  - cbn [QConc.qloop search_loop]. destruct (_ && _); reflexivity.
  - rewrite search_loop_S. cbn [QConc.qloop]. destruct (_ && _); [|reflexivity].
    destruct (pq_top q) as [[d i]|]; [|reflexivity].
    rewrite qrun_lift. destruct (pq_pop less q) as [[x q']|]; cbn [rbind]; [|reflexivity].
    rewrite qrun_do. cbn [QConc.qexec]. destruct (vread v (addr fo c i) NSZ) as [bs|]; cbn [rbind]; [|reflexivity].
    destruct ((n_desc c bs =? 1) && (i <? ni)).
    + rewrite qrun_do. cbn [QConc.qexec c_nns c_dist]. destruct (lenN nns <=? cnt); [reflexivity|].
      destruct (put_at nns cnt [i]); cbn [rbind]; [apply IH|reflexivity].
    + destruct (n_desc c bs <=? K).
      * rewrite qrun_do. cbn [QConc.qexec c_nns c_dist].
        destruct (put_at nns _ _); cbn [rbind]; [apply IH|reflexivity].
      * rewrite qrun_lift. destruct (margin fo c _ _); cbn [rbind]; [apply IH|reflexivity].
Qed.

Lemma qscore_run v qn nns : forall l i last cnt ds,
  (forall k, (k < length l)%nat -> nth_error nns (N.to_nat i + k) = nth_error l k) ->
  cnt + lenN l <= lenN ds ->
  qrun v (qscore (length l) i qn last cnt) (mkCtx nns ds) =
  let* sc := score fo c v qn last l in
  Ok (cnt + lenN sc, mkCtx nns (firstn (N.to_nat cnt) ds ++ sc ++ skipn (N.to_nat (cnt + lenN sc)) ds)).
Proof.
  induction l as [|j l IH]; intros i last cnt ds Hn Hl.
  - cbn [length QConc.qscore QConc.qrun score rbind]. unfold lenN. cbn [length app]. rewrite N.add_0_r. now rewrite firstn_skipn.
  - cbn [length QConc.qscore score]. rewrite qrun_do. cbn [QConc.qexec c_nns].
    pose proof (Hn O ltac:(cbn; lia)) as H0. rewrite Nat.add_0_r in H0. rewrite H0. cbn [nth_error rbind].
    assert (Hn' : forall k, (k < length l)%nat -> nth_error nns (N.to_nat (i + 1) + k) = nth_error l k).
    { intros k Hk. replace (N.to_nat (i + 1) + k)%nat with (N.to_nat i + S k)%nat by lia.
      rewrite Hn by (cbn; lia). reflexivity. }
    rewrite lenN_cons in Hl.
    destruct (match last with Some x => j =? x | None => false end); [apply IH; [exact Hn'|lia]|].
    rewrite qrun_do. cbn [QConc.qexec]. destruct (vread v (addr fo c j) NSZ) as [bs|]; cbn [rbind]; [|reflexivity].
    destruct (n_desc c bs =? 1).
    + rewrite qrun_do. cbn [QConc.qexec c_nns c_dist]. replace (lenN ds <=? cnt) with false by lia. cbn [rbind].
      set (p := (distance fo qn (snode_of fo c bs), j)).
      set (ds' := firstn (N.to_nat cnt) ds ++ [p] ++ skipn (S (N.to_nat cnt)) ds).
      assert (Hc : (N.to_nat cnt < length ds)%nat) by (unfold lenN in Hl; lia).
      assert (Ld : length ds' = length ds) by (apply put_length; lia).
      rewrite IH; [|exact Hn'|unfold lenN in *; lia].
      destruct (score fo c v qn (Some j) l) as [sc|]; cbn [rbind]; [|reflexivity].
      rewrite lenN_cons. f_equal. f_equal; [lia|]. f_equal.
      replace (N.to_nat (cnt + 1 + lenN sc)) with (N.to_nat cnt + 1 + length sc)%nat by (unfold lenN; lia).
      replace (N.to_nat (cnt + (lenN sc + 1))) with (N.to_nat cnt + 1 + length sc)%nat by (unfold lenN; lia).
      assert (X1 : firstn (N.to_nat (cnt + 1)) ds' = firstn (N.to_nat cnt) ds ++ [p]).
      { replace (N.to_nat (cnt + 1)) with (length (firstn (N.to_nat cnt) ds ++ [p]) + 0)%nat
          by (rewrite app_length, firstn_length_le by lia; cbn; lia).
        unfold ds'. rewrite app_assoc, firstn_app_2. cbn [firstn]. now rewrite app_nil_r. }
      assert (X2 : skipn (N.to_nat cnt + 1 + length sc) ds' = skipn (N.to_nat cnt + 1 + length sc) ds).
      { unfold ds'. rewrite app_assoc, skipn_app, (skipn_all2 (firstn _ _ ++ _))
          by (rewrite app_length, firstn_length_le by lia; cbn; lia).
        rewrite app_length, firstn_length_le by lia. cbn [length app]. apply nth_error_ext. intro m. rewrite !nth_error_skipn. f_equal. lia. }
      rewrite X1, X2, <- app_assoc. reflexivity.
    + rewrite IH; [|exact Hn'|lia]. destruct (score fo c v qn (Some j) l) as [sc|]; reflexivity.
Qed.

Lemma score_length v qn : forall l last sc, score fo c v qn last l = Ok sc -> (length sc <= length l)%nat.
Proof.
  induction l as [|j l IH]; intros last sc E; cbn [score] in E; [injection E as <-; cbn; lia|].
  destruct (match last with Some x => j =? x | None => false end); [apply IH in E; cbn [length]; lia|].
  destruct (vread v (addr fo c j) NSZ) as [bs|]; [|discriminate]. cbn [rbind] in E.
  destruct (score fo c v qn (Some j) l) as [rest|] eqn:Er; [|discriminate]. cbn [rbind] in E. apply IH in Er.
  destruct (n_desc c bs =? 1); injection E as <-; cbn [length]; lia.
Qed.

Lemma qtops_run v nns ds : forall k i, (N.to_nat i + k <= length ds)%nat ->
  qrun v (qtops k i) (mkCtx nns ds) = Ok (firstn k (skipn (N.to_nat i) ds), mkCtx nns ds).
Proof.
  induction k as [|k IH]; intros i H; [reflexivity|]. cbn [QConc.qtops]. rewrite qrun_do. cbn [QConc.qexec c_dist].
  destruct (nth_error ds (N.to_nat i)) as [p|] eqn:E; [|apply nth_error_None in E; lia]. cbn [rbind].
  rewrite qrun_bind, IH by lia. cbn [rbind QConc.qrun]. f_equal. f_equal.
  replace (N.to_nat (i + 1)) with (S (N.to_nat i)) by lia.
  clear IH H. revert E. generalize (N.to_nat i) as m. intro m. revert ds. induction m as [|m IHm]; intros [|x ds] E; try discriminate.
  - injection E as ->. reflexivity.
  - cbn [skipn]. apply IHm. exact E.
Qed.

Hypothesis HI : sort_slice N.ltb sortIx.
Hypothesis HP : sort_slice less sortPairs.

Lemma qvector_run fuel fs ix vec n k bc : length (c_dist bc) = length (c_nns bc) ->
  qrun (view fs ix) (qvector fo c fuel (rootsN (ib ix)) (n_items ix) vec n k) bc =
  get_nns_by_vector fo c sortIx sortPairs fuel fs ix vec n k bc.
Proof.
  intro Hl. destruct bc as [nns ds]. cbn [c_nns c_dist] in Hl. unfold qvector, get_nns_by_vector. cbn [c_nns c_dist].
  rewrite qrun_bind, qloop_run. destruct (search_loop _ _ _ _ _ _ _ _ _ _) as [[cnt nns1]|] eqn:El; cbn [rbind]; [|reflexivity].
  assert (Hn1 : length nns1 = length nns) by (exact (proj2 (loop_mono fo c _ _ _ _ _ _ _ _ _ _ El))).
  rewrite qrun_do. cbn [QConc.qexec c_nns c_dist]. destruct (N.ltb_spec (lenN nns1) cnt) as [|Hc]; [reflexivity|]. cbn [rbind].
  rewrite qrun_lift. destruct (query_node fo c vec) as [qn|]; cbn [rbind]; [|reflexivity].
  set (cand := sortIx (firstn (N.to_nat cnt) nns1)).
  assert (Lc : length cand = N.to_nat cnt).
  { unfold cand. rewrite (Permutation_length (proj1 HI (firstn (N.to_nat cnt) nns1))). rewrite firstn_length_le by (unfold lenN in Hc; lia). reflexivity. }
  rewrite qrun_bind. rewrite <- Lc at 1. rewrite qscore_run;
    [|intros j Hj; cbn; rewrite nth_error_app1 by lia; reflexivity|unfold lenN in *; lia].
  destruct (score fo c _ qn None cand) as [sc|] eqn:Es; cbn [rbind]; [|reflexivity].
  assert (Ls : (length sc <= length cand)%nat) by (eapply score_length; exact Es).
  replace (lenN ds <? lenN sc) with false by (unfold lenN in *; lia).
  rewrite N.add_0_l. cbn [N.to_nat firstn app]. rewrite qrun_do. cbn [QConc.qexec c_dist c_nns].
  replace (Z.of_N (lenN sc)) with (Z.of_nat (length sc)) by (unfold lenN; lia). rewrite Nat2Z.id.
  replace (N.to_nat (lenN sc)) with (length sc) by (unfold lenN; lia).
  rewrite firstn_app, firstn_all, Nat.sub_diag. cbn [firstn]. rewrite app_nil_r.
  destruct (partial_sort _ _ _ _ _ _) as [s|] eqn:Ep; cbn [rbind]; [|reflexivity].
  assert (Lp : length s = length sc) by (exact (Permutation_length (partial_sort_perm fo sortPairs HP _ _ _ Ep))).
  rewrite skipn_app, skipn_all, Nat.sub_diag. cbn [skipn app].
  rewrite qrun_bind, qtops_run by (rewrite app_length; cbn; lia). cbn [rbind QConc.qrun N.to_nat skipn].
  rewrite firstn_app. replace (Z.to_nat _ - length s)%nat with O by lia. cbn [firstn]. rewrite app_nil_r. reflexivity.
Qed.

Lemma qcode_run fuel fs ix q bc : length (c_dist bc) = length (c_nns bc) ->
  (let* (r, _) := qrun (view fs ix) (qcode fo c fuel (rootsN (ib ix)) (n_items ix) q) bc in Ok r) =
  sole_answer fo c sortIx sortPairs fuel fs ix q bc.
Proof.
  intro Hl. destruct q as [vec n k|i n k|i j|i]; cbn [qcode sole_answer].
  - now rewrite qvector_run.
  - unfold get_nns_by_item, get_item. rewrite qrun_bind. unfold qitem. rewrite qrun_do. cbn [QConc.qexec].
    destruct (vread _ _ _) as [bs|]; cbn [rbind QConc.qrun]; [now rewrite qvector_run|reflexivity].
  - unfold get_distance, node_fields. rewrite qrun_do. cbn [QConc.qexec]. destruct (vread _ _ _) as [x|]; cbn [rbind]; [|reflexivity].
    rewrite qrun_do. cbn [QConc.qexec]. destruct (vread _ _ _) as [y|]; reflexivity.
  - unfold get_item. rewrite qrun_bind. unfold qitem. rewrite qrun_do. cbn [QConc.qexec].
    destruct (vread _ _ _) as [bs|]; reflexivity.
Qed.
End S.

(** ** Every schedule ends *)
Section E.
Context {T A : Type}.
Definition next (t' t : nat * qprog T A) : Prop :=
  match snd t with
  | QVis e f => (exists x, snd t' = f x) \/ exists r, snd t' = QFail r
  | _ => False
  end.
Inductive moved : list (nat * qprog T A) -> list (nat * qprog T A) -> Prop :=
| mv_here t' t l : next t' t -> moved (t' :: l) (t :: l)
| mv_later t l' l : moved l' l -> moved (t :: l') (t :: l).

Lemma next_wf t : Acc next t.
Proof.
  destruct t as [k p]. revert k. induction p as [a|e|X e f IH]; intro k; constructor; intros [k' p'] H; cbn in H; [easy|easy|].
  destruct H as [[x ->]|[r ->]]; [apply IH|]. constructor. intros t H. destruct H.
Qed.
Lemma moved_wf l : Acc moved l.
Proof.
  induction l as [|t l IH]; [constructor; intros l' H; inversion H|].
  revert t. induction IH as [l Hl IHl]. intro t. induction (next_wf t) as [t Ht IHt].
  constructor. intros y H. inversion H as [t' t0 l0 N|t0 l' l0 M]; subst; [now apply IHt|now apply IHl].
Qed.
Lemma put_moved : forall (l : list (nat * qprog T A)) w t t', nth_error l w = Some t -> next t' t -> moved (put l w t') l.
Proof.
  induction l as [|x l IH]; intros [|w] t t' H N; try discriminate.
  - injection H as ->. now constructor.
  - cbn in *. apply mv_later. exact (IH w t t' H N).
Qed.
End E.

Lemma schedules_end fo sortIx sortPairs v {A} (s : list (nat * qprog (F fo) A) * list (ctx (F fo))) :
  Acc (fun y x => qstep fo sortIx sortPairs v x y) s.
Proof.
  destruct s as [ps cs]. revert cs. induction (moved_wf ps) as [ps Hps IH]. intro cs. constructor. intros [ps' cs'] St. 
  inversion St as [ps0 cs0 w k X e f bc x bc' Hw Hk He|ps0 cs0 w k X e f bc r Hw Hk He]; subst; apply IH;
    (eapply put_moved; [exact Hw|]); cbn; eauto.
Qed.
