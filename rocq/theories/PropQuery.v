(** Queries from several goroutines (C88).  The calls are GetNnsByVector, GetNnsByItem,
    GetDistance and GetItem, in any number and mixture, on any index, built, loaded or
    mapped, that nobody changes meanwhile. *)
From Verif Require Import Base Flt Layout Rng Sorts Alloc Prog Dist Build Policy Index Search Spec ForestSpec Lib SortsProof SearchProof QueryProof Concrete QConc QConcSpec QConcProof PropSearch.
From Coq Require Import Permutation.
Open Scope N_scope.

Section C.
Variable fo : FOps.
Variable c : Cfg.
(** The goroutines as they start: each is about to make its call with its context. *)
Definition started (fuel : nat) (ix : idx) (calls : list (nat * qcall fo)) : list (nat * qprog (F fo) (list N * list (F fo))) :=
  map (fun kq => (fst kq, qcode fo c fuel (rootsN (ib ix)) (n_items ix) (snd kq))) calls.
Lemma started_ids fuel ix calls : map fst (started fuel ix calls) = map fst calls.
Proof. unfold started. rewrite map_map. apply map_ext. now intros []. Qed.
Lemma started_nth fuel ix calls w : nth_error (started fuel ix calls) w =
  option_map (fun kq => (fst kq, qcode fo c fuel (rootsN (ib ix)) (n_items ix) (snd kq))) (nth_error calls w).
Proof. apply nth_error_map. Qed.
End C.

(** Goroutines that use contexts of their own do not notice each other: however their
    accesses interleave, each ends with the answer (or failure) it would have had alone,
    none ever has to wait, and no two of them race. *)
Theorem C88_queries_do_not_interfere :
  forall fo c sortIx sortPairs, sort_slice N.ltb sortIx -> sort_slice (pair_less (flt fo) (feq fo)) sortPairs ->
  forall fuel fs ix (calls : list (nat * qcall fo)) (cs : list (ctx (F fo))),
  NoDup (map fst calls) ->
  (forall k q, In (k, q) calls -> exists bc, nth_error cs k = Some bc /\ length (c_dist bc) = length (c_nns bc)) ->
  forall ps cs', qsteps fo sortIx sortPairs (view fs ix) (started fo c fuel ix calls, cs) (ps, cs') ->
  length ps = length calls /\
  (forall w k q bc, nth_error calls w = Some (k, q) -> nth_error cs k = Some bc ->
   exists p, nth_error ps w = Some (k, p) /\
     (forall r, ended p r -> r = sole_answer fo c sortIx sortPairs fuel fs ix q bc) /\
     ((forall r, ~ ended p r) -> exists s, qstep fo sortIx sortPairs (view fs ix) (ps, cs') s)) /\
  (forall w w' t t', w <> w' -> nth_error ps w = Some t -> nth_error ps w' = Some t' -> ~ races t t').
Proof.
  intros fo c sortIx sortPairs HI HP fuel fs ix calls cs ND HC ps cs' St.
  assert (ND' : NoDup (map fst (fst (started fo c fuel ix calls, cs)))) by (cbn [fst]; now rewrite started_ids).
  destruct (course fo sortIx sortPairs (view fs ix) _ _ ND' St) as (C1 & C2 & C3). cbn [fst snd] in *.
  split; [|split].
  - apply (f_equal (@length nat)) in C1. rewrite started_ids, !map_length in C1. exact C1.
  - intros w k q bc Hw Hk. pose proof (started_nth fo c fuel ix calls w) as Hs. rewrite Hw in Hs. cbn [option_map fst snd] in Hs.
    destruct (C3 _ _ _ _ Hs Hk) as (p & b & H1 & H2 & E). exists p. split; [exact H1|]. split.
    + intros r ->. destruct (HC k q) as (bc' & Hk' & Hl); [eapply nth_error_In; exact Hw|].
      rewrite Hk in Hk'. injection Hk' as <-. rewrite <- (qcode_run fo c sortIx sortPairs HI HP fuel fs ix q bc Hl), <- E.
      destruct r; reflexivity.
    + intro Hn. destruct p as [a|e|X e f]; [now destruct (Hn (Ok a))|now destruct (Hn (Er e))|].
      apply (no_wait fo sortIx sortPairs (view fs ix) (ps, cs') w k X e f H1). cbn [snd]. rewrite C2. now apply some_lt in Hk.
  - intros w w' t t' Hne H H'. apply (no_races fo (ps, cs') w w' t t'); auto. cbn [fst]. rewrite C1. exact ND'.
Qed.

(** No schedule goes on for ever: with the theorem above, every goroutine ends. *)
Theorem C88_every_schedule_ends :
  forall fo sortIx sortPairs v A (s : list (nat * qprog (F fo) A) * list (ctx (F fo))),
  Acc (fun y x => qstep fo sortIx sortPairs v x y) s.
Proof. intros fo sortIx sortPairs v A s. apply schedules_end. Qed.

(** Schedules given as lists of goroutine numbers. *)
Lemma turn_steps fo sortIx sortPairs v {A} (s0 s : list (nat * qprog (F fo) A) * list (ctx (F fo))) w :
  qsteps fo sortIx sortPairs v s0 s -> qsteps fo sortIx sortPairs v s0 (qturn fo sortIx sortPairs v s w).
Proof.
  intro H. unfold qturn. destruct s as [ps cs]. destruct (nth_error ps w) as [[k p]|] eqn:Ew; [|exact H].
  destruct p as [| |X e f]; [exact H|exact H|]. destruct (nth_error cs k) as [bc|] eqn:Ek; [|exact H].
  destruct (qexec fo sortIx sortPairs v e bc) as [[x bc']|r] eqn:Ee;
    (eapply qss_step; [exact H|]); [eapply qs_ok|eapply qs_fail]; eauto.
Qed.
Lemma turns_steps fo sortIx sortPairs v {A} sched : forall s0 s : list (nat * qprog (F fo) A) * list (ctx (F fo)),
  qsteps fo sortIx sortPairs v s0 s -> qsteps fo sortIx sortPairs v s0 (fold_left (qturn fo sortIx sortPairs v) sched s).
Proof. induction sched as [|w l IH]; intros s0 s H; [exact H|]. cbn [fold_left]. apply IH. now apply turn_steps. Qed.

(** The index of the examples (20 items, two trees), two different query vectors, and
    contexts the index makes. *)
Definition ex_v0 : list (F fops32) := exq_vec.
Definition ex_v1 : list (F fops32) := pad 16 [-5; 3; 1]%Z.
Definition ex_calls (a b : nat) : list (nat * qcall fops32) := [(a, ByVector fops32 ex_v0 3 20); (b, ByVector fops32 ex_v1 3 20)].
Definition ex_pool (a b : nat) := started fops32 (cA 16) 100 exq_ix (ex_calls a b).
Definition ex_ctx : ctx (F fops32) := create_context fops32 exq_ix.
Definition ex_turns (sched : list nat) (s : list (nat * qprog (F fops32) (list N * list (F fops32))) * list (ctx (F fops32))) := fold_left (qturn fops32 isortN isortP (view no_files exq_ix)) sched s.
Definition shown {A} (s : list (nat * qprog (F fops32) (list N * list (F fops32))) * A) (w : nat) : option (list N * list N) :=
  match nth_error (fst s) w with Some (_, QRet (ids, ds)) => Some (ids, bits ds) | _ => None end.

Lemma ex_steps sched s : qsteps fops32 isortN isortP (view no_files exq_ix) s (ex_turns sched s).
Proof. apply turns_steps. apply qss_refl. Qed.
Lemma shown_ended {A} (s : list (nat * qprog (F fops32) (list N * list (F fops32))) * A) w r : shown s w = Some r ->
  exists k ids ds, nth_error (fst s) w = Some (k, QRet (ids, ds)) /\ (ids, bits ds) = r.
Proof.
  unfold shown. destruct (nth_error (fst s) w) as [[k [[ids ds]|e|X e f]]|]; try discriminate. intros [= <-]. eauto.
Qed.

(** Alone, the first query finds items 9, 12, 10 and the second items 1, 0, 3. *)
Definition plain (r : res (list N * list (F fops32))) : res (list N * list N) := let* (ids, ds) := r in Ok (ids, bits ds).
Lemma ex_alone :
  plain (sole_answer fops32 (cA 16) isortN isortP 100 no_files exq_ix (ByVector fops32 ex_v0 3 20) ex_ctx) =
    Ok ([9; 12; 10], [1039756778; 1057153137; 1057620014]) /\
  plain (sole_answer fops32 (cA 16) isortN isortP 100 no_files exq_ix (ByVector fops32 ex_v1 3 20) ex_ctx) =
    Ok ([1; 0; 3], [1033996218; 1046325083; 1047383215]).
Proof. vm_compute. repeat split. Qed.

(** With a context each, taking turns, that is what they return: the hypotheses of the
    theorem hold and both goroutines end. *)
Definition taking_turns : list nat := flat_map (fun _ => [0; 1; 1; 0])%nat (seq 0 40).
Example C88_example :
  NoDup (map fst (ex_calls 0 1)) /\
  (forall k q, In (k, q) (ex_calls 0 1) ->
   exists bc, nth_error [ex_ctx; ex_ctx] k = Some bc /\ length (c_dist bc) = length (c_nns bc)) /\
  exists ps cs, qsteps fops32 isortN isortP (view no_files exq_ix) (ex_pool 0 1, [ex_ctx; ex_ctx]) (ps, cs) /\
    shown (ps, cs) 0 = Some ([9; 12; 10], [1039756778; 1057153137; 1057620014]) /\
    shown (ps, cs) 1 = Some ([1; 0; 3], [1033996218; 1046325083; 1047383215]).
Proof.
  split; [|split].
  - repeat constructor; cbn; intuition congruence.
  - intros k q [[= <- <-]|[[= <- <-]|[]]]; exists ex_ctx; split; reflexivity.
  - pose proof (ex_steps taking_turns (ex_pool 0 1, [ex_ctx; ex_ctx])) as H.
    assert (E : shown (ex_turns taking_turns (ex_pool 0 1, [ex_ctx; ex_ctx])) 0 = Some ([9; 12; 10], [1039756778; 1057153137; 1057620014]) /\
      shown (ex_turns taking_turns (ex_pool 0 1, [ex_ctx; ex_ctx])) 1 = Some ([1; 0; 3], [1033996218; 1046325083; 1047383215]))
      by (vm_compute; repeat split).
    destruct (ex_turns taking_turns (ex_pool 0 1, [ex_ctx; ex_ctx])) as [ps cs]. exists ps, cs. now split.
Qed.

(** Two goroutines that share one context: the first one returns, as neighbours of its
    own vector, the neighbours and distances of the other goroutine's vector. *)
Definition bad_turns : list nat := repeat 0%nat 40 ++ repeat 1%nat 80 ++ repeat 0%nat 80.
Theorem C88_shared_context_mixes_answers :
  exists ps cs k ids ds,
  qsteps fops32 isortN isortP (view no_files exq_ix) (started fops32 (cA 16) 100 exq_ix (ex_calls 0 0), [ex_ctx]) (ps, cs) /\
  nth_error ps 0 = Some (k, QRet (ids, ds)) /\
  plain (Ok (ids, ds)) =
    plain (sole_answer fops32 (cA 16) isortN isortP 100 no_files exq_ix (ByVector fops32 ex_v1 3 20) ex_ctx) /\
  plain (Ok (ids, ds)) <>
    plain (sole_answer fops32 (cA 16) isortN isortP 100 no_files exq_ix (ByVector fops32 ex_v0 3 20) ex_ctx).
Proof.
  pose proof (ex_steps bad_turns (ex_pool 0 0, [ex_ctx])) as H.
  assert (E : shown (ex_turns bad_turns (ex_pool 0 0, [ex_ctx])) 0 = Some ([1; 0; 3], [1033996218; 1046325083; 1047383215]))
    by (vm_compute; reflexivity).
  destruct (ex_turns bad_turns (ex_pool 0 0, [ex_ctx])) as [ps cs].
  destruct (shown_ended _ _ _ E) as (k & ids & ds & H1 & H2). exists ps, cs, k, ids, ds.
  split; [exact H|]. split; [exact H1|]. destruct ex_alone as [E0 E1]. rewrite E0, E1. cbn [plain rbind]. rewrite H2.
  split; [reflexivity|discriminate].
Qed.

Print Assumptions C88_queries_do_not_interfere.
Print Assumptions C88_every_schedule_ends.
Print Assumptions C88_shared_context_mixes_answers.
