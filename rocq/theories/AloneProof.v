(** One worker of the multi-worker policy does what the single-worker policy does. *)
From Verif Require Import Base Flt Layout Rng Alloc Prog Dist Build Policy Index Exact Spec ForestSpec BuildSpec Lib LayoutProof MemProof StoreProof MiscProof
  ConcSpec ConcProof PolicyProof TreeProof PoolProof SeqProof BuildProof TopProof ForestProof SchedProof.
Open Scope N_scope.

Section X.
Variable c : Cfg.
Lemma xpool_pool A (x y : list (prog A) * bst) : xpool_steps c x y -> pool_steps c x y.
Proof.
  induction 1 as [x|ps s w X e k x s' z Hn M _ _ IH]; [constructor|].
  eapply steps_trans; [|exact IH]. eapply pss_step; [apply pss_refl|]. econstructor; eauto.
Qed.

(** The sequential execution of one exact step. *)
Lemma exact_exec w X (e : act X) s x t : mstep c w X e s x t -> exact_draw c w e s x t -> exec c w e (strip s) = Ok (x, strip t).
Proof.
  intros M D. destruct M; try reflexivity; try (apply exec_strip; assumption).
Qed.

Lemma alone_run A (p : prog A) s y : xpool_steps c ([p], s) y -> exists p' t, y = ([p'], t) /\ run c 0 p (strip s) = run c 0 p' (strip t).
Proof.
  intro H. remember ([p], s) as x0 eqn:E. revert p s E.
  induction H as [x|ps s w X e k x s' z Hn M D _ IH]; intros p s0 E.
  - exists p, s0. split; [exact E|reflexivity].
  - injection E as -> ->. destruct w as [|w]; [|destruct w; discriminate]. cbn in Hn. injection Hn as ->.
    destruct (IH (k x) s' eq_refl) as (p' & t & E1 & E2). exists p', t. split; [exact E1|].
    cbn [run]. rewrite (exact_exec _ _ _ _ _ _ M D). exact E2.
Qed.
End X.

Section S.
Variable fo : FOps.
Variable c : Cfg.
Hypothesis OK : CfgOK fo c.
Variable nitems : N.
Variable img : N -> list N.
Variable W : nat.
Variable bud : nat -> N.
Notation Inv := (Inv fo c nitems img W bud).
Notation wp := (wp fo c nitems img W bud).

Lemma run_path A (Q : A -> bst -> Prop) : forall (p : prog A) s a t', Inv s -> alone 0 s -> wp 0 p Q s ->
  run c 0 p (strip s) = Ok (a, t') -> exists t, xpool_steps c ([p], s) ([Ret a], t) /\ strip t = t'.
Proof.
  induction p as [a0|e|X e k IH]; intros s a t' I F H E; cbn [run] in E.
  - injection E as -> <-. exists s. split; [constructor|reflexivity].
  - discriminate.
  - destruct (H s (R_refl _ _) I) as [S0 K0]. destruct (alone_step fo c nitems img W bud 0 X e s I S0 F) as (x & t & M & E1).
    destruct (step_ok fo c nitems img W bud _ _ _ _ _ _ I S0 M) as [It HR].
    rewrite E1 in E. cbn [rbind] in E.
    destruct (IH x t a t' It) as (t2 & P & Et).
    + intros v Hv. apply (r_holds _ _ _ (HR v Hv)). auto.
    + now apply K0.
    + exact E.
    + exists t2. split; [|exact Et]. eapply (xs_step c [Vis e k] s 0 X e k x t); [reflexivity|exact M| |exact P].
      clear - M E1. destruct M; try exact I. cbn [exact_draw]. cbn [exec strip rnd] in *. destruct (rnd s); [|discriminate].
      destruct (kiss_next _ _) as [d0 r0]. injection E1 as -> E2. congruence.
Qed.
End S.

Section B.
Variable fo : FOps.
Variable c : Cfg.
Hypothesis OK : CfgOK fo c.
Notation simg := (snode_img fo c).

Lemma one_worker_plan T : (-1 <= T)%Z -> (T + 1 < 2 ^ 53)%Z -> trees_for_worker T 1 0 = T.
Proof.
  intros H1 H2. destruct (Z.eq_dec T (-1)) as [->|H]; [reflexivity|].
  rewrite trees_for_worker_eq by lia. cbn. rewrite Z.add_0_r. apply Z.div_1_r.
Qed.

Lemma one_worker_exact h ix T fuel mfuel rfuel nworkers ncpu : build_call fo c h ix T 1 fuel mfuel -> worker_count nworkers ncpu = Ok 1%nat ->
  forall ix', build_multi_exact fo c fuel mfuel rfuel ix T nworkers ncpu ix' <-> build_single fo c fuel mfuel rfuel ix T = Ok ix'.
Proof.
  intros [Hv Hh (r & hint & Ea) HT _ Hb Hc Hf] Hw ix'.
  destruct (start fo c OK (Some r) hint h ix Hh Ea) as (s0 & E0 & I & Hn & Hr & ST).
  assert (Hrn : rnd (ib ix) <> None) by congruence.
  assert (Hp : map (trees_for_worker T 1) (seq 0 1) = [T]) by (cbn [seq map]; now rewrite one_worker_plan).
  assert (Hwk : workers fo c fuel mfuel rfuel (n_items ix) (rnd s0) [T] = [thread_build fo c (n_items ix) fuel mfuel rfuel T 0]).
  { unfold workers. cbn [length seq combine map fst snd]. now rewrite (st_rnd _ _ _ _ _ ST), Hr. }
  assert (Hplan : work_plan T nworkers ncpu = Ok [T]).
  { unfold work_plan. rewrite Hw. cbn [rbind]. now rewrite Hp. }
  change (N.of_nat 1) with 1 in Hc.
  assert (Hcap : cap_ok fo c (n_items ix + plan_need ix [T])).
  { rewrite plan_need_single by assumption. eapply cap_ok_mono; [|exact Hc]. lia. }
  assert (Hfu : fuel_ok ix [T] fuel mfuel).
  { destruct Hf as (F1 & F2 & F3). split; [lia|]. split; [lia|]. constructor; [lia|constructor]. }
  unfold build_single. rewrite E0. cbn [rbind]. rewrite (st_rnd _ _ _ _ _ ST), Hr. split.
  - intros (plan & s0' & ps & s1 & B1 & B2 & B3 & B4 & B5).
    rewrite E0 in B1. injection B1 as <-. rewrite Hplan in B2. injection B2 as <-.
    pose proof (xpool_pool c _ _ _ B3) as B3'.
    assert (G : grown fo c ix s0 [T] s1) by (eapply grown_multi; eauto; apply (ii_last _ _ _ _ I)).
    rewrite Hwk in B3. destruct (alone_run c _ _ _ _ B3) as (p' & t & Et & Er). injection Et as -> <-.
    cbn [map] in B4. injection B4 as ->. cbn [run] in Er.
    rewrite (strip_id s0 (st_free _ _ _ _ _ ST)), (strip_id s1 (gr_free _ _ _ _ _ _ G)) in Er. rewrite Er. exact B5.
  - intro E. destruct (run c 0 _ s0) as [[[] s1]|] eqn:Er; [|discriminate]. cbn [rbind] in E.
    assert (Hwp : wp fo c (n_items ix) (simg s0) 1 (bud_of ix [T]) 0 (thread_build fo c (n_items ix) fuel mfuel rfuel T 0)
      (fun _ t => thread_post fo c (n_items ix) (simg s0) 0 T t) s0).
    { apply (worker_wp fo c OK ix (last_added h) s0 ST Hrn (ii_last _ _ _ _ I) Hv [T] Hcap fuel mfuel rfuel 0 Hfu). cbn. lia. }
    destruct (run_path fo c (n_items ix) (simg s0) 1 (bud_of ix [T]) unit _ _ s0 tt s1
                (st_inv _ _ _ _ _ ST _ _ Hrn) (fun v _ => lock_free_holds s0 v (st_free _ _ _ _ _ ST)) Hwp) as (t & P & Et).
    { rewrite (strip_id s0 (st_free _ _ _ _ _ ST)). exact Er. }
    assert (Lt : lock_free t).
    { assert (G : grown fo c ix s0 [T] t).
      { eapply grown_multi with (ps := [Ret tt]); eauto; try apply (ii_last _ _ _ _ I); try reflexivity.
        rewrite Hwk. apply xpool_pool. exact P. }
      apply G. }
    rewrite (strip_id t Lt) in Et. subst t.
    exists [T], s0, [Ret tt], s1. split; [exact E0|]. split; [exact Hplan|]. split; [rewrite Hwk; exact P|]. split; [reflexivity|exact E].
Qed.
End B.
