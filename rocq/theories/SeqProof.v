(** A worker that runs alone (single-worker policy: the mutexes do nothing). *)
From Verif Require Import Base Flt Layout Rng Alloc Prog Dist Build Lib LayoutProof MemProof StoreProof MiscProof
  ConcSpec ConcProof PoolProof.
Open Scope N_scope.

(** The state without the locks. *)
Definition strip (s : bst) : bst :=
  mkB (heap s) (al s) (base s) (nn s) (ns s) (broots s) (rnd s) (owner s) None None None false [].
Definition lock_free (s : bst) : Prop :=
  l_nn s = None /\ l_roots s = None /\ l_w s = None /\ l_wh s = false /\ l_r s = [].
Lemma strip_id s : lock_free s -> strip s = s.
Proof. destruct s. intros (A & B & C & D & E). cbn in *. unfold strip. cbn. congruence. Qed.

Lemma lock_free_holds s v : lock_free s -> holds v s HFree.
Proof. intros (A & B & C & D & E). cbn. rewrite A, B, C, E. cbn. intuition congruence. Qed.

(** Running leaves the locks alone. *)
Lemma exec_lock_free c w X (e : act X) s x t : exec c w e s = Ok (x, t) -> lock_free s -> lock_free t.
Proof.
  unfold lock_free. destruct e; cbn [exec]; intro H; try (injection H as <- <-; cbn; tauto).
  - destruct (reallocate _ _ _). injection H as <- <-. cbn. tauto.
  - destruct (arena_at _ _); [|discriminate]. destruct (bread _ _ _); [|discriminate]. injection H as <- <-. tauto.
  - destruct p; [|discriminate]. destruct (nth_error _ _); [|discriminate]. destruct (bwrite _ _ _); [|discriminate].
    injection H as <- <-. cbn. tauto.
  - destruct (rnd s); [|discriminate]. destruct (kiss_next _ _). injection H as <- <-. cbn. tauto.
Qed.
Lemma run_lock_free c w A (p : prog A) : forall s a t, run c w p s = Ok (a, t) -> lock_free s -> lock_free t.
Proof.
  induction p as [a|e|X e k IH]; intros s b t H; cbn [run] in H; [congruence|discriminate|].
  destruct (exec c w e s) as [[x s']|] eqn:E; [|discriminate]. cbn [rbind] in H. intro L.
  eapply IH; [exact H|]. eapply exec_lock_free; eauto.
Qed.

Section S.
Variable fo : FOps.
Variable c : Cfg.
Hypothesis OK : CfgOK fo c.
Variable nitems : N.
Variable img : N -> list N.
Variable W : nat.
Variable bud : nat -> N.
Notation Inv := (Inv fo c nitems img W bud).
Notation wp := (wp fo c nitems img W bud).
Notation safe := (safe fo c nitems W bud).

Lemma exec_strip w X (e : act X) s x t : exec c w e s = Ok (x, t) -> exec c w e (strip s) = Ok (x, strip t).
Proof.
  destruct e; cbn [exec]; intro H; try (injection H as <- <-; reflexivity).
  - cbn [strip heap al]. destruct (reallocate _ _ _). injection H as <- <-. reflexivity.
  - cbn [strip heap]. destruct (arena_at _ _); [|discriminate]. destruct (bread _ _ _); [|discriminate]. injection H as <- <-. reflexivity.
  - cbn [strip heap]. destruct p; [|discriminate]. destruct (nth_error _ _); [|discriminate].
    destruct (bwrite _ _ _); [|discriminate]. injection H as <- <-. reflexivity.
  - cbn [strip rnd]. destruct (rnd s); [|discriminate]. destruct (kiss_next _ _). injection H as <- <-. reflexivity.
Qed.

(** The others hold nothing. *)
Definition alone (w : nat) (s : bst) : Prop := forall v, v <> w -> holds v s HFree.

Lemma alone_step w X (e : act X) s : Inv s -> safe w e s -> alone w s ->
  exists x t, mstep c w X e s x t /\ exec c w e (strip s) = Ok (x, strip t).
Proof.
  intros I S F. destruct (safe_exec fo c nitems img W bud unit (fun _ _ _ => False) (fun _ _ _ (H : False) => match H with end) w X e s I S) as (x & t & E).
  assert (Fnn : l_nn s <> Some w -> l_nn s = None).
  { destruct (l_nn s) as [v|] eqn:Ev; [|auto]. intro Hv. assert (v <> w) by congruence.
    destruct (F v ltac:(auto)) as (H1 & _). congruence. }
  assert (Frt : l_roots s <> Some w -> l_roots s = None).
  { destruct (l_roots s) as [v|] eqn:Ev; [|auto]. intro Hv. assert (v <> w) by congruence.
    destruct (F v ltac:(auto)) as (_ & _ & _ & H1). congruence. }
  assert (Flw : l_w s <> Some w -> l_w s = None).
  { destruct (l_w s) as [v|] eqn:Ev; [|auto]. intro Hv. assert (v <> w) by congruence.
    destruct (F v ltac:(auto)) as (_ & H1 & _). congruence. }
  assert (Flr : ~ In w (l_r s) -> l_r s = []).
  { destruct (l_r s) as [|v l] eqn:Ev; [auto|]. intro Hv. assert (v <> w) by (intros ->; apply Hv; left; auto).
    destruct (F v ltac:(auto)) as (_ & _ & H1 & _). rewrite Ev in H1. destruct H1. left. auto. }
  pose proof (iv_rnd _ _ _ _ _ _ _ I) as Hr.
  destruct e; cbn [ConcProof.safe holds] in S;
    try (eexists tt, _; split; [constructor; tauto|reflexivity]);
    try (eexists _, _; split; [constructor|reflexivity]).
  - exists x, t. split; [|apply exec_strip; exact E]. destruct x. now constructor.
  - exists x, t. split; [|apply exec_strip; exact E].
    assert (t = s).
    { cbn [exec] in E. destruct (arena_at _ _); [|discriminate]. destruct (bread _ _ _); [|discriminate]. cbn [rbind] in E. congruence. }
    subst t. now constructor.
  - exists x, t. split; [|apply exec_strip; exact E]. destruct x. now constructor.
  - exists x, t. split; [|apply exec_strip; exact E]. cbn [exec] in E. destruct (rnd s) as [r|] eqn:Er; [|discriminate].
    pose proof (kiss_next_lt (iw c) r) as Hl. destruct (kiss_next (iw c) r) as [d r']. injection E as <- <-.
    constructor; [exact Hl|congruence].
Qed.

Lemma run_strip A (w : nat) (Q : A -> bst -> Prop) : forall (p : prog A) s, Inv s -> alone w s -> wp w p Q s ->
  (exists a t, run c w p (strip s) = Ok (a, strip t) /\ Inv t /\ alone w t /\ Q a t) \/ run c w p (strip s) = Er Unlucky.
Proof.
  induction p as [a|e|X e k IH]; intros s I F H; cbn [run].
  - left. exists a, s. split; [reflexivity|]. split; [exact I|]. split; [exact F|]. apply H; [apply R_refl|exact I].
  - right. destruct H as [-> _]. reflexivity.
  - destruct (H s (R_refl _ _) I) as [S K]. destruct (alone_step w X e s I S F) as (x & t & M & E).
    destruct (step_ok fo c nitems img W bud _ _ _ _ _ _ I S M) as [It HR].
    rewrite E. cbn [rbind]. apply IH; [exact It| |now apply K].
    intros v Hv. apply (r_holds _ _ _ (HR v Hv)). auto.
Qed.

Lemma all_free s : Inv s -> (forall v, holds v s HFree) -> lock_free s.
Proof.
  intros I H. unfold lock_free. 
  assert (A : l_nn s = None) by (destruct (l_nn s) as [v|] eqn:E; [destruct (H v) as (X & _); congruence|reflexivity]).
  assert (B : l_roots s = None) by (destruct (l_roots s) as [v|] eqn:E; [destruct (H v) as (_ & _ & _ & X); congruence|reflexivity]).
  assert (C : l_w s = None) by (destruct (l_w s) as [v|] eqn:E; [destruct (H v) as (_ & X & _); congruence|reflexivity]).
  assert (D : l_r s = []) by (destruct (l_r s) as [|v l] eqn:E; [reflexivity|destruct (H v) as (_ & _ & X & _); rewrite E in X; destruct X; left; auto]).
  repeat split; auto. destruct (l_wh s) eqn:E; [|reflexivity]. destruct (iv_wh _ _ _ _ _ _ _ I E). congruence.
Qed.

Lemma run_wp A (w : nat) (Q : A -> bst -> Prop) (p : prog A) s : Inv s -> lock_free s -> wp w p Q s ->
  (forall a t, Q a t -> holds w t HFree) ->
  (exists a t, run c w p s = Ok (a, t) /\ lock_free t /\ Inv t /\ Q a t) \/ run c w p s = Er Unlucky.
Proof.
  intros I L H HQ. destruct (run_strip A w Q p s I) as [(a & t & E & It & F & Qt)|E]; auto.
  - intros v _. now apply lock_free_holds.
  - left. exists a, t. assert (Lt : lock_free t).
    { apply all_free; [exact It|]. intro v. destruct (Nat.eq_dec v w) as [->|Hv]; [eauto|auto]. }
    rewrite (strip_id s L), (strip_id t Lt) in E. auto.
  - right. now rewrite (strip_id s L) in E.
Qed.
End S.
