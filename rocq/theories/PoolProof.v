(** All workers together, and a worker alone. *)
From Verif Require Import Base Flt Layout Rng Alloc Prog Dist Build Lib LayoutProof MemProof StoreProof ConcSpec ConcProof.
From Coq Require Import Permutation.
Open Scope N_scope.

Section P.
Variable fo : FOps.
Variable c : Cfg.
Hypothesis OK : CfgOK fo c.
Variable nitems : N.
Variable img : N -> list N.
Variable W : nat.
Variable bud : nat -> N.
Notation Inv := (Inv fo c nitems img W bud).
Notation wp := (wp fo c nitems img W bud).
Notation safe := (safe fo c nitems W bud).
Notation NSZ := (nodeSize fo c).
Variable A : Type.
Variable Q : nat -> A -> bst -> Prop.
Hypothesis Qfree : forall v a t, Q v a t -> holds v t HFree.

Record pool (ps : list (prog A)) (s : bst) : Prop := mkPool {
  pl_len : length ps = W;
  pl_inv : Inv s;
  pl_wp : forall v p, nth_error ps v = Some p -> wp v p (Q v) s;
  pl_out : forall v, (W <= v)%nat -> holds v s HFree
}.

Lemma pool_step_inv (ps : list (prog A)) s y : pool_step c (ps, s) y -> exists w X (e : act X) k x s',
  nth_error ps w = Some (Vis e k) /\ mstep c w X e s x s' /\ y = (firstn w ps ++ [k x] ++ skipn (S w) ps, s').
Proof. intro H. inversion H; subst. eauto 10. Qed.
Lemma pool_step_ok ps s ps' s' : pool ps s -> pool_step c (ps, s) (ps', s') -> pool ps' s'.
Proof.
  intros [L I Wp O] H. destruct (pool_step_inv _ _ _ H) as (w & X & e & k & x & s1 & Hw & M & E). 
  assert (E1 : ps' = firstn w ps ++ [k x] ++ skipn (S w) ps) by congruence. assert (E2 : s' = s1) by congruence. cbn [app] in E1. clear E H. subst s1 ps'.
  destruct (Wp w _ Hw s (R_refl _ _) I) as [S N].
  destruct (step_ok fo c nitems img W bud _ _ _ _ _ _ I S M) as [I' HR].
  assert (Lw : (w < length ps)%nat) by (apply nth_error_Some; congruence).
  constructor.
  - rewrite (length_update ps w (Vis e k)) by exact Hw. exact L.
  - exact I'.
  - intros v p Hv. destruct (Nat.eq_dec v w) as [->|Hne].
    + rewrite (nth_error_update_eq _ _ (Vis e k)) in Hv by exact Hw. injection Hv as <-. apply N. exact M.
    + rewrite (nth_error_update_neq _ _ (Vis e k)) in Hv by auto. eapply wp_R; [apply HR; exact Hne|]. auto.
  - intros v Hv. apply (r_holds _ _ _ (HR v ltac:(lia))). auto.
Qed.
Lemma pool_steps_ok ps s ps' s' : pool ps s -> pool_steps c (ps, s) (ps', s') -> pool ps' s'.
Proof.
  intros H HS. remember (ps, s) as x eqn:Ex. remember (ps', s') as y eqn:Ey. revert ps' s' Ey.
  induction HS as [x|x y z H1 IH H2]; intros ps' s' Ey; subst.
  - injection Ey as <- <-. exact H.
  - destruct y as [ps1 s1]. eapply pool_step_ok; [apply IH; reflexivity|exact H2].
Qed.

Lemma pool_safe ps s v X (e : act X) k : pool ps s -> nth_error ps v = Some (Vis e k) -> safe v e s.
Proof. intros P H. apply (pl_wp _ _ P v _ H s (R_refl _ _) (pl_inv _ _ P)). Qed.

(** ** No worker goes wrong *)
Lemma own_lt s v i : Inv s -> In i (own v s) -> i < ns s.
Proof.
  intros I H. apply in_own in H. pose proof (iv_own _ _ _ _ _ _ _ I _ _ H). pose proof (iv_le _ _ _ _ _ _ _ I). lia.
Qed.
Lemma safe_exec v X (e : act X) s : Inv s -> safe v e s -> exists x t, exec c v e s = Ok (x, t).
Proof.
  intros I S. destruct e; cbn [exec]; eauto.
  - destruct (reallocate _ _ _); eauto.
  - destruct S as (_ & -> & i & Hi & H1 & H2).
    pose proof (iv_nn _ _ _ _ _ _ _ I). pose proof (iv_le _ _ _ _ _ _ _ I).
    pose proof (base_view fo c nitems img W bud v (fun (_ : unit) _ => True) s i (off - i * NSZ) len I ltac:(lia) ltac:(lia)) as E.
    replace (i * NSZ + (off - i * NSZ)) with off in E by lia. cbn [exec] in E. rewrite E. eauto.
  - destruct S as (_ & -> & i & o & Hi & -> & H2).
    destruct (exec_write_wf fo c v s i o bs (iv_wf _ _ _ _ _ _ _ I) (own_lt _ _ _ I Hi) H2) as (t & E & _).
    cbn [exec] in E. eauto.
  - pose proof (iv_rnd _ _ _ _ _ _ _ I). destruct (rnd s); [|congruence]. destruct (kiss_next _ _). eauto.
Qed.
Lemma pool_not_wrong ps s v p : pool ps s -> nth_error ps v = Some p -> ~ going_wrong c v p s.
Proof.
  intros P Hp. destruct p as [a|e|X e k]; cbn [going_wrong].
  - tauto.
  - pose proof (pl_wp _ _ P v _ Hp) as H. cbn in H. tauto.
  - pose proof (pool_safe _ _ _ _ _ _ P Hp) as S. intros [[er He]|H].
    + destruct (safe_exec _ _ _ _ (pl_inv _ _ P) S) as (x & t & E). congruence.
    + destruct e; try contradiction; cbn [ConcProof.safe holds] in S; tauto.
Qed.

(** ** Steps of the interleaved semantics *)
Lemma exec_mstep v X (e : act X) s x t : rnd s <> None ->
  match e with
  | ALockNN => False | AUnlockNN => False | ALockNodesReq => False | ALockNodesAcq => False | AUnlockNodes => False
  | ARLock => False | ARUnlock => False | ALockRoots => False | AUnlockRoots => False | _ => True
  end -> exec c v e s = Ok (x, t) -> (X = N -> True) -> exists x' t', mstep c v X e s x' t'.
Proof.
  intros Hr He E _. destruct e; try contradiction.
  - exists (nn s), s. constructor.
  - eexists _, _. constructor.
  - eexists _, _. constructor.
  - eexists _, _. constructor.
  - eexists _, _. constructor.
  - exists tt, t. destruct x. now constructor.
  - cbn [exec] in E. destruct (arena_at (heap s) p) as [b|] eqn:Ea; [|discriminate].
    destruct (bread b off len) as [bs|] eqn:Eb; [|discriminate]. cbn [rbind] in E. injection E as <- <-.
    exists bs, s. constructor. cbn [exec]. now rewrite Ea, Eb.
  - exists tt, t. destruct x. now constructor.
  - destruct (rnd s) as [r|] eqn:Er; [|congruence]. exists 0, (set_rnd (Some r) s). constructor; [|congruence].
    apply (pow_iw_pos _ _ OK).
  - eexists _, _. constructor.
  - eexists _, _. constructor.
Qed.
(** A worker that is not waiting for a lock can step. *)
Lemma safe_step v X (e : act X) s : Inv s -> safe v e s ->
  match e with
  | ALockNN => l_nn s = None | ALockNodesReq => l_w s = None | ALockNodesAcq => l_r s = []
  | ARLock => l_w s = None | ALockRoots => l_roots s = None | _ => True
  end -> exists x t, mstep c v X e s x t.
Proof.
  intros I S B.
  destruct (safe_exec _ _ _ _ I S) as (x & t & E). pose proof (iv_rnd _ _ _ _ _ _ _ I) as Hr.
  destruct e; cbn [ConcProof.safe holds] in S;
    try (eapply exec_mstep; [exact Hr|exact Logic.I|exact E|intros; exact Logic.I]);
    try (eexists _, _; constructor; tauto).
Qed.

(** ** No deadlock *)
Lemma holding ps s v : pool ps s -> ~ holds v s HFree ->
  exists X (e : act X) k, nth_error ps v = Some (Vis e k) /\ safe v e s.
Proof.
  intros P Hh. destruct (Nat.lt_ge_cases v W) as [Hv|Hv]; [|destruct Hh; apply (pl_out _ _ P); exact Hv].
  destruct (nth_error ps v) as [p|] eqn:Hp; [|apply nth_error_None in Hp; rewrite (pl_len _ _ P) in Hp; lia].
  pose proof (pl_wp _ _ P v _ Hp) as H. destruct p as [a|e|X e k]; cbn [ConcProof.wp] in H.
  - destruct Hh. apply (Qfree v a). apply H; [apply R_refl|apply P].
  - destruct Hh. apply H.
  - exists X, e, k. split; [reflexivity|]. apply (H s (R_refl _ _) (pl_inv _ _ P)).
Qed.
Lemma pool_progress ps s v p : pool ps s -> nth_error ps v = Some p -> ~ finished p ->
  exists u q, nth_error ps u = Some q /\ can_step c u q s.
Proof.
  intros P Hp Hf. pose proof (pl_inv _ _ P) as I.
  assert (G : forall u X (e : act X) k, nth_error ps u = Some (Vis e k) -> safe u e s ->
    match e with
    | ALockNN => l_nn s = None | ALockNodesReq => l_w s = None | ALockNodesAcq => l_r s = []
    | ARLock => l_w s = None | ALockRoots => l_roots s = None | _ => True
    end -> exists u q, nth_error ps u = Some q /\ can_step c u q s).
  { intros u X e k Hu S B. exists u, (Vis e k). split; [exact Hu|]. cbn [can_step]. eapply safe_step; eauto. }
  destruct (l_roots s) as [u|] eqn:Er.
  { destruct (holding ps s u P) as (X & e & k & Hu & S); [cbn; intuition congruence|].
    apply (G u X e k Hu S). destruct e; cbn [ConcProof.safe holds] in S; try exact Logic.I; exfalso; intuition congruence. }
  destruct (l_r s) as [|u l] eqn:El.
  2:{ destruct (holding ps s u P) as (X & e & k & Hu & S); [cbn; rewrite El; cbn; intuition congruence|].
    apply (G u X e k Hu S). destruct e; cbn [ConcProof.safe holds] in S; try exact Logic.I; exfalso;
      rewrite El in S; cbn [In] in S; intuition congruence. }
  destruct (l_w s) as [u|] eqn:Ew.
  { destruct (holding ps s u P) as (X & e & k & Hu & S); [cbn; intuition congruence|].
    apply (G u X e k Hu S). destruct e; cbn [ConcProof.safe holds] in S; try exact Logic.I; try reflexivity; exfalso; intuition congruence. }
  destruct (l_nn s) as [u|] eqn:En.
  { destruct (holding ps s u P) as (X & e & k & Hu & S); [cbn; intuition congruence|].
    apply (G u X e k Hu S). destruct e; cbn [ConcProof.safe holds] in S; try exact Logic.I; try reflexivity; exfalso; intuition congruence. }
  destruct p as [a|e|X e k].
  - destruct Hf. exact Logic.I.
  - destruct Hf. pose proof (pl_wp _ _ P v _ Hp) as H. apply H.
  - apply (G v X e k Hp (pool_safe _ _ _ _ _ _ P Hp)). destruct e; try exact Logic.I; reflexivity.
Qed.

(** ** No race but on the generator *)
(** What the pending access of a worker says about the locks it holds. *)
Definition guarded (w : nat) (s : bst) (a : loc) (u : bool) : Prop :=
  match a with
  | LNodeCount | LCapacity => l_nn s = Some w
  | LNodePtr => if u then l_wh s = true /\ l_w s = Some w else In w (l_r s)
  | LRoots => l_roots s = Some w
  | LGenerator => True
  | LArena => u = false /\ l_wh s = true /\ l_w s = Some w
  | LBytes p off len => In w (l_r s) /\ exists i, i * NSZ <= off /\ off + len <= (i + 1) * NSZ /\
      if u then In (i, w) (owner s) else i < nitems
  end.
Lemma access_guarded w X (e : act X) s a u : safe w e s -> In (a, u) (accesses e) -> guarded w s a u.
Proof.
  intros S H. destruct e; cbn [accesses In] in H; try contradiction;
    repeat (destruct H as [H|H]); try contradiction; injection H as <- <-; cbn [ConcProof.safe holds guarded] in *.
  all: try tauto.
  - destruct S as (S & _ & i & Hi & H1 & H2). split; [tauto|]. exists i. auto.
  - destruct S as (S & _ & i & o & Hi & -> & H2). split; [tauto|]. exists i. apply in_own in Hi. split; [lia|]. split; [lia|exact Hi].
Qed.
Lemma pool_no_race ps s v w X Y (e : act X) (d : act Y) k l : pool ps s -> v <> w ->
  nth_error ps v = Some (Vis e k) -> nth_error ps w = Some (Vis d l) ->
  conflict e d -> is_draw e /\ is_draw d.
Proof.
  intros P Hne Hv Hw (a & b & u & u' & Ha & Hb & Ho & Hu).
  pose proof (pl_inv _ _ P) as I.
  pose proof (access_guarded _ _ _ _ _ _ (pool_safe _ _ _ _ _ _ P Hv) Ha) as Ga.
  pose proof (access_guarded _ _ _ _ _ _ (pool_safe _ _ _ _ _ _ P Hw) Hb) as Gb.
  assert (Hwh : l_wh s = true -> l_r s = []) by (intro H; apply (iv_wh _ _ _ _ _ _ _ I H)).
  destruct a, b; cbn [overlap guarded] in *; try contradiction; try congruence.
  - exfalso. destruct u, u'; try (destruct Hu; discriminate).
    + destruct Ga, Gb. congruence.
    + destruct Ga as [Ga _]. rewrite (Hwh Ga) in Gb. contradiction.
    + destruct Gb as [Gb _]. rewrite (Hwh Gb) in Ga. contradiction.
  - split.
    + destruct e; cbn [accesses In] in Ha; try (exact Logic.I); exfalso; intuition discriminate.
    + destruct d; cbn [accesses In] in Hb; try (exact Logic.I); exfalso; intuition discriminate.
  - exfalso. destruct Ga as (_ & i & A1 & A2 & A3). destruct Gb as (_ & j & B1 & B2 & B3). destruct Ho as (_ & O1 & O2).
    assert (i = j) by (pose proof (nodeSize_pos _ _ OK); nia). subst j.
    destruct u, u'; try (destruct Hu; discriminate).
    + apply Hne. eapply (NoDup_map_fst_fun (owner s)); eauto. apply I.
    + destruct (iv_own _ _ _ _ _ _ _ I _ _ A3). lia.
    + destruct (iv_own _ _ _ _ _ _ _ I _ _ B3). lia.
  - exfalso. destruct Gb as (_ & Gb & _). destruct Ga as [Ga _]. rewrite (Hwh Gb) in Ga. contradiction.
  - exfalso. destruct Ga as (_ & Ga & _). destruct Gb as [Gb _]. rewrite (Hwh Ga) in Gb. contradiction.
  - exfalso. destruct Ga as (_ & _ & Ga). destruct Gb as (_ & _ & Gb). congruence.
Qed.
(** ** Node numbers *)
Lemma pool_claims ps s i v w : pool ps s -> claimed s i v -> claimed s i w -> v = w.
Proof. intros P. apply (NoDup_map_fst_fun (owner s)). apply (pl_inv _ _ P). Qed.
Lemma pool_writes ps s v p off bs k : pool ps s -> nth_error ps v = Some (Vis (AWrite p off bs) k) ->
  p = base s /\ exists i, claimed s i v /\ nitems <= i < nn s /\ i * NSZ <= off /\ off + lenN bs <= (i + 1) * NSZ.
Proof.
  intros P Hp. pose proof (pool_safe _ _ _ _ _ _ P Hp) as (S & E & i & o & Hi & -> & H2). split; [exact E|].
  apply in_own in Hi. exists i. destruct (iv_own _ _ _ _ _ _ _ (pl_inv _ _ P) _ _ Hi) as [H3 _].
  split; [exact Hi|]. split; [exact H3|]. lia.
Qed.
End P.
