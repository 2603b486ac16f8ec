(** Properties of a multi-worker Build at every moment of every schedule
    (C06, C17, C18, C19, C20). *)
From Verif Require Import Base Flt Layout Rng Alloc Prog Dist Build Policy Index Spec ForestSpec ConcSpec BuildSpec
  Lib LayoutProof FltProof MemProof StoreProof ConcProof TreeProof PoolProof SeqProof BuildProof ForestProof SchedProof Concrete.
Open Scope N_scope.

(** The index of the examples: four one-dimensional items, two trees, two workers. *)
Definition cc_items : list (N * list (F fops32)) := map (fun i => (i, fv [Z.of_N i + 1]%Z)) [2; 1; 0; 3].
Definition cc_ix : idx := match add_all fops32 (cA 1) (ix0 (cA 1)) cc_items with Ok ix => ix | Er _ => ix0 (cA 1) end.
Definition cc_s0 : bst := match build_pre fops32 (cA 1) cc_ix with Ok s => s | Er _ => ib cc_ix end.
Lemma cc_call : build_call fops32 (cA 1) cc_items cc_ix 2 2 10 10.
Proof.
  assert (Hn : n_items cc_ix = 4) by (vm_compute; reflexivity).
  constructor; rewrite ?Hn.
  - vm_compute. discriminate.
  - unfold hist_ok, cc_items. cbn [map]. repeat (constructor; [split; vm_compute; reflexivity|]). constructor.
  - exists (kiss_new 0), 0. vm_compute. reflexivity.
  - lia.
  - lia.
  - lia.
  - vm_compute. reflexivity.
  - vm_compute. lia.
Qed.
(** A moment of it: worker 0, then worker 1, have each run until they draw. *)
Definition cc_now : list (prog unit) * bst :=
  go (cA 1) drawing 1000 1 (go (cA 1) drawing 1000 0 (build_workers fops32 (cA 1) cc_ix cc_s0 2 2 10 10 10, cc_s0)).
Lemma cc_during : during_build fops32 (cA 1) cc_ix 2 2 10 10 10 (fst cc_now) (snd cc_now).
Proof.
  exists cc_s0. split; [vm_compute; reflexivity|]. rewrite <- surjective_pairing. unfold cc_now.
  eapply steps_trans; apply go_sound.
Qed.

Lemma during_pool fo c (OK : CfgOK fo c) h ix T nw fuel mfuel rfuel ps s : build_call fo c h ix T nw fuel mfuel ->
  during_build fo c ix T nw fuel mfuel rfuel ps s ->
  exists img bud (Q : nat -> unit -> bst -> Prop), (forall v a t, Q v a t -> holds v t HFree) /\ pool fo c (n_items ix) img nw bud unit Q ps s.
Proof.
  intros B (s0 & E & S). destruct (bc_added _ _ _ _ _ _ _ _ B) as (r & hint & Ea).
  eexists _, _, _. split; [|eapply reach_pool; [..|exact S]; eauto; apply B].
  intros v a t H. apply H.
Qed.

(** ** C06 *)
(** Before the workers start: the preparation succeeds. *)
Theorem C06_preparation_succeeds :
  forall fo c, CfgOK fo c ->
  forall h ix T nw fuel mfuel, build_call fo c h ix T nw fuel mfuel -> exists s0, build_pre fo c ix = Ok s0.
Proof.
  intros fo c OK h ix T nw fuel mfuel B. destruct (bc_added _ _ _ _ _ _ _ _ B) as (r & hint & Ea).
  destruct (start fo c OK (Some r) hint h ix (bc_hist _ _ _ _ _ _ _ _ B) Ea) as (s0 & E & _). eauto.
Qed.
(** At every moment of every schedule, with any numbers drawn, no worker is about to
    do anything illegal. *)
Theorem C06_no_illegal_access :
  forall fo c, CfgOK fo c ->
  forall h ix T nw fuel mfuel rfuel, build_call fo c h ix T nw fuel mfuel ->
  forall ps s, during_build fo c ix T nw fuel mfuel rfuel ps s ->
  forall w p, nth_error ps w = Some p -> ~ going_wrong c w p s.
Proof.
  intros fo c OK h ix T nw fuel mfuel rfuel B ps s D w p Hp.
  destruct (during_pool fo c OK _ _ _ _ _ _ _ _ _ B D) as (img & bud & Q & HQ & P).
  eapply pool_not_wrong; eauto.
Qed.
(** After the workers: once all have returned, the rest of Build succeeds. *)
Theorem C06_rest_succeeds :
  forall fo c, CfgOK fo c ->
  forall h ix T nw fuel mfuel rfuel, build_call fo c h ix T nw fuel mfuel ->
  forall s, during_build fo c ix T nw fuel mfuel rfuel (repeat (Ret tt) nw) s ->
  forall nworkers ncpu, worker_count nworkers ncpu = Ok nw ->
  exists ix', build_multi fo c fuel mfuel rfuel ix T nworkers ncpu ix'.
Proof.
  intros fo c OK h ix T nw fuel mfuel rfuel B s (s0 & E & S) nworkers ncpu Hn.
  destruct (bc_added _ _ _ _ _ _ _ _ B) as (r & hint & Ea).
  eapply build_multi_total; eauto; apply B.
Qed.
Example C06_example :
  build_call fops32 (cA 1) cc_items cc_ix 2 2 10 10 /\
  during_build fops32 (cA 1) cc_ix 2 2 10 10 10 (fst cc_now) (snd cc_now) /\ length (fst cc_now) = 2%nat.
Proof. split; [exact cc_call|]. split; [exact cc_during|]. vm_compute. reflexivity. Qed.
(** .. and what the property excludes is not vacuous: worker 0 would go wrong there if it
    unlocked the roots mutex, or read beyond the node memory. *)
Example C06_wrong_example :
  going_wrong (cA 1) 0 (Vis AUnlockRoots Ret) (snd cc_now) /\
  going_wrong (cA 1) 0 (Vis (ARead (base (snd cc_now)) 10000 16) Ret) (snd cc_now) /\
  going_wrong (cA 1) 0 (Vis (AWrite None 0 [1]) Ret) (snd cc_now).
Proof.
  split; [|split]; cbn [going_wrong].
  - right. vm_compute. discriminate.
  - left. eexists. vm_compute. reflexivity.
  - left. eexists. vm_compute. reflexivity.
Qed.

(** ** C17 *)
Theorem C17_no_deadlock :
  forall fo c, CfgOK fo c ->
  forall h ix T nw fuel mfuel rfuel, build_call fo c h ix T nw fuel mfuel ->
  forall ps s, during_build fo c ix T nw fuel mfuel rfuel ps s ->
  (exists w p, nth_error ps w = Some p /\ ~ finished p) ->
  exists u q, nth_error ps u = Some q /\ can_step c u q s.
Proof.
  intros fo c OK h ix T nw fuel mfuel rfuel B ps s D (w & p & Hp & Hf).
  destruct (during_pool fo c OK _ _ _ _ _ _ _ _ _ B D) as (img & bud & Q & HQ & P).
  eapply pool_progress; eauto.
Qed.
(** Every schedule comes to an end (no infinite sequence of steps), and when it cannot be
    continued every worker has finished. *)
Theorem C17_every_schedule_ends :
  forall c (ps : list (prog unit)) s, Acc (fun y x => pool_step c x y) (ps, s).
Proof. intros. apply schedules_end. Qed.
Theorem C17_all_finish :
  forall fo c, CfgOK fo c ->
  forall h ix T nw fuel mfuel rfuel, build_call fo c h ix T nw fuel mfuel ->
  forall ps s, during_build fo c ix T nw fuel mfuel rfuel ps s ->
  exists ps' s', pool_steps c (ps, s) (ps', s') /\ Forall finished ps' /\
    ((forall p, In p ps' -> p <> Fail Unlucky) -> ps' = repeat (Ret tt) nw).
Proof.
  intros fo c OK h ix T nw fuel mfuel rfuel B ps s D.
  assert (forall x, Acc (fun y x => pool_step c x y) x -> pool_steps c (ps, s) x ->
     exists y, pool_steps c (ps, s) y /\ Forall finished (fst y)) as H.
  { intros x Hx. induction Hx as [[ps1 s1] _ IH]. intro H1.
    destruct (all_finished_dec _ ps1) as [Hf|(w & p & Hp & Hf)]; [exists (ps1, s1); auto|].
    destruct (C17_no_deadlock fo c OK _ _ _ _ _ _ rfuel B ps1 s1) as (u & q & Hu & Hs).
    { destruct D as (s0 & E & S). exists s0. split; [exact E|]. eapply steps_trans; eauto. }
    { eauto. }
    destruct q as [|?|X e k]; [contradiction|contradiction|]. destruct Hs as (x & s2 & Hs).
    apply (IH (firstn u ps1 ++ [k x] ++ skipn (S u) ps1, s2)); [econstructor; eauto|].
    eapply pss_step; [exact H1|]. econstructor; eauto. }
  destruct (H (ps, s)) as ([ps' s'] & H1 & H2); [apply schedules_end|apply pss_refl|].
  exists ps', s'. split; [exact H1|]. split; [exact H2|]. cbn [fst] in H2. intro H3.
  destruct (during_pool fo c OK h ix T nw fuel mfuel rfuel ps' s' B) as (img & bud & Q & HQ & P).
  { destruct D as (s0 & E & S). exists s0. split; [exact E|]. eapply steps_trans; eauto. }
  pose proof (pl_len _ _ _ _ _ _ _ _ _ _ P) as Hl. rewrite <- Hl. clear - H2 H3. induction H2 as [|p l H H2 IH]; [reflexivity|].
  cbn [repeat length]. f_equal.
  - destruct p as [[]|e|]; [reflexivity| |contradiction]. cbn in H. subst e. now destruct (H3 (Fail Unlucky) (or_introl eq_refl)).
  - apply IH. intros q Hq. apply H3. now right.
Qed.
Example C17_example :
  during_build fops32 (cA 1) cc_ix 2 2 10 10 10 (fst cc_now) (snd cc_now) /\
  (forall p, In p (fst cc_now) -> ~ finished p) /\
  (* waiting happens: with worker 1 still reading, worker 0 cannot get the write lock *)
  ~ can_step (cA 1) 0 (Vis ALockNodesAcq Ret) (snd cc_now).
Proof.
  split; [exact cc_during|]. split.
  - assert (H : map (fun p => match p with Vis _ _ => true | _ => false end) (fst cc_now) = [true; true]) by (vm_compute; reflexivity).
    destruct (fst cc_now) as [|p [|q [|? ?]]]; try discriminate H. cbn [map] in H.
    intros x [<-|[<-|[]]]; [destruct p|destruct q]; try discriminate H; auto.
  - assert (Hr : l_r (snd cc_now) <> []) by (vm_compute; discriminate).
    revert Hr. generalize (snd cc_now). intros s Hr (x & s' & H). inversion H; subst; apply Hr; auto.
Qed.

(** ** C18 *)
(** Two workers about to access overlapping bytes of node memory, or the same field of
    the index, one of them writing, are both about to draw a random number (C19): there
    is no other race. *)
Theorem C18_no_race_on_nodes :
  forall fo c, CfgOK fo c ->
  forall h ix T nw fuel mfuel rfuel, build_call fo c h ix T nw fuel mfuel ->
  forall ps s, during_build fo c ix T nw fuel mfuel rfuel ps s ->
  forall v w X Y (e : act X) (d : act Y) k l, v <> w ->
    nth_error ps v = Some (Vis e k) -> nth_error ps w = Some (Vis d l) ->
    conflict e d -> is_draw e /\ is_draw d.
Proof.
  intros fo c OK h ix T nw fuel mfuel rfuel B ps s D v w X Y e d k l Hne Hv Hw Hc.
  destruct (during_pool fo c OK _ _ _ _ _ _ _ _ _ B D) as (img & bud & Q & HQ & P).
  eapply (pool_no_race fo c OK); eauto.
Qed.
(** What counts as a race: e.g. these would. *)
Example C18_example :
  conflict (AWrite (Some 3%nat) 32 [1; 2; 3; 4]) (ARead (Some 3%nat) 35 2) /\
  ~ conflict (AWrite (Some 3%nat) 32 [1; 2; 3; 4]) (ARead (Some 3%nat) 36 2) /\
  conflict (ASetNN 3) AGetNN /\ conflict (ARealloc 7) AGetBase /\ conflict (ARealloc 7) (AWrite (Some 0%nat) 0 [1]) /\
  conflict (ASetRoots []) (ASetRoots []) /\ ~ conflict AGetRoots AGetRoots.
Proof.
  repeat split.
  - eexists _, _, _, _. split; [now left|]. split; [now left|]. cbn. split; [|now left]. split; [reflexivity|]. vm_compute. split; reflexivity.
  - intros (a & b & u & v & [H|[]] & [H1|[]] & Ho & _). injection H as <- <-. injection H1 as <- <-.
    destruct Ho as (_ & H1 & H2). vm_compute in H2. discriminate.
  - eexists _, _, _, _. split; [now left|]. split; [now left|]. cbn. auto.
  - eexists _, _, _, _. split; [now left|]. split; [now left|]. cbn. auto.
  - eexists _, _, _, _. split; [now right; left|]. split; [now left|]. cbn. auto.
  - eexists _, _, _, _. split; [now left|]. split; [now left|]. cbn. auto.
  - intros (a & b & u & v & [H|[]] & [H1|[]] & Ho & Hu). injection H as <- <-. injection H1 as <- <-. destruct Hu; discriminate.
Qed.

(** ** C19 *)
(** A schedule that races on the generator. *)
Theorem C19_generator_race :
  exists h ix ps s, build_call fops32 (cA 1) h ix 2 2 10 10 /\
    during_build fops32 (cA 1) ix 2 2 10 10 10 ps s /\
    exists k l, nth_error ps 0 = Some (Vis ADraw k) /\ nth_error ps 1 = Some (Vis ADraw l) /\ conflict ADraw ADraw.
Proof.
  exists cc_items, cc_ix, (fst cc_now), (snd cc_now). split; [exact cc_call|]. split; [exact cc_during|].
  assert (H : map drawing (fst cc_now) = [true; true]) by (vm_compute; reflexivity).
  destruct (fst cc_now) as [|p [|q [|? ?]]]; try discriminate H. cbn [map] in H. injection H as H1 H2.
  destruct p as [|?|X e k]; try discriminate H1. destruct q as [|?|Y d l]; try discriminate H2.
  destruct e; try discriminate H1. destruct d; try discriminate H2.
  exists k, l. split; [reflexivity|]. split; [reflexivity|].
  eexists _, _, _, _. split; [now left|]. split; [now left|]. cbn. auto.
Qed.

(** ** C20 *)
Theorem C20_node_numbers_unique :
  forall fo c, CfgOK fo c ->
  forall h ix T nw fuel mfuel rfuel, build_call fo c h ix T nw fuel mfuel ->
  forall ps s, during_build fo c ix T nw fuel mfuel rfuel ps s ->
  NoDup (map fst (owner s)) /\
  (forall i v w, claimed s i v -> claimed s i w -> v = w) /\
  (forall i w, claimed s i w -> n_items ix <= i < nn s /\ (w < nw)%nat).
Proof.
  intros fo c OK h ix T nw fuel mfuel rfuel B ps s D.
  destruct (during_pool fo c OK _ _ _ _ _ _ _ _ _ B D) as (img & bud & Q & HQ & P).
  pose proof (pl_inv _ _ _ _ _ _ _ _ _ _ P) as I. split; [apply I|]. split.
  - intros i v w. eapply pool_claims; eauto.
  - intros i w H. apply (iv_own _ _ _ _ _ _ _ I _ _ H).
Qed.
(** Every write of every worker goes to the node memory and lies within one node which
    that worker has claimed. *)
Theorem C20_writes_to_own_nodes :
  forall fo c, CfgOK fo c ->
  forall h ix T nw fuel mfuel rfuel, build_call fo c h ix T nw fuel mfuel ->
  forall ps s, during_build fo c ix T nw fuel mfuel rfuel ps s ->
  forall w p off bs k, nth_error ps w = Some (Vis (AWrite p off bs) k) ->
  p = base s /\ exists i, claimed s i w /\ i * nodeSize fo c <= off /\ off + lenN bs <= (i + 1) * nodeSize fo c.
Proof.
  intros fo c OK h ix T nw fuel mfuel rfuel B ps s D w p off bs k H.
  destruct (during_pool fo c OK _ _ _ _ _ _ _ _ _ B D) as (img & bud & Q & HQ & P).
  edestruct pool_writes as (E & i & H1 & _ & H2); [exact HQ|exact P|exact H|]. eauto.
Qed.
(** Later in the same build: worker 1 has claimed nodes 4 and 5 for its tree, and then worker 0
    nodes 6 and 7. *)
Example C20_example :
  exists ps s, during_build fops32 (cA 1) cc_ix 2 2 10 10 10 ps s /\ owner s = [(7, 0%nat); (6, 0%nat); (5, 1%nat); (4, 1%nat)].
Proof.
  set (x := go (cA 1) never 1000 0 (go (cA 1) never 1000 1 cc_now)). exists (fst x), (snd x).
  split; [|vm_compute; reflexivity]. destruct cc_during as (s0 & E & S). exists s0. split; [exact E|].
  eapply steps_trans; [exact S|]. rewrite <- !surjective_pairing. eapply steps_trans; apply go_sound.
Qed.

Print Assumptions C06_preparation_succeeds.
Print Assumptions C06_no_illegal_access.
Print Assumptions C06_rest_succeeds.
Print Assumptions C17_no_deadlock.
Print Assumptions C17_every_schedule_ends.
Print Assumptions C17_all_finish.
Print Assumptions C18_no_race_on_nodes.
Print Assumptions C19_generator_race.
Print Assumptions C20_node_numbers_unique.
Print Assumptions C20_writes_to_own_nodes.
