(** Rely/guarantee reasoning for the workers of a build. *)
From Verif Require Import Base Flt Layout Rng Alloc Prog Dist Build Lib LayoutProof MemProof StoreProof ConcSpec.
From Coq Require Import Permutation.
Open Scope N_scope.

Definition own (w : nat) (s : bst) : list N := map fst (filter (fun e => Nat.eqb (snd e) w) (owner s)).
Definition mine (w : nat) (s : bst) : list N := map snd (filter (fun e => Nat.eqb (fst e) w) (broots s)).
Definition sumN (l : list N) : N := fold_right N.add 0 l.

(** The locks a worker can hold between two actions. *)
Inductive hold := HFree | HNN | HReq | HWr | HRd | HRt.
Definition holds (w : nat) (s : bst) (h : hold) : Prop :=
  match h with
  | HFree => l_nn s <> Some w /\ l_w s <> Some w /\ ~ In w (l_r s) /\ l_roots s <> Some w
  | HNN => l_nn s = Some w /\ l_w s <> Some w /\ ~ In w (l_r s) /\ l_roots s <> Some w
  | HReq => l_nn s = Some w /\ l_w s = Some w /\ l_wh s = false /\ ~ In w (l_r s) /\ l_roots s <> Some w
  | HWr => l_nn s = Some w /\ l_w s = Some w /\ l_wh s = true /\ ~ In w (l_r s) /\ l_roots s <> Some w
  | HRd => l_nn s <> Some w /\ l_w s <> Some w /\ In w (l_r s) /\ l_roots s <> Some w
  | HRt => l_nn s <> Some w /\ l_w s <> Some w /\ ~ In w (l_r s) /\ l_roots s = Some w
  end.

Lemma in_own w s i : In i (own w s) <-> In (i, w) (owner s).
Proof.
  unfold own. rewrite in_map_iff. split.
  - intros ((j, v) & <- & H). apply filter_In in H. destruct H as [H E]. cbn in E. apply Nat.eqb_eq in E. subst. exact H.
  - intro H. exists (i, w). split; [reflexivity|]. apply filter_In. cbn. now rewrite Nat.eqb_refl.
Qed.

Lemma NoDup_map_fst_fun {A B} (l : list (A * B)) a b b' : NoDup (map fst l) -> In (a, b) l -> In (a, b') l -> b = b'.
Proof.
  induction l as [|[x y] l IH]; [easy|]. cbn [map fst In]. intro H. inversion H as [|? ? Hn Hd]; subst.
  intros [E|E] [E'|E'].
  - congruence.
  - injection E as -> ->. destruct Hn. apply in_map_iff. exists (a, b'). auto.
  - injection E' as -> ->. destruct Hn. apply in_map_iff. exists (a, b). auto.
  - auto.
Qed.

Lemma sum_own_aux (o : list (N * nat)) : forall k, (forall i v, In (i, v) o -> (v < k)%nat) ->
  lenN o = sumN (map (fun v => lenN (filter (fun e => Nat.eqb (snd e) v) o)) (seq 0 k)).
Proof.
  assert (S0 : forall l : list nat, sumN (map (fun _ => 0) l) = 0) by (induction l; cbn; auto).
  induction o as [|[i w] o IH]; intros k H.
  - cbn [filter]. change (lenN (@nil (N * nat))) with 0. now rewrite S0.
  - assert (Hw : (w < k)%nat) by (apply (H i w); left; reflexivity).
    rewrite lenN_cons, (IH k) by (intros; eapply H; right; eauto).
    cbn [filter snd].
    assert (G : forall l, NoDup l -> sumN (map (fun v => lenN (if Nat.eqb w v then (i, w) :: filter (fun e => Nat.eqb (snd e) v) o
        else filter (fun e => Nat.eqb (snd e) v) o)) l) =
        sumN (map (fun v => lenN (filter (fun e => Nat.eqb (snd e) v) o)) l) + (if in_dec Nat.eq_dec w l then 1 else 0)).
    { induction l as [|v l IHl]; intro ND; [reflexivity|]. inversion ND as [|? ? Hv ND']; subst.
      cbn [map sumN fold_right]. fold (sumN (map (fun v => lenN (filter (fun e => Nat.eqb (snd e) v) o)) l)).
      unfold sumN in IHl at 1. rewrite (IHl ND').
      destruct (Nat.eqb_spec w v) as [->|Hne].
      - rewrite lenN_cons. destruct (in_dec Nat.eq_dec v l); [contradiction|].
        destruct (in_dec Nat.eq_dec v (v :: l)) as [_|Hc]; [lia|]. destruct Hc. left. reflexivity.
      - destruct (in_dec Nat.eq_dec w (v :: l)) as [Hi|Hi]; destruct (in_dec Nat.eq_dec w l) as [Hj|Hj]; try lia.
        + destruct Hi; [congruence|contradiction].
        + destruct Hi. right. exact Hj. }
    rewrite (G _ (seq_NoDup k 0)). destruct (in_dec Nat.eq_dec w (seq 0 k)) as [_|Hc]; [lia|].
    destruct Hc. apply in_seq. lia.
Qed.
Lemma sumN_le {A} (f g : A -> N) l : (forall a, In a l -> f a <= g a) -> sumN (map f l) <= sumN (map g l).
Proof.
  induction l as [|a l IH]; intro H; [apply N.le_refl|]. cbn [map sumN fold_right].
  pose proof (H a (or_introl eq_refl)). assert (sumN (map f l) <= sumN (map g l)) by (apply IH; intros; apply H; right; auto).
  unfold sumN in *. lia.
Qed.
Lemma sumN_lt {A} (f g : A -> N) l a : In a l -> f a + 1 <= g a -> (forall a, In a l -> f a <= g a) ->
  sumN (map f l) + 1 <= sumN (map g l).
Proof.
  intros Hin Hlt. induction l as [|b l IH]; intro H; [contradiction|]. cbn [map sumN fold_right].
  destruct Hin as [->|Hin].
  - pose proof (sumN_le f g l ltac:(intros; apply H; right; auto)). unfold sumN in *. lia.
  - pose proof (H b (or_introl eq_refl)). specialize (IH Hin ltac:(intros; apply H; right; auto)). unfold sumN in *. lia.
Qed.

Section L.
Variable fo : FOps.
Variable c : Cfg.
Lemma smem_eq s t : heap t = heap s -> al t = al s -> smem t = smem s.
Proof. unfold smem. intros -> ->. reflexivity. Qed.
Lemma img_eq s t i : heap t = heap s -> al t = al s -> snode_img fo c t i = snode_img fo c s i.
Proof. intros A B. unfold snode_img. now rewrite (smem_eq s t A B). Qed.

(** What a worker keeps of its own work. *)
Record keep (w : nat) (s s' : bst) : Prop := mkKeep {
  kp_own : exists l, own w s' = l ++ own w s;
  kp_img : forall i, In i (own w s) -> snode_img fo c s' i = snode_img fo c s i;
  kp_mine : mine w s' = mine w s;
  kp_nn : nn s <= nn s'
}.
(** What worker [w] may rely on while others take steps. *)
Record R (w : nat) (s s' : bst) : Prop := mkR {
  r_holds : forall h, holds w s h -> holds w s' h;
  r_nn : l_nn s = Some w -> l_nn s' = Some w /\ nn s' = nn s /\ ns s' = ns s;
  r_base : In w (l_r s) -> In w (l_r s') /\ base s' = base s;
  r_wr : l_w s = Some w -> l_wh s = true -> l_w s' = Some w /\ l_wh s' = true /\ heap s' = heap s /\ al s' = al s /\ base s' = base s;
  r_roots : l_roots s = Some w -> l_roots s' = Some w /\ broots s' = broots s;
  r_own : own w s' = own w s;
  r_img : forall i, In i (own w s) -> snode_img fo c s' i = snode_img fo c s i;
  r_mine : mine w s' = mine w s;
  r_mono : nn s <= nn s'
}.
Lemma R_refl w s : R w s s.
Proof. constructor; auto. apply N.le_refl. Qed.
Lemma holds_fun w s h h' : holds w s h -> holds w s h' -> h = h'.
Proof. destruct h, h'; cbn; intuition (try congruence). Qed.
Lemma R_trans w s t u : R w s t -> R w t u -> R w s u.
Proof.
  intros A B. constructor.
  - intros h H. apply (r_holds _ _ _ B), (r_holds _ _ _ A), H.
  - intro H. destruct (r_nn _ _ _ A H) as (A1 & A2 & A3). destruct (r_nn _ _ _ B A1) as (B1 & B2 & B3).
    repeat split; congruence.
  - intro H. destruct (r_base _ _ _ A H) as (A1 & A2). destruct (r_base _ _ _ B A1). split; congruence.
  - intros H Hw. destruct (r_wr _ _ _ A H Hw) as (A1 & A0 & A2 & A3 & A4). destruct (r_wr _ _ _ B A1 A0) as (B1 & B0 & B2 & B3 & B4).
    repeat split; congruence.
  - intro H. destruct (r_roots _ _ _ A H) as (A1 & A2). destruct (r_roots _ _ _ B A1). split; congruence.
  - rewrite (r_own _ _ _ B). exact (r_own _ _ _ A).
  - intros i Hi. rewrite (r_img _ _ _ B) by (rewrite (r_own _ _ _ A); exact Hi). exact (r_img _ _ _ A i Hi).
  - rewrite (r_mine _ _ _ B). exact (r_mine _ _ _ A).
  - eapply N.le_trans; [apply A|apply B].
Qed.
Lemma R_keep w s t : R w s t -> keep w s t.
Proof. intro H. destruct H. constructor; auto. exists []. assumption. Qed.
Lemma keep_refl w s : keep w s s.
Proof. constructor; auto; [now exists []|apply N.le_refl]. Qed.
Lemma keep_trans w s t u : keep w s t -> keep w t u -> keep w s u.
Proof.
  intros [[l1 A1] A2 A3 A4] [[l2 B1] B2 B3 B4]. constructor.
  - exists (l2 ++ l1). now rewrite B1, A1, app_assoc.
  - intros i Hi. rewrite B2 by (rewrite A1; apply in_or_app; auto). auto.
  - congruence.
  - eapply N.le_trans; eassumption.
Qed.

(** Changes of other fields only. *)
Record same (w : nat) (s s' : bst) : Prop := mkSame {
  sm_own : own w s' = own w s;
  sm_img : forall i, In i (own w s) -> snode_img fo c s' i = snode_img fo c s i;
  sm_mine : mine w s' = mine w s;
  sm_nn : nn s <= nn s'
}.
Lemma same_refl w s : same w s s.
Proof. constructor; auto. apply N.le_refl. Qed.
Lemma same_trans w s t u : same w s t -> same w t u -> same w s u.
Proof.
  intros [A1 A2 A3 A4] [B1 B2 B3 B4]. constructor; try congruence; [|eapply N.le_trans; eassumption].
  intros i Hi. rewrite B2 by (rewrite A1; exact Hi). auto.
Qed.
Lemma R_same w s t : R w s t -> same w s t.
Proof. intro H. destruct H. constructor; auto. Qed.
Lemma same_keep w s t : same w s t -> keep w s t.
Proof. intros [A1 A2 A3 A4]. constructor; auto. now exists []. Qed.
(** No change but locks and generator. *)
Definition still (s t : bst) : Prop :=
  heap t = heap s /\ al t = al s /\ base t = base s /\ nn t = nn s /\ ns t = ns s /\ owner t = owner s /\ broots t = broots s.
Lemma still_same w s t : still s t -> same w s t.
Proof.
  intros (A & B & C & D & E & F & G). constructor; unfold own, mine; rewrite ?F, ?G; auto; try (rewrite D; apply N.le_refl).
  intros i _. now apply img_eq.
Qed.

End L.
Arguments R_refl {fo c}.
Arguments R_trans {fo c}.
Arguments R_keep {fo c}.
Arguments keep_refl {fo c}.
Arguments keep_trans {fo c}.
Arguments same_refl {fo c}.
Arguments same_trans {fo c}.
Arguments R_same {fo c}.
Arguments same_keep {fo c}.
Arguments still_same {fo c}.
Arguments img_eq {fo c}.
Arguments kp_own {fo c}.
Arguments kp_img {fo c}.
Arguments kp_mine {fo c}.
Arguments kp_nn {fo c}.
Arguments r_holds {fo c}.
Arguments r_nn {fo c}.
Arguments r_base {fo c}.
Arguments r_wr {fo c}.
Arguments r_roots {fo c}.
Arguments r_own {fo c}.
Arguments r_img {fo c}.
Arguments r_mine {fo c}.
Arguments r_mono {fo c}.
Arguments sm_own {fo c}.
Arguments sm_img {fo c}.
Arguments sm_mine {fo c}.
Arguments sm_nn {fo c}.

Section C.
Variable fo : FOps.
Variable c : Cfg.
Hypothesis OK : CfgOK fo c.
Variable nitems : N.
Variable img : N -> list N.                 (* the item nodes at the start *)
Variable W : nat.                           (* number of workers *)
Variable bud : nat -> N.                    (* how many nodes each may claim *)
Definition total : N := sumN (map bud (seq 0 W)).
Hypothesis Hcap : cap_ok fo c (nitems + total).
Notation NSZ := (nodeSize fo c).
Notation zeros := (zeros fo c).
Notation R := (R fo c).
Notation keep := (keep fo c).
Notation same := (same fo c).

Record Inv (s : bst) : Prop := mkInv {
  iv_wf : store_wf fo c s;
  iv_nn : nn s = nitems + lenN (owner s);
  iv_le : nn s <= ns s;
  iv_items : forall i, i < nitems -> snode_img fo c s i = img i;
  iv_zero : forall i, nn s <= i -> snode_img fo c s i = zeros;
  iv_lw : forall v, l_w s = Some v -> l_nn s = Some v;
  iv_wh : l_wh s = true -> l_r s = [] /\ l_w s <> None;
  iv_dup : NoDup (map fst (owner s));
  iv_own : forall i v, In (i, v) (owner s) -> nitems <= i < nn s /\ (v < W)%nat;
  iv_bud : forall v, lenN (own v s) <= bud v;
  iv_rnd : rnd s <> None;
  iv_roots : forall v r, In (v, r) (broots s) -> (v < W)%nat;
  iv_order : forall k e, nth_error (owner s) k = Some e -> fst e + N.of_nat k + 1 = nn s
}.

(** What an action needs to be harmless. *)
Definition safe (w : nat) {X} (e : act X) (s : bst) : Prop :=
  match e with
  | ALockNN | ARLock | ALockRoots => holds w s HFree
  | AUnlockNN | ALockNodesReq | AGetNN => holds w s HNN
  | ASetNN n => holds w s HNN /\ n = nn s + 1 /\ n <= ns s /\ lenN (own w s) + 1 <= bud w /\ (w < W)%nat
  | ALockNodesAcq => holds w s HReq
  | AUnlockNodes => holds w s HWr
  | ARealloc b => holds w s HWr
  | ASetNS n => holds w s HWr /\ ns s <= n /\ n * NSZ <= ptr_size (heap s) (al s) /\ n * NSZ < 2 ^ iw c /\ base s = al s
                /\ al s <> None
  | AGetNS => holds w s HNN \/ holds w s HWr
  | ARUnlock | AGetBase => holds w s HRd
  | ARead p off len => holds w s HRd /\ p = base s /\
      (exists i, i < nitems /\ i * NSZ <= off /\ off + len <= (i + 1) * NSZ)
  | AWrite p off bs => holds w s HRd /\ p = base s /\
      (exists i o, In i (own w s) /\ off = i * NSZ + o /\ o + lenN bs <= NSZ)
  | ADraw => holds w s HFree \/ holds w s HRd
  | AUnlockRoots | AGetRoots => holds w s HRt
  | ASetRoots l => holds w s HRt /\ (w < W)%nat /\ exists rs, l = broots s ++ map (fun r => (w, r)) rs
  end.

Fixpoint wp (w : nat) {A} (p : prog A) (Q : A -> bst -> Prop) (s : bst) : Prop :=
  match p with
  | Ret a => forall s1, R w s s1 -> Inv s1 -> Q a s1
  | Fail e => e = Unlucky /\ holds w s HFree
  | Vis e k => forall s1, R w s s1 -> Inv s1 ->
      safe w e s1 /\ forall x s2, mstep c w _ e s1 x s2 -> wp w (k x) Q s2
  end.
(** ** Every harmless action preserves the invariant and what others rely on *)
Lemma own_claim w v n s : own v (set_nn (n + 1) (claim w n (n + 1) (owner s)) s) =
  if Nat.eqb w v then n :: own v s else own v s.
Proof.
  unfold own. cbn [set_nn owner]. unfold claim. replace (n <? n + 1) with true by lia.
  replace (n + 1 - n) with 1 by lia. change (rangeN 1) with [0]. cbn [map app filter snd].
  rewrite N.add_0_r. destruct (Nat.eqb w v); reflexivity.
Qed.
Lemma owner_room s w : Inv s -> (w < W)%nat -> lenN (own w s) + 1 <= bud w -> nn s + 1 <= nitems + total.
Proof.
  intros I Hw Hb. rewrite (iv_nn _ I).
  rewrite (sum_own_aux (owner s) W) by (intros i v H; apply (iv_own _ I _ _ H)).
  assert (E : forall v, lenN (filter (fun e => Nat.eqb (snd e) v) (owner s)) = lenN (own v s)).
  { intro v. unfold own. now rewrite lenN_map. }
  rewrite (map_ext _ _ E). unfold total.
  pose proof (sumN_lt (fun v => lenN (own v s)) bud (seq 0 W) w) as H.
  specialize (H ltac:(apply in_seq; lia) Hb ltac:(intros; apply (iv_bud _ I))). lia.
Qed.
Lemma cap_next s w : Inv s -> (w < W)%nat -> lenN (own w s) + 1 <= bud w -> cap_ok fo c (nn s + 1).
Proof. intros. eapply cap_ok_mono; [|exact Hcap]. eapply owner_room; eauto. Qed.

(** A step that only changes locks and the generator. *)
Lemma Inv_locks s t : Inv s ->
  heap t = heap s -> al t = al s -> base t = base s -> nn t = nn s -> ns t = ns s ->
  owner t = owner s -> broots t = broots s -> (rnd s <> None -> rnd t <> None) ->
  (forall v, l_w t = Some v -> l_nn t = Some v) ->
  (l_wh t = true -> l_r t = [] /\ l_w t <> None) -> Inv t.
Proof.
  intros I A B C D E F G H1 H2 H3. destruct I as [I1 I2 I3 I4 I5 I6 I7 I8 I9 I10 I11 I12 I13].
  constructor; auto; unfold own; rewrite ?A, ?B, ?C, ?D, ?E, ?F, ?G; auto.
  - destruct I1 as [J1 J2 J3 J4 J5]. constructor; rewrite ?A, ?B, ?C, ?D, ?E; auto.
  - intros i Hi. rewrite (img_eq s t i A B). auto.
  - intros i Hi. rewrite (img_eq s t i A B). auto.
Qed.
Lemma R_locks v s t :
  heap t = heap s -> al t = al s -> base t = base s -> nn t = nn s -> ns t = ns s ->
  owner t = owner s -> broots t = broots s ->
  (forall h, holds v s h -> holds v t h) ->
  (l_nn s = Some v -> l_nn t = Some v) -> (In v (l_r s) -> In v (l_r t)) ->
  (l_w s = Some v -> l_w t = Some v /\ l_wh t = l_wh s) -> (l_roots s = Some v -> l_roots t = Some v) -> R v s t.
Proof.
  intros A B C D E F G H1 H2 H3 H4 H5. constructor; auto; unfold own, mine; rewrite ?A, ?B, ?C, ?D, ?E, ?F, ?G; auto; try lia.
  - intros H Hw. destruct (H4 H) as [? ?]. repeat split; auto. congruence.
  - intros i _. apply img_eq; assumption.
Qed.

Ltac proj := cbn [set_heap set_arenas set_nn set_ns set_roots set_rnd set_lnn set_lroots set_lnodes
  heap al base nn ns broots rnd owner l_nn l_roots l_w l_wh l_r] in *.

Lemma in_remove_neq (w v : nat) l : v <> w -> In v (remove Nat.eq_dec w l) <-> In v l.
Proof. intro H. split; [intro X; apply in_remove in X; tauto|intro X; apply in_in_remove; auto]. Qed.

Lemma step_ok w X (e : act X) s x s2 : Inv s -> safe w e s -> mstep c w X e s x s2 ->
  Inv s2 /\ forall v, v <> w -> R v s s2.
Proof.
  intros I S M. pose proof (iv_lw _ I) as ILW. pose proof (iv_wh _ I) as IWH.
  destruct M; cbn [safe] in S.
  - (* lock nn *) split.
    + eapply Inv_locks; eauto. proj. intros v Hv. specialize (ILW v Hv). congruence.
    + intros v Hv. apply R_locks; proj; auto; try congruence.
      intros [] Hh; unfold holds in *; proj; repeat match goal with H : _ /\ _ |- _ => destruct H end; repeat split; auto; congruence.
  - (* unlock nn *) destruct S as (S1 & S2 & S3 & S4). split.
    + eapply Inv_locks; eauto. proj. intros v Hv. specialize (ILW v Hv). congruence.
    + intros v Hv. apply R_locks; proj; auto; try congruence.
      intros [] Hh; unfold holds in *; proj; repeat match goal with H : _ /\ _ |- _ => destruct H end; repeat split; auto; congruence.
  - (* announce *) destruct S as (S1 & S2 & S3 & S4). split.
    + eapply Inv_locks; eauto; proj; try congruence. 
    + intros v Hv. apply R_locks; proj; auto; try congruence.
      intros [] Hh; unfold holds in *; proj; repeat match goal with H : _ /\ _ |- _ => destruct H end; repeat split; auto; congruence.
  - (* acquire *) destruct S as (S1 & S2 & S3 & S4 & S5). split.
    + eapply Inv_locks; eauto; proj; try congruence. intros _. split; [reflexivity|congruence].
    + intros v Hv. apply R_locks; proj; auto; try congruence.
      * intros [] Hh; unfold holds in *; proj; repeat match goal with H : _ /\ _ |- _ => destruct H end; repeat split; auto; try congruence.
  - (* unlock nodes *) destruct S as (S1 & S2 & S3 & S4 & S5). split.
    + eapply Inv_locks; eauto; proj; try congruence.
    + intros v Hv. apply R_locks; proj; auto; try congruence.
      intros [] Hh; unfold holds in *; proj; repeat match goal with H : _ /\ _ |- _ => destruct H end; repeat split; auto; congruence.
  - (* rlock *) destruct S as (S1 & S2 & S3 & S4). split.
    + eapply Inv_locks; eauto; proj; try congruence.
    + intros v Hv. apply R_locks; proj; auto; try congruence.
      * intros [] Hh; unfold holds in *; proj; repeat match goal with H : _ /\ _ |- _ => destruct H end; repeat split; auto; try congruence;
        try (intros [->|?]; congruence). now right.
      * intro. now right.
  - (* runlock *) destruct S as (S1 & S2 & S3 & S4). split.
    + eapply Inv_locks; eauto; proj; try congruence. intro Hh. destruct (IWH Hh) as [E ?]. rewrite E in H. destruct H.
    + intros v Hv. apply R_locks; proj; auto; try congruence.
      * intros [] Hh; unfold holds in *; proj; repeat match goal with H : _ /\ _ |- _ => destruct H end; repeat split; auto; try congruence;
        rewrite in_remove_neq by exact Hv; assumption.
      * now rewrite in_remove_neq by exact Hv.
  - (* lock roots *) split.
    + eapply Inv_locks; eauto.
    + intros v Hv. apply R_locks; proj; auto; try congruence.
      intros [] Hh; unfold holds in *; proj; repeat match goal with H : _ /\ _ |- _ => destruct H end; repeat split; auto; congruence.
  - (* unlock roots *) split.
    + eapply Inv_locks; eauto.
    + intros v Hv. apply R_locks; proj; auto; try congruence.
      intros [] Hh; unfold holds in *; proj; repeat match goal with H : _ /\ _ |- _ => destruct H end; repeat split; auto; congruence.
  - (* draw *) split.
    + eapply Inv_locks; eauto; proj; congruence.
    + intros v Hv. apply R_locks; proj; auto.
  - split; [exact I|]. intros; apply R_refl.
  - (* claim a node *) destruct S as ((S1 & S2 & S3 & S4) & -> & Hns & Hb & Hw).
    destruct I as [I1 I2 I3 I4 I5 I6 I7 I8 I9 I10 I11 I12 I13].
    assert (Eo : owner (set_nn (nn s + 1) (claim w (nn s) (nn s + 1) (owner s)) s) = (nn s, w) :: owner s).
    { proj. unfold claim. replace (nn s <? nn s + 1) with true by lia.
      replace (nn s + 1 - nn s) with 1 by lia. change (rangeN 1) with [0]. cbn [map app]. now rewrite N.add_0_r. }
    split.
    + constructor; auto; proj; try rewrite Eo.
      * destruct I1 as [J1 J2 J3 J4 J5]. constructor; proj; auto.
      * rewrite lenN_cons. lia.
      * intros i Hi. apply I5. lia.
      * cbn [map fst]. constructor; [|exact I8]. intro Hi. apply in_map_iff in Hi. destruct Hi as ([i v] & E & Hi).
        cbn in E. subst i. destruct (I9 _ _ Hi). lia.
      * intros i v [E|Hi].
        -- injection E as <- <-. lia.
        -- destruct (I9 _ _ Hi). lia.
      * intro v. pose proof (own_claim w v (nn s) s) as Ec. rewrite Eo in Ec. rewrite Ec. destruct (Nat.eqb_spec w v) as [->|Hne]; [|apply I10]. rewrite lenN_cons. lia.
      * intros [|k] e; cbn [nth_error].
        -- intro E. injection E as <-. cbn [fst]. lia.
        -- intro E. specialize (I13 k e E). lia.
    + intros v Hv. constructor; proj; auto; try lia.
      * intro Hn. congruence.
      * pose proof (own_claim w v (nn s) s) as Ec. rewrite Ec.
        destruct (Nat.eqb_spec w v); [congruence|reflexivity].
  - split; [exact I|]. intros; apply R_refl.
  - (* capacity *) destruct S as ((S1 & S2 & S3 & S4 & S5) & Hge & Hr & Hc2 & Hba & Hal).
    destruct I as [I1 I2 I3 I4 I5 I6 I7 I8 I9 I10 I11 I12 I13]. split.
    + constructor; auto; proj; try lia. destruct I1 as [J1 J2 J3 J4 J5]. constructor; proj; auto.
    + intros v Hv. constructor; proj; auto; try lia. intro Hn. congruence.
  - split; [exact I|]. intros; apply R_refl.
  - (* reallocate *) destruct S as (S1 & S2 & S3 & S4 & S5). destruct (IWH S3) as [Er _].
    cbn [exec] in H. destruct (reallocate (heap s) (al s) b) as [h p] eqn:E. injection H as <-.
    destruct (reallocate_spec _ _ _ _ _ (sw_alloc _ _ _ (iv_wf _ I)) E) as (b' & Hat & Hz & Hsz & Hsz2 & Hget & _ & Hwf').
    assert (Him : forall i, snode_img fo c (set_heap h p p s) i = snode_img fo c s i).
    { intro i. unfold snode_img. apply node_at_ext. intro a. unfold smem. proj. unfold cur_mem at 1. rewrite Hat. apply Hget. }
    destruct I as [I1 I2 I3 I4 I5 I6 I7 I8 I9 I10 I11 I12 I13]. split.
    + constructor; auto; proj; auto.
      * destruct I1 as [J1 J2 J3 J4 J5]. constructor; proj; auto.
        -- right. destruct p; [discriminate|cbn in Hat; discriminate].
        -- unfold ptr_size at 1. rewrite Hat. lia.
      * intros i Hi. rewrite Him. auto.
      * intros i Hi. rewrite Him. auto.
    + intros v Hv. constructor; proj; auto; try lia.
      * rewrite Er. intros [].
      * intro Hn. congruence.
  - split; [exact I|]. intros; apply R_refl.
  - (* write *) destruct S as (Hh & -> & i & o & Hi & -> & Ho). rewrite in_own in Hi.
    destruct (iv_own _ I _ _ Hi) as [Hin _].
    pose proof (iv_le _ I) as Hle.
    destruct (exec_write_wf fo c w s i o bs (iv_wf _ I) ltac:(lia) Ho)
      as (s2 & E & W2 & N2 & M2 & R2 & D2 & B2 & I2 & O2).
    rewrite E in H. injection H as <-.
    assert (Hsame : heap s2 <> heap s \/ True) by auto.
    assert (El : owner s2 = owner s /\ l_nn s2 = l_nn s /\ l_roots s2 = l_roots s /\ l_w s2 = l_w s /\ l_wh s2 = l_wh s /\ l_r s2 = l_r s /\ al s2 = al s).
    { cbn [exec] in E. destruct (base s); [|discriminate]. destruct (nth_error (heap s) n); [|discriminate].
      destruct (bwrite b (i * NSZ + o) bs); [|discriminate]. cbn [rbind] in E. injection E as <-. proj. repeat split. }
    destruct El as (L1 & L2 & L3 & L4 & L5 & L6 & L7).
    destruct I as [I1 I2' I3 I4 I5 I6 I7 I8 I9 I10 I11 I12 I13]. split.
    + constructor; auto; unfold own; rewrite ?L1, ?L2, ?L3, ?L4, ?L5, ?L6, ?N2, ?M2, ?R2, ?D2; auto.
      * intros j Hj. rewrite O2 by lia. auto.
      * intros j Hj. rewrite O2 by lia. auto.
    + intros v Hv. constructor; unfold own, mine; rewrite ?L1, ?L2, ?L3, ?L4, ?L5, ?L6, ?N2, ?M2, ?R2, ?B2; auto; try lia.
      * intros [] HH; unfold holds in *; rewrite ?L2, ?L3, ?L4, ?L5, ?L6; exact HH.
      * intros Hw1 Hw2. destruct Hh as (_ & _ & Hr & _). destruct (I7 Hw2) as [Er _]. rewrite Er in Hr. destruct Hr.
      * intros j Hj. apply O2. intros ->. change (In i (own v s)) in Hj. rewrite in_own in Hj.
        apply Hv. eapply NoDup_map_fst_fun; eauto.
  - split; [exact I|]. intros; apply R_refl.
  - (* roots *) destruct S as ((S1 & S2 & S3 & S4) & Hw & rs & ->).
    destruct I as [I1 I2 I3 I4 I5 I6 I7 I8 I9 I10 I11 I12 I13]. split.
    + constructor; auto; proj; auto.
      * destruct I1 as [J1 J2 J3 J4 J5]. constructor; proj; auto.
      * intros v r Hin. apply in_app_or in Hin. destruct Hin as [Hin|Hin]; [eauto|].
        apply in_map_iff in Hin. destruct Hin as (? & E & _). injection E as <- <-. exact Hw.
    + intros v Hv. constructor; proj; auto; try lia.
      * intro; congruence.
      * unfold mine. proj. rewrite filter_app, map_app.
        replace (filter (fun e => Nat.eqb (fst e) v) (map (fun r => (w, r)) rs)) with (@nil (nat * N)); [apply app_nil_r|].
        symmetry. induction rs as [|r rs IH]; [reflexivity|]. cbn [map filter fst].
        destruct (Nat.eqb_spec w v); [congruence|exact IH].
Qed.

(** ** Rules *)
(** What each action can do, by cases on the action. *)
Definition outcome (w : nat) {X} (e : act X) (s : bst) : X -> bst -> Prop :=
  match e in act X return X -> bst -> Prop with
  | ALockNN => fun _ t => l_nn s = None /\ t = set_lnn (Some w) s
  | AUnlockNN => fun _ t => t = set_lnn None s
  | ALockNodesReq => fun _ t => l_w s = None /\ t = set_lnodes (Some w) false (l_r s) s
  | ALockNodesAcq => fun _ t => l_r s = [] /\ t = set_lnodes (Some w) true [] s
  | AUnlockNodes => fun _ t => t = set_lnodes None false (l_r s) s
  | ARLock => fun _ t => l_w s = None /\ t = set_lnodes None false (w :: l_r s) s
  | ARUnlock => fun _ t => t = set_lnodes (l_w s) (l_wh s) (remove Nat.eq_dec w (l_r s)) s
  | ALockRoots => fun _ t => l_roots s = None /\ t = set_lroots (Some w) s
  | AUnlockRoots => fun _ t => t = set_lroots None s
  | AGetNN => fun x t => x = nn s /\ t = s
  | ASetNN n => fun _ t => t = set_nn n (claim w (nn s) n (owner s)) s
  | AGetNS => fun x t => x = ns s /\ t = s
  | ASetNS n => fun _ t => t = set_ns n s
  | AGetBase => fun x t => x = base s /\ t = s
  | ARealloc b => fun x t => exec c w (ARealloc b) s = Ok (x, t)
  | ARead p off len => fun x t => exec c w (ARead p off len) s = Ok (x, s) /\ t = s
  | AWrite p off bs => fun x t => exec c w (AWrite p off bs) s = Ok (x, t)
  | ADraw => fun x t => x < 2 ^ iw c /\ exists r, t = set_rnd (Some r) s
  | AGetRoots => fun x t => x = broots s /\ t = s
  | ASetRoots l => fun _ t => t = set_roots l s
  end.
Lemma mstep_outcome w X (e : act X) s x t : mstep c w X e s x t -> outcome w e s x t.
Proof. intro M. destruct M; cbn [outcome]; eauto. Qed.

Lemma wp_R w {A} (p : prog A) Q s t : R w s t -> wp w p Q s -> wp w p Q t.
Proof.
  intros H. destruct p as [a|e|X e k]; cbn [wp].
  - intros Hp s1 H1. apply Hp. eapply R_trans; eauto.
  - intros [He Hf]. split; [exact He|]. apply (r_holds _ _ _ H). exact Hf.
  - intros Hp s1 H1. apply Hp. eapply R_trans; eauto.
Qed.
Lemma wp_bind w {A B} (p : prog A) (f : A -> prog B) Q : forall s, Inv s ->
  wp w p (fun a t => wp w (f a) Q t) s -> wp w (pbind p f) Q s.
Proof.
  induction p as [a|e|X e k IH]; intros s HI H; cbn [pbind wp] in *.
  - apply H; [apply R_refl|exact HI].
  - exact H.
  - intros s1 H1 HI1. destruct (H s1 H1 HI1) as [S N]. split; [exact S|]. intros x s2 M.
    apply IH; [|apply N; exact M]. eapply step_ok; eauto.
Qed.
Lemma wp_mono w {A} (p : prog A) (Q Q' : A -> bst -> Prop) : forall s, Inv s ->
  (forall a t, Inv t -> Q a t -> Q' a t) -> wp w p Q s -> wp w p Q' s.
Proof.
  intros s HI HQ. revert s HI. induction p as [a|e|X e k IH]; intros s HI H; cbn [wp] in *; auto.
  intros s1 H1 HI1. destruct (H s1 H1 HI1) as [S N]. split; [exact S|]. intros x s2 M. apply IH; [|apply N; exact M].
  eapply step_ok; eauto.
Qed.

Lemma step_inv w X (e : act X) s x t : mstep c w X e s x t -> Inv s -> safe w e s -> Inv t.
Proof. intros M I S. exact (proj1 (step_ok _ _ _ _ _ _ I S M)). Qed.

Ltac start HI1 := intros s1 HR HI1; split; [|intros x s2 M; pose proof (mstep_outcome _ _ _ _ _ _ M) as O; cbn [outcome] in O].

Section Rules.
Variable w : nat.
Context {A : Type}.
Variable Q : A -> bst -> Prop.

Lemma rule_lock_nn k s : holds w s HFree ->
  (forall t, Inv t -> holds w t HNN -> same w s t -> wp w (k tt) Q t) -> wp w (Vis ALockNN k) Q s.
Proof.
  intros Hh Hk. start HI1.
  - exact (r_holds _ _ _ HR _ Hh).
  - destruct O as [E ->]. destruct x. pose proof (r_holds _ _ _ HR _ Hh) as Hh1.
    apply Hk.
    + exact (step_inv _ _ _ _ _ _ M HI1 Hh1).
    + unfold holds in *. proj. tauto.
    + eapply same_trans; [apply R_same; exact HR|]. apply still_same. repeat split.
Qed.
Lemma rule_unlock_nn k s : holds w s HNN ->
  (forall t, Inv t -> holds w t HFree -> same w s t -> wp w (k tt) Q t) -> wp w (Vis AUnlockNN k) Q s.
Proof.
  intros Hh Hk. start HI1.
  - exact (r_holds _ _ _ HR _ Hh).
  - subst s2. destruct x. pose proof (r_holds _ _ _ HR _ Hh) as Hh1.
    apply Hk.
    + exact (step_inv _ _ _ _ _ _ M HI1 Hh1).
    + unfold holds in *. proj. intuition discriminate.
    + eapply same_trans; [apply R_same; exact HR|]. apply still_same. repeat split.
Qed.
Lemma rule_get_nn k s : holds w s HNN ->
  (forall t, Inv t -> holds w t HNN -> same w s t -> nn t = nn s -> ns t = ns s -> wp w (k (nn s)) Q t) ->
  wp w (Vis AGetNN k) Q s.
Proof.
  intros Hh Hk. start HI1.
  - exact (r_holds _ _ _ HR _ Hh).
  - destruct O as [-> ->]. pose proof (r_holds _ _ _ HR _ Hh) as Hh1.
    destruct (r_nn _ _ _ HR (proj1 Hh)) as (_ & E1 & E2). rewrite E1.
    apply Hk; auto. apply R_same. exact HR.
Qed.
Lemma rule_get_ns k s : holds w s HNN ->
  (forall t, Inv t -> holds w t HNN -> same w s t -> nn t = nn s -> ns t = ns s -> wp w (k (ns s)) Q t) ->
  wp w (Vis AGetNS k) Q s.
Proof.
  intros Hh Hk. start HI1.
  - left. exact (r_holds _ _ _ HR _ Hh).
  - destruct O as [-> ->]. pose proof (r_holds _ _ _ HR _ Hh) as Hh1.
    destruct (r_nn _ _ _ HR (proj1 Hh)) as (_ & E1 & E2). rewrite E2.
    apply Hk; auto. apply R_same. exact HR.
Qed.
Lemma rule_get_ns_wr k s : holds w s HWr ->
  (forall t, Inv t -> holds w t HWr -> same w s t -> nn t = nn s -> ns t = ns s -> wp w (k (ns s)) Q t) ->
  wp w (Vis AGetNS k) Q s.
Proof.
  intros Hh Hk. start HI1.
  - right. exact (r_holds _ _ _ HR _ Hh).
  - destruct O as [-> ->]. pose proof (r_holds _ _ _ HR _ Hh) as Hh1.
    destruct (r_nn _ _ _ HR (proj1 Hh)) as (_ & E1 & E2). rewrite E2.
    apply Hk; auto. apply R_same. exact HR.
Qed.
Lemma rule_req k s : holds w s HNN ->
  (forall t, Inv t -> holds w t HReq -> same w s t -> nn t = nn s -> ns t = ns s -> wp w (k tt) Q t) ->
  wp w (Vis ALockNodesReq k) Q s.
Proof.
  intros Hh Hk. start HI1.
  - exact (r_holds _ _ _ HR _ Hh).
  - destruct O as [E ->]. destruct x. pose proof (r_holds _ _ _ HR _ Hh) as Hh1.
    destruct (r_nn _ _ _ HR (proj1 Hh)) as (_ & E1 & E2). apply Hk; auto.
    + exact (step_inv _ _ _ _ _ _ M HI1 Hh1).
    + unfold holds in *. proj. intuition discriminate.
    + eapply same_trans; [apply R_same; exact HR|]. apply still_same. repeat split.
Qed.
Lemma rule_acq k s : holds w s HReq ->
  (forall t, Inv t -> holds w t HWr -> same w s t -> nn t = nn s -> ns t = ns s -> wp w (k tt) Q t) ->
  wp w (Vis ALockNodesAcq k) Q s.
Proof.
  intros Hh Hk. start HI1.
  - exact (r_holds _ _ _ HR _ Hh).
  - destruct O as [E ->]. destruct x. pose proof (r_holds _ _ _ HR _ Hh) as Hh1.
    destruct (r_nn _ _ _ HR (proj1 Hh)) as (_ & E1 & E2). apply Hk; auto.
    + exact (step_inv _ _ _ _ _ _ M HI1 Hh1).
    + unfold holds in *. proj. cbn [In]. tauto.
    + eapply same_trans; [apply R_same; exact HR|]. apply still_same. repeat split.
Qed.
Lemma rule_realloc b k s : holds w s HWr ->
  (forall t, Inv t -> holds w t HWr -> same w s t -> nn t = nn s -> ns t = ns s ->
     b <= ptr_size (heap t) (al t) -> base t = al t -> al t <> None -> wp w (k tt) Q t) ->
  wp w (Vis (ARealloc b) k) Q s.
Proof.
  intros Hh Hk. start HI1.
  - exact (r_holds _ _ _ HR _ Hh).
  - assert (HI2 : Inv s2) by exact (step_inv _ _ _ _ _ _ M HI1 (r_holds _ _ _ HR _ Hh)).
    cbn [exec] in O. destruct (reallocate (heap s1) (al s1) b) as [h p] eqn:E. injection O as <- <-.
    destruct (reallocate_spec _ _ _ _ _ (sw_alloc _ _ _ (iv_wf _ HI1)) E) as (b' & Hat & Hz & Hsz & Hsz2 & Hget & _ & Hwf').
    pose proof (r_holds _ _ _ HR _ Hh) as Hh1.
    destruct (r_nn _ _ _ HR (proj1 Hh)) as (_ & E1 & E2). apply Hk; auto.
    + eapply same_trans; [apply R_same; exact HR|]. constructor; try reflexivity.
      intros i _. unfold snode_img. apply node_at_ext. intro a. unfold smem. proj. unfold cur_mem at 1. rewrite Hat. apply Hget.
    + proj. unfold ptr_size. rewrite Hat. exact Hsz.
    + proj. destruct p; [discriminate|cbn in Hat; discriminate].
Qed.
Lemma rule_set_ns n k s : holds w s HWr -> ns s <= n -> n * NSZ <= ptr_size (heap s) (al s) ->
  n * NSZ < 2 ^ iw c -> base s = al s -> al s <> None ->
  (forall t, Inv t -> holds w t HWr -> same w s t -> nn t = nn s -> ns t = n -> wp w (k tt) Q t) ->
  wp w (Vis (ASetNS n) k) Q s.
Proof.
  intros Hh H1 H2 H3 H4 H5 Hk. start HI1.
  - destruct (r_nn _ _ _ HR (proj1 Hh)) as (_ & E1 & E2).
    destruct (r_wr _ _ _ HR (proj1 (proj2 Hh)) (proj1 (proj2 (proj2 Hh)))) as (_ & _ & Eh & Ea & Eb).
    cbn [safe]. rewrite E2, Eh, Ea, Eb. split; [exact (r_holds _ _ _ HR _ Hh)|]. auto 10.
  - subst s2. destruct x. pose proof (r_holds _ _ _ HR _ Hh) as Hh1.
    destruct (r_nn _ _ _ HR (proj1 Hh)) as (_ & E1 & E2).
    destruct (r_wr _ _ _ HR (proj1 (proj2 Hh)) (proj1 (proj2 (proj2 Hh)))) as (_ & _ & Eh & Ea & Eb).
    apply Hk; auto.
    + refine (step_inv _ _ _ _ _ _ M HI1 _). cbn [safe]. rewrite E2, Eh, Ea, Eb. auto 10.
    + eapply same_trans; [apply R_same; exact HR|]. constructor; reflexivity.
Qed.
Lemma rule_unlock_nodes k s : holds w s HWr ->
  (forall t, Inv t -> holds w t HNN -> same w s t -> nn t = nn s -> ns t = ns s -> wp w (k tt) Q t) ->
  wp w (Vis AUnlockNodes k) Q s.
Proof.
  intros Hh Hk. start HI1.
  - exact (r_holds _ _ _ HR _ Hh).
  - subst s2. destruct x. pose proof (r_holds _ _ _ HR _ Hh) as Hh1.
    destruct (r_nn _ _ _ HR (proj1 Hh)) as (_ & E1 & E2). apply Hk; auto.
    + exact (step_inv _ _ _ _ _ _ M HI1 Hh1).
    + unfold holds in *. proj. intuition discriminate.
    + eapply same_trans; [apply R_same; exact HR|]. apply still_same. repeat split.
Qed.
Lemma rule_set_nn n k s : holds w s HNN -> n = nn s + 1 -> nn s + 1 <= ns s -> lenN (own w s) + 1 <= bud w -> (w < W)%nat ->
  (forall t, Inv t -> holds w t HNN -> own w t = nn s :: own w s -> keep w s t ->
     snode_img fo c t (nn s) = zeros -> ~ In (nn s) (own w s) -> nitems <= nn s -> wp w (k tt) Q t) ->
  wp w (Vis (ASetNN n) k) Q s.
Proof.
  intros Hh -> H1 H2 H3 Hk. start HI1.
  - destruct (r_nn _ _ _ HR (proj1 Hh)) as (_ & E1 & E2). cbn [safe]. rewrite E1, E2, (r_own _ _ _ HR).
    split; [exact (r_holds _ _ _ HR _ Hh)|]. auto 10.
  - subst s2. destruct x. pose proof (r_holds _ _ _ HR _ Hh) as Hh1.
    destruct (r_nn _ _ _ HR (proj1 Hh)) as (_ & E1 & E2). rewrite E1 in M |- *.
    assert (Ho : own w (set_nn (nn s + 1) (claim w (nn s) (nn s + 1) (owner s1)) s1) = nn s :: own w s).
    { rewrite own_claim, Nat.eqb_refl. now rewrite (r_own _ _ _ HR). }
    apply Hk.
    + refine (step_inv _ _ _ _ _ _ M HI1 _). cbn [safe]. rewrite E1, E2, (r_own _ _ _ HR). auto 10.
    + exact Hh1.
    + exact Ho.
    + constructor.
      * exists [nn s]. exact Ho.
      * intros i Hi. rewrite <- (r_img _ _ _ HR i Hi). reflexivity.
      * exact (r_mine _ _ _ HR).
      * proj. lia.
    + rewrite <- E1. apply (iv_zero _ HI1). lia.
    + rewrite <- (r_own _ _ _ HR), in_own. intro Hi. destruct (iv_own _ HI1 _ _ Hi). lia.
    + rewrite <- E1, (iv_nn _ HI1). lia.
Qed.
Lemma rule_rlock k s : holds w s HFree ->
  (forall t, Inv t -> holds w t HRd -> same w s t -> wp w (k tt) Q t) -> wp w (Vis ARLock k) Q s.
Proof.
  intros Hh Hk. start HI1.
  - exact (r_holds _ _ _ HR _ Hh).
  - destruct O as [E ->]. destruct x. pose proof (r_holds _ _ _ HR _ Hh) as Hh1. apply Hk.
    + exact (step_inv _ _ _ _ _ _ M HI1 Hh1).
    + unfold holds in *. proj. cbn [In]. intuition discriminate.
    + eapply same_trans; [apply R_same; exact HR|]. apply still_same. repeat split.
Qed.
Lemma rule_runlock k s : holds w s HRd ->
  (forall t, Inv t -> holds w t HFree -> same w s t -> wp w (k tt) Q t) -> wp w (Vis ARUnlock k) Q s.
Proof.
  intros Hh Hk. start HI1.
  - exact (r_holds _ _ _ HR _ Hh).
  - subst s2. destruct x. pose proof (r_holds _ _ _ HR _ Hh) as Hh1. apply Hk.
    + exact (step_inv _ _ _ _ _ _ M HI1 Hh1).
    + unfold holds in *. proj. intuition. eapply remove_In; eauto.
    + eapply same_trans; [apply R_same; exact HR|]. apply still_same. repeat split.
Qed.
Lemma rule_get_base k s : holds w s HRd ->
  (forall t, Inv t -> holds w t HRd -> same w s t -> base t = base s -> wp w (k (base s)) Q t) ->
  wp w (Vis AGetBase k) Q s.
Proof.
  intros Hh Hk. start HI1.
  - exact (r_holds _ _ _ HR _ Hh).
  - destruct O as [-> ->]. pose proof (r_holds _ _ _ HR _ Hh) as Hh1.
    destruct (r_base _ _ _ HR (proj1 (proj2 (proj2 Hh)))) as (_ & E1). rewrite E1.
    apply Hk; auto. apply R_same. exact HR.
Qed.
Lemma rule_draw h k s : holds w s h -> h = HFree \/ h = HRd ->
  (forall d t, d < 2 ^ iw c -> Inv t -> holds w t h -> same w s t -> (h = HRd -> base t = base s) -> wp w (k d) Q t) ->
  wp w (Vis ADraw k) Q s.
Proof.
  intros Hh Hc Hk. start HI1.
  - cbn [safe]. destruct Hc as [->| ->]; [left|right]; exact (r_holds _ _ _ HR _ Hh).
  - destruct O as (Hd & r & ->). pose proof (r_holds _ _ _ HR _ Hh) as Hh1. apply Hk; auto.
    + refine (step_inv _ _ _ _ _ _ M HI1 _). cbn [safe]. destruct Hc as [->| ->]; auto.
    + eapply same_trans; [apply R_same; exact HR|]. apply still_same. repeat split.
    + intros ->. destruct (r_base _ _ _ HR (proj1 (proj2 (proj2 Hh)))) as (_ & E1). exact E1.
Qed.
Lemma base_view s i o len : Inv s -> i < ns s -> o + len <= NSZ ->
  exec c w (ARead (base s) (i * NSZ + o) len) s = Ok (sub o len (snode_img fo c s i), s).
Proof.
  intros I Hi Ho. pose proof (iv_wf _ I) as Wf.
  destruct (sw_base _ _ _ Wf) as [?|Hb]; [lia|]. destruct (sw_some _ _ _ Wf) as [?|Hs]; [lia|].
  pose proof (sw_room _ _ _ Wf) as Hr. cbn [exec]. rewrite Hb. unfold ptr_size in Hr.
  destruct (arena_at (heap s) (al s)) as [b|] eqn:E.
  - rewrite bread_ok by nia. cbn [rbind]. unfold snode_img, node_at, smem, cur_mem. rewrite E.
    do 2 f_equal. unfold sub. rewrite skipn_mread, firstn_mread by lia. f_equal. lia.
  - pose proof (sw_alloc _ _ _ Wf) as Ha. unfold alloc_wf in Ha. destruct (al s); [|congruence].
    destruct Ha as (b & Hb' & _). congruence.
Qed.
Lemma rule_read i o len k s : holds w s HRd -> i < nitems -> o + len <= NSZ ->
  (forall t, Inv t -> holds w t HRd -> same w s t -> base t = base s -> wp w (k (sub o len (img i))) Q t) ->
  wp w (Vis (ARead (base s) (i * NSZ + o) len) k) Q s.
Proof.
  intros Hh Hi Ho Hk. start HI1.
  - cbn [safe]. split; [exact (r_holds _ _ _ HR _ Hh)|]. split.
    + symmetry. apply (r_base _ _ _ HR), Hh.
    + exists i. split; [exact Hi|]. split; lia.
  - destruct O as [O ->]. pose proof (r_holds _ _ _ HR _ Hh) as Hh1.
    destruct (r_base _ _ _ HR (proj1 (proj2 (proj2 Hh)))) as (_ & E1). rewrite <- E1 in O.
    pose proof (iv_le _ HI1) as Hle. pose proof (iv_nn _ HI1) as Hnn.
    rewrite base_view in O by (auto; lia). injection O as <-.
    rewrite (iv_items _ HI1) by exact Hi. apply Hk; auto. apply R_same. exact HR.
Qed.
Lemma rule_write i o bs k s : holds w s HRd -> In i (own w s) -> o + lenN bs <= NSZ ->
  (forall t, Inv t -> holds w t HRd -> own w t = own w s -> mine w t = mine w s -> base t = base s -> nn s <= nn t ->
     snode_img fo c t i = splice o bs (snode_img fo c s i) ->
     (forall j, In j (own w s) -> j <> i -> snode_img fo c t j = snode_img fo c s j) -> wp w (k tt) Q t) ->
  wp w (Vis (AWrite (base s) (i * NSZ + o) bs) k) Q s.
Proof.
  intros Hh Hi Ho Hk.
  assert (Hsafe : forall s1, R w s s1 -> safe w (AWrite (base s) (i * NSZ + o) bs) s1).
  { intros s1 HR. cbn [safe]. split; [exact (r_holds _ _ _ HR _ Hh)|]. split.
    + symmetry. apply (r_base _ _ _ HR), Hh.
    + exists i, o. split; [|auto]. rewrite (r_own _ _ _ HR). exact Hi. }
  start HI1; [auto|].
  destruct x. pose proof (r_holds _ _ _ HR _ Hh) as Hh1.
  destruct (step_ok _ _ _ _ _ _ HI1 (Hsafe _ HR) M) as [HI2 _].
  destruct (r_base _ _ _ HR (proj1 (proj2 (proj2 Hh)))) as (_ & E1). rewrite <- E1 in O.
  assert (Hi1 : i < nn s1). { apply (iv_own _ HI1 i w). rewrite <- in_own, (r_own _ _ _ HR). exact Hi. }
  pose proof (iv_le _ HI1) as Hle.
  destruct (exec_write_wf fo c w s1 i o bs (iv_wf _ HI1) ltac:(lia) Ho)
      as (s3 & E & W2 & N2 & M2 & R2 & D2 & B2 & I2 & O2).
  rewrite E in O. injection O as <-.
  assert (El : owner s3 = owner s1 /\ l_nn s3 = l_nn s1 /\ l_roots s3 = l_roots s1 /\ l_w s3 = l_w s1 /\ l_wh s3 = l_wh s1 /\ l_r s3 = l_r s1 /\ al s3 = al s1).
  { cbn [exec] in E. destruct (base s1); [|discriminate]. destruct (nth_error (heap s1) n); [|discriminate].
    destruct (bwrite b (i * NSZ + o) bs); [|discriminate]. cbn [rbind] in E. injection E as <-. proj. repeat split. }
  destruct El as (L1 & L2 & L3 & L4 & L5 & L6 & L7).
  apply Hk; auto.
  - unfold holds in *. rewrite L2, L3, L4, L6. exact Hh1.
  - unfold own. rewrite L1. exact (r_own _ _ _ HR).
  - unfold mine. rewrite R2. exact (r_mine _ _ _ HR).
  - congruence.
  - rewrite M2. exact (r_mono _ _ _ HR).
  - rewrite I2. f_equal. apply (r_img _ _ _ HR). exact Hi.
  - intros j Hj Hne. rewrite O2 by exact Hne. apply (r_img _ _ _ HR). exact Hj.
Qed.
Lemma rule_lock_roots k s : holds w s HFree ->
  (forall t, Inv t -> holds w t HRt -> same w s t -> wp w (k tt) Q t) -> wp w (Vis ALockRoots k) Q s.
Proof.
  intros Hh Hk. start HI1.
  - exact (r_holds _ _ _ HR _ Hh).
  - destruct O as [E ->]. destruct x. pose proof (r_holds _ _ _ HR _ Hh) as Hh1. apply Hk.
    + exact (step_inv _ _ _ _ _ _ M HI1 Hh1).
    + unfold holds in *. proj. tauto.
    + eapply same_trans; [apply R_same; exact HR|]. apply still_same. repeat split.
Qed.
Lemma rule_unlock_roots k s : holds w s HRt ->
  (forall t, Inv t -> holds w t HFree -> same w s t -> wp w (k tt) Q t) -> wp w (Vis AUnlockRoots k) Q s.
Proof.
  intros Hh Hk. start HI1.
  - exact (r_holds _ _ _ HR _ Hh).
  - subst s2. destruct x. pose proof (r_holds _ _ _ HR _ Hh) as Hh1. apply Hk.
    + exact (step_inv _ _ _ _ _ _ M HI1 Hh1).
    + unfold holds in *. proj. intuition discriminate.
    + eapply same_trans; [apply R_same; exact HR|]. apply still_same. repeat split.
Qed.
Lemma rule_get_roots k s : holds w s HRt ->
  (forall t, Inv t -> holds w t HRt -> same w s t -> broots t = broots s -> wp w (k (broots s)) Q t) ->
  wp w (Vis AGetRoots k) Q s.
Proof.
  intros Hh Hk. start HI1.
  - exact (r_holds _ _ _ HR _ Hh).
  - destruct O as [-> ->]. pose proof (r_holds _ _ _ HR _ Hh) as Hh1.
    destruct (r_roots _ _ _ HR (proj2 (proj2 (proj2 Hh)))) as (_ & E1). rewrite E1.
    apply Hk; auto. apply R_same. exact HR.
Qed.
Lemma rule_set_roots rs k s : holds w s HRt -> (w < W)%nat ->
  (forall t, Inv t -> holds w t HRt -> own w t = own w s -> nn s <= nn t ->
     (forall i, In i (own w s) -> snode_img fo c t i = snode_img fo c s i) ->
     mine w t = mine w s ++ rs -> wp w (k tt) Q t) ->
  wp w (Vis (ASetRoots (broots s ++ map (fun r => (w, r)) rs)) k) Q s.
Proof.
  intros Hh Hw Hk.
  assert (Hsafe : forall s1, R w s s1 -> safe w (ASetRoots (broots s ++ map (fun r => (w, r)) rs)) s1).
  { intros s1 HR. cbn [safe]. split; [exact (r_holds _ _ _ HR _ Hh)|]. split; [exact Hw|]. exists rs.
    destruct (r_roots _ _ _ HR (proj2 (proj2 (proj2 Hh)))) as (_ & E1). now rewrite E1. }
  start HI1; [auto|].
  destruct (step_ok _ _ _ _ _ _ HI1 (Hsafe _ HR) M) as [HI2 _].
  subst s2. destruct x. pose proof (r_holds _ _ _ HR _ Hh) as Hh1. apply Hk; auto.
  - exact (r_own _ _ _ HR).
  - exact (r_mono _ _ _ HR).
  - intros i Hi. exact (r_img _ _ _ HR i Hi).
  - unfold mine. proj. rewrite filter_app, map_app. f_equal.
    clear. induction rs as [|r l IH]; [reflexivity|]. cbn [map filter fst]. rewrite Nat.eqb_refl. cbn [map snd]. now f_equal.
Qed.
End Rules.
End C.
