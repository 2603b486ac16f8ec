(** Two stores with the same node contents, but laid out differently, behave alike
    during a single-worker build. *)
From Verif Require Import Base Flt Layout Rng Alloc Prog Imbalance Dist Build Policy Index Lib LayoutProof MemProof StoreProof ActsProof MiscProof ConcProof TreeProof BuildProof.
From Coq Require Import Permutation.
Open Scope N_scope.

Section R.
Variable fo : FOps.
Variable c : Cfg.
Hypothesis OK : CfgOK fo c.
Hypothesis Hvlen : 1 <= vlen c.
Notation NSZ := (nodeSize fo c).
Notation K := (maxK fo c).
Notation simg := (snode_img fo c).
Variable ni : N.
Variable im : N -> list N.
Variable M : N.
Hypothesis HM : cap_ok fo c M.

Record alike (s t : bst) : Prop := mkAlike {
  lk_wf1 : store_wf fo c s;
  lk_wf2 : store_wf fo c t;
  lk_ns1 : nn s <= ns s;
  lk_ns2 : nn s <= ns t;
  lk_ni : ni <= nn s;
  lk_nn : nn t = nn s;
  lk_roots : broots t = broots s;
  lk_rnd : rnd t = rnd s;
  lk_img : forall i, simg t i = simg s i;
  lk_item : forall i, i < ni -> simg s i = im i
}.

Definition rel {A} (p q : prog A) (s t : bst) (P : A -> bst -> bst -> Prop) : Prop :=
  match run c 0 p s, run c 0 q t with
  | Ok (a, s'), Ok (b, t') => a = b /\ alike s' t' /\ P a s' t'
  | Er e, Er e' => e = e'
  | _, _ => False
  end.

Lemma rel_ret {A} (a : A) s t (P : A -> bst -> bst -> Prop) : alike s t -> P a s t -> rel (Ret a) (Ret a) s t P.
Proof. intros. cbn. auto. Qed.
Lemma rel_bind {A B} (p q : prog A) (f g : A -> prog B) s t P Q :
  rel p q s t P -> (forall a s1 t1, alike s1 t1 -> P a s1 t1 -> rel (f a) (g a) s1 t1 Q) ->
  rel (pbind p f) (pbind q g) s t Q.
Proof.
  unfold rel. intros H Hf. rewrite !run_pbind.
  destruct (run c 0 p s) as [[a s1]|e], (run c 0 q t) as [[b t1]|e']; try contradiction; cbn [rbind].
  - destruct H as (<- & H1 & H2). now apply Hf.
  - exact H.
Qed.
Lemma rel_vis {A X Y} (e : act X) (e' : act Y) k k' s t x y s1 t1 (Q : A -> bst -> bst -> Prop) :
  exec c 0 e s = Ok (x, s1) -> exec c 0 e' t = Ok (y, t1) -> rel (k x) (k' y) s1 t1 Q ->
  rel (Vis e k) (Vis e' k') s t Q.
Proof. intros H1 H2. unfold rel. cbn [run]. rewrite H1, H2. cbn [rbind]. auto. Qed.
Lemma rel_weaken {A} (p q : prog A) s t (P Q : A -> bst -> bst -> Prop) :
  (forall a s1 t1, alike s1 t1 -> P a s1 t1 -> Q a s1 t1) -> rel p q s t P -> rel p q s t Q.
Proof.
  unfold rel. intro H. destruct (run c 0 p s) as [[a s1]|e], (run c 0 q t) as [[b t1]|e']; auto.
  intros (-> & H1 & H2). auto.
Qed.

Lemma rel_claim s t : alike s t -> nn s + 1 <= M ->
  rel (claim_node fo c) (claim_node fo c) s t (fun i s' t' => i = nn s /\ nn s' = nn s + 1).
Proof.
  intros L H. unfold claim_node. pose proof (cap_ok_small _ _ OK _ HM) as Hsm.
  eapply rel_vis; [reflexivity..|]. eapply rel_vis; [reflexivity..|]. rewrite (lk_nn _ _ L), (tix_small c (nn s + 1)) by lia.
  assert (Hc : cap_ok fo c (nn s + 1)) by (eapply cap_ok_mono; [|exact HM]; lia).
  destruct (allocate_size_run _ _ OK 0%nat (nn s + 1) true s (lk_wf1 _ _ L) Hc) as (s1 & E1 & W1 & G1 & _ & _ & X1 & N1 & R1 & D1 & _).
  destruct (allocate_size_run _ _ OK 0%nat (nn s + 1) true t (lk_wf2 _ _ L) Hc) as (t1 & E2 & W2 & G2 & _ & _ & X2 & N2 & R2 & D2 & _).
  apply (rel_bind _ _ _ _ _ _ (fun _ s' t' => nn s' = nn s /\ nn s + 1 <= ns s' /\ nn s + 1 <= ns t')).
  - unfold rel. rewrite E1, E2. split; [reflexivity|]. split; [|lia].
    assert (I1 : forall i, simg s1 i = simg s i) by (intro i; apply node_at_ext; exact X1).
    assert (I2 : forall i, simg t1 i = simg t i) by (intro i; apply node_at_ext; exact X2).
    destruct L. constructor; auto; try lia; try congruence; intros; rewrite ?I1, ?I2; auto.
  - intros _ s2 t2 L2 (H1 & H2 & H3). eapply rel_vis; [reflexivity..|]. rewrite (lk_nn _ _ L2), H1, (tix_small c (nn s + 1)) by lia.
    eapply rel_vis; [reflexivity..|]. eapply rel_vis; [reflexivity..|]. apply rel_ret; [|auto].
    destruct L2 as [V1 V2 ? ? ? ? ? ? ? ?]. constructor; cbn [set_nn nn ns broots rnd]; auto; try lia.
    + destruct V1 as [J1 J2 J3 J4 J5]. now constructor.
    + destruct V2 as [J1 J2 J3 J4 J5]. now constructor.
Qed.

(** One store through the current pointers, beyond the items. *)
Lemma rel_write {A} i o bs (k k' : unit -> prog A) s t (Q : A -> bst -> bst -> Prop) : alike s t -> ni <= i < nn s -> nn s <= M -> o + lenN bs <= NSZ ->
  (forall s1 t1, alike s1 t1 -> nn s1 = nn s -> base s1 = base s -> base t1 = base t -> rel (k tt) (k' tt) s1 t1 Q) ->
  rel (Vis (AWrite (base s) (addr fo c i + o) bs) k) (Vis (AWrite (base t) (addr fo c i + o) bs) k') s t Q.
Proof.
  intros L Hi Hn Ho HQ. rewrite (cap_ok_addr fo c M i HM) by lia.
  destruct (exec_write_wf fo c 0%nat s i o bs (lk_wf1 _ _ L)) as (s1 & E1 & W1 & N1 & M1 & R1 & D1 & B1 & I1 & O1);
    [pose proof (lk_ns1 _ _ L); lia|exact Ho|].
  destruct (exec_write_wf fo c 0%nat t i o bs (lk_wf2 _ _ L)) as (t1 & E2 & W2 & N2 & M2 & R2 & D2 & B2 & I2 & O2);
    [pose proof (lk_ns2 _ _ L); lia|exact Ho|].
  eapply rel_vis; [exact E1|exact E2|]. apply HQ; auto.
  destruct L as [V1 V2 L1 L2 L3 L4 L5 L6 L7 L8]. constructor; auto; try lia; try congruence.
  - intro j. destruct (N.eq_dec j i) as [->|Hj]; [now rewrite I1, I2, L7|]. now rewrite O1, O2.
  - intros j Hj. rewrite O1 by lia. auto.
Qed.

Lemma rel_write0 {A} i bs (k k' : unit -> prog A) s t (Q : A -> bst -> bst -> Prop) : alike s t -> ni <= i < nn s -> nn s <= M -> lenN bs <= NSZ ->
  (forall s1 t1, alike s1 t1 -> nn s1 = nn s -> base s1 = base s -> base t1 = base t -> rel (k tt) (k' tt) s1 t1 Q) ->
  rel (Vis (AWrite (base s) (addr fo c i) bs) k) (Vis (AWrite (base t) (addr fo c i) bs) k') s t Q.
Proof. intros. replace (addr fo c i) with (addr fo c i + 0) by lia. now apply rel_write. Qed.

Lemma rel_store im' s t : alike s t -> nn s + 1 <= M ->
  rel (store_split fo c im') (store_split fo c im') s t (fun i s' t' => nn s' = nn s + 1).
Proof.
  intros L H. unfold store_split. eapply rel_bind; [apply rel_claim; assumption|].
  intros i s1 t1 L1 [-> H1]. eapply rel_vis; [reflexivity..|]. eapply rel_vis; [reflexivity..|].
  apply rel_write0; auto; try lia.
  - pose proof (lk_ni _ _ L). lia.
  - pose proof (nodeSize_eq _ _ OK). pose proof (fb_pos _ _ OK). unfold lenN. rewrite firstn_length. nia.
  - intros s2 t2 L2 N2 _ _. eapply rel_vis; [reflexivity..|]. apply rel_ret; auto. lia.
Qed.

Lemma rel_leaf l root s t : alike s t -> nn s + 1 <= M -> lenN l <= K ->
  rel (make_leaf fo c ni l root) (make_leaf fo c ni l root) s t (fun i s' t' => nn s' = nn s + 1).
Proof.
  intros L H Hl. pose proof (maxK_fits _ _ OK) as Hf. pose proof (nodeSize_ge _ _ OK). pose proof (ixb_pos _ _ OK).
  unfold make_leaf. eapply rel_bind; [apply rel_claim; assumption|]. pose proof (lk_ni _ _ L) as Hni.
  intros i s1 t1 L1 [-> Hc1]. eapply rel_vis; [reflexivity..|]. eapply rel_vis; [reflexivity..|].
  apply rel_write0; auto; try lia.
  - rewrite lenN_enc_ix. lia.
  - intros s2 t2 L2 N2 B2 B3. destruct (lenN l =? 0); cbn [pbind].
    + eapply rel_vis; [reflexivity..|]. apply rel_ret; auto. lia.
    + rewrite <- B2, <- B3. apply rel_write; auto; try lia.
      * rewrite lenN_enc_ixs. unfold off_children. nia.
      * intros s3 t3 L3 N3 _ _. cbn [pbind]. eapply rel_vis; [reflexivity..|]. apply rel_ret; auto. lia.
Qed.

Lemma run_reads {B} (f : N -> list N -> B) len s : store_wf fo c s -> nn s <= ns s -> nn s <= M -> len <= NSZ -> forall l,
  (forall j, In j l -> j < nn s) ->
  run c 0 (pmap (fun j => vis bs <- ARead (base s) (addr fo c j) len; Ret (f j bs)) l) s =
  Ok (map (fun j => f j (sub 0 len (simg s j))) l, s).
Proof.
  intros Wf Hn HnM Hlen. induction l as [|j l IH]; intro Hl; cbn [pmap map]; [reflexivity|].
  assert (Hj : j < nn s) by (apply Hl; left; reflexivity).
  cbn [pbind run]. rewrite (cap_ok_addr fo c M j HM) by lia. rewrite <- (N.add_0_r (j * NSZ)), exec_read_wf by (auto; lia).
  cbn [rbind]. rewrite run_pbind, IH by (intros; apply Hl; right; assumption). reflexivity.
Qed.
Lemma rel_reads {B} (f : N -> list N -> B) len s t l : alike s t -> nn s <= M -> len <= NSZ -> (forall j, In j l -> j < nn s) ->
  rel (pmap (fun j => vis bs <- ARead (base s) (addr fo c j) len; Ret (f j bs)) l)
      (pmap (fun j => vis bs <- ARead (base t) (addr fo c j) len; Ret (f j bs)) l) s t
      (fun r s' t' => r = map (fun j => f j (sub 0 len (simg s j))) l /\ s' = s /\ t' = t).
Proof.
  intros L Hn Hlen Hl. unfold rel. destruct L as [V1 V2 L1 L2 L3 L4 L5 L6 L7 L8].
  rewrite !run_reads; auto; try lia; [|intros; rewrite L4; auto]. split; [|split; [now constructor|auto]].
  apply map_ext. intro j. now rewrite L7.
Qed.

Lemma rel_dr u {A} (P : A -> Prop) p : dr c u P p -> forall s t, alike s t ->
  rel p p s t (fun a s' t' => P a /\ nn s' = nn s).
Proof.
  induction 1 as [a Ha|Hu|k Hk IH]; intros s t L.
  - apply rel_ret; auto.
  - reflexivity.
  - unfold rel. cbn [run exec]. rewrite (lk_rnd _ _ L). destruct (rnd s) as [r|]; [|reflexivity].
    pose proof (kiss_next_lt (iw c) r) as Hd. destruct (kiss_next (iw c) r) as [d r'] eqn:E. cbn [fst] in Hd. cbn [rbind].
    assert (L' : alike (set_rnd (Some r') s) (set_rnd (Some r') t)).
    { destruct L as [V1 V2 ? ? ? ? ? ? ? ?]. constructor; cbn [set_rnd nn ns broots rnd]; auto.
      - destruct V1 as [J1 J2 J3 J4 J5]. now constructor.
      - destruct V2 as [J1 J2 J3 J4 J5]. now constructor. }
    exact (IH d Hd _ _ L').
Qed.

Definition cost (l : list N) (root : bool) : N := if root then N.max 1 (lenN l) else lenN l - 1.

Lemma rel_body f rf l root s t :
  (forall l', (forall j, In j l' -> j < ni) -> 1 <= lenN l' -> lenN l' < 2 ^ iw c -> forall s t, alike s t -> nn s + cost l' false <= M ->
     rel (make_tree fo c ni f rf l' false) (make_tree fo c ni f rf l' false) s t (fun i s' t' => nn s <= nn s' <= nn s + cost l' false)) ->
  (forall j, In j l -> j < ni) -> (root = false -> 2 <= lenN l) -> (lenN l = 0 -> ni <= K) -> lenN l < 2 ^ iw c -> alike s t -> nn s + cost l root <= M ->
  rel (tree_body fo c ni f rf l root) (tree_body fo c ni f rf l root) s t
    (fun i s' t' => nn s + (if root then 1 else 0) <= nn s' <= nn s + cost l root).
Proof.
  intros IH Hl Hr He Hs L Hc. unfold tree_body. cbv zeta. rewrite (tix_small c (lenN l)) by exact Hs.
  destruct ((lenN l <=? K) && (negb root || (ni <=? K) || (lenN l =? 1))) eqn:Ec.
  - eapply rel_weaken; [|apply rel_leaf; auto].
    + cbv beta. intros a s1 t1 _ H1. unfold cost in *. destruct root; [lia|]. specialize (Hr eq_refl). lia.
    + unfold cost in Hc. destruct root; [lia|]. specialize (Hr eq_refl). lia.
    + lia.
  - assert (H2 : 2 <= lenN l).
    { destruct root; [|auto]. destruct (N.eq_dec (lenN l) 0) as [E|E]; [specialize (He E); lia|].
      destruct (N.eq_dec (lenN l) 1) as [E'|E']; [|lia]. assert (K <> 0 -> False) by lia. pose proof (maxK_ge2 _ _ OK). lia. }
    assert (Hcost : cost l root = if root then lenN l else lenN l - 1) by (unfold cost; destruct root; lia).
    eapply rel_vis; [reflexivity..|]. eapply rel_vis; [reflexivity..|].
    assert (HnM : nn s <= M) by lia.
    unfold read_nodes. eapply rel_bind; [apply (rel_reads (fun j bs => (j, bs)) NSZ s t l L HnM (N.le_refl _))|].
    { intros j Hj. pose proof (lk_ni _ _ L). specialize (Hl j Hj). lia. }
    intros nodes s1 t1 _ (Enodes & -> & ->).
    assert (Hfst : map fst nodes = l) by (rewrite Enodes, map_map; apply map_id).
    assert (Hlen : lenN nodes = lenN l) by (rewrite Enodes; apply lenN_map).
    eapply rel_bind; [eapply rel_dr; [apply (dr_attempts fo c OK Hvlen true nodes); [lia|apply nf_start|discriminate]|exact L]|].
    intros [m0 cur] s2 t2 L2 [[P2 D2] N2]. cbn [fst snd]. eapply rel_vis; [reflexivity..|].
    eapply rel_bind; [eapply rel_dr; [apply (dr_randomise fo c OK Hvlen nodes rf); [lia|exact P2|exact (proj1 (proj1 D2))|left; exact D2]|exact L2]|].
    intros [m [a b]] s3 t3 L3 [(P3 & A3 & B3 & _) N3]. cbn [fst snd] in *. unfold parts in P3. cbn [fst snd] in P3. rewrite Hfst in P3.
    pose proof (perm_lenN _ _ P3) as L6. rewrite lenN_app in L6.
    assert (Ha : forall j, In j a -> j < ni) by (intros j Hj; apply Hl; eapply Permutation_in; [exact P3|]; apply in_or_app; auto).
    assert (Hb : forall j, In j b -> j < ni) by (intros j Hj; apply Hl; eapply Permutation_in; [exact P3|]; apply in_or_app; auto).
    assert (Hroot : (if root then lenN l else lenN l - 1) = (lenN a - 1) + (lenN b - 1) + 1 + (if root then 1 else 0)) by (destruct root; lia).
    apply (rel_bind _ _ _ _ _ _ (fun _ s' t' => nn s <= nn s' <= nn s + (lenN a - 1) + (lenN b - 1))).
    + destruct (lenN b <? lenN a).
      * eapply rel_bind; [apply IH; auto; unfold cost in *; lia|]. cbv beta. intros cr s4 t4 L4 N4.
        eapply rel_bind; [apply IH; auto; unfold cost in *; lia|]. cbv beta. intros cl s5 t5 L5 N5.
        apply rel_ret; auto. unfold cost in *. lia.
      * eapply rel_bind; [apply IH; auto; unfold cost in *; lia|]. cbv beta. intros cr s4 t4 L4 N4.
        eapply rel_bind; [apply IH; auto; unfold cost in *; lia|]. cbv beta. intros cl s5 t5 L5 N5.
        apply rel_ret; auto. unfold cost in *. lia.
    + intros cc s6 t6 L6' N6. eapply rel_weaken; [|apply rel_store; auto; lia]. cbv beta. intros i s7 t7 _ N7. rewrite Hcost. destruct root; lia.
Qed.

Lemma rel_tree f rf : forall l root s t,
  (forall j, In j l -> j < ni) -> (root = false -> 1 <= lenN l) -> (lenN l = 0 -> ni <= K) -> lenN l < 2 ^ iw c -> alike s t -> nn s + cost l root <= M ->
  rel (make_tree fo c ni f rf l root) (make_tree fo c ni f rf l root) s t
    (fun i s' t' => nn s + (if root then 1 else 0) <= nn s' <= nn s + cost l root).
Proof.
  induction f as [|f IH]; intros l root s t Hl Hr He Hs L Hc; [reflexivity|]. rewrite make_tree_S.
  assert (IH' : forall l', (forall j, In j l' -> j < ni) -> 1 <= lenN l' -> lenN l' < 2 ^ iw c -> forall s t, alike s t -> nn s + cost l' false <= M ->
     rel (make_tree fo c ni f rf l' false) (make_tree fo c ni f rf l' false) s t (fun i s' t' => nn s <= nn s' <= nn s + cost l' false)).
  { intros l' H1 H2 H3 s1 t1 L1 H4. eapply rel_weaken; [|apply IH; auto; lia]. cbv beta. intros. cbn [cost] in *. lia. }
  destruct l as [|j [|j2 l]], root.
  - apply rel_body; auto; discriminate.
  - specialize (Hr eq_refl). cbn in Hr. lia.
  - apply rel_body; auto; discriminate.
  - apply rel_ret; auto. cbn [cost]. lia.
  - apply rel_body; auto; discriminate.
  - apply rel_body; auto. intros _. rewrite !lenN_cons. lia.
Qed.

Hypothesis Hpres : ni <= K \/ exists i, i < ni /\ 1 <= le_dec (sub 0 (ixb c) (im i)).
Hypothesis HniM : ni <= M.

Lemma rel_collect s t : alike s t -> nn s <= M ->
  rel (collect_items fo c ni) (collect_items fo c ni) s t
    (fun l s' t' => nn s' = nn s /\ (forall j, In j l -> j < ni) /\ lenN l <= ni /\ (lenN l = 0 -> ni <= K)).
Proof.
  intros L Hn. pose proof (lk_ni _ _ L) as Hni. unfold collect_items. eapply rel_vis; [reflexivity..|]. eapply rel_vis; [reflexivity..|].
  pose proof (nodeSize_ge _ _ OK) as Hs.
  eapply rel_bind; [apply (rel_reads (fun j bs => (j, le_dec bs)) (ixb c) s t (rangeN ni) L Hn); [lia|]|].
  { intros j Hj. apply in_rangeN in Hj. lia. }
  intros ds s1 t1 _ (-> & -> & ->). eapply rel_vis; [reflexivity..|]. apply rel_ret; [exact L|].
  set (g := fun j => (j, le_dec (sub 0 (ixb c) (simg s j)))).
  assert (Hin : forall j, In j (map fst (filter (fun id => 1 <=? snd id) (map g (rangeN ni)))) <-> j < ni /\ 1 <= le_dec (sub 0 (ixb c) (simg s j))).
  { intro j. rewrite in_map_iff. split.
    - intros (x & E & Hx). apply filter_In in Hx. destruct Hx as [Hx H1]. apply in_map_iff in Hx. destruct Hx as (i & <- & Hi).
      cbn [g fst snd] in *. subst i. apply in_rangeN in Hi. split; [exact Hi|lia].
    - intros [Hj H1]. exists (g j). split; [reflexivity|]. apply filter_In. split; [|cbn [g snd]; lia].
      apply in_map. now apply in_rangeN. }
  split; [reflexivity|]. split; [intros j Hj; now apply Hin in Hj|]. split.
  - rewrite lenN_map. unfold lenN. pose proof (filter_length_le (fun id : N * N => 1 <=? snd id) (map g (rangeN ni))) as Hf.
    rewrite map_length, length_rangeN in Hf. lia.
  - intro E. destruct Hpres as [H|(i & Hi & H1)]; [exact H|]. exfalso.
    assert (Hx : In i (map fst (filter (fun id => 1 <=? snd id) (map g (rangeN ni))))).
    { apply Hin. split; [exact Hi|]. now rewrite (lk_item _ _ L). }
    destruct (map fst _); [contradiction|]. rewrite lenN_cons in E. lia.
Qed.

Definition loop_room (trees : Z) (k : nat) (n : N) : Prop :=
  if (trees =? -1)%Z then n <= M /\ 3 * ni <= M else n + Z.to_N (trees - Z.of_nat k) * N.max 1 ni <= M.

Lemma rel_loop f mf rf trees : forall acc s t, alike s t -> loop_room trees (length acc) (nn s) ->
  rel (tree_loop fo c ni f mf rf trees acc) (tree_loop fo c ni f mf rf trees acc) s t
    (fun l s' t' => nn s' <= M).
Proof.
  pose proof (cap_ok_small _ _ OK _ HM) as Hsm.
  induction f as [|f IH]; intros acc s t L Hr; [reflexivity|]. cbn [tree_loop].
  assert (Hn : nn s <= M).
  { unfold loop_room in Hr. destruct (trees =? -1)%Z; nia. }
  apply (rel_bind _ _ _ _ _ _ (fun stop s' t' => nn s' = nn s /\
     (stop = false -> if (trees =? -1)%Z then nn s < 2 * ni else (Z.of_nat (length acc) < trees)%Z))).
  - destruct (trees =? -1)%Z eqn:E.
    + eapply rel_vis; [reflexivity..|]. eapply rel_vis; [reflexivity..|]. eapply rel_vis; [reflexivity..|].
      rewrite (lk_nn _ _ L). apply rel_ret; [exact L|]. split; [reflexivity|]. unfold loop_room in Hr. rewrite E in Hr.
      rewrite tix_small by lia. lia.
    + apply rel_ret; [exact L|]. split; [reflexivity|]. lia.
  - intros stop s1 t1 L1 [N1 S1]. destruct stop; [apply rel_ret; auto; lia|]. specialize (S1 eq_refl).
    eapply rel_bind; [apply rel_collect; [exact L1|lia]|]. cbv beta. intros l s2 t2 L2 (N2 & Hl & Hle & He).
    assert (Hcost : nn s2 + cost l true <= M /\ loop_room trees (S (length acc)) (nn s2 + cost l true)).
    { unfold loop_room, cost in *. destruct (trees =? -1)%Z eqn:E; [lia|].
      replace (Z.to_N (trees - Z.of_nat (length acc))) with (1 + Z.to_N (trees - Z.of_nat (S (length acc)))) in Hr by lia. nia. }
    eapply rel_bind; [apply rel_tree; auto; [discriminate|lia|apply Hcost]|]. cbv beta. intros r s3 t3 L3 N3.
    apply IH; auto. rewrite app_length. cbn [length]. rewrite Nat.add_1_r. destruct Hcost as [_ Hc]. unfold loop_room in *.
    destruct (trees =? -1)%Z; nia.
Qed.

Lemma rel_thread f mf rf trees s t : alike s t -> loop_room trees 0 (nn s) ->
  rel (thread_build fo c ni f mf rf trees 0) (thread_build fo c ni f mf rf trees 0) s t (fun _ s' t' => nn s' <= M).
Proof.
  intros L Hr. unfold thread_build. eapply rel_bind; [apply rel_loop; [exact L|exact Hr]|].
  intros l s1 t1 L1 N1. eapply rel_vis; [reflexivity..|]. eapply rel_vis; [reflexivity..|]. rewrite (lk_roots _ _ L1).
  eapply rel_vis; [reflexivity..|]. eapply rel_vis; [reflexivity..|]. apply rel_ret; [|exact N1].
  destruct L1 as [V1 V2 ? ? ? ? ? ? ? ?]. constructor; cbn [set_roots nn ns broots rnd]; auto.
  - destruct V1 as [J1 J2 J3 J4 J5]. now constructor.
  - destruct V2 as [J1 J2 J3 J4 J5]. now constructor.
Qed.
End R.
