(** Every node of a built index is an item, in a tree or the copy of a root; the exact
    size of the contexts an index creates. *)
From Verif Require Import Base Flt Layout Alloc Prog Sorts Dist Build Index Search Spec ForestSpec OrderSpec
  Lib LayoutProof FltProof MemProof StoreProof SortsProof NumProof SearchProof QueryProof TreeProof PolicyProof BuildProof ForestProof AfterProof CutProof OrderProof WholeProof RoomProof
  IOProof OwnProof.
From Coq Require Import Permutation.
Open Scope N_scope.

Lemma sumZ_map_le {A} (w : A -> Z) k l : (forall i, In i l -> (w i <= k)%Z) -> (sumZ (map w l) <= Z.of_nat (length l) * k)%Z.
Proof.
  induction l as [|a l IH]; intro H; [cbn; lia|]. cbn [map length]. change (sumZ (w a :: map w l)) with (w a + sumZ (map w l))%Z.
  pose proof (H a (or_introl eq_refl)). assert (sumZ (map w l) <= Z.of_nat (length l) * k)%Z by (apply IH; intros; apply H; now right). lia.
Qed.

Section C.
Variable fo : FOps.
Variable c : Cfg.
Hypothesis OK : CfgOK fo c.
Notation NSZ := (nodeSize fo c).
Notation K := (maxK fo c).
Notation simg := (snode_img fo c).
Notation inside := (TreeProof.inside fo c).

Section T.
Variables (v : option buf) (s : bst) (ni : N).
Hypothesis Hag : forall i, i < nn s -> vread v (addr fo c i) NSZ = Ok (simg s i).
Hypothesis Hni : ni <= nn s.
Hypothesis Hit : forall i, i < ni -> n_desc c (simg s i) <= 1.
Notation w := (bm_weight fo c ni (simg s)).

Lemma inside_from i j : inside ni s i j -> ni <= i /\ ni <= j.
Proof. induction 1; intuition lia. Qed.
(** Nodes of a tree are nodes a query can get to. *)
Lemma inside_descends i j : inside ni s i j -> (forall k, inside ni s i k -> k < nn s) -> exists d, descends fo c v i d j.
Proof.
  induction 1 as [i Hi|i l r j Hi Hd Hc H IH|i l r j Hi Hd Hc H IH]; intro Hin; [exists 0%nat; constructor| |].
  - destruct IH as [d D]; [intros k Hk; apply Hin; eapply in_left; eauto|]. exists (S d). eapply de_left; [|exact D].
    econstructor; [apply Hag; apply Hin; now apply in_here|exact Hd|exact Hc].
  - destruct IH as [d D]; [intros k Hk; apply Hin; eapply in_right; eauto|]. exists (S d). eapply de_right; [|exact D].
    econstructor; [apply Hag; apply Hin; now apply in_here|exact Hd|exact Hc].
Qed.
(** The nodes of a tree weigh at most what it lists. *)
Lemma tree_weight (C : list N -> list N -> list N -> Prop) i xs : divided fo c C v ni i xs -> (forall j, inside ni s i j -> j < nn s) ->
  exists l, (forall j, inside ni s i j -> In j l) /\ (sumZ (map w l) <= Z.of_N (lenN xs))%Z.
Proof.
  induction 1 as [i xs Hl|i l r bs xs ys Hs _ Hb Dl IHl Dr IHr]; intros Hin.
  - destruct (N.lt_ge_cases i ni) as [Hi|Hi].
    { exists []. split; [|cbn; lia]. intros j Hj. apply inside_from in Hj. lia. }
    assert (Hi2 : i < nn s) by (apply Hin; now apply in_here).
    destruct Hl as [bs _ _ H1|bs Hr Hn Hd]; [lia|]. rewrite (Hag i Hi2) in Hr. injection Hr as <-.
    exists [i]. split.
    + intros j Hj. inversion Hj; subst; [now left|lia|lia].
    + unfold bm_weight. cbn [map sumZ fold_right]. replace (i <? ni) with false by lia. rewrite andb_false_r.
      replace (n_desc c (simg s i) <=? K) with true by lia. unfold lenN. rewrite length_n_children. lia.
  - destruct (split_known fo c OK v s ni Hag Hni Hit i l r Hin Hs) as (Hi & Hd & Hc & Il & Ir).
    destruct IHl as (l1 & A1 & A2); [auto|]. destruct IHr as (l2 & B1 & B2); [auto|].
    exists (i :: l1 ++ l2). split.
    + intros j Hj. inversion Hj as [| ? l0 r0 ? _ _ Hc' H|? l0 r0 ? _ _ Hc' H]; subst; [now left| |]; right; apply in_or_app;
        rewrite Hc in Hc'; injection Hc' as <- <-; auto.
    + cbn [map]. change (sumZ (w i :: ?x)) with (w i + sumZ x)%Z. rewrite map_app, sumZ_app, lenN_app.
      assert (w i = 0%Z); [|lia]. unfold bm_weight. replace (i <? ni) with false by lia. rewrite andb_false_r.
      replace (n_desc c (simg s i) <=? K) with false by lia. reflexivity.
Qed.
End T.

Section A.
Variables (ix : idx) (f : N -> option (list (F fo))) (plan : list Z) (ix' : idx).
Hypothesis I : items_inv fo c ix f.
Hypothesis A : after_build fo c ix f plan ix'.
Hypothesis Hv3 : 3 * ixb c <= vlen c.
Notation ni := (n_items ix).
Notation s := (ib ix').
Notation pres := (present fo f (n_items ix)).
Notation w := (bm_weight fo c (n_items ix) (simg (ib ix'))).
Notation roots := (rootsN (ib ix')).
Notation room := (lenN (c_nns (create_context fo ix'))).

Lemma items_weight : sumZ (map w (rangeN ni)) = Z.of_N (lenN pres).
Proof.
  unfold present. assert (G : forall l, (forall i, In i l -> i < ni) ->
    sumZ (map w l) = Z.of_N (lenN (filter (fun i => match f i with Some _ => true | None => false end) l))).
  { induction l as [|i l IH]; intro Hl; [reflexivity|]. cbn [map filter]. change (sumZ (w i :: map w l)) with (w i + sumZ (map w l))%Z.
    rewrite IH by (intros; apply Hl; now right). pose proof (Hl i (or_introl eq_refl)) as Hi. unfold bm_weight.
    rewrite (OwnProof.item_desc fo c OK ix f plan ix' I A Hv3 i Hi). replace (i <? ni) with true by lia. pose proof (maxK_ge2 _ _ OK).
    destruct (f i); cbn [N.eqb Pos.eqb andb]; [rewrite lenN_cons; lia|]. replace (0 <=? K) with true by lia. lia. }
  apply G. intros i Hi. now apply in_rangeN in Hi.
Qed.
(** The items, the nodes of the trees, the copies. *)
Lemma nodes_split : exists n, nn s = n + lenN roots /\ ni <= n /\
  (forall r, In r roots -> r < n) /\
  (forall j, ni <= j < n -> exists r, In r roots /\ inside ni s r j) /\
  forall j, n <= j < nn s -> exists r, In r roots /\ simg s j = copy_image fo c s r.
Proof.
  destruct (bt_copies _ _ _ _ _ _ A) as (n & En & Hr & _ & Hcp). exists n. split; [exact En|].
  split; [pose proof (bt_ni _ _ _ _ _ _ A) as H; destruct roots as [|r rs] eqn:Er; [rewrite lenN_nil in En; lia|]; pose proof (Hr r (or_introl eq_refl));
    pose proof (bt_range _ _ _ _ _ _ A r) as H1; rewrite Er in H1; specialize (H1 (or_introl eq_refl)); lia|].
  split; [exact Hr|]. split.
  - intros j Hj. apply (bt_cover _ _ _ _ _ _ A Hv3 j); lia.
  - intros j Hj. destruct (nth_error roots (N.to_nat (j - n))) as [r|] eqn:E.
    + exists r. split; [eapply nth_error_In; eauto|]. rewrite <- (Hcp _ _ E). f_equal. lia.
    + apply nth_error_None in E. unfold lenN in En. lia.
Qed.
Lemma copy_weight r : In r roots -> n_desc c (copy_image fo c s r) = ni.
Proof.
  intro Hr. destruct (bt_copies _ _ _ _ _ _ A) as (n & En & Hrn & _). unfold n_desc. rewrite (copy_sub fo c OK) by lia.
  destruct (bt_shape _ _ _ _ _ _ A ltac:(lia) r) as [X _]; [apply (bt_range _ _ _ _ _ _ A r Hr)|specialize (Hrn r Hr); lia|auto].
Qed.

(** The contexts of an index have no more than this .. *)
Lemma room_le : K < lenN pres -> room + 1 <= (lenN roots + 1) * lenN pres.
Proof.
  intro HK. pose proof (maxK_ge2 _ _ OK) as HK2. pose proof (present_le fo f ni) as Hple.
  assert (Hit : forall i, i < ni -> n_desc c (simg s i) <= 1).
  { intros i Hi. rewrite (OwnProof.item_desc fo c OK ix f plan ix' I A Hv3 i Hi). destruct (f i); lia. }
  destruct nodes_split as (n & En & Hn & Hr & Hin & Hcp).
  assert (G : forall rs, (forall r, In r rs -> In r roots) -> exists l, (forall r j, In r rs -> inside ni s r j -> In j l) /\
     (sumZ (map w l) <= Z.of_nat (length rs) * Z.of_N (lenN pres))%Z).
  { induction rs as [|r rs IH]; intro H.
    - exists []. split; [now intros r j []|cbn; lia].
    - destruct IH as (l & L1 & L2); [intros; apply H; now right|]. pose proof (H r (or_introl eq_refl)) as Hr'.
      destruct (root_lists fo c OK ix f plan ix' I A Hv3 r (fun _ => None) Hr' HK) as (xs & D & P).
      destruct (tree_weight (view (fun _ => None) ix') s ni (after_agrees fo c _ ix _ plan ix' A) (bt_ni _ _ _ _ _ _ A) Hit _ r xs D
        (known fo c ix f plan ix' A Hv3 r Hr')) as (l1 & M1 & M2).
      exists (l1 ++ l). split.
      + intros r1 j [<-|Hr1] Hj; apply in_or_app; eauto.
      + rewrite map_app, sumZ_app. rewrite (perm_lenN _ _ P) in M2. cbn [length]. lia. }
  destruct (G roots ltac:(auto)) as (l & L1 & L2).
  set (cp := map (fun k => n + k) (rangeN (lenN roots))).
  assert (Wc : sumZ (map w cp) = 0%Z).
  { rewrite (sumZ_same w 0 cp); [lia|]. intros j Hj. apply in_map_iff in Hj. destruct Hj as (k & <- & Hk). apply in_rangeN in Hk.
    destruct (Hcp (n + k) ltac:(lia)) as (r & Hr' & E). unfold bm_weight. rewrite E, (copy_weight r Hr').
    replace (n + k <? ni) with false by lia. rewrite andb_false_r. replace (ni <=? K) with false by (unfold lenN in *; lia). reflexivity. }
  pose proof (sumZ_part w (w_pos fo c ix ix' Hv3) (rangeN ni ++ l ++ cp) (rangeN (nn s)) (NoDup_rangeN _)) as H.
  rewrite !map_app, !sumZ_app, items_weight, Wc in H.
  assert (H' : (sumZ (map w (rangeN (nn s))) <= Z.of_N (lenN pres) + (sumZ (map w l) + 0))%Z).
  { apply H. intros i Hi. apply in_rangeN in Hi. apply in_or_app. destruct (N.lt_ge_cases i ni) as [H1|H1]; [left; now apply in_rangeN|right].
    apply in_or_app. destruct (N.lt_ge_cases i n) as [H2|H2].
    - left. destruct (Hin i ltac:(lia)) as (r & Hr' & Hj). eauto.
    - right. apply in_map_iff. exists (i - n). split; [lia|]. apply in_rangeN. lia. }
  pose proof (bt_batch _ _ _ _ _ _ A) as Hb.
  pose proof (room_ge fo c OK ix f plan ix' I A Hv3 [] ltac:(constructor) ltac:(now intros b [])) as Hge. cbn [map sumZ fold_right] in Hge.
  unfold create_context, context_length in *. cbn [c_nns] in *. unfold lenN in *. rewrite repeat_length in *.
  pose proof (sumZ_part w (w_pos fo c ix ix' Hv3) (rangeN (nn s)) (rangeN ni) (NoDup_rangeN _)) as H3. rewrite items_weight in H3.
  assert (H4 : (Z.of_N (lenN pres) <= sumZ (map w (rangeN (nn s))))%Z).
  { apply H3. intros i Hi. apply in_rangeN in Hi. apply in_rangeN. pose proof (bt_ni _ _ _ _ _ _ A). lia. }
  unfold lenN in *. destruct (Z.ltb_spec (batchMax ix') 1); lia.
Qed.
(** .. and exactly this if leaves may have 125 items. *)
Lemma room_exact : 125 <= K -> K < lenN pres -> room + 1 = (lenN roots + 1) * lenN pres.
Proof.
  intros H125 HK. pose proof (room_le HK). pose proof (own_room_strict fo c OK ix f plan ix' I A Hv3 H125 HK). lia.
Qed.
(** With few items a tree is one node and its copy is as large. *)
Lemma room_few : 1 <= ni <= K -> roots <> [] -> room + 1 = lenN pres + 2 * lenN roots * ni.
Proof.
  intros [Hni1 HK] Hne. destruct nodes_split as (n & En & Hn & Hr & Hin & Hcp).
  set (cp := map (fun k => n + k) (rangeN (lenN roots))).
  assert (Wr : forall r, In r roots -> w r = Z.of_N ni).
  { intros r Hr'. pose proof (bt_range _ _ _ _ _ _ A r Hr'). pose proof (Hr r Hr').
    destruct (bt_shape _ _ _ _ _ _ A ltac:(lia) r) as [X _]; [lia|lia|]. specialize (X Hr'). unfold bm_weight. rewrite X.
    replace (r <? ni) with false by lia. rewrite andb_false_r. now replace (ni <=? K) with true by lia. }
  assert (Wc : forall j, In j cp -> n <= j < nn s /\ w j = Z.of_N ni).
  { intros j Hj. apply in_map_iff in Hj. destruct Hj as (k & <- & Hk). apply in_rangeN in Hk. split; [lia|].
    destruct (Hcp (n + k) ltac:(lia)) as (r & Hr' & E). unfold bm_weight. rewrite E, (copy_weight r Hr').
    replace (n + k <? ni) with false by lia. rewrite andb_false_r. now replace (ni <=? K) with true by lia. }
  assert (Lc : length cp = length roots) by (unfold cp; rewrite map_length, length_rangeN; unfold lenN; lia).
  assert (Nc : NoDup (roots ++ cp)).
  { assert (Hd : forall x, In x roots -> ~ In x cp) by (intros x Hx Hc; specialize (Hr x Hx); destruct (Wc x Hc); lia).
    apply NoDup_both; [exact (bt_dup _ _ _ _ _ _ A)| |exact Hd].
    apply FinFun.Injective_map_NoDup; [intros a b; lia|apply NoDup_rangeN]. }
  assert (Hleaf : forall r j, In r roots -> inside ni s r j -> j = r).
  { intros r j Hr' Hj. pose proof (bt_range _ _ _ _ _ _ A r Hr'). pose proof (Hr r Hr').
    destruct (bt_shape _ _ _ _ _ _ A ltac:(lia) r) as [X _]; [lia|lia|]. specialize (X Hr'). inversion Hj; subst; auto; lia. }
  assert (E : sumZ (map w (rangeN (nn s))) = (Z.of_N (lenN pres) + Z.of_N (2 * lenN roots * ni))%Z).
  { assert (P : Permutation (rangeN (nn s)) (rangeN ni ++ roots ++ cp)).
    { apply NoDup_Permutation; [apply NoDup_rangeN| |].
      - assert (Hd : forall x, In x (rangeN ni) -> ~ In x (roots ++ cp)).
        { intros x Hx Hc. apply in_rangeN in Hx. apply in_app_or in Hc. destruct Hc as [Hc|Hc].
          - pose proof (bt_range _ _ _ _ _ _ A x Hc). lia.
          - destruct (Wc x Hc). lia. }
        apply NoDup_both; [apply NoDup_rangeN|exact Nc|exact Hd].
      - intro x. rewrite in_rangeN. split; intro H.
        + apply in_or_app. destruct (N.lt_ge_cases x ni) as [H1|H1]; [left; now apply in_rangeN|right]. apply in_or_app.
          destruct (N.lt_ge_cases x n) as [H2|H2].
          * left. destruct (Hin x ltac:(lia)) as (r & Hr' & Hj). now rewrite (Hleaf r x Hr' Hj).
          * right. apply in_map_iff. exists (x - n). split; [lia|]. apply in_rangeN. lia.
        + pose proof (bt_ni _ _ _ _ _ _ A). apply in_app_or in H. destruct H as [H|H]; [apply in_rangeN in H; lia|].
          apply in_app_or in H. destruct H as [H|H]; [pose proof (bt_range _ _ _ _ _ _ A x H); lia|destruct (Wc x H); lia]. }
    assert (X : forall l m, Permutation l m -> sumZ (map w l) = sumZ (map w m)).
    { induction 1; cbn [map]; unfold sumZ in *; cbn [fold_right] in *; lia. }
    rewrite (X _ _ P), !map_app, !sumZ_app, items_weight, (sumZ_same w _ roots Wr), (sumZ_same w (Z.of_N ni) cp) by (intros j Hj; now destruct (Wc j Hj)).
    unfold lenN. lia. }
  pose proof (bt_batch _ _ _ _ _ _ A) as Hb. rewrite E in Hb. unfold create_context, context_length. cbn [c_nns].
  assert (1 <= lenN roots) by (destruct roots; [congruence|rewrite lenN_cons; lia]).
  assert (1 <= lenN roots * ni) by nia.
  unfold lenN in *. rewrite repeat_length. destruct (Z.ltb_spec (batchMax ix') 1); nia.
Qed.
End A.
End C.
