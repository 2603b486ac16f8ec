(** How much room the contexts have that an index creates. *)
From Verif Require Import Base Flt Layout Alloc Prog Sorts Dist Build Index Search Spec ForestSpec OrderSpec
  Lib LayoutProof FltProof MemProof StoreProof SortsProof NumProof SearchProof QueryProof TreeProof PolicyProof BuildProof ForestProof AfterProof CutProof OrderProof WholeProof RoomProof.
From Coq Require Import Permutation.
Open Scope N_scope.

Lemma sumZ_app l m : sumZ (l ++ m) = (sumZ l + sumZ m)%Z.
Proof. unfold sumZ. induction l as [|a l IH]; cbn [app fold_right]; lia. Qed.
(** Distinct nodes weigh no more than all nodes. *)
Lemma sumZ_part (w : N -> Z) : (forall i, 0 <= w i)%Z -> forall l2 l, NoDup l -> (forall i, In i l -> In i l2) ->
  (sumZ (map w l) <= sumZ (map w l2))%Z.
Proof.
  intro Wp. induction l2 as [|a l2 IH]; intros l ND Hs.
  - destruct l as [|x l]; [cbn; lia|]. destruct (Hs x); now left.
  - cbn [map]. change (sumZ (w a :: map w l2)) with (w a + sumZ (map w l2))%Z. destruct (in_dec N.eq_dec a l) as [Ha|Ha].
    + destruct (in_split _ _ Ha) as (l1 & l3 & ->). apply NoDup_remove in ND. destruct ND as [ND Hn].
      assert (X : (sumZ (map w (l1 ++ l3)) <= sumZ (map w l2))%Z).
      { apply IH; [exact ND|]. intros i Hi. assert (i <> a) by (intros ->; contradiction).
        destruct (Hs i) as [->|]; [|congruence|assumption]. apply in_app_or in Hi. apply in_or_app. cbn. tauto. }
      rewrite !map_app, !sumZ_app in *. cbn [map]. change (sumZ (w a :: map w l3)) with (w a + sumZ (map w l3))%Z. lia.
    + pose proof (Wp a). assert (X : (sumZ (map w l) <= sumZ (map w l2))%Z); [|lia].
      apply IH; [exact ND|]. intros i Hi. destruct (Hs i Hi) as [->|]; [contradiction|assumption].
Qed.
Lemma sumZ_same {A} (w : A -> Z) k l : (forall i, In i l -> w i = k) -> sumZ (map w l) = (Z.of_nat (length l) * k)%Z.
Proof.
  induction l as [|a l IH]; intro H; [reflexivity|]. cbn [map length]. change (sumZ (w a :: map w l)) with (w a + sumZ (map w l))%Z.
  rewrite IH, (H a); [lia|now left|]. intros i Hi. apply H. now right.
Qed.

Lemma NoDup_both {A} (l m : list A) : NoDup l -> NoDup m -> (forall x, In x l -> ~ In x m) -> NoDup (l ++ m).
Proof.
  intros H Hm Hd. induction H as [|a l Ha Hl IH]; [exact Hm|]. cbn [app]. constructor.
  - intro H. apply in_app_or in H. destruct H as [H|H]; [contradiction|]. apply (Hd a); [now left|exact H].
  - apply IH. intros x Hx. apply Hd. now right.
Qed.

Section O.
Variable fo : FOps.
Variable c : Cfg.
Hypothesis OK : CfgOK fo c.
Notation NSZ := (nodeSize fo c).
Notation K := (maxK fo c).
Notation simg := (snode_img fo c).
Notation inside := (TreeProof.inside fo c).

(** ** The buckets of a tree *)
Section T.
Variables (v : option buf) (s : bst) (ni : N).
Hypothesis Hag : forall i, i < nn s -> vread v (addr fo c i) NSZ = Ok (simg s i).
Hypothesis Hni : ni <= nn s.
Hypothesis Hit : forall i, i < ni -> n_desc c (simg s i) <= 1.
Notation w := (bm_weight fo c ni (simg s)).

Lemma node_known i : (forall j, inside ni s i j -> j < nn s) -> i < nn s.
Proof. intro H. destruct (N.lt_ge_cases i ni); [lia|]. apply H. now apply in_here. Qed.
Lemma split_known i l r : (forall j, inside ni s i j -> j < nn s) -> splits fo c v i l r ->
  ni <= i /\ K < n_desc c (simg s i) /\ n_children c 2 (simg s i) = [l; r] /\
  (forall j, inside ni s l j -> inside ni s i j) /\ (forall j, inside ni s r j -> inside ni s i j).
Proof.
  intros Hin Hs. pose proof (node_known i Hin) as Hi. destruct Hs as [bs l r Hr Hd Hc]. rewrite (Hag i Hi) in Hr. injection Hr as <-.
  pose proof (maxK_ge2 _ _ OK). assert (Hi' : ni <= i) by (destruct (N.lt_ge_cases i ni) as [H1|]; [specialize (Hit i H1)|]; lia).
  repeat split; auto; intros j Hj; [eapply in_left|eapply in_right]; eauto.
Qed.
Lemma leaf_known i xs : (forall j, inside ni s i j -> j < nn s) -> lists_items fo c v ni i xs -> 2 <= lenN xs ->
  ni <= i /\ w i = Z.of_N (lenN xs).
Proof.
  intros Hin Hl Hx. pose proof (node_known i Hin) as Hi. destruct Hl as [bs _ _ _|bs Hr Hn Hd].
  { rewrite lenN_cons, lenN_nil in Hx. lia. }
  rewrite (Hag i Hi) in Hr. injection Hr as <-.
  assert (Hlen : lenN (n_children c (n_desc c (simg s i)) (simg s i)) = n_desc c (simg s i)) by (unfold lenN; rewrite length_n_children; lia).
  rewrite Hlen in *. split; [destruct (N.lt_ge_cases i ni) as [H1|]; [specialize (Hit i H1)|]; lia|].
  unfold bm_weight. replace (n_desc c (simg s i) =? 1) with false by lia. cbn [andb].
  replace (n_desc c (simg s i) <=? K) with true by lia. reflexivity.
Qed.

(** If no split leaves a single item on a side, all items are in buckets. *)
Lemma buckets (C : list N -> list N -> list N -> Prop) i xs :
  (forall bs xs ys, C bs xs ys -> 2 <= lenN xs /\ 2 <= lenN ys) -> divided fo c C v ni i xs ->
  2 <= lenN xs -> NoDup xs -> (forall j, inside ni s i j -> j < nn s) ->
  exists bl, NoDup bl /\ sumZ (map w bl) = Z.of_N (lenN xs) /\
    forall b, In b bl -> inside ni s i b /\ exists zs, zs <> [] /\ lists_items fo c v ni b zs /\ incl zs xs.
Proof.
  intro HC. induction 1 as [i xs Hl|i l r bs xs ys Hs _ Hb Dl IHl Dr IHr]; intros H2 ND Hin.
  - destruct (leaf_known i xs Hin Hl H2) as [Hi Hw]. exists [i]. split; [constructor; [now intros []|constructor]|].
    split; [cbn [map sumZ fold_right]; lia|]. intros b [<-|[]]. split; [now apply in_here|]. exists xs.
    split; [|split; [exact Hl|apply incl_refl]]. intros ->. rewrite lenN_nil in H2. lia.
  - destruct (split_known i l r Hin Hs) as (Hi & _ & _ & Il & Ir). destruct (HC _ _ _ Hb) as [Hx Hy].
    assert (NDx : NoDup xs /\ NoDup ys /\ forall z, In z xs -> ~ In z ys).
    { clear - ND. induction xs as [|a xs IH]; [repeat split; auto; constructor|]. cbn [app] in ND. inversion ND as [|? ? Ha ND']; subst.
      destruct (IH ND') as (A1 & A2 & A3). split; [constructor; [|exact A1]; intro H; apply Ha; apply in_or_app; auto|]. split; [exact A2|].
      intros z [->|Hz] Hy; [apply Ha; apply in_or_app; auto|eapply A3; eauto]. }
    destruct NDx as (N1 & N2 & N3).
    destruct IHl as (b1 & P1 & P2 & P3); auto. destruct IHr as (b2 & Q1 & Q2 & Q3); auto.
    exists (b1 ++ b2). split; [|split].
    + assert (Hd : forall b, In b b1 -> ~ In b b2).
      { intros b Hb1 Hb2. destruct (P3 b Hb1) as (_ & zs & Hne & Hz & Iz). destruct (Q3 b Hb2) as (_ & zs' & _ & Hz' & Iz').
        rewrite (lists_items_fun fo c _ _ _ _ _ Hz Hz') in *. destruct zs' as [|z zs']; [congruence|].
        apply (N3 z); [apply Iz|apply Iz']; now left. }
      now apply NoDup_both.
    + rewrite map_app, sumZ_app, lenN_app. lia.
    + intros b Hb'. apply in_app_or in Hb'. destruct Hb' as [Hb'|Hb'].
      * destruct (P3 b Hb') as (B1 & zs & B2 & B3 & B4). split; [auto|]. exists zs. repeat split; auto. now apply incl_appl.
      * destruct (Q3 b Hb') as (B1 & zs & B2 & B3 & B4). split; [auto|]. exists zs. repeat split; auto. now apply incl_appr.
Qed.
(** If splits have at least three items there is some bucket. *)
Lemma some_bucket (C : list N -> list N -> list N -> Prop) i xs :
  (forall bs xs ys, C bs xs ys -> 3 <= lenN xs + lenN ys) -> divided fo c C v ni i xs ->
  2 <= lenN xs -> (forall j, inside ni s i j -> j < nn s) ->
  exists b, inside ni s i b /\ ni <= b /\ (1 <= w b)%Z.
Proof.
  intro HC. induction 1 as [i xs Hl|i l r bs xs ys Hs _ Hb Dl IHl Dr IHr]; intros H2 Hin.
  - destruct (leaf_known i xs Hin Hl H2) as [Hi Hw]. exists i. split; [now apply in_here|]. split; [exact Hi|lia].
  - destruct (split_known i l r Hin Hs) as (Hi & _ & _ & Il & Ir). pose proof (HC _ _ _ Hb) as H3.
    destruct (N.lt_ge_cases 1 (lenN xs)) as [Hx|Hx].
    + destruct IHl as (b & B1 & B2 & B3); auto; [lia|]. eauto.
    + destruct IHr as (b & B1 & B2 & B3); auto; [lia|]. eauto.
Qed.
End T.

(** Splits of a tree over more than K items have more than K items. *)
Lemma divided_large n im v ni i xs a b : a < n -> b < n -> n_desc c (im a) = 1 -> n_desc c (im b) = 1 -> a <> b ->
  (forall l, (forall j, j < n -> n_desc c (im j) = 1 -> In j l) -> K < lenN l) ->
  divided fo c (tcut fo c n im) v ni i xs -> lenN xs < 2 ^ 64 ->
  divided fo c (fun _ xs ys => K < lenN xs + lenN ys /\ balanced xs ys) v ni i xs.
Proof.
  intros Ha Hb Da Db Hab HL. induction 1 as [i xs H|i l r bs xs ys Hs Hr' Hc Hl IHl Hr IHr]; intro Hn; [now apply dv_leaf|].
  rewrite lenN_app in Hn. eapply dv_split; [exact Hs|exact Hr'| |apply IHl; lia|apply IHr; lia]. split.
  - destruct Hc as [[Hc|Hc] _].
    + destruct Hs as [bs' l r Hr2 Hd _]. rewrite Hr2 in Hr'. injection Hr' as ->. lia.
    + specialize (HL _ Hc). rewrite lenN_app in HL. exact HL.
  - eapply (tcut_balanced fo c n im bs xs ys a b); auto; lia.
Qed.

(** ** Built indexes *)
Section A.
Variables (ix : idx) (f : N -> option (list (F fo))) (plan : list Z) (ix' : idx).
Hypothesis I : items_inv fo c ix f.
Hypothesis A : after_build fo c ix f plan ix'.
Hypothesis Hv3 : 3 * ixb c <= vlen c.
Notation ni := (n_items ix).
Notation s := (ib ix').
Notation pres := (present fo f (n_items ix)).
Notation w := (bm_weight fo c (n_items ix) (simg (ib ix'))).
Notation roots := (rootsN (ib ix')).
Notation room := (lenN (c_nns (create_context fo ix'))).

Lemma item_desc i : i < ni -> n_desc c (simg s i) = match f i with Some _ => 1 | None => 0 end.
Proof.
  intro Hi. rewrite (bt_img _ _ _ _ _ _ A i Hi).
  rewrite (pre_image_desc fo c OK) by (unfold lenN; rewrite (length_image_of fo c OK) by (intros; eapply ii_len; eauto); lia).
  apply (image_desc fo c OK).
Qed.
Lemma w_pos i : (0 <= w i)%Z.
Proof. unfold bm_weight. destruct (_ && _); [lia|]. destruct (_ <=? _); lia. Qed.
Lemma w_item i : In i pres -> w i = 1%Z.
Proof.
  intro Hi. apply (in_present fo) in Hi. destruct Hi as [Hi Hf]. unfold bm_weight. rewrite item_desc by exact Hi.
  destruct (f i); [|congruence]. cbn [N.eqb Pos.eqb andb]. now replace (i <? ni) with true by lia.
Qed.
(** What is added and other nodes weigh no more than the room and one more entry. *)
Lemma room_ge l : NoDup l -> (forall b, In b l -> ni <= b < nn s) ->
  (Z.of_N (lenN pres) + sumZ (map w l) <= Z.of_N room + 1)%Z.
Proof.
  intros ND Hl. pose proof (bt_ni _ _ _ _ _ _ A) as Hni.
  assert (Hp : forall i, In i pres -> i < ni) by (intros i Hi; now apply (in_present fo) in Hi).
  pose proof (sumZ_part w w_pos (rangeN (nn s)) (pres ++ l)) as H.
  rewrite map_app, sumZ_app, (sumZ_same w 1 pres w_item) in H.
  assert (H' : (Z.of_nat (length pres) * 1 + sumZ (map w l) <= sumZ (map w (rangeN (nn s))))%Z).
  { apply H.
    - assert (Hd : forall i, In i pres -> ~ In i l) by (intros i Hi Hl'; specialize (Hp i Hi); specialize (Hl i Hl'); lia).
      apply NoDup_both; [apply NoDup_present|exact ND|exact Hd].
    - intros i Hi. apply in_rangeN. apply in_app_or in Hi. destruct Hi as [Hi|Hi]; [specialize (Hp i Hi)|specialize (Hl i Hi)]; lia. }
  pose proof (bt_batch _ _ _ _ _ _ A) as Hb. unfold create_context, context_length. cbn [c_nns]. unfold lenN in *. rewrite repeat_length.
  destruct (Z.ltb_spec (batchMax ix') 1); lia.
Qed.
Lemma known r : In r roots -> forall j, inside ni s r j -> j < nn s.
Proof. intros Hr j Hj. now apply (bt_apart _ _ _ _ _ _ A Hv3 r r j Hr Hr). Qed.

(** What each root lists and how, if there are more items than fit one node. *)
Lemma root_lists r fs : In r roots -> K < lenN pres ->
  exists xs, divided fo c (fun _ xs ys => K < lenN xs + lenN ys /\ balanced xs ys) (view fs ix') ni r xs /\ Permutation xs pres.
Proof.
  intros Hr HK. pose proof (present_le fo f ni) as Hple. pose proof (maxK_ge2 _ _ OK) as HK2.
  pose proof (after_agrees fo c fs ix _ plan ix' A) as AG.
  destruct (bt_cuts _ _ _ _ _ _ A Hv3 r Hr) as (im & xs & Him & D). specialize (D _ AG).
  destruct (divided_reach _ _ _ _ _ _ _ D) as [m Hm].
  destruct (bt_trees _ _ _ _ _ _ A (or_introl Hv3) r Hr) as (ys & k & Hre & _ & Hx). specialize (Hre _ AG).
  destruct (reach_fun fo c OK _ _ _ _ _ Hre _ _ Hm) as [<- _].
  replace (K <? ni) with true in Hx by (unfold lenN in *; lia).
  assert (Hd : forall j, In j pres -> j < ni /\ n_desc c (im j) = 1).
  { intros j Hj. pose proof Hj as Hj'. apply (in_present fo) in Hj. destruct Hj as [Hj Hf]. split; [exact Hj|].
    rewrite Him, <- (bt_img _ _ _ _ _ _ A j Hj), item_desc by exact Hj. destruct (f j); [reflexivity|congruence]. }
  exists ys. split; [|exact Hx].
  pose proof (NoDup_present fo f ni) as NP.
  destruct pres as [|a [|b p]] eqn:Ep; [rewrite lenN_nil in HK; lia|rewrite lenN_cons, lenN_nil in HK; lia|].
  destruct (Hd a (or_introl eq_refl)) as [Ha Da]. destruct (Hd b (or_intror (or_introl eq_refl))) as [Hb Db].
  eapply (divided_large ni im _ _ _ _ a b); eauto.
  - intros ->. inversion NP as [|? ? X _]; subst. apply X. now left.
  - intros l Hl. assert (X : (length (a :: b :: p) <= length l)%nat); [|unfold lenN in *; lia].
    apply NoDup_incl_length; [exact NP|]. intros j Hj. destruct (Hd j Hj). now apply Hl.
  - rewrite (perm_lenN _ _ Hx). pose proof (cap_ok_small fo c OK _ (ii_cap _ _ _ _ I)). pose proof (pow_iw_le fo c OK). unfold lenN in *. lia.
Qed.

(** Room for everything all trees list, if leaves may have 125 items. *)
Lemma own_room_strict : 125 <= K -> K < lenN pres -> (lenN roots + 1) * lenN pres <= room + 1.
Proof.
  intros H125 HK.
  assert (G : forall rs, NoDup rs -> (forall r, In r rs -> In r roots) ->
    exists l, NoDup l /\ sumZ (map w l) = (Z.of_nat (length rs) * Z.of_N (lenN pres))%Z /\ forall b, In b l -> exists r, In r rs /\ inside ni s r b).
  { induction rs as [|r rs IH]; intros ND Hin.
    - exists []. split; [constructor|]. split; [reflexivity|]. intros b [].
    - inversion ND; subst. destruct IH as (l & L1 & L2 & L3); [assumption|intros; apply Hin; now right|].
      pose proof (Hin r (or_introl eq_refl)) as Hr.
      destruct (root_lists r (fun _ => None) Hr HK) as (xs & D & P).
      destruct (buckets (view (fun _ => None) ix') s ni (after_agrees fo c _ ix _ plan ix' A) (bt_ni _ _ _ _ _ _ A)) with
        (C := fun _ xs ys : list N => K < lenN xs + lenN ys /\ balanced xs ys) (i := r) (xs := xs) as (bl & B1 & B2 & B3); auto.
      { intros i Hi. rewrite item_desc by exact Hi. destruct (f i); lia. }
      { intros _ ys zs [C1 [C2 C3]]. lia. }
      { rewrite (perm_lenN _ _ P). lia. }
      { eapply Permutation_NoDup; [symmetry; exact P|apply NoDup_present]. }
      { now apply known. }
      exists (bl ++ l). split; [|split].
      + assert (Hd : forall b, In b bl -> ~ In b l).
        { intros b Hb Hl. destruct (B3 b Hb) as [J1 _]. destruct (L3 b Hl) as (r' & Hr' & J2).
          assert (r = r') as <-; [|contradiction]. apply (bt_apart _ _ _ _ _ _ A Hv3 r r' b Hr); auto. apply Hin. now right. }
        now apply NoDup_both.
      + rewrite map_app, sumZ_app, B2, L2, (perm_lenN _ _ P). cbn [length]. lia.
      + intros b Hb. apply in_app_or in Hb. destruct Hb as [Hb|Hb].
        * exists r. split; [now left|]. now apply B3.
        * destruct (L3 b Hb) as (r' & Hr' & J). exists r'. split; [now right|exact J]. }
  destruct (G roots (bt_dup _ _ _ _ _ _ A) ltac:(auto)) as (l & L1 & L2 & L3).
  assert (Hl : forall b, In b l -> ni <= b < nn s).
  { intros b Hb. destruct (L3 b Hb) as (r & Hr & J). split; [|eapply known; eauto].
    clear - J. induction J; auto. }
  pose proof (room_ge l L1 Hl) as H. rewrite L2 in H. unfold lenN in *. lia.
Qed.
Lemma own_room_all : 125 <= K -> K < lenN pres -> lenN roots * lenN pres <= room.
Proof. intros H125 HK. pose proof (own_room_strict H125 HK). pose proof (maxK_ge2 _ _ OK). lia. Qed.
(** Room for every added item. *)
Lemma own_room_items : roots <> [] -> K < lenN pres -> lenN pres <= room.
Proof.
  intros Hne HK. destruct roots as [|r rs] eqn:Er; [congruence|]. assert (Hr : In r roots) by (rewrite Er; now left). clear Er.
  pose proof (maxK_ge2 _ _ OK) as HK2.
  destruct (root_lists r (fun _ => None) Hr HK) as (xs & D & P).
  destruct (some_bucket (view (fun _ => None) ix') s ni (after_agrees fo c _ ix _ plan ix' A) (bt_ni _ _ _ _ _ _ A)) with
    (C := fun _ xs ys : list N => K < lenN xs + lenN ys /\ balanced xs ys) (i := r) (xs := xs) as (b & B1 & B2 & B3); auto.
  { intros i Hi. rewrite item_desc by exact Hi. destruct (f i); lia. }
  { intros _ ys zs [C1 _]. lia. }
  { rewrite (perm_lenN _ _ P). lia. }
  { now apply known. }
  pose proof (room_ge [b]) as H. assert (H' : (Z.of_N (lenN pres) + sumZ (map w [b]) <= Z.of_N room + 1)%Z).
  { apply H; [constructor; [now intros []|constructor]|]. intros b' [<-|[]]. split; [exact B2|]. eapply known; eauto. }
  cbn [map sumZ fold_right] in H'. lia.
Qed.
(** With few items every tree is one node. *)
Lemma own_room_few : ni <= K -> lenN roots * ni <= room.
Proof.
  intros HK. destruct (ii_last _ _ _ _ I) as [Hz|Hl]; [rewrite Hz; lia|].
  destruct (bt_copies _ _ _ _ _ _ A) as (n & Hn & Hrn & _).
  assert (Hw : forall r, In r roots -> w r = Z.of_N ni).
  { intros r Hr. destruct (bt_range _ _ _ _ _ _ A r Hr) as [H1 H2]. specialize (Hrn r Hr).
    destruct (bt_shape _ _ _ _ _ _ A ltac:(lia) r H1 ltac:(lia)) as [H3 _]. specialize (H3 Hr).
    unfold bm_weight. rewrite H3. replace (r <? ni) with false by lia. rewrite andb_false_r. now replace (ni <=? K) with true by lia. }
  pose proof (room_ge roots (bt_dup _ _ _ _ _ _ A) (bt_range _ _ _ _ _ _ A)) as H. rewrite (sumZ_same w _ roots Hw) in H.
  assert (Hp : 1 <= lenN pres).
  { assert (Hin : In (ni - 1) pres).
    { apply (in_present fo). split; [|exact Hl]. destruct (f (ni - 1)) eqn:E; [|congruence]. eapply ii_ext; eauto. }
    destruct pres; [contradiction|]. rewrite lenN_cons. lia. }
  unfold lenN in *. lia.
Qed.
End A.

(** ** Queries *)
Variable sortIx : list N -> list N.
Variable sortPairs : list (F fo * N) -> list (F fo * N).
Hypothesis HsI : sort_slice N.ltb sortIx.
Hypothesis HsP : sort_slice (pair_less (flt fo) (feq fo)) sortPairs.
Notation query := (get_nns_by_vector fo c sortIx sortPairs).

(** A query that inspects no more than the first tree lists needs no more room than that. *)
Lemma first_tree_room fuel fs ix f q n inspect bc r0 zs m : is_float fo ->
  forest fo c (view fs ix) (n_items ix) (rootsN (ib ix)) f -> 1 <= vlen c -> lenN q = vlen c ->
  n_items ix + K < 2 ^ iw c ->
  all_sides fo c (finite fo) (view fs ix) (rootsN (ib ix)) q ->
  (length (rootsN (ib ix)) * (2 * N.to_nat (n_items ix) + 1) <= fuel)%nat ->
  In r0 (rootsN (ib ix)) -> (forall r, In r (rootsN (ib ix)) -> r0 <= r) ->
  tree_lists fo c (view fs ix) (n_items ix) f r0 zs m -> (the_limit ix n inspect <= Z.of_N (lenN zs))%Z ->
  lenN zs <= lenN (c_nns bc) -> lenN (c_nns bc) < 2 ^ iw c -> length (c_dist bc) = length (c_nns bc) ->
  exists ids ds bc', query fuel fs ix q n inspect bc = Ok (ids, ds, bc').
Proof.
  intros FL FO Hv1 Hq Hcap FS Hf Hr0 Hle TL Hlim Hroom Hw Hd.
  assert (NS : all_sides fo c (not_nan fo) (view fs ix) (rootsN (ib ix)) q).
  { intros r d i l r' bs H1 H2 H3 H4. apply (finite_num fo _ FL). eapply FS; eauto. }
  pose proof (tl_len _ _ _ _ _ _ _ _ TL) as Hzl. pose proof (tl_reach _ _ _ _ _ _ _ _ TL) as Hre.
  set (k := N.to_nat (n_items ix + K)). set (b0 := mkCtx (repeat 0 k) (repeat (f0 fo, 0) k)).
  assert (L0 : lenN (c_nns b0) = n_items ix + K) by (unfold b0, lenN; cbn [c_nns]; rewrite repeat_length; unfold k; lia).
  destruct (forest_total fo c OK sortIx sortPairs HsI fuel fs ix f q n inspect b0 FO Hv1 Hq) as (ids & ds & b0' & E).
  { lia. } { unfold b0. cbn [c_nns c_dist]. now rewrite !repeat_length. } { exact Hf. } { left. rewrite L0. lia. }
  destruct (query_room fo c sortIx sortPairs HsI _ _ _ _ _ _ _ _ _ _ E ltac:(lia)) as (cnt & _ & Hvis & Hbig).
  destruct (Hvis FL NS) as (ys & Hys & Hv). pose proof (maxK_ge2 _ _ OK) as HK.
  pose proof (first_tree fo c FL _ _ _ _ r0 HK Hr0 Hle FS _ ys zs m Hv Hre Hlim) as Hv'.
  destruct (visits_expands fo c _ _ _ _ _ _ Hv') as (rest & He & _). unfold at_start in He. cbn [map snd] in He.
  destruct (expands_rest fo c _ _ _ _ _ HK He (zs ++ []) (m + 0)%nat) as (zs' & m' & _ & P).
  { constructor; [exact Hre|constructor]. }
  apply perm_lenN in P. rewrite !lenN_app, lenN_nil in P.
  destruct (Hbig bc) as (b' & E'); [lia|lia|unfold lenN in *; lia|]. eauto.
Qed.
End O.

(** Nodes a query can get to are nodes of the tree. *)
Lemma descends_inside fo c : CfgOK fo c -> forall v s ni, (forall i, i < nn s -> vread v (addr fo c i) (nodeSize fo c) = Ok (snode_img fo c s i)) ->
  ni <= nn s -> (forall i, i < ni -> n_desc c (snode_img fo c s i) <= 1) ->
  forall i d j, descends fo c v i d j -> (forall k, inside fo c ni s i k -> k < nn s) -> ni <= j -> inside fo c ni s i j.
Proof.
  intros OK v s ni Hag Hni Hit. induction 1 as [i|i l r d j Hs Hd IH|i l r d j Hs Hd IH]; intros Hin Hj; [now apply in_here| |];
  destruct (split_known fo c OK v s ni Hag Hni Hit i l r Hin Hs) as (_ & _ & _ & Il & Ir); auto.
Qed.
