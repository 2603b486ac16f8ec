(** The order in which queries look at nodes. *)
From Verif Require Import Base Flt Layout Alloc Prog Sorts Dist Build Index Search Spec ForestSpec OrderSpec
  Lib LayoutProof FltProof SortsProof NumProof SearchProof QueryProof TreeProof AfterProof AccProof.
From Coq Require Import Permutation Reals.
From Flocq Require Import Core.Core IEEE754.BinarySingleNaN IEEE754.Binary IEEE754.Bits.
Close Scope R_scope. Open Scope N_scope.

(** ** math.Min *)
Lemma to32_to64 x : isnan32 x = false -> to32 (to64 x) = x.
Proof.
  intro Hx. destruct x as [s|s|s pl H|s m e H] eqn:Ex; try reflexivity; [discriminate|]. rewrite <- Ex.
  assert (Fx : is_finite 24 128 x = true) by (rewrite Ex; reflexivity).
  destruct (to64_exact x Fx) as [F1 R1].
  assert (Nz : (B2R 24 128 x <> 0)%R).
  { rewrite Ex. cbn [B2R]. intro E. apply eq_0_F2R in E. destruct s; discriminate. }
  destruct (to64 x) as [s1|s1|s1 pl1 H1|s1 m1 e1 H1] eqn:E64; try discriminate.
  { cbn [B2R] in R1. now symmetry in R1. }
  cbn [to32]. pose proof (binary_normalize_correct 24 128 eq_refl eq_refl mode_NE (cond_Zopp s1 (Zpos m1)) e1 s1) as C. cbv zeta in C.
  change (F2R (Float radix2 (cond_Zopp s1 (Zpos m1)) e1)) with (B2R 53 1024 (B754_finite s1 m1 e1 H1)) in C. rewrite R1 in C.
  rewrite round_generic in C; [|exact _|apply generic_format_B2R].
  rewrite Rlt_bool_true in C by apply abs_B2R_lt_emax. destruct C as (C1 & C2 & _).
  apply B2R_inj; [| |exact C1].
  - destruct (binary_normalize _ _ _ _ _ _ _ _); try discriminate; [|reflexivity]. cbn [B2R] in C1. now symmetry in C1.
  - rewrite Ex. reflexivity.
Qed.
Lemma lt64_to64 x y : isnan32 x = false -> isnan32 y = false -> lt64 (to64 x) (to64 y) = lt32 x y.
Proof.
  intros Hx Hy.
  assert (FF : forall a b, is_finite 24 128 a = true -> is_finite 24 128 b = true -> lt64 (to64 a) (to64 b) = lt32 a b).
  { intros a b Fa Fb. destruct (to64_exact a Fa) as [A1 A2], (to64_exact b Fb) as [B1 B2].
    unfold lt64, lt32. rewrite !Bcompare_correct by assumption. now rewrite A2, B2. }
  destruct x as [sx|sx|sx px Hx'|sx mx ex Hx'] eqn:Ex, y as [sy|sy|sy py Hy'|sy my ey Hy'] eqn:Ey; try discriminate;
    try (apply FF; reflexivity).
  - reflexivity.
  - reflexivity.
  - reflexivity.
  - assert (Fy : is_finite 24 128 y = true) by (rewrite Ey; reflexivity). rewrite <- Ey.
    destruct (to64_exact y Fy) as [F1 _]. rewrite Ey at 2. destruct (to64 y) as [s|s|s p H|s m e H]; try discriminate; destruct sx; reflexivity.
  - assert (Fx : is_finite 24 128 x = true) by (rewrite Ex; reflexivity). rewrite <- Ex.
    destruct (to64_exact x Fx) as [F1 _]. rewrite Ex at 2. destruct (to64 x) as [s|s|s p H|s m e H]; try discriminate; destruct sy; reflexivity.
Qed.
Lemma min64_is_min a b : isnan64 a = false -> isnan64 b = false -> is_min fops64 (min64 a b) a b.
Proof.
  intros Ha Hb. pose proof (float_total fops64 (or_intror eq_refl)) as TC.
  assert (Na : not_nan fops64 a) by (apply num64_iff; exact Ha).
  assert (Nb : not_nan fops64 b) by (apply num64_iff; exact Hb).
  assert (I : forall x, not_nan fops64 x -> flt fops64 x x = false).
  { intros x Hx. destruct (flt fops64 x x) eqn:E; [|reflexivity]. rewrite (tc_irr _ _ _ TC x x Hx Hx E) in E. discriminate. }
  assert (G : is_min fops64 (if lt64 a b then a else b) a b).
  { destruct (lt64 a b) eqn:E; split; auto; split; auto. apply (tc_irr _ _ _ TC a b Na Nb E). }
  destruct a as [sa|sa|sa pa Ha'|sa ma ea Ha'] eqn:Ea, b as [sb|sb|sb pb Hb'|sb mb eb Hb'] eqn:Eb; try discriminate; cbn [min64];
    destruct sa, sb; first [exact G | split; [auto|split; reflexivity]].
Qed.
Lemma fmin_is_min fo a b : is_float fo -> not_nan fo a -> not_nan fo b -> is_min fo (fmin fo a b) a b.
Proof.
  intros [->| ->] Ha Hb.
  - apply num32_iff in Ha. apply num32_iff in Hb. unfold num32 in *.
    assert (N : forall x, isnan32 x = false -> isnan64 (to64 x) = false).
    { intros x Hx. destruct x as [s|s|s pl H|s m e H] eqn:Ex; try discriminate; try reflexivity. rewrite <- Ex.
      destruct (to64_exact x) as [F1 _]; [rewrite Ex; reflexivity|]. destruct (to64 x); try discriminate; reflexivity. }
    destruct (min64_is_min (to64 a) (to64 b) (N a Ha) (N b Hb)) as (H1 & H2 & H3).
    cbn [fmin fops32]. cbn [flt fops64] in H2, H3. unfold is_min. cbn [flt fops32].
    destruct H1 as [H1|H1]; rewrite H1 in *; rewrite to32_to64 by assumption; rewrite lt64_to64 in H2, H3 by assumption; auto.
  - apply num64_iff in Ha. apply num64_iff in Hb. apply min64_is_min; assumption.
Qed.
Lemma finite_num fo x : is_float fo -> finite fo x -> not_nan fo x.
Proof.
  intros [->| ->] [H _]; [apply num32_iff|apply num64_iff].
  - destruct x; try reflexivity. discriminate.
  - destruct x; try reflexivity. discriminate.
Qed.
Lemma neg_num fo x : is_float fo -> not_nan fo x -> not_nan fo (fneg fo x).
Proof.
  intros [->| ->] H; [apply num32_iff in H; apply num32_iff|apply num64_iff in H; apply num64_iff]; destruct x; try reflexivity; discriminate.
Qed.
Lemma inf_num fo : is_float fo -> not_nan fo (finf fo).
Proof. intros [->| ->]; reflexivity. Qed.

Section O.
Variable fo : FOps.
Variable c : Cfg.
Hypothesis FL : is_float fo.
Notation NSZ := (nodeSize fo c).
Notation K := (maxK fo c).
Notation less := (pair_less (flt fo) (feq fo)).
Notation num := (not_nan fo).

Lemma margin_side bs vec m : lenN vec <= vlen c -> margin fo c (snode_of fo c bs) vec = Ok m -> m = side_value fo c bs vec.
Proof.
  intros Hl E. unfold margin in E. destruct (lenN vec =? 0); [discriminate|].
  destruct (N.ltb_spec (lenN vec) (vlen c)); [discriminate|]. injection E as <-. unfold side_value.
  cbn [snode_of s_vec s_dot]. rewrite firstn_all2 by (unfold lenN in *; lia). now rewrite inner_dot.
Qed.

Lemma descends_snoc v r d i : descends fo c v r d i -> forall l r', splits fo c v i l r' ->
  descends fo c v r (S d) l /\ descends fo c v r (S d) r'.
Proof.
  induction 1 as [i|i a b d j Hs Hd IH|i a b d j Hs Hd IH]; intros l r' H.
  - split; [eapply de_left|eapply de_right]; eauto; apply de_here.
  - destruct (IH _ _ H) as [H1 H2]. split; eapply de_left; eauto.
  - destruct (IH _ _ H) as [H1 H2]. split; eapply de_right; eauto.
Qed.

Lemma visits_perm v ni vec limit bag bag' ys : visits fo c v ni vec limit bag ys -> Permutation bag bag' ->
  visits fo c v ni vec limit bag' ys.
Proof.
  intros H P. destruct H.
  - now apply vi_full.
  - apply Permutation_nil in P. subst. apply vi_empty.
  - eapply vi_list; eauto. now rewrite <- P.
  - eapply vi_split; eauto. now rewrite <- P.
Qed.

Section B.
Variables (v : option buf) (ni : N) (vec : list (F fo)).
(** A set of nodes closed under children whose planes give numbers. *)
Variable B : N -> Prop.
Hypothesis Bcl : forall i l r, B i -> splits fo c v i l r -> B l /\ B r.
Hypothesis Bnum : forall i l r bs, B i -> splits fo c v i l r -> vread v (addr fo c i) NSZ = Ok bs -> num (side_value fo c bs vec).

Lemma search_loop_visits fuel : lenN vec <= vlen c -> forall limit q cnt nns cnt' nns',
  search_loop fo c fuel v ni vec limit q cnt nns = Ok (cnt', nns') ->
  cnt' <= lenN nns -> lenN nns < 2 ^ iw c ->
  heap_ok (fun p => num (fst p)) less q -> Forall (fun p => B (snd p)) q ->
  exists ys, visits fo c v ni vec (limit - Z.of_N cnt) q ys /\ cnt' = cnt + lenN ys /\
    firstn (N.to_nat cnt') nns' = firstn (N.to_nat cnt) nns ++ ys.
Proof.
  intro Hvec. pose proof (pair_less_sw _ _ _ (float_total fo FL)) as SW.
  assert (End : forall limit q cnt nns, (Z.of_N cnt <? limit)%Z && negb (pq_empty q) = false ->
    exists ys, visits fo c v ni vec (limit - Z.of_N cnt) q ys /\ cnt = cnt + lenN ys /\
      firstn (N.to_nat cnt) nns = firstn (N.to_nat cnt) nns ++ ys).
  { intros limit q cnt nns Es. exists []. rewrite lenN_nil, app_nil_r. split; [|split; [lia|reflexivity]].
    unfold pq_empty in Es. destruct q; [apply vi_empty|apply vi_full]. cbn in Es. lia. }
  induction fuel as [|fu IH]; intros limit q cnt nns cnt' nns' E Hc Hw Hh HB.
  - cbn [search_loop] in E. destruct ((Z.of_N cnt <? limit)%Z && negb (pq_empty q)) eqn:Es; [discriminate|].
    injection E as <- <-. now apply End.
  - rewrite search_loop_S in E.
    destruct ((Z.of_N cnt <? limit)%Z && negb (pq_empty q)) eqn:Es; [|injection E as <- <-; now apply End].
    assert (Hlim : (0 < limit - Z.of_N cnt)%Z) by lia.
    destruct (pq_top q) as [[d i]|] eqn:Et; [|discriminate].
    apply rbind_ok in E. destruct E as ([x q'] & Ep & E). apply rbind_ok in E. destruct E as (bs & Er & E).
    cbn zeta in E.
    assert (Hne : q <> []) by (intros ->; discriminate).
    destruct (pq_pop_spec _ _ SW q Hh Hne) as (x1 & q1 & Ep1 & Et1 & Hh' & Hp & Hmin).
    rewrite Ep in Ep1. injection Ep1 as <- <-. rewrite Et in Et1. injection Et1 as <-.
    assert (Hmin' : forall p, In p q' -> nearer fo p (d, i) = false).
    { intros p Hp'. apply Hmin. eapply Permutation_in; [symmetry; exact Hp|]. now right. }
    assert (HB' : B i /\ Forall (fun p => B (snd p)) q').
    { apply (Permutation_Forall Hp) in HB. inversion HB; subst. auto. }
    destruct HB' as [Bi HB'].
    assert (Nd : num d).
    { destruct Hh as [F1 _]. apply (Permutation_Forall Hp) in F1. inversion F1; subst. assumption. }
    destruct ((n_desc c bs =? 1) && (i <? ni)) eqn:Ei.
    + destruct (N.leb_spec (lenN nns) cnt) as [|Hlt]; [discriminate|].
      apply rbind_ok in E. destruct E as (nns1 & E1 & E).
      pose proof (put_at_length _ _ _ _ E1) as Hl1.
      apply put_at_spec in E1; [|rewrite lenN_cons, lenN_nil; lia].
      assert (Hl : lenN nns1 = lenN nns) by (unfold lenN; lia).
      destruct (IH _ _ _ _ _ _ E) as (ys & Hx & Hcnt & Hf); [lia|lia|exact Hh'|exact HB'|].
      exists ([i] ++ ys). split; [|split].
      * eapply vi_list; [exact Hlim|exact Hp|exact Hmin'|eapply li_item; eauto; lia|].
        replace (limit - Z.of_N cnt - Z.of_N (lenN [i]))%Z with (limit - Z.of_N (cnt + 1))%Z by (rewrite lenN_cons, lenN_nil; lia). exact Hx.
      * rewrite lenN_app, lenN_cons, lenN_nil. lia.
      * rewrite Hf, E1. change (cnt + 1) with (cnt + lenN [i]).
        rewrite (splice_firstn nns [i] cnt) by (change (lenN [i]) with 1; lia). now rewrite app_assoc.
    + destruct (N.leb_spec (n_desc c bs) K) as [Hk|Hk].
      * apply rbind_ok in E. destruct E as (nns1 & E1 & E).
        pose proof (put_at_length _ _ _ _ E1) as Hl1.
        pose proof (loop_mono _ _ _ _ _ _ _ _ _ _ _ _ E) as [Hm _].
        rewrite tix_small in E1 by lia.
        assert (Hlc : lenN (n_children c (n_desc c bs) bs) = n_desc c bs).
        { unfold lenN. rewrite length_n_children. lia. }
        apply put_at_spec in E1; [|lia].
        assert (Hl : lenN nns1 = lenN nns) by (unfold lenN; lia).
        destruct (IH _ _ _ _ _ _ E) as (ys & Hx & Hcnt & Hf); [lia|lia|exact Hh'|exact HB'|].
        exists (n_children c (n_desc c bs) bs ++ ys). split; [|split].
        -- eapply vi_list; [exact Hlim|exact Hp|exact Hmin'|eapply li_bucket; eauto; lia|].
           rewrite Hlc. replace (limit - Z.of_N cnt - Z.of_N (n_desc c bs))%Z with (limit - Z.of_N (cnt + n_desc c bs))%Z by lia. exact Hx.
        -- rewrite lenN_app. lia.
        -- rewrite Hf, E1. rewrite <- Hlc at 1. rewrite (splice_firstn nns) by lia. now rewrite app_assoc.
      * apply rbind_ok in E. destruct E as (m & Em & E). apply margin_side in Em; [|exact Hvec].
        destruct (two_children c bs) as (l & r & Hch). rewrite Hch in E. cbn [nth] in E.
        assert (Hs : splits fo c v i l r) by (econstructor; eauto).
        pose proof (Bnum _ _ _ _ Bi Hs Er) as Nm. rewrite <- Em in Nm.
        pose proof (fmin_is_min fo d m FL Nd Nm) as Mr.
        pose proof (fmin_is_min fo d (fneg fo m) FL Nd (neg_num fo m FL Nm)) as Ml.
        unfold pq_distance in E. set (pr := fmin fo d m) in *. set (pl := fmin fo d (fneg fo m)) in *.
        assert (Npr : num pr) by (destruct (proj1 Mr) as [-> | ->]; assumption).
        assert (Npl : num pl) by (destruct (proj1 Ml) as [-> | ->]; [assumption|now apply neg_num]).
        destruct (pq_push_spec _ _ SW q' (pr, r) Hh' Npr) as [Hh1 Hp1].
        destruct (pq_push_spec _ _ SW _ (pl, l) Hh1 Npl) as [Hh2 Hp2].
        destruct (Bcl _ _ _ Bi Hs) as [Bl Br].
        destruct (IH _ _ _ _ _ _ E) as (ys & Hx & Hcnt & Hf); [lia|lia|exact Hh2| |].
        { eapply Permutation_Forall; [symmetry; exact Hp2|]. constructor; [exact Bl|].
          eapply Permutation_Forall; [symmetry; exact Hp1|]. now constructor. }
        exists ys. split; [|split; [exact Hcnt|exact Hf]].
        eapply vi_split with (l := l) (r := r) (bs := bs) (pl := pl) (pr := pr); try eassumption; try (rewrite <- Em; assumption).
        eapply visits_perm; [exact Hx|]. now rewrite Hp2, Hp1.
Qed.

Lemma num_irr x : num x -> flt fo x x = false.
Proof.
  intro Hx. destruct (flt fo x x) eqn:E; [|reflexivity]. rewrite (tc_irr _ _ _ (float_total fo FL) x x Hx Hx E) in E. discriminate.
Qed.
Lemma num_lt_trans x y z : num x -> num y -> num z -> flt fo y x = false -> flt fo y z = true -> flt fo x z = true.
Proof.
  intros Hx Hy Hz H1 H2. destruct (flt fo x z) eqn:E; [reflexivity|].
  rewrite (tc_trans _ _ _ (float_total fo FL) z x y Hz Hx Hy E H1) in H2. discriminate.
Qed.
Lemma min_num p a b : is_min fo p a b -> num a -> num b -> num p.
Proof. intros [[-> | ->] _]; auto. Qed.

(** If every priority in [A] is less than every one in [C], and the nodes of [A] list
    enough items, the search does not get to [C]. *)
Lemma visits_front : 2 <= K -> forall limit bag ys, visits fo c v ni vec limit bag ys ->
  forall A C zs m, Permutation bag (A ++ C) ->
  Forall (fun p => num (fst p) /\ B (snd p)) A -> Forall (fun p => num (fst p)) C ->
  (forall a b, In a A -> In b C -> flt fo (fst a) (fst b) = true) ->
  reach_all fo c v ni (map snd A) zs m -> (limit <= Z.of_N (lenN zs))%Z ->
  visits fo c v ni vec limit A ys.
Proof.
  intro HK.
  assert (Front : forall d i rest A C zs m limit, (0 < limit)%Z -> Permutation (A ++ C) ((d, i) :: rest) ->
    (forall p, In p rest -> nearer fo p (d, i) = false) ->
    Forall (fun p => num (fst p) /\ B (snd p)) A -> Forall (fun p => num (fst p)) C ->
    (forall a b, In a A -> In b C -> flt fo (fst a) (fst b) = true) ->
    reach_all fo c v ni (map snd A) zs m -> (limit <= Z.of_N (lenN zs))%Z ->
    exists A', Permutation A ((d, i) :: A') /\ Permutation rest (A' ++ C)).
  { intros d i rest A C zs m limit Hl P Hmin FA FC Hlt Hr Hz.
    assert (Hin : In (d, i) (A ++ C)) by (eapply Permutation_in; [symmetry; exact P|now left]).
    apply in_app_or in Hin. destruct Hin as [Hin|Hin].
    - destruct (in_split _ _ Hin) as (a1 & a2 & ->). exists (a1 ++ a2). split; [symmetry; apply Permutation_middle|].
      apply Permutation_cons_inv with (a := (d, i)). rewrite <- P, <- !app_assoc. cbn [app].
      symmetry. apply (Permutation_middle a1 (a2 ++ C) (d, i)).
    - exfalso. destruct A as [|a A]; [inversion Hr; subst; rewrite lenN_nil in Hz; lia|].
      assert (Ha : flt fo (fst a) d = true) by (apply (Hlt a (d, i)); [now left|exact Hin]).
      assert (Hia : In a ((d, i) :: rest)) by (eapply Permutation_in; [exact P|now left]).
      destruct Hia as [<-|Hia].
      + cbn [fst] in Ha. inversion FA as [|? ? [Na _] _]; subst. cbn [fst] in Na. rewrite (num_irr _ Na) in Ha. discriminate.
      + specialize (Hmin a Hia). unfold nearer in Hmin. cbn [fst snd] in Hmin. rewrite Ha in Hmin. discriminate. }
  induction 1 as [limit bag H|limit|limit bag d i rest xs ys Hl P Hmin Hi Hv IH|limit bag d i rest l r bs pl pr ys Hl P Hmin Hs Hb Mpl Mpr Hv IH];
    intros A C zs m PA FA FC Hlt Hr Hz.
  - now apply vi_full.
  - apply Permutation_nil in PA. apply app_eq_nil in PA. destruct PA as [-> _]. apply vi_empty.
  - rewrite PA in P. destruct (Front d i rest A C zs m limit) as (A' & P1 & P2); auto.
    destruct (reach_all_perm fo c v ni _ _ (Permutation_map snd P1) _ _ Hr) as (ws & Hw & Hpw). cbn [map snd] in Hw.
    inversion Hw as [|? ? xs0 ys0 m0 n0 Hi0 Hb0]; subst.
    assert (xs0 = xs) as ->.
    { inversion Hi0; subst; [eapply lists_items_fun; eauto|exfalso; eapply lists_not_splits; eauto]. }
    pose proof (Permutation_Forall P1 FA) as FA1. inversion FA1; subst.
    eapply vi_list; [exact Hl|exact P1| |exact Hi|].
    + intros p Hp. apply Hmin. eapply Permutation_in; [symmetry; exact P2|]. apply in_or_app. now left.
    + eapply IH; [exact P2| |exact FC| |exact Hb0|].
      * assumption.
      * intros a b Ha Hb. apply Hlt; [|exact Hb]. eapply Permutation_in; [symmetry; exact P1|now right].
      * rewrite (perm_lenN _ _ Hpw), lenN_app in Hz. lia.
  - rewrite PA in P. destruct (Front d i rest A C zs m limit) as (A' & P1 & P2); auto.
    destruct (reach_all_perm fo c v ni _ _ (Permutation_map snd P1) _ _ Hr) as (ws & Hw & Hpw). cbn [map snd] in Hw.
    inversion Hw as [|? ? xs0 ys0 m0 n0 Hi0 Hb0]; subst.
    inversion Hi0 as [? ? Hli|? l' r' xs1 ys1 m1 n1 Hs' Hl1 Hr1]; subst; [exfalso; eapply lists_not_splits; eauto|].
    destruct (splits_fun fo c _ _ _ _ _ _ Hs Hs') as [<- <-].
    pose proof (Permutation_Forall P1 FA) as FA1. inversion FA1 as [|? ? [Nd Bi] FA2]; subst. cbn [fst snd] in Nd, Bi.
    pose proof (Bnum _ _ _ _ Bi Hs Hb) as Nm. destruct (Bcl _ _ _ Bi Hs) as [Bl Br].
    pose proof (min_num _ _ _ Mpr Nd Nm) as Npr. pose proof (min_num _ _ _ Mpl Nd (neg_num fo _ FL Nm)) as Npl.
    eapply vi_split; [exact Hl|exact P1| |exact Hs|exact Hb|exact Mpl|exact Mpr|].
    + intros p Hp. apply Hmin. eapply Permutation_in; [symmetry; exact P2|]. apply in_or_app. now left.
    + eapply (IH ((pl, l) :: (pr, r) :: A') C (xs1 ++ ys1 ++ ys0) (m1 + (n1 + n0))%nat).
      * cbn [app]. now rewrite P2.
      * constructor; [split; assumption|]. constructor; [split; assumption|exact FA2].
      * exact FC.
      * assert (Hd : forall b, In b C -> flt fo d (fst b) = true).
        { intros b Hb'. apply (Hlt (d, i) b); [|exact Hb']. eapply Permutation_in; [symmetry; exact P1|now left]. }
        assert (Hlow : forall p x b, is_min fo p d x -> num p -> In b C -> flt fo p (fst b) = true).
        { intros p x b (_ & Hp & _) Np Hb'. eapply num_lt_trans; [exact Np|exact Nd| |exact Hp|now apply Hd].
          rewrite Forall_forall in FC. now apply FC. }
        intros a b [<-|[<-|Ha]] Hb'; cbn [fst].
        -- eapply Hlow; eauto.
        -- eapply Hlow; eauto.
        -- apply Hlt; [|exact Hb']. eapply Permutation_in; [symmetry; exact P1|now right].
      * cbn [map snd]. constructor; [exact Hl1|]. now constructor.
      * rewrite (perm_lenN _ _ Hpw), !lenN_app in Hz. rewrite !lenN_app. lia.
Qed.
End B.

Lemma visits_expands v ni vec limit bag ys : visits fo c v ni vec limit bag ys ->
  exists rest, expands fo c v ni (map snd bag) rest ys /\ ((limit <= Z.of_N (lenN ys))%Z \/ rest = []).
Proof.
  induction 1 as [limit bag H|limit|limit bag d i rest xs ys Hl P Hmin Hi Hv (b' & IH & Hs)|limit bag d i rest l r bs pl pr ys Hl P Hmin Hs Hb Mpl Mpr Hv (b' & IH & Hs')].
  - exists (map snd bag). split; [constructor|]. left. rewrite lenN_nil. lia.
  - exists []. split; [constructor|]. now right.
  - exists b'. split; [|rewrite lenN_app; destruct Hs; [left; lia|now right]].
    eapply ex_leaf; [apply (Permutation_map snd P)|exact Hi|exact IH].
  - exists b'. split; [|exact Hs']. eapply ex_split; [apply (Permutation_map snd P)|exact Hs|exact IH].
Qed.

Lemma pushes_heap roots : strict_weak (fun p : F fo * N => num (fst p)) less ->
  forall q, heap_ok (fun p => num (fst p)) less q ->
  heap_ok (fun p => num (fst p)) less (fold_left (fun q r => pq_push less q (pq_initial fo, r)) roots q) /\
  Permutation (fold_left (fun q r => pq_push less q (pq_initial fo, r)) roots q) (at_start fo roots ++ q).
Proof.
  intros SW. induction roots as [|r roots IH]; intros q Hq; cbn [fold_left]; [split; [exact Hq|reflexivity]|].
  destruct (pq_push_spec _ _ SW q (pq_initial fo, r) Hq (inf_num fo FL)) as [H1 P1].
  destruct (IH _ H1) as [H2 P2]. split; [exact H2|]. rewrite P2, P1. cbn [at_start map app]. symmetry. apply Permutation_middle.
Qed.

Lemma below_closed v roots : forall i l r, (exists r d, In r roots /\ descends fo c v r d i) -> splits fo c v i l r ->
  (exists r d, In r roots /\ descends fo c v r d l) /\ (exists r' d, In r' roots /\ descends fo c v r' d r).
Proof.
  intros i l r (r0 & d & Hr & Hd) Hs. destruct (descends_snoc _ _ _ _ Hd _ _ Hs) as [H1 H2].
  split; exists r0, (S d); auto.
Qed.

(** [all_sides] can be computed. *)
Fixpoint check_sides (P : F fo -> bool) (fuel : nat) (v : option buf) (q : list (F fo)) (i : N) : bool :=
  match fuel with
  | O => false
  | S fu => match vread v (addr fo c i) NSZ with
            | Er _ => true
            | Ok bs => if K <? n_desc c bs
                       then P (side_value fo c bs q) && forallb (check_sides P fu v q) (n_children c 2 bs) else true
            end
  end.
Lemma check_sides_below P v q r d i : descends fo c v r d i -> forall fuel, check_sides P fuel v q r = true ->
  exists fu, check_sides P fu v q i = true.
Proof.
  induction 1 as [i|i a b d j Hs Hd IH|i a b d j Hs Hd IH]; intros fuel H; [eauto| |];
    destruct Hs as [bs l r R1 K1 C1]; destruct fuel as [|fu]; [discriminate| |discriminate|]; cbn [check_sides] in H; rewrite R1 in H;
    destruct (N.ltb_spec K (n_desc c bs)); try lia; rewrite C1 in H; cbn [forallb] in H;
    apply andb_prop in H; destruct H as [_ H]; apply andb_prop in H; destruct H as [H1 H]; apply andb_prop in H; destruct H as [H2 _];
    eapply IH; eauto.
Qed.
Lemma check_sides_sound P fuel v q roots : forallb (check_sides P fuel v q) roots = true -> all_sides fo c (fun x => P x = true) v roots q.
Proof.
  intros H r d i l r' bs Hr Hd Hs Hb. rewrite forallb_forall in H. specialize (H r Hr).
  destruct (check_sides_below _ _ _ _ _ _ Hd _ H) as (fu & H'). destruct Hs as [bs' l r' R1 K1 C1].
  assert (bs' = bs) as -> by congruence. destruct fu as [|fu]; [discriminate|]. cbn [check_sides] in H'. rewrite R1 in H'.
  destruct (N.ltb_spec K (n_desc c bs)); [|lia]. apply andb_prop in H'. apply H'.
Qed.

(** ** Queries *)
Variable sortIx : list N -> list N.
Variable sortPairs : list (F fo * N) -> list (F fo * N).
Hypothesis HsI : sort_slice N.ltb sortIx.
Hypothesis HsP : sort_slice less sortPairs.
Notation query := (get_nns_by_vector fo c sortIx sortPairs).

Theorem query_visits fuel fs ix vec n inspect bc ids ds bc' :
  query fuel fs ix vec n inspect bc = Ok (ids, ds, bc') -> lenN (c_nns bc) < 2 ^ iw c ->
  all_sides fo c num (view fs ix) (rootsN (ib ix)) vec ->
  exists ys qn, query_node fo c vec = Ok qn /\
    visits fo c (view fs ix) (n_items ix) vec (the_limit ix n inspect) (at_start fo (rootsN (ib ix))) ys /\
    (forall id, In id ids -> In id ys) /\
    ((forall j d, In j ys -> item_dist fo c (view fs ix) qn j d -> not_nan fo d) ->
     nearest fo c (view fs ix) qn (Z.to_nat n) ys ids ds).
Proof.
  intros E Hw AS. pose proof E as E0. unfold get_nns_by_vector in E. cbn zeta in E.
  apply rbind_ok in E. destruct E as ([cnt nns] & El & E).
  destruct (N.ltb_spec (lenN nns) cnt) as [|Hcnt]; [discriminate|].
  apply rbind_ok in E. destruct E as (qn & Eq & E). apply rbind_ok in E. destruct E as (sc & Es & E).
  destruct (N.ltb_spec (lenN (c_dist bc)) (lenN sc)) as [|Hdist]; [discriminate|].
  apply rbind_ok in E. destruct E as (srt & Ep & E). injection E as Ei Ed _.
  assert (Hvec : lenN vec <= vlen c).
  { unfold query_node in Eq. destruct (N.ltb_spec (vlen c) (lenN vec)); [discriminate|assumption]. }
  pose proof (loop_mono _ _ _ _ _ _ _ _ _ _ _ _ El) as [_ Hlen].
  assert (Hll : lenN nns = lenN (c_nns bc)) by (unfold lenN; lia).
  pose proof (pair_less_sw _ _ _ (float_total fo FL)) as SW.
  set (B := fun i => exists r d, In r (rootsN (ib ix)) /\ descends fo c (view fs ix) r d i).
  destruct (pushes_heap (rootsN (ib ix)) SW pq_new) as [Hh Hp].
  { split; [constructor|]. intros k Hk. cbn in Hk. lia. }
  unfold pq_new in Hp. rewrite app_nil_r in Hp.
  destruct (search_loop_visits (view fs ix) (n_items ix) vec B (below_closed _ _)) with
    (fuel := fuel) (limit := the_limit ix n inspect) (q := fold_left (fun q r => pq_push less q (pq_initial fo, r)) (rootsN (ib ix)) pq_new)
    (cnt := 0) (nns := c_nns bc) (cnt' := cnt) (nns' := nns) as (ys & Hv & Hc & Hf); auto; [|lia| |].
  { intros i l r bs (r0 & d & Hr & Hd) Hs Hb. eapply AS; eauto. }
  { eapply Permutation_Forall; [symmetry; exact Hp|]. apply Forall_forall. intros p Hp'. unfold at_start in Hp'. apply in_map_iff in Hp'.
    destruct Hp' as (r & <- & Hr). cbn [snd]. exists r, 0%nat. split; [exact Hr|apply de_here]. }
  cbn [firstn N.to_nat app] in Hf.
  exists ys, qn. split; [exact Eq|]. split.
  { change (Z.of_N 0) with 0%Z in Hv. rewrite Z.sub_0_r in Hv. eapply visits_perm; [exact Hv|exact Hp]. }
  rewrite Hf in Es.
  pose proof (score_spec _ _ _ _ _ _ _ Es (sortIx_sorted _ HsI ys)) as (S1 & S2 & S3); [discriminate|].
  assert (Hin : forall j, In j (sortIx ys) <-> In j ys).
  { intro j. destruct HsI as [Hp' _]. split; apply Permutation_in; [apply Hp'|apply Permutation_sym, Hp']. }
  pose proof (partial_sort_perm fo sortPairs HsP _ _ _ Ep) as Hps.
  assert (Hs : scored fo c (view fs ix) qn ys sc).
  { split; [exact S2|]. intros d j. rewrite S1, Hin. intuition discriminate. }
  set (top := firstn (Z.to_nat (Z.min n (Z.of_nat (length sc)))) srt) in *.
  split.
  { intros id Hid. rewrite <- Ei in Hid. apply in_map_iff in Hid. destruct Hid as ([d j] & <- & Hj). cbn [snd].
    apply In_firstn in Hj. apply (Permutation_in _ Hps) in Hj. apply (proj2 Hs) in Hj. apply Hj. }
  intro Hnan. exists sc, (map fst top). split; [exact Hs|]. split; [rewrite <- Ei, !map_length; reflexivity|].
  split; [|rewrite <- Ed, map_map; reflexivity].
  rewrite <- Ei, combine_fst_snd.
  apply (partial_sort_topk fo sortPairs HsP (fun p => not_nan fo (fst p))); [exact SW|apply Forall_forall|exact Ep].
  intros [d j] H. apply (proj2 Hs) in H. cbn [fst]. apply (Hnan j); apply H.
Qed.

Lemma min_least p a b : is_min fo p a b -> num a -> num b -> num p -> flt fo b a = true -> p = b.
Proof.
  intros ([-> | ->] & H1 & H2) Na Nb Np H; [congruence|reflexivity].
Qed.

(** The first node looked at is the root with the least number. *)
Lemma start_min roots d i rest : Permutation (at_start fo roots) ((d, i) :: rest) ->
  (forall p, In p rest -> nearer fo p (d, i) = false) ->
  forall r0, In r0 roots -> (forall r, In r roots -> r0 <= r) ->
  d = finf fo /\ i = r0 /\ Forall (fun p => fst p = finf fo /\ In (snd p) roots) rest.
Proof.
  intros P Hmin r0 Hr Hle.
  assert (FA : Forall (fun p => fst p = finf fo /\ In (snd p) roots) ((d, i) :: rest)).
  { eapply Permutation_Forall; [exact P|]. apply Forall_forall. intros p Hp. apply in_map_iff in Hp. destruct Hp as (r & <- & H). auto. }
  inversion FA as [|? ? [Ed Hi] FR]; subst. cbn [fst snd] in *. split; [exact Ed|]. split; [|exact FR]. subst d.
  assert (H0 : In (finf fo, r0) ((finf fo, i) :: rest)).
  { eapply Permutation_in; [exact P|]. unfold at_start. apply in_map_iff. eauto. }
  destruct H0 as [E|H0]; [congruence|]. specialize (Hmin _ H0). unfold nearer in Hmin. cbn [fst snd] in Hmin.
  rewrite (num_irr _ (inf_num fo FL)) in Hmin. pose proof (inf_num fo FL) as N1. unfold not_nan in N1. rewrite N1 in Hmin. cbn [orb andb] in Hmin.
  specialize (Hle i Hi). lia.
Qed.

Section Tree.
Variables (v : option buf) (ni : N) (vec : list (F fo)) (roots : list N) (r0 : N).
Hypothesis HK : 2 <= K.
Hypothesis Hr0 : In r0 roots.
Hypothesis Hle : forall r, In r roots -> r0 <= r.
Hypothesis FS : all_sides fo c (finite fo) v roots vec.
Let B := fun i => exists r d, In r roots /\ descends fo c v r d i.
Lemma B_root r : In r roots -> B r.
Proof. intro H. exists r, 0%nat. split; [exact H|apply de_here]. Qed.
Lemma B_num i l r bs : B i -> splits fo c v i l r -> vread v (addr fo c i) NSZ = Ok bs -> num (side_value fo c bs vec).
Proof. intros (r' & d & Hr & Hd) Hs Hb. apply (finite_num fo _ FL). eapply FS; eauto. Qed.

(** One tree is enough if it lists enough items. *)
Lemma first_tree limit ys zs m : visits fo c v ni vec limit (at_start fo roots) ys ->
  reach fo c v ni r0 zs m -> (limit <= Z.of_N (lenN zs))%Z ->
  visits fo c v ni vec limit (at_start fo [r0]) ys.
Proof.
  intros Hv Hre Hz. inversion Hv as [? ? H|? H|? ? d i rest xs ys' Hl P Hmin Hi Hv'|? ? d i rest l r bs pl pr ys' Hl P Hmin Hs Hb Mpl Mpr Hv']; subst.
  - now apply vi_full.
  - destruct roots; [contradiction|discriminate].
  - destruct (start_min _ _ _ _ P Hmin r0 Hr0 Hle) as (-> & -> & FR).
    assert (zs = xs) as ->.
    { inversion Hre; subst; [eapply lists_items_fun; eauto|exfalso; eapply lists_not_splits; eauto]. }
    eapply vi_list with (rest := []); [exact Hl|unfold at_start; cbn [map]; reflexivity|intros p []|exact Hi|].
    inversion Hv'; subst; [now apply vi_full|apply vi_empty|lia|lia].
  - destruct (start_min _ _ _ _ P Hmin r0 Hr0 Hle) as (-> & -> & FR).
    inversion Hre as [? ? Hli|? l' r' xs1 ys1 m1 n1 Hs' Hl1 Hr1]; subst; [exfalso; eapply lists_not_splits; eauto|].
    destruct (splits_fun fo c _ _ _ _ _ _ Hs Hs') as [<- <-].
    eapply vi_split with (rest := []); [exact Hl|unfold at_start; cbn [map]; reflexivity|intros p []|exact Hs|exact Hb|exact Mpl|exact Mpr|].
    pose proof (B_root r0 Hr0) as B0. destruct (below_closed v roots _ _ _ B0 Hs) as [Bl Br].
    destruct (FS r0 0%nat r0 l r bs Hr0 (de_here _ _ _ _) Hs Hb) as [F1 F2].
    pose proof (B_num _ _ _ _ B0 Hs Hb) as Nm. pose proof (neg_num fo _ FL Nm) as Nn. pose proof (inf_num fo FL) as Ni.
    assert (Npl : num pl) by (eapply min_num; eauto). assert (Npr : num pr) by (eapply min_num; eauto).
    assert (pl = fneg fo (side_value fo c bs vec)) as -> by (eapply min_least; eauto).
    assert (pr = side_value fo c bs vec) as -> by (eapply min_least; eauto).
    eapply (visits_front v ni vec B (below_closed v roots) B_num HK _ _ _ Hv' _ rest (xs1 ++ ys1 ++ []) (m1 + (n1 + 0))%nat).
    + reflexivity.
    + constructor; [split; assumption|]. constructor; [split; assumption|constructor].
    + eapply Forall_impl; [|exact FR]. intros p [-> _]. exact Ni.
    + intros a b Ha Hb'. rewrite Forall_forall in FR. destruct (FR b Hb') as [-> _]. destruct Ha as [<-|[<-|[]]]; assumption.
    + cbn [map snd]. constructor; [exact Hl1|]. constructor; [exact Hr1|constructor].
    + rewrite app_nil_r. exact Hz.
Qed.

(** The side of the first root away from the query is searched first. *)
Lemma far_side limit ys l r bs m zs k : visits fo c v ni vec limit (at_start fo roots) ys ->
  splits fo c v r0 l r -> vread v (addr fo c r0) NSZ = Ok bs -> m = side_value fo c bs vec ->
  forall far, (flt fo (f0 fo) m = true /\ far = l \/ flt fo m (f0 fo) = true /\ far = r) ->
  reach fo c v ni far zs k -> (limit <= Z.of_N (lenN zs))%Z -> forall j, In j ys -> In j zs.
Proof.
  intros Hv Hs Hb -> far Hfar Hre Hz j Hj.
  inversion Hv as [? ? H|? H|? ? d i rest xs ys' Hl P Hmin Hi Hv'|? ? d i rest l' r' bs' pl pr ys' Hl P Hmin Hs' Hb' Mpl Mpr Hv']; subst; [contradiction|contradiction| |].
  { destruct (start_min _ _ _ _ P Hmin r0 Hr0 Hle) as (-> & -> & FR). exfalso. eapply lists_not_splits; eauto. }
  destruct (start_min _ _ _ _ P Hmin r0 Hr0 Hle) as (-> & -> & FR).
  destruct (splits_fun fo c _ _ _ _ _ _ Hs Hs') as [<- <-]. assert (bs' = bs) as -> by congruence.
  pose proof (B_root r0 Hr0) as B0. destruct (below_closed v roots _ _ _ B0 Hs) as [Bl Br].
  destruct (FS r0 0%nat r0 l r bs Hr0 (de_here _ _ _ _) Hs Hb) as [F1 F2].
  pose proof (B_num _ _ _ _ B0 Hs Hb) as Nm. pose proof (neg_num fo _ FL Nm) as Nn. pose proof (inf_num fo FL) as Ni.
  assert (Npl : num pl) by (eapply min_num; eauto). assert (Npr : num pr) by (eapply min_num; eauto).
  assert (pl = fneg fo (side_value fo c bs vec)) as -> by (eapply min_least; eauto).
  assert (pr = side_value fo c bs vec) as -> by (eapply min_least; eauto).
  set (x := side_value fo c bs vec) in *.
  assert (Sg : (flt fo (f0 fo) x = true -> flt fo (fneg fo x) x = true) /\ (flt fo x (f0 fo) = true -> flt fo x (fneg fo x) = true)).
  { clear - FL. destruct FL as [-> | ->]; destruct x as [s|s|s p H|s mm e H]; split; intro E; destruct s; try discriminate E; reflexivity. }
  assert (G : visits fo c v ni vec limit [(if flt fo (f0 fo) x then fneg fo x else x, far)] ys).
  { destruct Hfar as [[Hx ->]|[Hx ->]].
    - rewrite Hx. eapply (visits_front v ni vec B (below_closed v roots) B_num HK _ _ _ Hv' _ ((x, r) :: rest) (zs ++ []) (k + 0)%nat).
      + reflexivity.
      + constructor; [split; assumption|constructor].
      + constructor; [exact Nm|]. eapply Forall_impl; [|exact FR]. intros p [-> _]. exact Ni.
      + intros a b [<-|[]] [<-|Hb0]; cbn [fst]; [now apply Sg|]. rewrite Forall_forall in FR. destruct (FR b Hb0) as [-> _]. exact F2.
      + cbn [map snd]. constructor; [exact Hre|constructor].
      + rewrite app_nil_r. exact Hz.
    - assert (Hx' : flt fo (f0 fo) x = false).
      { destruct (flt fo (f0 fo) x) eqn:E; [|reflexivity]. assert (N0 : num (f0 fo)) by (destruct FL as [-> | ->]; reflexivity).
        rewrite (tc_irr _ _ _ (float_total fo FL) (f0 fo) x N0 Nm E) in Hx. discriminate. }
      rewrite Hx'. eapply (visits_front v ni vec B (below_closed v roots) B_num HK _ _ _ Hv' _ ((fneg fo x, l) :: rest) (zs ++ []) (k + 0)%nat).
      + apply perm_swap.
      + constructor; [split; assumption|constructor].
      + constructor; [exact Nn|]. eapply Forall_impl; [|exact FR]. intros p [-> _]. exact Ni.
      + intros a b [<-|[]] [<-|Hb0]; cbn [fst]; [now apply Sg|]. rewrite Forall_forall in FR. destruct (FR b Hb0) as [-> _]. exact F1.
      + cbn [map snd]. constructor; [exact Hre|constructor].
      + rewrite app_nil_r. exact Hz. }
  destruct (visits_expands _ _ _ _ _ _ G) as (rest' & Hx & _). cbn [map snd] in Hx.
  destruct (expands_rest fo c v ni _ _ _ HK Hx (zs ++ []) (k + 0)%nat) as (zs' & m' & _ & Hp).
  { constructor; [exact Hre|constructor]. }
  rewrite app_nil_r in Hp. eapply Permutation_in; [symmetry; exact Hp|]. apply in_or_app. now left.
Qed.
End Tree.
End O.
