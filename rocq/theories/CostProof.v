(** How many nodes a query looks at. *)
From Verif Require Import Base Flt Layout Alloc Prog Sorts Dist Build Index Search Spec ForestSpec OrderSpec CostSpec
  Lib LayoutProof FltProof SortsProof NumProof SearchProof QueryProof TreeProof AfterProof AccProof CutProof OrderProof RoomProof.
From Coq Require Import Permutation.
Open Scope N_scope.

Section O.
Variable fo : FOps.
Variable c : Cfg.
Hypothesis OK : CfgOK fo c.
Hypothesis FL : is_float fo.
Notation NSZ := (nodeSize fo c).
Notation K := (maxK fo c).
Notation less := (pair_less (flt fo) (feq fo)).
Notation num := (not_nan fo).

Lemma looks_perm v ni vec limit bag bag' n : looks fo c v ni vec limit bag n -> Permutation bag bag' ->
  looks fo c v ni vec limit bag' n.
Proof.
  intros H P. destruct H.
  - now apply lo_full.
  - apply Permutation_nil in P. subst. apply lo_empty.
  - eapply lo_list; eauto. now rewrite <- P.
  - eapply lo_split; eauto. now rewrite <- P.
Qed.
Lemma looks_done v ni vec limit bag n : looks fo c v ni vec limit bag n -> (limit <= 0)%Z -> n = 0%nat.
Proof. intros H Hl. destruct H; try reflexivity; lia. Qed.

Section B.
Variables (v : option buf) (ni : N) (vec : list (F fo)).
Variable B : N -> Prop.
Hypothesis Bcl : forall i l r, B i -> splits fo c v i l r -> B l /\ B r.
Hypothesis Bnum : forall i l r bs, B i -> splits fo c v i l r -> vread v (addr fo c i) NSZ = Ok bs -> num (side_value fo c bs vec).

(** The loop of a query takes as many rounds as nodes are looked at: any larger bound on
    the rounds gives the same result, a lesser one none. *)
Lemma search_loop_looks fuel : lenN vec <= vlen c -> forall limit q cnt nns res,
  search_loop fo c fuel v ni vec limit q cnt nns = Ok res ->
  heap_ok (fun p => num (fst p)) less q -> Forall (fun p => B (snd p)) q ->
  exists n, looks fo c v ni vec (limit - Z.of_N cnt) q n /\ (n <= fuel)%nat /\
    forall fuel', (n <= fuel')%nat -> search_loop fo c fuel' v ni vec limit q cnt nns = Ok res.
Proof.
  intro Hvec. pose proof (pair_less_sw _ _ _ (float_total fo FL)) as SW.
  assert (End : forall limit q cnt nns, (Z.of_N cnt <? limit)%Z && negb (pq_empty q) = false ->
    looks fo c v ni vec (limit - Z.of_N cnt) q 0 /\
    forall fuel', search_loop fo c fuel' v ni vec limit q cnt nns = Ok (cnt, nns)).
  { intros limit q cnt nns Es. split.
    - unfold pq_empty in Es. destruct q; [apply lo_empty|apply lo_full]. cbn in Es. lia.
    - intros [|fu]; cbn [search_loop]; rewrite Es; reflexivity. }
  induction fuel as [|fu IH]; intros limit q cnt nns res E Hh HB.
  - cbn [search_loop] in E. destruct ((Z.of_N cnt <? limit)%Z && negb (pq_empty q)) eqn:Es; [discriminate|].
    injection E as <-. destruct (End _ _ _ nns Es) as [H1 H2]. exists 0%nat. split; [exact H1|]. split; [lia|auto].
  - rewrite search_loop_S in E.
    destruct ((Z.of_N cnt <? limit)%Z && negb (pq_empty q)) eqn:Es;
      [|injection E as <-; destruct (End _ _ _ nns Es) as [H1 H2]; exists 0%nat; split; [exact H1|]; split; [lia|auto]].
    assert (Hlim : (0 < limit - Z.of_N cnt)%Z) by lia.
    destruct (pq_top q) as [[d i]|] eqn:Et; [|discriminate].
    apply rbind_ok in E. destruct E as ([x q'] & Ep & E). apply rbind_ok in E. destruct E as (bs & Erd & E).
    cbn zeta in E.
    assert (Hne : q <> []) by (intros ->; discriminate).
    destruct (pq_pop_spec _ _ SW q Hh Hne) as (x1 & q1 & Ep1 & Et1 & Hh' & Hp & Hmin).
    rewrite Ep in Ep1. injection Ep1 as <- <-. rewrite Et in Et1. injection Et1 as <-.
    assert (Hmin' : forall p, In p q' -> nearer fo p (d, i) = false).
    { intros p Hp'. apply Hmin. eapply Permutation_in; [symmetry; exact Hp|]. now right. }
    assert (HB' : B i /\ Forall (fun p => B (snd p)) q').
    { apply (Permutation_Forall Hp) in HB. inversion HB; subst. auto. }
    destruct HB' as [Bi HB'].
    assert (Nd : num d).
    { destruct Hh as [F1 _]. apply (Permutation_Forall Hp) in F1. inversion F1; subst. assumption. }
    assert (Again : forall fuel', search_loop fo c (S fuel') v ni vec limit q cnt nns =
      (let n := n_desc c bs in
            if (n =? 1) && (i <? ni) then
              (if lenN nns <=? cnt then Er (Panic PIndex)
               else let* nns' := put_at nns cnt [i] in
                    search_loop fo c fuel' v ni vec limit q' (cnt + 1) nns')
            else if n <=? K then
              let* nns' := put_at nns (tix c cnt) (n_children c n bs) in
              search_loop fo c fuel' v ni vec limit q' (cnt + n) nns'
            else
              let* m := margin fo c (snode_of fo c bs) vec in
              let ch := n_children c 2 bs in
              let q1 := pq_push less q' (pq_distance fo d m true, nth 1 ch 0) in
              let q2 := pq_push less q1 (pq_distance fo d m false, nth 0 ch 0) in
              search_loop fo c fuel' v ni vec limit q2 cnt nns)).
    { intro fuel'. rewrite search_loop_S, Es, Et, Ep. cbn [rbind]. rewrite Erd. reflexivity. }
    cbn zeta in Again.
    destruct ((n_desc c bs =? 1) && (i <? ni)) eqn:Ei.
    + destruct (N.leb_spec (lenN nns) cnt) as [|Hlt]; [discriminate|].
      apply rbind_ok in E. destruct E as (nns1 & E1 & E).
      destruct (IH _ _ _ _ _ E Hh' HB') as (n & Hx & Hn & Hf).
      exists (S n). split; [|split; [lia|]].
      * eapply lo_list; [exact Hlim|exact Hp|exact Hmin'|eapply li_item; eauto; lia|].
        replace (limit - Z.of_N cnt - Z.of_N (lenN [i]))%Z with (limit - Z.of_N (cnt + 1))%Z by (rewrite lenN_cons, lenN_nil; lia). exact Hx.
      * intros [|fuel'] Hf'; [lia|]. rewrite Again, E1. cbn [rbind]. apply Hf. lia.
    + destruct (N.leb_spec (n_desc c bs) K) as [Hk|Hk].
      * apply rbind_ok in E. destruct E as (nns1 & E1 & E).
        assert (Hlc : lenN (n_children c (n_desc c bs) bs) = n_desc c bs).
        { unfold lenN. rewrite length_n_children. lia. }
        destruct (IH _ _ _ _ _ E Hh' HB') as (n & Hx & Hn & Hf).
        exists (S n). split; [|split; [lia|]].
        -- eapply lo_list; [exact Hlim|exact Hp|exact Hmin'|eapply li_bucket; eauto; lia|].
           rewrite Hlc. replace (limit - Z.of_N cnt - Z.of_N (n_desc c bs))%Z with (limit - Z.of_N (cnt + n_desc c bs))%Z by lia. exact Hx.
        -- intros [|fuel'] Hf'; [lia|]. rewrite Again, E1. cbn [rbind]. apply Hf. lia.
      * apply rbind_ok in E. destruct E as (m & Em0 & E). pose proof (margin_side fo c bs vec m Hvec Em0) as Em.
        destruct (two_children c bs) as (l & r & Hch). rewrite Hch in E. cbn [nth] in E. rewrite Hch in Again. cbn [nth] in Again.
        assert (Hs : splits fo c v i l r) by (econstructor; eauto).
        pose proof (Bnum _ _ _ _ Bi Hs Erd) as Nm. rewrite <- Em in Nm.
        pose proof (fmin_is_min fo d m FL Nd Nm) as Mr.
        pose proof (fmin_is_min fo d (fneg fo m) FL Nd (neg_num fo m FL Nm)) as Ml.
        rewrite Em0 in Again. cbn [rbind] in Again.
        unfold pq_distance in E, Again. set (pr := fmin fo d m) in *. set (pl := fmin fo d (fneg fo m)) in *.
        assert (Npr : num pr) by (destruct (proj1 Mr) as [-> | ->]; assumption).
        assert (Npl : num pl) by (destruct (proj1 Ml) as [-> | ->]; [assumption|now apply neg_num]).
        destruct (pq_push_spec _ _ SW q' (pr, r) Hh' Npr) as [Hh1 Hp1].
        destruct (pq_push_spec _ _ SW _ (pl, l) Hh1 Npl) as [Hh2 Hp2].
        destruct (Bcl _ _ _ Bi Hs) as [Bl Br].
        destruct (IH _ _ _ _ _ E Hh2) as (n & Hx & Hn & Hf).
        { eapply Permutation_Forall; [symmetry; exact Hp2|]. constructor; [exact Bl|].
          eapply Permutation_Forall; [symmetry; exact Hp1|]. now constructor. }
        exists (S n). split; [|split; [lia|]].
        -- eapply lo_split with (l := l) (r := r) (bs := bs) (pl := pl) (pr := pr); try eassumption; try (rewrite <- Em; assumption).
           eapply looks_perm; [exact Hx|]. now rewrite Hp2, Hp1.
        -- intros [|fuel'] Hf'; [lia|]. rewrite Again. apply Hf. lia.
Qed.

(** ** Depth first *)
Hypothesis Bord : forall i l r, B i -> splits fo c v i l r -> l < i /\ r < i /\ l <> r.

(** A node strictly before all others is the next one looked at. *)
Lemma looks_step limit d i rest n : looks fo c v ni vec limit ((d, i) :: rest) n -> (0 < limit)%Z ->
  (forall p, In p rest -> nearer fo (d, i) p = true) ->
  exists n', n = S n' /\
   ((exists xs, lists_items fo c v ni i xs /\ looks fo c v ni vec (limit - Z.of_N (lenN xs)) rest n') \/
    (exists l r bs pl pr, splits fo c v i l r /\ vread v (addr fo c i) NSZ = Ok bs /\
       is_min fo pl d (fneg fo (side_value fo c bs vec)) /\ is_min fo pr d (side_value fo c bs vec) /\
       looks fo c v ni vec limit ((pl, l) :: (pr, r) :: rest) n')).
Proof.
  intros H Hl Hst.
  assert (Pick : forall d' i' rest', Permutation ((d, i) :: rest) ((d', i') :: rest') ->
    (forall p, In p rest' -> nearer fo p (d', i') = false) -> (d', i') = (d, i) /\ Permutation rest rest').
  { intros d' i' rest' P Hm.
    assert (Hi : In (d', i') ((d, i) :: rest)) by (eapply Permutation_in; [symmetry; exact P|now left]).
    assert (Hi' : In (d, i) ((d', i') :: rest')) by (eapply Permutation_in; [exact P|now left]).
    destruct Hi as [Hi|Hi].
    - rewrite <- Hi in P. split; [now symmetry|]. eapply Permutation_cons_inv; exact P.
    - destruct Hi' as [Hi'|Hi'].
      + rewrite Hi' in P. split; [exact Hi'|]. eapply Permutation_cons_inv; exact P.
      + specialize (Hm _ Hi'). rewrite (Hst _ Hi) in Hm. discriminate. }
  inversion H; subst; [lia| |].
  - destruct (Pick _ _ _ H1 H2) as [[= -> ->] P]. eexists. split; [reflexivity|]. left. eexists. split; [eassumption|].
    eapply looks_perm; [eassumption|]. now symmetry.
  - destruct (Pick _ _ _ H1 H2) as [[= -> ->] P]. eexists. split; [reflexivity|]. right.
    do 5 eexists. split; [eassumption|]. split; [eassumption|]. split; [eassumption|]. split; [eassumption|].
    eapply looks_perm; [eassumption|]. now rewrite P.
Qed.

Lemma nearer_down p l d i x e j : is_min fo p d x -> num p -> num d -> num e -> l < i ->
  nearer fo (d, i) (e, j) = true -> nearer fo (p, l) (e, j) = true.
Proof.
  intros (_ & Hp & _) Np Nd Ne Hl H. pose proof (float_total fo FL) as TC. unfold nearer in *. cbn [fst snd] in *.
  destruct (flt fo d e) eqn:E.
  - now rewrite (num_lt_trans fo FL p d e Np Nd Ne Hp E).
  - cbn [orb] in H. apply andb_prop in H. destruct H as [H1 H2].
    rewrite (tc_eq _ _ _ TC d e Nd Ne), E in H1. cbn [negb andb] in H1. apply Bool.negb_true_iff in H1.
    destruct (flt fo p e) eqn:E1; [reflexivity|]. cbn [orb].
    rewrite (tc_eq _ _ _ TC p e Np Ne), E1.
    rewrite (tc_trans _ _ _ TC p d e Np Nd Ne Hp H1). cbn [negb andb]. lia.
Qed.
Lemma nearer_total p q : num (fst p) -> num (fst q) -> snd p <> snd q -> nearer fo p q = true \/ nearer fo q p = true.
Proof.
  intros Np Nq Hne. pose proof (float_total fo FL) as TC. unfold nearer.
  rewrite (tc_eq _ _ _ TC _ _ Np Nq), (tc_eq _ _ _ TC _ _ Nq Np).
  destruct (flt fo (fst p) (fst q)), (flt fo (fst q) (fst p)); cbn [negb andb orb]; auto.
  destruct (N.lt_ge_cases (snd p) (snd q)); [left|right]; apply N.ltb_lt; lia.
Qed.

Lemma height_child i l r h : height_le fo c v i h -> splits fo c v i l r -> exists h', h = S h' /\ height_le fo c v l h' /\ height_le fo c v r h'.
Proof.
  intros H Hs. assert (H1 : (1 <= h)%nat) by (apply (H 1%nat l); eapply de_left; [exact Hs|apply de_here]).
  destruct h as [|h']; [lia|]. exists h'. split; [reflexivity|]. split; intros d j Hd; apply le_S_n; apply (H (S d) j);
    [eapply de_left|eapply de_right]; eauto.
Qed.

(** The subtree that comes first is searched completely before anything else, in at most
    2 * (entries) - 1 rounds; a search that ends in it takes at most 2 * limit + height. *)
Lemma looks_tree i zs : divided fo c (fun _ => both) v ni i zs -> 1 <= lenN zs -> B i ->
  forall h, height_le fo c v i h -> forall limit d rest n, (0 < limit)%Z -> num d -> Forall (fun p => num (fst p)) rest ->
  (forall p, In p rest -> nearer fo (d, i) p = true) ->
  looks fo c v ni vec limit ((d, i) :: rest) n ->
  (exists n1 n2, n = (n1 + n2)%nat /\ (Z.of_nat n1 + 1 <= 2 * Z.of_N (lenN zs))%Z /\ (Z.of_nat n1 + 1 <= 2 * limit)%Z /\
     looks fo c v ni vec (limit - Z.of_N (lenN zs)) rest n2) \/
  (Z.of_nat n <= 2 * limit + Z.of_nat h)%Z.
Proof.
  induction 1 as [i xs Hi|i l r bs xs ys Hs Hr Hc Dl IHl Dr IHr]; intros Hz Bi h Hlow limit d rest n Hlim Nd Fr Hst Lk;
    destruct (looks_step _ _ _ _ _ Lk Hlim Hst) as (n' & -> & [(xs' & Hi' & Lk')|(l' & r' & bs' & pl & pr & Hs' & Hr' & Ml & Mr & Lk')]).
  - left. assert (xs' = xs) as -> by (eapply lists_items_fun; eauto; exact (maxK_ge2 fo c OK)).
    exists 1%nat, n'. split; [reflexivity|]. split; [lia|]. split; [lia|exact Lk'].
  - exfalso. eapply (split_not_leaf fo c OK); eauto.
  - exfalso. eapply (split_not_leaf fo c OK); eauto.
  - destruct (splits_fun fo c _ _ _ _ _ _ Hs Hs') as [<- <-]. assert (bs' = bs) as -> by congruence.
    destruct (Bcl _ _ _ Bi Hs) as [Bl Br]. destruct (Bord _ _ _ Bi Hs) as (Ll & Lr & Lne).
    pose proof (Bnum _ _ _ _ Bi Hs Hr) as Nm.
    pose proof (min_num fo _ _ _ Mr Nd Nm) as Npr. pose proof (min_num fo _ _ _ Ml Nd (neg_num fo _ FL Nm)) as Npl.
    destruct (height_child _ _ _ _ Hlow Hs) as (h' & -> & Lowl & Lowr). destruct Hc as [Hx Hy]. rewrite lenN_app in *.
    assert (Hstl : forall p, In p rest -> nearer fo (pl, l) p = true).
    { intros [e j] Hp. rewrite Forall_forall in Fr. eapply nearer_down; [exact Ml|exact Npl|exact Nd|apply (Fr _ Hp)|exact Ll|now apply Hst]. }
    assert (Hstr : forall p, In p rest -> nearer fo (pr, r) p = true).
    { intros [e j] Hp. rewrite Forall_forall in Fr. eapply nearer_down; [exact Mr|exact Npr|exact Nd|apply (Fr _ Hp)|exact Lr|now apply Hst]. }
    (* one child first, then the other *)
    assert (Two : forall p1 j1 (z1 : list N) p2 j2 (z2 : list N),
      (forall limit d rest n, (0 < limit)%Z -> num d -> Forall (fun p => num (fst p)) rest ->
         (forall p, In p rest -> nearer fo (d, j1) p = true) -> looks fo c v ni vec limit ((d, j1) :: rest) n ->
         (exists n1 n2, n = (n1 + n2)%nat /\ (Z.of_nat n1 + 1 <= 2 * Z.of_N (lenN z1))%Z /\ (Z.of_nat n1 + 1 <= 2 * limit)%Z /\
            looks fo c v ni vec (limit - Z.of_N (lenN z1)) rest n2) \/ (Z.of_nat n <= 2 * limit + Z.of_nat h')%Z) ->
      (forall limit d rest n, (0 < limit)%Z -> num d -> Forall (fun p => num (fst p)) rest ->
         (forall p, In p rest -> nearer fo (d, j2) p = true) -> looks fo c v ni vec limit ((d, j2) :: rest) n ->
         (exists n1 n2, n = (n1 + n2)%nat /\ (Z.of_nat n1 + 1 <= 2 * Z.of_N (lenN z2))%Z /\ (Z.of_nat n1 + 1 <= 2 * limit)%Z /\
            looks fo c v ni vec (limit - Z.of_N (lenN z2)) rest n2) \/ (Z.of_nat n <= 2 * limit + Z.of_nat h')%Z) ->
      num p1 -> num p2 -> nearer fo (p1, j1) (p2, j2) = true ->
      (forall p, In p rest -> nearer fo (p1, j1) p = true) -> (forall p, In p rest -> nearer fo (p2, j2) p = true) ->
      looks fo c v ni vec limit ((p1, j1) :: (p2, j2) :: rest) n' ->
      (exists n1 n2, S n' = (n1 + n2)%nat /\ (Z.of_nat n1 + 1 <= 2 * Z.of_N (lenN z1 + lenN z2))%Z /\ (Z.of_nat n1 + 1 <= 2 * limit)%Z /\
         looks fo c v ni vec (limit - Z.of_N (lenN z1 + lenN z2)) rest n2) \/
      (Z.of_nat (S n') <= 2 * limit + Z.of_nat (S h'))%Z).
    { intros p1 j1 z1 p2 j2 z2 G1 G2 N1 N2 H12 S1 S2 Lk0.
      destruct (G1 limit p1 ((p2, j2) :: rest) n' Hlim N1) as [(n1 & n2 & -> & A1 & A2 & A3)|A]; auto.
      { intros p [<-|Hp]; auto. }
      2:{ right. lia. }
      destruct (Z.le_gt_cases (limit - Z.of_N (lenN z1)) 0) as [Hd|Hd].
      { right. pose proof (looks_done _ _ _ _ _ _ A3 Hd). lia. }
      destruct (G2 (limit - Z.of_N (lenN z1))%Z p2 rest n2 ltac:(lia) N2 Fr S2 A3) as [(m1 & m2 & -> & B1 & B2 & B3)|A'].
      - left. exists (S (n1 + m1)), m2. split; [lia|]. split; [lia|]. split; [lia|].
        replace (limit - Z.of_N (lenN z1 + lenN z2))%Z with (limit - Z.of_N (lenN z1) - Z.of_N (lenN z2))%Z by lia. exact B3.
      - right. lia. }
    destruct (nearer_total (pl, l) (pr, r) Npl Npr Lne) as [Hn|Hn].
    + eapply (Two pl l xs pr r ys); eauto.
    + replace (lenN xs + lenN ys) with (lenN ys + lenN xs) by lia. eapply (Two pr r ys pl l xs); eauto.
      eapply looks_perm; [exact Lk'|]. apply perm_swap.
Qed.
End B.

(** ** The whole forest *)
Lemma least_first (roots : list N) : NoDup roots -> roots <> [] ->
  exists r0 rs, Permutation roots (r0 :: rs) /\ forall r, In r rs -> r0 < r.
Proof.
  induction roots as [|r roots IH]; intros ND Hne; [congruence|]. inversion ND as [|? ? Hni ND']; subst.
  destruct roots as [|r' roots']; [exists r, []; split; [reflexivity|intros ? []]|].
  destruct IH as (r0 & rs & P & Hlt); [assumption|discriminate|].
  assert (r <> r0). { intros ->. apply Hni. eapply Permutation_in; [symmetry; exact P|now left]. }
  destruct (N.lt_ge_cases r r0).
  - exists r, (r0 :: rs). split; [now constructor|]. intros x [<-|Hx]; [assumption|]. specialize (Hlt x Hx). lia.
  - exists r0, (r :: rs). split; [rewrite P; apply perm_swap|]. intros x [<-|Hx]; [lia|auto].
Qed.

Lemma looks_forest v ni vec all h : all_sides fo c num v all vec ->
  (forall r d i l r', In r all -> descends fo c v r d i -> splits fo c v i l r' -> l < i /\ r' < i /\ l <> r') ->
  forall k roots, length roots = k -> NoDup roots -> incl roots all ->
  (forall r, In r roots -> height_le fo c v r h /\ exists zs, divided fo c (fun _ => both) v ni r zs /\ 1 <= lenN zs) ->
  forall limit n, looks fo c v ni vec limit (at_start fo roots) n -> (0 <= limit)%Z ->
  (Z.of_nat n <= 2 * limit + Z.of_nat h)%Z.
Proof.
  intros AS HO. set (B := fun i => exists r d, In r all /\ descends fo c v r d i).
  assert (Bnum : forall i l r bs, B i -> splits fo c v i l r -> vread v (addr fo c i) NSZ = Ok bs -> num (side_value fo c bs vec)).
  { intros i l r bs (r0 & d & Hr & Hd) Hs Hb. eapply AS; eauto. }
  assert (Bord : forall i l r, B i -> splits fo c v i l r -> l < i /\ r < i /\ l <> r).
  { intros i l r (r0 & d & Hr & Hd) Hs. eapply HO; eauto. }
  induction k as [|k IH]; intros roots Hk ND Hin Hroots limit n Lk Hl.
  - destruct roots; [|discriminate]. cbn [at_start map] in Lk. inversion Lk; subst; try lia.
    + apply Permutation_nil in H0. discriminate.
    + apply Permutation_nil in H0. discriminate.
  - destruct (Z.eq_dec limit 0) as [->|Hl0].
    { rewrite (looks_done _ _ _ _ _ _ Lk); lia. }
    destruct (least_first roots ND) as (r0 & rs & P & Hlt); [intros ->; discriminate|].
    assert (Pm : Permutation (at_start fo roots) ((finf fo, r0) :: at_start fo rs)) by (unfold at_start; rewrite P; reflexivity).
    apply (looks_perm _ _ _ _ _ _ _ Lk) in Pm.
    assert (Hr0 : In r0 roots) by (eapply Permutation_in; [symmetry; exact P|now left]).
    destruct (Hroots r0 Hr0) as (Low0 & zs & Dz & Hz).
    destruct (looks_tree v ni vec B (below_closed fo c v all) Bnum Bord r0 zs Dz Hz) with
      (h := h) (limit := limit) (d := finf fo) (rest := at_start fo rs) (n := n) as [(n1 & n2 & -> & A1 & A2 & A3)|A]; auto.
    + exists r0, 0%nat. split; [now apply Hin|apply de_here].
    + lia.
    + now apply inf_num.
    + apply Forall_forall. intros p Hp. apply in_map_iff in Hp. destruct Hp as (r & <- & _). now apply inf_num.
    + intros p Hp. apply in_map_iff in Hp. destruct Hp as (r & <- & Hr). unfold nearer. cbn [fst snd].
      pose proof (inf_num fo FL) as N1. unfold not_nan in N1. rewrite N1. specialize (Hlt r Hr).
      replace (r0 <? r) with true by lia. apply Bool.orb_true_r.
    + destruct (Z.le_gt_cases (limit - Z.of_N (lenN zs)) 0) as [Hd|Hd].
      * rewrite (looks_done _ _ _ _ _ _ A3 Hd). lia.
      * assert (ND2 : NoDup (r0 :: rs)) by (eapply Permutation_NoDup; eauto). inversion ND2; subst.
        assert (Hsub : forall r, In r rs -> In r roots) by (intros r Hr; eapply Permutation_in; [symmetry; exact P|now right]).
        pose proof (IH rs) as G. apply Permutation_length in P. cbn [length] in P.
        specialize (G ltac:(lia) ltac:(assumption) ltac:(intros r Hr; auto) ltac:(auto) _ _ A3 ltac:(lia)). lia.
Qed.

(** ** Queries *)
Variable sortIx : list N -> list N.
Variable sortPairs : list (F fo * N) -> list (F fo * N).
Notation query := (get_nns_by_vector fo c sortIx sortPairs).

Theorem query_looks fuel fs ix vec n inspect bc res :
  query fuel fs ix vec n inspect bc = Ok res ->
  all_sides fo c num (view fs ix) (rootsN (ib ix)) vec ->
  exists k, looks fo c (view fs ix) (n_items ix) vec (the_limit ix n inspect) (at_start fo (rootsN (ib ix))) k /\ (k <= fuel)%nat /\
    forall fuel', (k <= fuel')%nat -> query fuel' fs ix vec n inspect bc = Ok res.
Proof.
  intros E AS. unfold get_nns_by_vector in *. cbn zeta in *.
  apply rbind_ok in E. destruct E as ([cnt nns] & El & E).
  destruct (N.ltb_spec (lenN nns) cnt) as [|Hcnt]; [discriminate|].
  pose proof E as E0. apply rbind_ok in E. destruct E as (qn & Eq & _).
  assert (Hvec : lenN vec <= vlen c).
  { unfold query_node in Eq. destruct (N.ltb_spec (vlen c) (lenN vec)); [discriminate|assumption]. }
  pose proof (pair_less_sw _ _ _ (float_total fo FL)) as SW.
  set (B := fun i => exists r d, In r (rootsN (ib ix)) /\ descends fo c (view fs ix) r d i).
  destruct (pushes_heap fo FL (rootsN (ib ix)) SW pq_new) as [Hh Hp].
  { split; [constructor|]. intros k Hk. cbn in Hk. lia. }
  unfold pq_new in Hp. rewrite app_nil_r in Hp.
  destruct (search_loop_looks (view fs ix) (n_items ix) vec B (below_closed _ _ _ _)) with
    (fuel := fuel) (limit := the_limit ix n inspect) (q := fold_left (fun q r => pq_push less q (pq_initial fo, r)) (rootsN (ib ix)) pq_new)
    (cnt := 0) (nns := c_nns bc) (res := (cnt, nns)) as (k & Hv & Hk & Hf); auto.
  { intros i l r bs (r0 & d & Hr & Hd) Hs Hb. eapply AS; eauto. }
  { eapply Permutation_Forall; [symmetry; exact Hp|]. apply Forall_forall. intros p Hp'. unfold at_start in Hp'. apply in_map_iff in Hp'.
    destruct Hp' as (r & <- & Hr). cbn [snd]. exists r, 0%nat. split; [exact Hr|apply de_here]. }
  exists k. split; [|split; [exact Hk|]].
  - change (Z.of_N 0) with 0%Z in Hv. rewrite Z.sub_0_r in Hv. eapply looks_perm; [exact Hv|exact Hp].
  - intros fuel' Hf'. specialize (Hf fuel' Hf'). unfold the_limit in Hf. rewrite Hf. cbn [rbind].
    destruct (N.ltb_spec (lenN nns) cnt); [lia|]. exact E0.
Qed.

(** The loop stops at the first leaf with which it has enough. *)
Lemma loop_few fuel v ni vec limit : forall q cnt nns cnt' nns',
  search_loop fo c fuel v ni vec limit q cnt nns = Ok (cnt', nns') ->
  cnt' = cnt \/ (Z.of_N cnt' < limit + Z.of_N K)%Z.
Proof.
  pose proof (maxK_ge2 fo c OK) as HK.
  induction fuel as [|fu IH]; intros q cnt nns cnt' nns' E.
  - cbn [search_loop] in E. destruct (_ && _); [discriminate|]. injection E as <- <-. now left.
  - rewrite search_loop_S in E. destruct ((Z.of_N cnt <? limit)%Z && negb (pq_empty q)) eqn:Es; [|injection E as <- <-; now left].
    destruct (pq_top q) as [[d i]|]; [|discriminate].
    apply rbind_ok in E. destruct E as ([x q'] & _ & E). apply rbind_ok in E. destruct E as (bs & _ & E). cbn zeta in E.
    destruct ((n_desc c bs =? 1) && (i <? ni)).
    + destruct (lenN nns <=? cnt); [discriminate|]. apply rbind_ok in E. destruct E as (nns1 & _ & E). destruct (IH _ _ _ _ _ E); [right|right]; lia.
    + destruct (N.leb_spec (n_desc c bs) K) as [Hk|Hk].
      * apply rbind_ok in E. destruct E as (nns1 & _ & E). destruct (IH _ _ _ _ _ E); right; lia.
      * apply rbind_ok in E. destruct E as (m & _ & E). eapply IH; eauto.
Qed.
Hypothesis HsI : sort_slice N.ltb sortIx.
Theorem query_few fuel fs ix vec n inspect bc ids ds bc' :
  query fuel fs ix vec n inspect bc = Ok (ids, ds, bc') ->
  ids = [] \/ (Z.of_nat (length ids) < the_limit ix n inspect + Z.of_N K)%Z.
Proof.
  intro E. unfold get_nns_by_vector in E. cbn zeta in E.
  apply rbind_ok in E. destruct E as ([cnt nns] & El & E).
  destruct (N.ltb_spec (lenN nns) cnt) as [|Hcnt]; [discriminate|].
  apply rbind_ok in E. destruct E as (qn & _ & E). apply rbind_ok in E. destruct E as (sc & Es & E).
  destruct (lenN (c_dist bc) <? lenN sc); [discriminate|].
  apply rbind_ok in E. destruct E as (srt & _ & E). injection E as <- _ _.
  pose proof (score_length fo c _ _ _ _ _ Es) as Hl. destruct HsI as [Hp _].
  rewrite (Permutation_length (Hp _)), firstn_length in Hl.
  destruct (loop_few _ _ _ _ _ _ _ _ _ _ El) as [->|H].
  - left. destruct sc; [|cbn in Hl; lia]. replace (Z.to_nat (Z.min n (Z.of_nat (length [])))) with 0%nat by (cbn; lia). reflexivity.
  - right. fold (the_limit ix n inspect) in H. rewrite map_length, firstn_length. lia.
Qed.
End O.
