(** What a returned query result is. *)
From Verif Require Import Base Flt Layout Rng Alloc Prog Sorts Dist Build Policy Index Search Spec ForestSpec Lib LayoutProof SortsProof NumProof SearchProof MemProof StoreProof.
From Coq Require Import Permutation Sorted.
Open Scope N_scope.

Lemma combine_fst_snd {A B} (l : list (A * B)) : combine (map fst l) (map snd l) = l.
Proof. induction l as [|[a b] l IH]; cbn; congruence. Qed.
Lemma NoDup_firstn {A} n (l : list A) : NoDup l -> NoDup (firstn n l).
Proof.
  intro H. revert n. induction H as [|x l Hx H IH]; intros [|n]; cbn; constructor; auto.
  intro Hi. apply Hx. rewrite <- (firstn_skipn n l). apply in_or_app. now left.
Qed.
Lemma In_firstn {A} n (l : list A) x : In x (firstn n l) -> In x l.
Proof. intro H. rewrite <- (firstn_skipn n l). apply in_or_app. now left. Qed.

Section Q.
Variable fo : FOps.
Variable c : Cfg.
Notation NSZ := (nodeSize fo c).
Notation K := (maxK fo c).
Notation less := (pair_less (flt fo) (feq fo)).
Variable sortIx : list N -> list N.
Variable sortPairs : list (F fo * N) -> list (F fo * N).
Hypothesis HsI : sort_slice N.ltb sortIx.
Hypothesis HsP : sort_slice less sortPairs.
Notation query := (get_nns_by_vector fo c sortIx sortPairs).

Theorem query_result fuel fs ix vec n inspect bc ids ds bc' :
  is_float fo ->
  query fuel fs ix vec n inspect bc = Ok (ids, ds, bc') -> lenN (c_nns bc) < 2 ^ iw c ->
  exists ys rest qn, query_node fo c vec = Ok qn /\
    expands fo c (view fs ix) (n_items ix) (rootsN (ib ix)) rest ys /\
    ((the_limit ix n inspect <= Z.of_N (lenN ys))%Z \/ rest = []) /\
    (forall j, In j ys -> exists bs, vread (view fs ix) (addr fo c j) NSZ = Ok bs) /\
    NoDup ids /\ length ids = length ds /\ (length ids <= Z.to_nat n)%nat /\
    (forall k id d, nth_error ids k = Some id -> nth_error ds k = Some d ->
       In id ys /\ exists raw, item_dist fo c (view fs ix) qn id raw /\ d = normalized_distance fo c raw) /\
    ((forall j d, In j ys -> item_dist fo c (view fs ix) qn j d -> not_nan fo d) ->
     nearest fo c (view fs ix) qn (Z.to_nat n) ys ids ds).
Proof.
  intros FL E Hc. destruct (get_nns_inv fo c sortIx sortPairs HsI HsP _ _ _ _ _ _ _ _ _ _ E Hc)
    as (ys & rest & qn & sc & sorted' & He & Hl & Hq & Hr & Hs & Hp & Hperm & [Hi Hd] & _).
  set (top := firstn (Z.to_nat (Z.min n (Z.of_nat (length sc)))) sorted') in *.
  exists ys, rest, qn. repeat (split; [assumption|]).
  assert (Hlen : (length top <= Z.to_nat n)%nat).
  { unfold top. rewrite firstn_length. lia. }
  assert (Hin : forall d j, In (d, j) top -> In j ys /\ item_dist fo c (view fs ix) qn j d).
  { intros d j H. apply (proj2 Hs). apply (Permutation_in _ Hperm). eapply In_firstn; eauto. }
  split.
  { rewrite Hi. unfold top. rewrite <- firstn_map. apply NoDup_firstn.
    apply (Permutation_NoDup (l := map snd sc)); [apply Permutation_map; now symmetry|apply Hs]. }
  split; [rewrite Hi, Hd, !map_length; reflexivity|]. split; [rewrite Hi, map_length; exact Hlen|]. split.
  - intros k id d H1 H2. rewrite Hi, nth_error_map in H1. rewrite Hd, nth_error_map in H2.
    destruct (nth_error top k) as [[raw j]|] eqn:Ek; [|discriminate]. cbn in H1, H2. injection H1 as <-. injection H2 as <-.
    destruct (Hin raw j (nth_error_In _ _ Ek)) as [H3 H4]. split; [exact H3|]. now exists raw.
  - intro Hnan. exists sc, (map fst top). split; [exact Hs|]. split; [rewrite Hi, !map_length; reflexivity|].
    split; [|rewrite Hd, map_map; reflexivity].
    rewrite Hi, combine_fst_snd.
    apply (partial_sort_topk fo sortPairs HsP (fun p => not_nan fo (fst p))); [|apply Forall_forall|exact Hp].
    + apply pair_less_sw. now apply float_total.
    + intros [d j] H. apply (proj2 Hs) in H. cbn [fst]. apply (Hnan j); apply H.
Qed.

(** The same with the raw distances in the open. *)
Theorem query_raw fuel fs ix vec n inspect bc ids ds bc' :
  is_float fo ->
  query fuel fs ix vec n inspect bc = Ok (ids, ds, bc') -> lenN (c_nns bc) < 2 ^ iw c ->
  exists ys rest qn raw, query_node fo c vec = Ok qn /\
    expands fo c (view fs ix) (n_items ix) (rootsN (ib ix)) rest ys /\
    ((the_limit ix n inspect <= Z.of_N (lenN ys))%Z \/ rest = []) /\
    NoDup ids /\ length ids = length ds /\ (length ids <= Z.to_nat n)%nat /\
    ds = map (normalized_distance fo c) raw /\ length raw = length ids /\
    (forall k id d, nth_error ids k = Some id -> nth_error raw k = Some d ->
       In id ys /\ item_dist fo c (view fs ix) qn id d) /\
    ((forall j d, In j ys -> item_dist fo c (view fs ix) qn j d -> not_nan fo d) ->
     sorted less (combine raw ids)).
Proof.
  intros FL E Hc. destruct (get_nns_inv fo c sortIx sortPairs HsI HsP _ _ _ _ _ _ _ _ _ _ E Hc)
    as (ys & rest & qn & sc & sorted' & He & Hl & Hq & Hr & Hs & Hp & Hperm & [Hi Hd] & _).
  destruct (query_result _ _ _ _ _ _ _ _ _ _ FL E Hc) as (_ & _ & _ & _ & _ & _ & _ & Hnd & Hl1 & Hl2 & _).
  set (top := firstn (Z.to_nat (Z.min n (Z.of_nat (length sc)))) sorted') in *.
  exists ys, rest, qn, (map fst top). repeat (split; [assumption|]).
  split; [rewrite Hd, map_map; reflexivity|]. split; [rewrite Hi, !map_length; reflexivity|]. split.
  - intros k id d H1 H2. rewrite Hi, nth_error_map in H1. rewrite nth_error_map in H2.
    destruct (nth_error top k) as [[raw j]|] eqn:Ek; [|discriminate]. cbn in H1, H2. injection H1 as <-. injection H2 as <-.
    apply (proj2 Hs). apply (Permutation_in _ Hperm). eapply In_firstn. eapply nth_error_In; eauto.
  - intro Hnan. rewrite Hi, combine_fst_snd.
    destruct (partial_sort_topk fo sortPairs HsP (fun p => not_nan fo (fst p)) sc n sorted') as (r & _ & _ & Hsort & _); [|apply Forall_forall|exact Hp|exact Hsort].
    + apply pair_less_sw. now apply float_total.
    + intros [d j] H. apply (proj2 Hs) in H. cbn [fst]. apply (Hnan j); apply H.
Qed.

(** Exhaustive queries. *)
Theorem query_exhaustive fuel fs ix vec n inspect bc ids ds bc' zs m :
  is_float fo -> 2 <= K ->
  query fuel fs ix vec n inspect bc = Ok (ids, ds, bc') -> lenN (c_nns bc) < 2 ^ iw c ->
  reach_all fo c (view fs ix) (n_items ix) (rootsN (ib ix)) zs m ->
  (Z.of_N (lenN zs) <= the_limit ix n inspect)%Z ->
  exists qn, query_node fo c vec = Ok qn /\
    ((forall j d, In j zs -> item_dist fo c (view fs ix) qn j d -> not_nan fo d) ->
     nearest fo c (view fs ix) qn (Z.to_nat n) zs ids ds).
Proof.
  intros FL HK E Hc Hre Hlim.
  destruct (query_result _ _ _ _ _ _ _ _ _ _ FL E Hc) as (ys & rest & qn & Hq & He & Hl & _ & _ & _ & _ & _ & Hn).
  exists qn. split; [exact Hq|]. intro Hnan.
  pose proof (exhausted fo c _ _ _ _ _ _ _ _ HK He Hre Hl Hlim) as P.
  destruct Hn as (sc & raw & [Hnd Hsc] & Hrest); [intros j d Hj; apply Hnan; now apply (Permutation_in _ P)|].
  exists sc, raw. split; [|exact Hrest]. split; [exact Hnd|]. intros d j. rewrite Hsc. split; intros [H1 H2]; (split; [|exact H2]).
  - now apply (Permutation_in _ P).
  - apply Permutation_sym in P. now apply (Permutation_in _ P).
Qed.
End Q.

(** ** Distances between items *)
Section D.
Variable fo : FOps.
Variable c : Cfg.
Hypothesis OK : CfgOK fo c.
Lemma vread_fault v off len e : vread v off len = Er e -> e = Fault.
Proof.
  unfold vread. destruct v as [b|]; [|congruence]. unfold bread. destruct (_ <=? _); congruence.
Qed.
Lemma get_item_node fs ix i bs :
  vread (view fs ix) (addr fo c i) (nodeSize fo c) = Ok bs -> get_item fo c fs ix i = Ok (s_vec fo (snode_of fo c bs)).
Proof.
  unfold get_item, vread. destruct (view fs ix) as [b|]; [|discriminate]. intro E. apply bread_inv in E. destruct E as [H1 H2].
  pose proof (nodeSize_eq _ _ OK) as Hs. rewrite bread_ok by nia. cbn [rbind]. f_equal.
  cbn [snode_of s_vec]. unfold n_vec. f_equal. rewrite H2, sub_mread by lia. reflexivity.
Qed.
Theorem get_distance_sym fs ix i j :
  is_float fo ->
  (forall v, get_item fo c fs ix i = Ok v -> Forall (not_nan fo) v) ->
  (forall v, get_item fo c fs ix j = Ok v -> Forall (not_nan fo) v) ->
  get_distance fo c fs ix i j = get_distance fo c fs ix j i.
Proof.
  intros FL Hi Hj. unfold get_distance, node_fields.
  destruct (vread (view fs ix) (addr fo c i) _) as [bi|ei] eqn:Ei, (vread (view fs ix) (addr fo c j) _) as [bj|ej] eqn:Ej; cbn [rbind].
  - f_equal. f_equal. apply (distance_sym _ _ (float_sym fo FL)); [apply Hi|apply Hj]; now apply get_item_node.
  - reflexivity.
  - reflexivity.
  - apply vread_fault in Ei, Ej. congruence.
Qed.
End D.

(** ** Listing a concrete forest by computation (for examples) *)
Section L.
Variable fo : FOps.
Variable c : Cfg.
Fixpoint listing (fuel : nat) (v : option buf) (ni i : N) : option (list N * nat) :=
  match fuel with
  | O => None
  | S fu =>
      match vread v (addr fo c i) (nodeSize fo c) with
      | Er _ => None
      | Ok bs =>
          if (n_desc c bs =? 1) && (i <? ni) then Some ([i], 1%nat)
          else if n_desc c bs <=? maxK fo c then Some (n_children c (n_desc c bs) bs, 1%nat)
          else match n_children c 2 bs with
               | [l; r] => match listing fu v ni l, listing fu v ni r with
                           | Some (xs, m), Some (ys, n) => Some (xs ++ ys, S (m + n))
                           | _, _ => None
                           end
               | _ => None
               end
      end
  end.
Fixpoint listing_all (fuel : nat) (v : option buf) (ni : N) (b : list N) : option (list N * nat) :=
  match b with
  | [] => Some ([], O)
  | i :: b' => match listing fuel v ni i, listing_all fuel v ni b' with
               | Some (xs, m), Some (ys, n) => Some (xs ++ ys, (m + n)%nat)
               | _, _ => None
               end
  end.
Lemma listing_sound fuel : forall v ni i xs m, listing fuel v ni i = Some (xs, m) -> reach fo c v ni i xs m.
Proof.
  induction fuel as [|fu IH]; intros v ni i xs m E; cbn [listing] in E; [discriminate|].
  destruct (vread v (addr fo c i) (nodeSize fo c)) as [bs|] eqn:Er; [|discriminate].
  destruct ((n_desc c bs =? 1) && (i <? ni)) eqn:E1.
  - injection E as <- <-. apply re_leaf. eapply li_item; eauto; lia.
  - destruct (n_desc c bs <=? maxK fo c) eqn:E2.
    + injection E as <- <-. apply re_leaf. eapply li_bucket; eauto; lia.
    + destruct (n_children c 2 bs) as [|l [|r [|]]] eqn:E3; try discriminate.
      destruct (listing fu v ni l) as [[a p]|] eqn:El; [|discriminate].
      destruct (listing fu v ni r) as [[b q]|] eqn:Err; [|discriminate]. injection E as <- <-.
      apply re_split with (l := l) (r := r); auto. eapply sp_intro; eauto. lia.
Qed.
Lemma listing_all_sound fuel v ni b : forall xs m, listing_all fuel v ni b = Some (xs, m) -> reach_all fo c v ni b xs m.
Proof.
  induction b as [|i b IH]; intros xs m E; cbn [listing_all] in E; [injection E as <- <-; constructor|].
  destruct (listing fuel v ni i) as [[a p]|] eqn:El; [|discriminate].
  destruct (listing_all fuel v ni b) as [[a' q]|] eqn:Er; [|discriminate]. injection E as <- <-.
  constructor; auto. eapply listing_sound; eauto.
Qed.
End L.
