(** What a worker's building programs do, whatever the other workers do meanwhile. *)
From Verif Require Import Base Flt Layout Rng Alloc Prog Imbalance Dist Build Lib LayoutProof MemProof StoreProof ActsProof RoundProof ConcSpec ConcProof.
From Coq Require Import Permutation Sorted.
Open Scope N_scope.

(** ** Programs that only draw random numbers *)
Inductive dr (c : Cfg) (u : bool) {A} (P : A -> Prop) : prog A -> Prop :=
| dr_ret a : P a -> dr c u P (Ret a)
| dr_unlucky : u = true -> dr c u P (Fail Unlucky)
| dr_draw k : (forall d, d < 2 ^ iw c -> dr c u P (k d)) -> dr c u P (Vis ADraw k).

Lemma dr_bind c u {A B} (P : A -> Prop) (Q : B -> Prop) p f :
  dr c u P p -> (forall a, P a -> dr c u Q (f a)) -> dr c u Q (pbind p f).
Proof.
  intros H Hf. induction H as [a Ha|Hu|k Hk IH]; cbn [pbind].
  - apply Hf, Ha.
  - now apply dr_unlucky.
  - apply dr_draw. exact IH.
Qed.
Lemma dr_mono c u {A} (P Q : A -> Prop) p : (forall a, P a -> Q a) -> dr c u P p -> dr c u Q p.
Proof. intros HPQ H. induction H; constructor; auto. Qed.

Lemma filter_length_le {A} (f : A -> bool) l : (length (filter f l) <= length l)%nat.
Proof. induction l as [|a l IH]; cbn; [lia|]. destruct (f a); cbn; lia. Qed.

Lemma skipn_rep {A} (x : A) k : forall n, skipn k (repeat x n) = repeat x (n - k).
Proof. induction k as [|k IH]; intros [|n]; cbn; auto. Qed.
Lemma firstn_rep {A} (x : A) k : forall n, (k <= n)%nat -> firstn k (repeat x n) = repeat x k.
Proof. induction k as [|k IH]; intros [|n] H; cbn; auto; [lia|]. f_equal. apply IH. lia. Qed.

Section T.
Variable fo : FOps.
Variable c : Cfg.
Hypothesis OK : CfgOK fo c.
Hypothesis Hvlen : 1 <= vlen c.
Notation NSZ := (nodeSize fo c).
Notation K := (maxK fo c).

Lemma dr_side u : dr c u (fun _ => True) draw_side.
Proof. apply dr_draw. intros. now apply dr_ret. Qed.
Lemma dr_index u n : 0 < n -> dr c u (fun i => i < n) (draw_index n).
Proof.
  intro H. apply dr_draw. intros d _. unfold index_of_draw. replace (n =? 0) with false by lia.
  apply dr_ret. apply N.mod_lt. lia.
Qed.
Lemma dr_nth u nodes i : i < lenN nodes -> dr c u (fun bs => In bs nodes) (plift (nth_node nodes i)).
Proof.
  intro H. unfold nth_node. destruct (nth_error nodes (N.to_nat i)) eqn:E; [apply dr_ret; now apply nth_error_In in E|].
  apply nth_error_None in E. unfold lenN in H. lia.
Qed.
Lemma lenN_n_vec bs : lenN (n_vec fo c bs) = vlen c.
Proof. unfold n_vec, dec_vec. rewrite lenN_map. unfold lenN. rewrite length_words. apply N2Nat.id. Qed.
(** Nodes with a vector of the right length. *)
Definition full (x : snode fo) : Prop := lenN (s_vec fo x) = vlen c.
Lemma full_of bs : full (snode_of fo c bs).
Proof. apply lenN_n_vec. Qed.
Lemma full_normalize x : full x -> full (normalize fo c x).
Proof. unfold full, normalize. destruct (flt fo _ _); cbn [s_vec]; [now rewrite lenN_map|auto]. Qed.
Lemma full_init x : full x -> full (init_node fo c x).
Proof. unfold full, init_node. destruct (knd c); auto. Qed.
Lemma lenN_combine {A B} (l : list A) (m : list B) n : lenN l = n -> lenN m = n -> lenN (combine l m) = n.
Proof. clear. unfold lenN. rewrite combine_length. lia. Qed.
Lemma full_step p ic v nrm : full p -> lenN v = vlen c -> full (centroid_step fo c p ic v nrm).
Proof. intros H1 H2. apply full_init. unfold full. cbn [s_vec]. rewrite lenN_map. now apply lenN_combine. Qed.
(** A mean of [n] normalised vectors of nodes [I], the first of which is copied in part:
    two_means.go:37-46, 73-78. *)
Inductive centroid (I : list N -> Prop) : N -> snode fo -> Prop :=
| ce_start bs : I bs -> centroid I 1 (init_node fo c (normalize fo c (snode_of fo c (copy_to_scratch fo c bs))))
| ce_step n p bs : centroid I n p -> I bs -> flt fo (f0 fo) (norm fo (n_vec fo c bs)) = true ->
    centroid I (n + 1) (centroid_step fo c p n (n_vec fo c bs) (norm fo (n_vec fo c bs))).
Definition mean (I : list N -> Prop) (x : snode fo) : Prop := exists n, n <= 201 /\ centroid I n x.
Lemma centroid_full I n x : centroid I n x -> full x.
Proof.
  induction 1 as [bs _|n p bs _ IH _ _]; [apply full_init, full_normalize, full_of|].
  apply full_step; [exact IH|apply lenN_n_vec].
Qed.
Lemma centroid_mono (I J : list N -> Prop) n x : (forall bs, I bs -> J bs) -> centroid I n x -> centroid J n x.
Proof. intro H. induction 1; constructor; auto. Qed.
Lemma dr_means u nodes (I : list N -> Prop) : 0 < lenN nodes < 2 ^ iw c -> (forall bs, In bs nodes -> I bs) ->
  forall l p q ic jc, ic + N.of_nat l <= 201 -> jc + N.of_nat l <= 201 -> centroid I ic p -> centroid I jc q ->
  dr c u (fun pq => mean I (fst pq) /\ mean I (snd pq)) (means_loop fo c l nodes p q ic jc).
Proof.
  intros H HI. induction l as [|l IH]; intros p q ic jc Hi Hj Hp Hq.
  { apply dr_ret. split; [exists ic|exists jc]; (split; [lia|assumption]). }
  cbn [means_loop].
  rewrite tix_small by lia. eapply dr_bind; [apply dr_index; lia|]. intros k Hk.
  eapply dr_bind; [apply dr_nth; exact Hk|]. intros bs Hb. cbv zeta.
  destruct (flt fo (f0 fo) (norm fo (s_vec fo (snode_of fo c bs)))) eqn:En; cbn [negb]; [|apply IH; auto; lia].
  repeat match goal with |- dr _ _ _ (if ?b then _ else _) => destruct b end; apply IH; auto; try lia;
  apply (ce_step I _ _ bs); auto.
Qed.
Lemma dr_two_means u nodes : 2 <= lenN nodes < 2 ^ iw c ->
  dr c u (fun pq => mean (fun bs => In bs nodes) (fst pq) /\ mean (fun bs => In bs nodes) (snd pq)) (two_means fo c nodes).
Proof.
  intros H. unfold two_means. rewrite (tix_small c (lenN nodes)) by lia.
  replace (tix c (lenN nodes + 2 ^ iw c - 1)) with (lenN nodes - 1).
  2:{ unfold tix, wrap. replace (lenN nodes + 2 ^ iw c - 1) with (lenN nodes - 1 + 1 * 2 ^ iw c) by lia.
      pose proof (pow_iw_pos _ _ OK). rewrite N.mod_add by lia. symmetry. apply N.mod_small. lia. }
  eapply dr_bind; [apply dr_index; lia|]. intros i Hi.
  eapply dr_bind; [apply dr_index; lia|]. intros j Hj. cbv zeta beta in *.
  eapply dr_bind; [apply dr_nth; exact Hi|]. intros bi Hbi.
  eapply dr_bind; [apply dr_nth|].
  { destruct (i <=? j); [|lia]. rewrite tix_small by lia. lia. }
  intros bj Hbj. apply dr_means; auto; [lia|unfold iteration_steps; lia|unfold iteration_steps; lia|apply ce_start; assumption|apply ce_start; assumption].
Qed.
(** A split plane: a normalised vector, and a dot factor that is 0 divided by lengths. *)
Inductive nil_factor : F fo -> Prop :=
| nf_zero : nil_factor (dec fo 0)
| nf_div e n : nil_factor e -> flt fo (f0 fo) n = true -> nil_factor (fdiv fo e n).
Definition apart (p q : snode fo) : list (F fo) := map (fun xy => fsub fo (fst xy) (snd xy)) (combine (s_vec fo p) (s_vec fo q)).
Definition made (I : list N -> Prop) (m : snode fo) : Prop := nil_factor (s_dot fo m) /\
  exists p q, mean I p /\ mean I q /\ s_vec fo m = s_vec fo (normalize fo c (mkSN fo (f0 fo) (f0 fo) (apart p q))).
Lemma apart_len I p q : mean I p -> mean I q -> lenN (apart p q) = vlen c.
Proof.
  intros (i & _ & Hp) (j & _ & Hq). unfold apart. rewrite lenN_map.
  apply lenN_combine; [exact (centroid_full _ _ _ Hp)|exact (centroid_full _ _ _ Hq)].
Qed.
Lemma made_mono (I J : list N -> Prop) m : (forall bs, I bs -> J bs) -> made I m -> made J m.
Proof.
  intros H (Hz & p & q & (i & Hi & Hp) & (j & Hj & Hq) & E). split; [exact Hz|]. exists p, q.
  split; [exists i; split; [exact Hi|eapply centroid_mono; eauto]|].
  split; [exists j; split; [exact Hj|eapply centroid_mono; eauto]|exact E].
Qed.
Lemma nf_normalize x : nil_factor (s_dot fo x) -> nil_factor (s_dot fo (normalize fo c x)).
Proof. intro H. unfold normalize. destruct (flt fo _ _) eqn:E; [|exact H]. destruct (knd c); cbn [s_dot]; [exact H|now apply nf_div]. Qed.
Lemma dr_split u nodes m : 2 <= lenN nodes < 2 ^ iw c -> nil_factor (s_dot fo m) ->
  dr c u (made (fun bs => In bs nodes)) (create_split fo c nodes m).
Proof.
  intros H Hm. eapply dr_bind; [apply dr_two_means; exact H|]. intros [p q] [Hp Hq]. cbn [fst snd] in *. apply dr_ret.
  split; [now apply nf_normalize|]. exists p, q. split; [exact Hp|]. split; [exact Hq|].
  unfold normalize, apart. cbn [s_vec]. destruct (flt fo _ _); reflexivity.
Qed.
(** The side an item may be put on. *)
Definition can_side (m : snode fo) (bs : list N) (b : bool) : Prop :=
  exists x, margin fo c m (n_vec fo c bs) = Ok x /\ (feq fo x (f0 fo) = true \/ flt fo (f0 fo) x = b).
Lemma dr_side_of u m bs : dr c u (can_side m bs) (side fo c m (n_vec fo c bs)).
Proof.
  unfold side. assert (exists x, margin fo c m (n_vec fo c bs) = Ok x) as [x E].
  { unfold margin. rewrite lenN_n_vec. replace (vlen c =? 0) with false by lia. rewrite N.ltb_irrefl. eauto. }
  unfold can_side. rewrite E. cbn [plift pbind]. destruct (feq fo x (f0 fo)) eqn:Ef.
  - eapply dr_mono; [|apply dr_side]. intros b _. cbv beta. eauto.
  - apply dr_ret. eauto.
Qed.
Definition assigned (P : list N -> bool -> Prop) (nodes : list (N * list N)) (lr : list N * list N) : Prop :=
  (forall j, In j (fst lr) -> exists bs, In (j, bs) nodes /\ P bs false) /\
  (forall j, In j (snd lr) -> exists bs, In (j, bs) nodes /\ P bs true).
Lemma dr_partition u f P l : (forall x, In x l -> dr c u (P (snd x)) (f x)) ->
  dr c u (fun lr => Permutation (fst lr ++ snd lr) (map fst l) /\ assigned P l lr) (partition_by f l).
Proof.
  induction l as [|[i bs] l IH]; intro H; cbn [partition_by].
  - apply dr_ret. split; [constructor|split; contradiction].
  - eapply dr_bind; [apply H; left; reflexivity|]. intros s Hs. cbn [snd] in Hs.
    eapply dr_bind; [apply IH; intros; apply H; right; assumption|]. intros [a b] [Hp [Ha Hb]]. cbn [fst snd] in *.
    apply dr_ret. split; [destruct s; cbn [fst snd map app]|].
    + rewrite <- Permutation_middle. now apply perm_skip.
    + now apply perm_skip.
    + assert (Ha' : forall j, In j a -> exists b0, In (j, b0) ((i, bs) :: l) /\ P b0 false).
      { intros j Hj. destruct (Ha j Hj) as (b0 & ? & ?). exists b0. split; [now right|assumption]. }
      assert (Hb' : forall j, In j b -> exists b0, In (j, b0) ((i, bs) :: l) /\ P b0 true).
      { intros j Hj. destruct (Hb j Hj) as (b0 & ? & ?). exists b0. split; [now right|assumption]. }
      destruct s; split; cbn [fst snd]; auto.
      * intros j [<-|Hj]; [exists bs; split; [now left|assumption]|auto].
      * intros j [<-|Hj]; [exists bs; split; [now left|assumption]|auto].
Qed.
Definition parts (nodes : list (N * list N)) (x : snode fo * (list N * list N)) : Prop :=
  Permutation (fst (snd x) ++ snd (snd x)) (map fst nodes).
Definition planned (nodes : list (N * list N)) (x : snode fo * (list N * list N)) : Prop :=
  made (fun bs => In bs (map snd nodes)) (fst x) /\ assigned (can_side (fst x)) nodes (snd x).
Lemma dr_attempts u nodes : 2 <= lenN nodes < 2 ^ iw c -> forall k m cur, nil_factor (s_dot fo m) ->
  (k = O -> parts nodes (m, cur) /\ planned nodes (m, cur)) ->
  dr c u (fun x => parts nodes x /\ planned nodes x) (attempts fo c k nodes m cur).
Proof.
  intros H. induction k as [|k IH]; intros m cur Hm Hc; [apply dr_ret; auto|]. cbn [attempts].
  eapply dr_bind; [apply dr_split; [now rewrite lenN_map|exact Hm]|]. intros m' Hm'.
  eapply dr_bind; [apply (dr_partition u _ (can_side m')); intros; apply dr_side_of|]. intros lr [Hp Ha].
  assert (G : parts nodes (m', lr) /\ planned nodes (m', lr)) by (split; [exact Hp|split; assumption]).
  destruct (split_good _ _); [now apply dr_ret|]. apply IH; [apply Hm'|auto].
Qed.
Lemma nf_start : nil_factor (s_dot fo (zero_snode fo c)).
Proof.
  unfold zero_snode, snode_of, n_dot, dec_f, sub. cbn [s_dot].
  assert (E : forall n m k, le_dec (firstn n (skipn m (repeat 0 k))) = 0).
  { intros n m k. revert n m. induction k as [|k IH]; intros n m; [cbn; now rewrite skipn_nil, firstn_nil|].
    destruct m as [|m]; [|apply IH]. destruct n as [|n]; [reflexivity|]. cbn [repeat skipn firstn le_dec].
    specialize (IH n 0%nat). cbn [skipn] in IH. now rewrite IH. }
  rewrite E. constructor.
Qed.
Lemma perm_lenN {A} (l m : list A) : Permutation l m -> lenN l = lenN m.
Proof. intro H. unfold lenN. now rewrite (Permutation_length H). Qed.
(** The sides were drawn at random: the plane is then set to zero. *)
Definition all_zero (m : snode fo) : Prop := s_vec fo m = repeat (f0 fo) (N.to_nat (vlen c)).
Lemma dr_randomise nodes rf : lenN nodes < 2 ^ iw c -> forall m cur, parts nodes (m, cur) -> nil_factor (s_dot fo m) ->
  planned nodes (m, cur) \/ all_zero m ->
  dr c true (fun x => parts nodes x /\ lenN (fst (snd x)) <> 0 /\ lenN (snd (snd x)) <> 0 /\
     split_usable (lenN (fst (snd x))) (lenN (snd (snd x))) = true /\ nil_factor (s_dot fo (fst x)) /\
     (planned nodes x \/ all_zero (fst x))) (randomise fo c rf nodes m cur).
Proof.
  intro Hn. induction rf as [|rf IH]; intros m cur Hp Hz Hc; cbn [randomise].
  all: destruct (split_usable _ _) eqn:E.
  1,3: apply dr_ret; split; [exact Hp|]; cbn [fst snd]; pose proof E as E'; apply usable_nonempty in E; [tauto| |];
       unfold parts in Hp; cbn [fst snd] in Hp; apply perm_lenN in Hp; rewrite lenN_app, lenN_map in Hp;
       pose proof (pow_iw_le _ _ OK); lia.
  - now apply dr_unlucky.
  - eapply dr_bind; [apply (dr_partition true _ (fun _ _ => True)); intros; apply dr_side|]. intros lr [Hl _].
    apply IH; [exact Hl|exact Hz|]. right. reflexivity.
Qed.
(** ** With the shared state *)
Variable nitems : N.
Variable img : N -> list N.
Variable W : nat.
Variable bud : nat -> N.
Hypothesis Hcap : cap_ok fo c (nitems + total W bud).
Variable w : nat.
Hypothesis Hw : (w < W)%nat.
Notation Inv := (Inv fo c nitems img W bud).
Notation wp := (wp fo c nitems img W bud w).
Notation keep := (keep fo c w).
Notation same := (same fo c w).
Notation simg := (snode_img fo c).

Lemma wp_dr u {A} (P : A -> Prop) p (Q : A -> bst -> Prop) h : dr c u P p ->
  (h = HFree \/ h = HRd /\ u = false) -> forall s, holds w s h ->
  (forall a t, P a -> Inv t -> holds w t h -> same s t -> (h = HRd -> base t = base s) -> Q a t) -> wp p Q s.
Proof.
  intros D Hh. induction D as [a Ha|Hu|k Hk IH]; intros s Hs HQ.
  - cbn. intros s1 HR HI. apply HQ; auto; [apply (r_holds _ _ _ HR), Hs|apply R_same; exact HR|].
    intros ->. apply (r_base _ _ _ HR). apply Hs.
  - cbn. split; [reflexivity|]. destruct Hh as [->|[_ ?]]; [exact Hs|congruence].
  - eapply rule_draw; [exact Hs|tauto|]. intros d t Hd HI Ht Hst Hb. apply IH; auto.
    intros a t' Ha HI' Ht' Hst' Hb'. apply HQ; auto; [eapply same_trans; eauto|].
    intro E. rewrite Hb' by exact E. auto.
Qed.

Lemma keep_same s t u : keep s t -> same t u -> keep s u.
Proof. intros. eapply keep_trans; eauto. now apply same_keep. Qed.

Lemma wp_ret {A} (a : A) (Q : A -> bst -> Prop) s h : holds w s h ->
  (forall t, Inv t -> holds w t h -> same s t -> Q a t) -> wp (Ret a) Q s.
Proof. intros Hs HQ s1 HR HI. apply HQ; auto; [apply (r_holds _ _ _ HR), Hs|apply R_same; exact HR]. Qed.

(** annoyindex.go:466-484, called with the node-count lock held. *)
Lemma wp_allocate n s (Q : unit -> bst -> Prop) : Inv s -> holds w s HNN -> cap_ok fo c n ->
  (forall t, Inv t -> holds w t HNN -> same s t -> nn t = nn s -> n <= ns t -> Q tt t) ->
  wp (allocate_size fo c n true) Q s.
Proof.
  intros HI Hs Hc HQ. unfold allocate_size.
  apply rule_get_ns; [exact Hs|]. intros t1 I1 H1 S1 N1 M1.
  destruct (N.ltb_spec (ns s) n) as [Hlt|Hge].
  - cbn [pbind]. apply rule_req; [exact H1|]. intros t2 I2 H2 S2 N2 M2.
    apply rule_acq; [exact H2|]. intros t3 I3 H3 S3 N3 M3.
    apply rule_get_ns_wr; [exact H3|]. intros t4 I4 H4 S4 N4 M4. cbv zeta.
    assert (Hnew : N.max n (grow c (ns t3)) * NSZ < 2 ^ iw c).
    { pose proof (grow_le _ _ OK (ns t3) n ltac:(lia) Hc). pose proof (cap_ok_ge n). unfold cap_ok in Hc.
      eapply N.le_lt_trans; [|exact Hc]. apply N.mul_le_mono_r. lia. }
    assert (Hge : n <= N.max n (grow c (ns t3))) by lia.
    set (new := N.max n (grow c (ns t3))) in *. clearbody new.
    apply rule_realloc; [exact H4|]. intros t5 I5 H5 S5 N5 M5 P5 B5 A5.
    rewrite (tix_small c) in P5 by exact Hnew.
    apply rule_set_ns; auto; [lia|]. intros t6 I6 H6 S6 N6 M6.
    apply rule_unlock_nodes; [exact H6|]. intros t7 I7 H7 S7 N7 M7.
    intros t8 R8 I8. destruct (r_nn _ _ _ R8 (proj1 H7)) as (_ & N8 & M8).
    apply HQ; auto; [apply (r_holds _ _ _ R8), H7| |lia|lia].
    repeat (eapply same_trans; [eassumption|]). apply R_same, R8.
  - cbn [pbind]. intros t8 R8 I8. destruct (r_nn _ _ _ R8 (proj1 H1)) as (_ & N8 & M8).
    apply HQ; auto; [apply (r_holds _ _ _ R8), H1| |lia|lia].
    eapply same_trans; [exact S1|]. apply R_same, R8.
Qed.

(** Claiming a node: annoyindex.go:312-317, 438-442. *)
Lemma wp_claim s (Q : N -> bst -> Prop) : Inv s -> holds w s HFree -> lenN (own w s) + 1 <= bud w ->
  (forall i t, Inv t -> holds w t HFree -> keep s t -> own w t = i :: own w s -> simg t i = zeros fo c ->
     ~ In i (own w s) -> nitems <= i < nitems + total W bud -> (forall j, In j (own w s) -> j < i) -> Q i t) ->
  wp (claim_node fo c) Q s.
Proof.
  intros HI Hs Hb HQ. unfold claim_node.
  apply rule_lock_nn; [exact Hs|]. intros t1 I1 H1 S1.
  apply rule_get_nn; [exact H1|]. intros t2 I2 H2 S2 N2 M2.
  assert (B1 : lenN (own w t1) + 1 <= bud w) by (rewrite (sm_own _ _ _ S1); exact Hb).
  pose proof (cap_next _ _ _ _ _ _ Hcap _ _ I1 Hw B1) as Hc.
  pose proof (owner_room _ _ _ _ _ _ _ _ I1 Hw B1) as Hroom.
  rewrite (tix_small c (nn t1 + 1)) by exact (cap_ok_small _ _ OK _ Hc).
  apply wp_bind; [exact I2|]. apply wp_allocate; auto. intros t3 I3 H3 S3 N3 M3.
  apply rule_get_nn; [exact H3|]. intros t4 I4 H4 S4 N4 M4.
  rewrite N3, N2. rewrite (tix_small c (nn t1 + 1)) by exact (cap_ok_small _ _ OK _ Hc).
  assert (S04 : same s t4) by (repeat (eapply same_trans; [eassumption|]); apply same_refl).
  pose proof (sm_own _ _ _ S04) as O4.
  apply rule_set_nn; auto; [lia|lia|rewrite O4; exact Hb|].
  intros t5 I5 H5 O5 K5 Z5 F5 G5. rewrite O4 in O5, F5.
  replace (nn t4) with (nn t1) in * by lia.
  apply rule_unlock_nn; [exact H5|]. intros t6 I6 H6 S6.
  eapply wp_ret; [exact H6|]. intros t7 I7 H7 S7.
  pose proof (same_trans _ _ _ _ S6 S7) as S57.
  apply HQ; auto.
  - eapply keep_same; [|exact S57]. eapply keep_trans; eauto. now apply same_keep.
  - rewrite (sm_own _ _ _ S57). exact O5.
  - rewrite (sm_img _ _ _ S57); [exact Z5|]. rewrite O5. left. reflexivity.
  - lia.
  - intros j Hj. rewrite <- (sm_own _ _ _ S1) in Hj. apply in_own in Hj. apply (iv_own _ _ _ _ _ _ _ I1 _ _ Hj).
Qed.

(** ** Images of tree nodes *)
Lemma enc_zero : enc_ix c 0 = repeat 0 (N.to_nat (ixb c)).
Proof. unfold enc_ix. generalize (N.to_nat (ixb c)). induction n as [|n IH]; [reflexivity|]. cbn. now f_equal. Qed.
Lemma repeat_add {A} (x : A) a b : repeat x (a + b) = repeat x a ++ repeat x b.
Proof. induction a; cbn; [reflexivity|]. now f_equal. Qed.
Lemma enc_zeros n : enc_ixs c (repeat 0 n) = repeat 0 (n * N.to_nat (ixb c)).
Proof.
  induction n as [|n IH]; [reflexivity|]. cbn [repeat enc_ixs flat_map]. fold (enc_ixs c (repeat 0 n)).
  rewrite IH, enc_zero. cbn [Nat.mul]. now rewrite repeat_add.
Qed.
Lemma desc_enc d r : d < 2 ^ iw c -> n_desc c (enc_ix c d ++ r) = d.
Proof.
  intro H. unfold n_desc, sub. cbn [N.to_nat skipn]. change (skipn 0 (enc_ix c d ++ r)) with (enc_ix c d ++ r).
  rewrite firstn_app_exact by apply length_enc_ix. now apply dec_enc_ix.
Qed.
Lemma words_firstn k n : forall m bs, (k * n <= m)%nat -> words k n (firstn m bs) = words k n bs.
Proof.
  induction n as [|n IH]; intros m bs H; [reflexivity|]. cbn [words]. f_equal.
  - rewrite firstn_firstn. do 2 f_equal. lia.
  - rewrite skipn_firstn_comm. apply IH. lia.
Qed.
Lemma children_enc d xs m k : Forall (fun x => x < 2 ^ iw c) xs -> lenN xs <= m -> (m - lenN xs) * ixb c <= k ->
  n_children c m (enc_ix c d ++ enc_ixs c xs ++ repeat 0 (N.to_nat k)) = xs ++ repeat 0 (N.to_nat (m - lenN xs)).
Proof.
  intros Hx Hm Hk. unfold n_children, sub, off_children, dec_ixs.
  rewrite skipn_app_exact by apply length_enc_ix.
  rewrite words_firstn by lia.
  set (z := N.to_nat (m - lenN xs)).
  replace (N.to_nat k) with (z * N.to_nat (ixb c) + (N.to_nat k - z * N.to_nat (ixb c)))%nat by (unfold z; lia).
  rewrite repeat_add, <- enc_zeros, app_assoc. unfold enc_ixs at 1 2. rewrite <- flat_map_app. fold (enc_ixs c (xs ++ repeat 0 z)).
  replace (N.to_nat m) with (N.to_nat (lenN (xs ++ repeat 0 z))).
  2:{ rewrite lenN_app. unfold lenN, z. rewrite repeat_length. unfold lenN in *. lia. }
  apply dec_enc_ixs. apply Forall_app. split; [exact Hx|]. apply Forall_forall. intros x Hin.
  apply repeat_spec in Hin. subst. apply (pow_iw_pos _ _ OK).
Qed.
Lemma splice_zeros o bs pre k : lenN pre = o -> lenN bs <= k ->
  splice o bs (pre ++ repeat 0 (N.to_nat k)) = pre ++ bs ++ repeat 0 (N.to_nat (k - lenN bs)).
Proof.
  intros Hp Hk. replace (N.to_nat k) with (length bs + N.to_nat (k - lenN bs))%nat by (unfold lenN in *; lia).
  rewrite repeat_add. apply splice_mid; [exact Hp|now rewrite repeat_length].
Qed.
Lemma leaf_image d xs : lenN xs <= K ->
  splice (ixb c) (enc_ixs c xs) (splice 0 (enc_ix c d) (zeros fo c)) =
  enc_ix c d ++ enc_ixs c xs ++ repeat 0 (N.to_nat (NSZ - ixb c - ixb c * lenN xs)).
Proof.
  intro Hk. pose proof (maxK_fits _ _ OK) as Hf. pose proof (nodeSize_ge _ _ OK). pose proof (ixb_pos _ _ OK).
  unfold zeros. change (repeat 0 (N.to_nat NSZ)) with ([] ++ repeat 0 (N.to_nat NSZ)).
  rewrite splice_zeros; [|reflexivity|rewrite lenN_enc_ix; lia]. cbn [app]. rewrite lenN_enc_ix.
  rewrite splice_zeros; [|apply lenN_enc_ix|rewrite lenN_enc_ixs; nia].
  rewrite lenN_enc_ixs. reflexivity.
Qed.

Lemma cap_lt : nitems + total W bud < 2 ^ iw c.
Proof. exact (cap_ok_small _ _ OK _ Hcap). Qed.
Lemma addr_in i : i < nitems + total W bud -> addr fo c i = i * NSZ + 0.
Proof. intro H. rewrite (cap_ok_addr fo c _ i Hcap H). lia. Qed.
Lemma addr_in' i o : i < nitems + total W bud -> addr fo c i + o = i * NSZ + o.
Proof. intro H. now rewrite (cap_ok_addr fo c _ i Hcap H). Qed.
Lemma keep_write s t u i : keep s t -> ~ In i (own w s) -> own w u = own w t -> mine w u = mine w t -> nn t <= nn u ->
  (forall j, In j (own w t) -> j <> i -> simg u j = simg t j) -> keep s u.
Proof.
  intros [[l Hl] H2 H3 H4] Hi Ho Hm Hn Hj. constructor.
  - exists l. now rewrite Ho.
  - intros j Hin. rewrite Hj; [auto| |intros ->; auto]. rewrite Hl. apply in_or_app. now right.
  - congruence.
  - lia.
Qed.

Lemma NoDup_own s : Inv s -> NoDup (own w s).
Proof.
  intro I. pose proof (iv_dup _ _ _ _ _ _ _ I) as H. unfold own.
  induction (owner s) as [|[i v] o IH]; [constructor|]. cbn [map fst] in H. inversion H as [|? ? Hn Hd]; subst.
  cbn [filter snd]. destruct (Nat.eqb v w); [|auto]. cbn [map fst]. constructor; [|auto].
  intro Hi. apply Hn. apply in_map_iff in Hi. destruct Hi as (x & E & Hx). apply filter_In in Hx.
  apply in_map_iff. exists x. tauto.
Qed.
Lemma fresh_own s t i l : Inv t -> own w t = i :: l -> (exists p, l = p ++ own w s) -> ~ In i (own w s).
Proof.
  intros I E [p ->] Hi. pose proof (NoDup_own t I) as H. rewrite E in H. inversion H as [|? ? Hn _]; subst. apply Hn.
  apply in_or_app. now right.
Qed.

(** A bucket: annoyindex.go:309-343. *)
Lemma wp_leaf xs (isRoot : bool) s (Q : N -> bst -> Prop) : Inv s -> holds w s HFree -> lenN (own w s) + 1 <= bud w ->
  lenN xs <= K ->
  (forall i t, Inv t -> holds w t HFree -> keep s t -> own w t = i :: own w s -> nitems <= i < nitems + total W bud ->
     simg t i = enc_ix c (if isRoot then nitems else lenN xs) ++ enc_ixs c xs ++ repeat 0 (N.to_nat (NSZ - ixb c - ixb c * lenN xs)) ->
     Q i t) ->
  wp (make_leaf fo c nitems xs isRoot) Q s.
Proof.
  intros HI Hs Hb Hxs HQ. unfold make_leaf.
  pose proof (maxK_fits _ _ OK) as Hf. pose proof (nodeSize_ge _ _ OK) as Hn. pose proof (ixb_pos _ _ OK) as Hi.
  pose proof (maxK_lt _ _ OK) as HKlt.
  rewrite (tix_small c (lenN xs)) by lia.
  apply wp_bind; [exact HI|]. apply wp_claim; auto. intros i t1 I1 H1 K1 O1 Z1 F1 G1 L1.
  apply rule_rlock; [exact H1|]. intros t2 I2 H2 S2.
  apply rule_get_base; [exact H2|]. intros t3 I3 H3 S3 B3.
  rewrite (addr_in' i (off_children c)), addr_in by lia. rewrite <- B3.
  pose proof (same_trans _ _ _ _ S2 S3) as S13.
  assert (O3 : own w t3 = i :: own w s) by (rewrite (sm_own _ _ _ S13); exact O1).
  assert (Z3 : simg t3 i = zeros fo c) by (rewrite (sm_img _ _ _ S13), Z1; [reflexivity|rewrite O1; left; reflexivity]).
  assert (K3 : keep s t3) by (eapply keep_same; eauto).
  apply rule_write; [exact H3|rewrite O3; left; reflexivity|rewrite lenN_enc_ix; lia|].
  intros t4 I4 H4 O4 M4 B4 N4 E4 F4. rewrite Z3 in E4.
  assert (K4 : keep s t4) by (eapply (keep_write s t3); eauto).
  assert (Hend : forall t5, Inv t5 -> holds w t5 HRd -> keep s t5 -> own w t5 = i :: own w s ->
      simg t5 i = splice (ixb c) (enc_ixs c xs) (splice 0 (enc_ix c (if isRoot then nitems else lenN xs)) (zeros fo c)) ->
      wp (vis! ARUnlock; Ret i) Q t5).
  { intros t5 I5 H5 K5 O5 E5. rewrite leaf_image in E5 by exact Hxs.
    apply rule_runlock; [exact H5|]. intros t6 I6 H6 S6. eapply wp_ret; [exact H6|]. intros t7 I7 H7 S7.
    pose proof (same_trans _ _ _ _ S6 S7) as S57. apply HQ; auto.
    - eapply keep_same; eauto.
    - now rewrite (sm_own _ _ _ S57).
    - rewrite (sm_img _ _ _ S57); [exact E5|]. rewrite O5. left. reflexivity. }
  destruct (N.eqb_spec (lenN xs) 0) as [E0|E0].
  - cbn [pbind]. apply Hend; auto; [now rewrite O4|]. rewrite E4. destruct xs; [|rewrite lenN_cons in E0; lia].
    set (z := splice 0 _ _). unfold splice. change (enc_ixs c []) with (@nil N). cbn [length app]. rewrite Nat.add_0_r. symmetry. apply firstn_skipn.
  - cbn [pbind]. rewrite <- B4. apply rule_write; [exact H4|rewrite O4, O3; left; reflexivity|rewrite lenN_enc_ixs; unfold off_children; nia|].
    intros t5 I5 H5 O5 M5 B5 N5 E5 F5. apply Hend; auto.
    + eapply (keep_write s t4); eauto.
    + now rewrite O5, O4.
    + now rewrite E5, E4.
Qed.

(** The copy of a split node: annoyindex.go:438-448. *)
Lemma wp_store image s (Q : N -> bst -> Prop) : Inv s -> holds w s HFree -> lenN (own w s) + 1 <= bud w ->
  (forall i t, Inv t -> holds w t HFree -> keep s t -> own w t = i :: own w s -> nitems <= i < nitems + total W bud ->
     (forall hdr rest, image = hdr ++ rest -> lenN hdr <= vlen c -> exists rest', simg t i = hdr ++ rest') ->
     simg t i = splice 0 (firstn (N.to_nat (vlen c)) image) (zeros fo c) -> (forall j, In j (own w s) -> j < i) -> Q i t) ->
  wp (store_split fo c image) Q s.
Proof.
  intros HI Hs Hb HQ. unfold store_split.
  apply wp_bind; [exact HI|]. apply wp_claim; auto. intros i t1 I1 H1 K1 O1 Z1 F1 G1 L1.
  apply rule_rlock; [exact H1|]. intros t2 I2 H2 S2.
  apply rule_get_base; [exact H2|]. intros t3 I3 H3 S3 B3.
  rewrite addr_in by lia. rewrite <- B3.
  pose proof (same_trans _ _ _ _ S2 S3) as S13.
  assert (O3 : own w t3 = i :: own w s) by (rewrite (sm_own _ _ _ S13); exact O1).
  assert (K3 : keep s t3) by (eapply keep_same; eauto).
  apply rule_write; [exact H3|rewrite O3; left; reflexivity| |].
  { pose proof (nodeSize_eq _ _ OK). pose proof (fb_pos _ _ OK). unfold lenN. rewrite firstn_length. nia. }
  intros t4 I4 H4 O4 M4 B4 N4 E4 F4.
  assert (Z3 : simg t3 i = zeros fo c) by (rewrite (sm_img _ _ _ S13), Z1; [reflexivity|rewrite O1; left; reflexivity]).
  assert (K4 : keep s t4) by (eapply (keep_write s t3); eauto).
  apply rule_runlock; [exact H4|]. intros t6 I6 H6 S6. eapply wp_ret; [exact H6|]. intros t7 I7 H7 S7.
  pose proof (same_trans _ _ _ _ S6 S7) as S47. apply HQ; auto.
  - eapply keep_same; eauto.
  - now rewrite (sm_own _ _ _ S47), O4.
  - intros hdr rest -> Hl. rewrite (sm_img _ _ _ S47) by (rewrite O4, O3; left; reflexivity). rewrite E4.
    rewrite firstn_app. rewrite (firstn_all2 hdr) by (unfold lenN in Hl; lia). unfold splice. cbn [N.to_nat firstn app].
    rewrite <- !app_assoc. eexists. reflexivity.
  - rewrite (sm_img _ _ _ S47) by (rewrite O4, O3; left; reflexivity). now rewrite E4, Z3.
Qed.

(** Reading a field of several items. *)
Lemma wp_reads {B} (f : N -> list N -> B) len p (Q : list B -> bst -> Prop) : len <= NSZ -> forall l,
  (forall j, In j l -> j < nitems) -> forall s, Inv s -> holds w s HRd -> base s = p ->
  (forall t, Inv t -> holds w t HRd -> same s t -> base t = p -> Q (map (fun j => f j (sub 0 len (img j))) l) t) ->
  wp (pmap (fun j => vis bs <- ARead p (addr fo c j) len; Ret (f j bs)) l) Q s.
Proof.
  intros Hlen l. revert Q. induction l as [|j l IH]; intros Q Hl s HI Hs Hp HQ; cbn [pmap map].
  - intros t HR It. apply HQ; auto; [apply (r_holds _ _ _ HR), Hs|apply R_same, HR|].
    rewrite <- Hp. apply (r_base _ _ _ HR). apply Hs.
  - assert (Hj : j < nitems) by (apply Hl; left; reflexivity).
    cbn [pbind]. rewrite addr_in by lia. rewrite <- Hp at 1.
    apply rule_read; [exact Hs|exact Hj|lia|]. intros t It Ht St Bt. cbn [pbind].
    apply wp_bind; [exact It|]. apply IH; auto; [intros; apply Hl; right; assumption|congruence|]. intros t2 I2 H2 S2 B2.
    intros t3 R3 I3. apply HQ; auto.
    + apply (r_holds _ _ _ R3), H2.
    + eapply same_trans; [exact St|]. eapply same_trans; [exact S2|]. apply R_same, R3.
    + destruct (r_base _ _ _ R3) as [_ ->]; [apply H2|]. rewrite B2. congruence.
Qed.

(** ** Trees *)
(** The plane kept in the bytes [bs] of a split node of [xs] and [ys]: the first bytes of
    the plane by which they were divided, or of zeros (sides drawn at random). *)
Definition kept (bs : list N) (v : list (F fo)) : Prop :=
  sub (off_vec fo c) (vlen c * fbytes fo) bs =
  firstn (N.to_nat (vlen c - off_vec fo c)) (enc_vec fo v) ++
  repeat 0 (N.to_nat (vlen c * fbytes fo - (vlen c - off_vec fo c))).
Definition factor_kept (bs : list N) (e : F fo) : Prop := knd c = DotProduct ->
  exists k, (k <= N.to_nat (fbytes fo))%nat /\
    sub (off_dot fo c) (fbytes fo) bs = firstn k (enc_f fo e) ++ repeat 0 (N.to_nat (fbytes fo) - k).
(** The bytes of one of the items [l]. *)
Definition is_item (l bs : list N) : Prop := exists j, In j l /\ j < nitems /\ n_desc c (img j) = 1 /\ bs = sub 0 NSZ (img j).
Definition cut_bytes (bs xs ys : list N) : Prop :=
  (exists m, full m /\ kept bs (s_vec fo m) /\ factor_kept bs (s_dot fo m) /\ nil_factor (s_dot fo m) /\ split_usable (lenN xs) (lenN ys) = true /\
     (all_zero m \/ made (is_item (xs ++ ys)) m /\ (forall j, In j xs -> can_side m (img j) false) /\ (forall j, In j ys -> can_side m (img j) true))) \/
  (sub (off_vec fo c) (vlen c * fbytes fo) bs = repeat 0 (N.to_nat (vlen c * fbytes fo)) /\
   sub (off_dot fo c) (fbytes fo) bs = repeat 0 (N.to_nat (fbytes fo)) /\
   forall i j, i < nitems -> j < nitems -> n_desc c (img i) = 1 -> n_desc c (img j) = 1 -> i = j).
Definition tcut (bs xs ys : list N) : Prop :=
  (n_desc c bs = lenN xs + lenN ys \/ forall j, j < nitems -> n_desc c (img j) = 1 -> In j (xs ++ ys)) /\ cut_bytes bs xs ys.
(** The subtree below [i]: its nodes other than items belong to [w] and are not in [b]. *)
Inductive tree (b : list N) (s : bst) : N -> list N -> nat -> Prop :=
| t_item i : i < nitems -> n_desc c (img i) = 1 -> tree b s i [i] 1
| t_hole i : i < nitems -> n_desc c (img i) = 0 -> tree b s i [] 1
| t_bucket i : In i (own w s) -> ~ In i b -> n_desc c (simg s i) <= K -> tree b s i (n_children c (n_desc c (simg s i)) (simg s i)) 1
| t_split i l r xs ys m n : In i (own w s) -> ~ In i b -> K < n_desc c (simg s i) -> n_children c 2 (simg s i) = [l; r] ->
    tcut (simg s i) xs ys -> tree b s l xs m -> tree b s r ys n -> l < i /\ r < i -> tree b s i (xs ++ ys) (S (m + n)).
Lemma tree_root b s i xs m : tree b s i xs m -> i < nitems \/ In i (own w s).
Proof. destruct 1; auto. Qed.
Lemma tree_less b b' s i xs m : incl b' b -> tree b s i xs m -> tree b' s i xs m.
Proof.
  intros Hb. induction 1 as [| |i Hi Hn Hd|i l r xs ys m n Hi Hn Hd Hc Hx Hl IHl Hr IHr].
  - now apply t_item.
  - now apply t_hole.
  - apply t_bucket; auto.
  - eapply t_split; eauto.
Qed.
Lemma tree_keep b s t i xs m : keep s t -> tree b s i xs m -> tree b t i xs m.
Proof.
  intros K0 H.
  assert (G : forall i, In i (own w s) -> In i (own w t)).
  { intros j Hj. destruct (kp_own _ _ _ K0) as [l ->]. apply in_or_app. now right. }
  induction H as [| |i Hi Hn Hd|i l r xs ys m n Hi Hn Hd Hc Hx Hl IHl Hr IHr].
  - now apply t_item.
  - now apply t_hole.
  - rewrite <- (kp_img _ _ _ K0 i Hi) in *. apply t_bucket; auto.
  - rewrite <- (kp_img _ _ _ K0 i Hi) in *. eapply t_split; eauto.
Qed.
(** The nodes of a subtree that are not items. *)
Inductive inside (s : bst) : N -> N -> Prop :=
| in_here i : nitems <= i -> inside s i i
| in_left i l r j : nitems <= i -> K < n_desc c (simg s i) -> n_children c 2 (simg s i) = [l; r] -> inside s l j -> inside s i j
| in_right i l r j : nitems <= i -> K < n_desc c (simg s i) -> n_children c 2 (simg s i) = [l; r] -> inside s r j -> inside s i j.
Lemma inside_tree b s i j : inside s i j -> forall xs m, tree b s i xs m -> In j (own w s) /\ ~ In j b.
Proof.
  clear Hw Hvlen Hcap W bud. induction 1 as [i Hi|i l r j Hi Hd Hc H IH|i l r j Hi Hd Hc H IH]; intros xs m T;
    inversion T as [? H1|? H1|? H1 H2 H3|? l' r' ? ? ? ? H1 H2 H3 H4 H5 H6 H7]; subst; try lia; auto.
  - rewrite Hc in H4. injection H4 as <- <-. eauto.
  - rewrite Hc in H4. injection H4 as <- <-. eauto.
Qed.
Lemma inside_same s t i j : (forall x, In x (own w s) -> simg t x = simg s x) -> inside t i j -> forall b xs m, tree b s i xs m -> inside s i j.
Proof.
  clear Hw Hvlen Hcap W bud. intros Hk. induction 1 as [i Hi|i l r j Hi Hd Hc H IH|i l r j Hi Hd Hc H IH]; intros b xs m T; [now apply in_here| |];
    inversion T as [? H1|? H1|? H1 H2 H3|? l' r' ? ? ? ? H1 H2 H3 H4 H5 H6 H7]; subst; try lia;
    rewrite (Hk i H1) in *; try lia; rewrite Hc in H4; injection H4 as <- <-; [eapply in_left|eapply in_right]; eauto.
Qed.
Lemma inside_up s t i j : (forall x, In x (own w s) -> simg t x = simg s x) -> inside s i j -> forall b xs m, tree b s i xs m -> inside t i j.
Proof.
  clear Hw Hvlen Hcap W bud. intros Hk. induction 1 as [i Hi|i l r j Hi Hd Hc H IH|i l r j Hi Hd Hc H IH]; intros b xs m T; [now apply in_here| |];
    inversion T as [? H1|? H1|? H1 H2 H3|? l' r' ? ? ? ? H1 H2 H3 H4 H5 H6 H7]; subst; try lia;
    rewrite Hc in H4; injection H4 as <- <-; [apply in_left with (l := l) (r := r)|apply in_right with (l := l) (r := r)]; rewrite ?(Hk i H1); eauto.
Qed.
(** Every node claimed between [s] and [t] is in the tree of one of [rs]. *)
Definition covers (s t : bst) (rs : list N) : Prop :=
  3 * ixb c <= vlen c -> forall j, In j (own w t) -> In j (own w s) \/ exists r, In r rs /\ inside t r j.

Definition items_ok (l : list N) : Prop := forall j, In j l -> j < nitems /\ n_desc c (img j) = 1.
(** The nodes claimed between [s] and [t]: the descendant count of each satisfies [P];
    there is at least one if [some]. *)
Definition grew (s t : bst) (P : N -> Prop) (some : Prop) : Prop :=
  exists new, own w t = new ++ own w s /\ (ixb c <= vlen c -> forall j, In j new -> P (n_desc c (simg t j))) /\ (some -> new <> []).
Lemma grew_same s t u P some : same t u -> grew s t P some -> grew s u P some.
Proof.
  intros St (new & A & B & C). exists new. split; [now rewrite (sm_own _ _ _ St)|]. split; [|exact C].
  intros Hv j Hj. rewrite (sm_img _ _ _ St) by (rewrite A; apply in_or_app; now left). auto.
Qed.
Lemma grew_same_l s s' t P some : same s s' -> grew s' t P some -> grew s t P some.
Proof. intros St (new & A & B & C). exists new. rewrite (sm_own _ _ _ St) in A. auto. Qed.
Lemma grew_trans s t u (P P' : N -> Prop) (a a' : Prop) (some : Prop) : keep t u -> grew s t P a -> grew t u P' a' ->
  (forall d, P d -> P' d) -> (some -> a \/ a') -> grew s u P' some.
Proof.
  intros Hk (n1 & A1 & B1 & C1) (n2 & A2 & B2 & C2) HP Hs. exists (n2 ++ n1). split; [now rewrite A2, A1, app_assoc|]. split.
  - intros Hv j Hj. apply in_app_or in Hj. destruct Hj as [Hj|Hj]; [auto|].
    rewrite (kp_img _ _ _ Hk) by (rewrite A1; apply in_or_app; now left). auto.
  - intros H E. apply app_eq_nil in E. destruct (Hs H); [now apply C1|now apply C2].
Qed.
Lemma grew_weaken s t (P P' : N -> Prop) (a a' : Prop) : grew s t P a -> (forall d, P d -> P' d) -> (a' -> a) -> grew s t P' a'.
Proof. intros (n1 & A1 & B1 & C1) HP Hs. exists n1. auto. Qed.
(** The distance cost counts at most one node per item but the last. *)
Definition post_tree (s : bst) (l : list N) (i : N) (t : bst) : Prop :=
  Inv t /\ holds w t HFree /\ keep s t /\ lenN (own w t) <= lenN (own w s) + (lenN l - 1) /\
  i < nitems + total W bud /\
  (3 * ixb c <= vlen c -> exists xs m, tree (own w s) t i xs m /\ Permutation xs l /\ (m <= 2 * length l - 1)%nat) /\
  grew s t (fun d => d <= lenN l) (2 <= lenN l) /\ covers s t [i].
Definition spec_tree (p : prog N) (l : list N) : Prop := forall s (Q : N -> bst -> Prop),
  Inv s -> holds w s HFree -> lenN (own w s) + (lenN l - 1) <= bud w ->
  (forall i t, post_tree s l i t -> Q i t) -> wp p Q s.

Lemma split_header desc a b m : exists rest, split_image fo c desc a b m = (enc_ix c desc ++ enc_ixs c [a; b]) ++ rest.
Proof. eexists. unfold split_image. cbv zeta. reflexivity. Qed.

Definition pair_post (s : bst) (l r : list N) (cc : N * N) (t : bst) : Prop :=
  Inv t /\ holds w t HFree /\ keep s t /\ lenN (own w t) <= lenN (own w s) + (lenN l - 1) + (lenN r - 1) /\
  fst cc < nitems + total W bud /\ snd cc < nitems + total W bud /\
  (3 * ixb c <= vlen c -> exists xs m ys n, tree (own w s) t (fst cc) xs m /\ Permutation xs l /\ (m <= 2 * length l - 1)%nat /\
     tree (own w s) t (snd cc) ys n /\ Permutation ys r /\ (n <= 2 * length r - 1)%nat) /\
  grew s t (fun d => d <= N.max (lenN l) (lenN r)) (2 <= lenN l \/ 2 <= lenN r) /\ covers s t [fst cc; snd cc].
Lemma wp_pair pl pr l r (b : bool) s (Q : N * N -> bst -> Prop) :
  spec_tree pl l -> spec_tree pr r -> Inv s -> holds w s HFree ->
  lenN (own w s) + (lenN l - 1) + (lenN r - 1) <= bud w ->
  (forall cc t, pair_post s l r cc t -> Q cc t) ->
  wp (if b then do cr <- pr; do cl <- pl; Ret (cl, cr) else do cl <- pl; do cr <- pr; Ret (cl, cr)) Q s.
Proof.
  intros Sl Sr HI Hs Hb HQ. destruct b.
  - apply wp_bind; [exact HI|]. apply Sr; auto; [lia|]. intros cr t1 (I1 & H1 & K1 & O1 & L1 & T1 & G1 & C1).
    apply wp_bind; [exact I1|]. apply Sl; auto; [lia|]. intros cl t2 (I2 & H2 & K2 & O2 & L2 & T2 & G2 & C2).
    eapply wp_ret; [exact H2|]. intros t3 I3 H3 S3. apply HQ. unfold pair_post. cbn [fst snd].
    repeat (split; [auto|]); auto.
    + eapply keep_same; [|exact S3]. eapply keep_trans; eauto.
    + rewrite (sm_own _ _ _ S3). lia.
    + intro Hv. destruct (T1 Hv) as (ys & n & A1 & A2 & A3). destruct (T2 Hv) as (xs & m & B1 & B2 & B3).
        exists xs, m, ys, n. repeat (split; [auto|]); auto.
        -- eapply tree_less; [|eapply tree_keep; [|exact B1]; now apply same_keep].
           destruct (kp_own _ _ _ K1) as [x ->]. apply incl_appr, incl_refl.
        -- eapply tree_keep; [|exact A1]. eapply keep_same; eauto.
    + eapply grew_same; [exact S3|]. eapply grew_trans; [exact K2| | | |].
        -- eapply grew_weaken with (P' := fun d => d <= N.max (lenN l) (lenN r)); [exact G1|cbv beta; lia|intro h; exact h].
        -- eapply grew_weaken with (P' := fun d => d <= N.max (lenN l) (lenN r)); [exact G2|cbv beta; lia|intro h; exact h].
        -- auto.
        -- cbv beta. tauto.
    + intros Hv j Hj. destruct (T1 Hv) as (ys & n & A1 & _). destruct (T2 Hv) as (xs & m & B1 & _).
      rewrite (sm_own _ _ _ S3) in Hj. destruct (C2 Hv j Hj) as [Hj1|(r0 & [<-|[]] & Hin)].
      * destruct (C1 Hv j Hj1) as [Hj2|(r0 & [<-|[]] & Hin)]; [now left|right]. exists cr. split; [cbn; auto|].
        assert (K13 : keep t1 t3) by (eapply keep_same; eauto). eapply inside_up; [apply (kp_img _ _ _ K13)|exact Hin|exact A1].
      * right. exists cl. split; [cbn; auto|]. eapply inside_up; [|exact Hin|exact B1]. apply (sm_img _ _ _ S3).
  - apply wp_bind; [exact HI|]. apply Sl; auto; [lia|]. intros cr t1 (I1 & H1 & K1 & O1 & L1 & T1 & G1 & C1).
    apply wp_bind; [exact I1|]. apply Sr; auto; [lia|]. intros cl t2 (I2 & H2 & K2 & O2 & L2 & T2 & G2 & C2).
    eapply wp_ret; [exact H2|]. intros t3 I3 H3 S3. apply HQ. unfold pair_post. cbn [fst snd].
    repeat (split; [auto|]); auto.
    + eapply keep_same; [|exact S3]. eapply keep_trans; eauto.
    + rewrite (sm_own _ _ _ S3). lia.
    + intro Hv. destruct (T1 Hv) as (ys & n & A1 & A2 & A3). destruct (T2 Hv) as (xs & m & B1 & B2 & B3).
        exists ys, n, xs, m. repeat (split; [auto|]); auto.
        -- eapply tree_keep; [|exact A1]. eapply keep_same; eauto.
        -- eapply tree_less; [|eapply tree_keep; [|exact B1]; now apply same_keep].
           destruct (kp_own _ _ _ K1) as [x ->]. apply incl_appr, incl_refl.
    + eapply grew_same; [exact S3|]. eapply grew_trans; [exact K2| | | |].
        -- eapply grew_weaken with (P' := fun d => d <= N.max (lenN l) (lenN r)); [exact G1|cbv beta; lia|intro h; exact h].
        -- eapply grew_weaken with (P' := fun d => d <= N.max (lenN l) (lenN r)); [exact G2|cbv beta; lia|intro h; exact h].
        -- auto.
        -- cbv beta. tauto.
    + intros Hv j Hj. destruct (T1 Hv) as (ys & n & A1 & _). destruct (T2 Hv) as (xs & m & B1 & _).
      rewrite (sm_own _ _ _ S3) in Hj. destruct (C2 Hv j Hj) as [Hj1|(r0 & [<-|[]] & Hin)].
      * destruct (C1 Hv j Hj1) as [Hj2|(r0 & [<-|[]] & Hin)]; [now left|right]. exists cr. split; [cbn; auto|].
        assert (K13 : keep t1 t3) by (eapply keep_same; eauto). eapply inside_up; [apply (kp_img _ _ _ K13)|exact Hin|exact A1].
      * right. exists cl. split; [cbn; auto|]. eapply inside_up; [|exact Hin|exact B1]. apply (sm_img _ _ _ S3).
Qed.

(** The plane in the copy of a split node: annoyindex.go:438-448, node.go:23-31. *)
Lemma full_planned l x : planned (map (fun j => (j, sub 0 NSZ (img j))) l) x \/ all_zero (fst x) -> full (fst x).
Proof.
  intros [[(_ & p & q & Hp & Hq & E) _]|E]; unfold full.
  - rewrite E. apply (full_normalize (mkSN fo (f0 fo) (f0 fo) (apart p q))). exact (apart_len _ _ _ Hp Hq).
  - rewrite E. unfold lenN. rewrite repeat_length. lia.
Qed.
Lemma kept_image desc a b m : 3 * ixb c <= vlen c -> full m ->
  kept (splice 0 (firstn (N.to_nat (vlen c)) (split_image fo c desc a b m)) (zeros fo c)) (s_vec fo m).
Proof.
  intros Hv Hm. pose proof (nodeSize_eq _ _ OK) as Hn. pose proof (off_dot_ge _ _ OK) as Ho. pose proof (off_vec_eq fo c) as Hov.
  pose proof (fb_pos _ _ OK) as Hfb.
  assert (E : exists hdr, split_image fo c desc a b m = hdr ++ enc_vec fo (s_vec fo m) /\ length hdr = N.to_nat (off_vec fo c)).
  { unfold split_image. cbv zeta. rewrite !app_assoc. eexists. split; [reflexivity|].
    repeat rewrite ?app_length, ?length_enc_ix, ?length_enc_ixs, ?repeat_length. cbn [length].
    rewrite Hov. destruct (knd c); cbn [length]; rewrite ?length_enc_f; lia. }
  destruct E as (hdr & -> & Hh). unfold kept.
  pose proof (lenN_enc_vec fo (s_vec fo m)) as Le. unfold full in Hm. rewrite Hm in Le.
  set (ev := enc_vec fo (s_vec fo m)) in *. unfold lenN in Le.
  unfold splice, sub, zeros. cbn [N.to_nat firstn app Nat.add].
  rewrite firstn_length, app_length. rewrite Nat.min_l by nia.
  rewrite firstn_app. rewrite <- app_assoc.
  destruct (N.le_gt_cases (off_vec fo c) (vlen c)) as [H|H].
  - rewrite (firstn_all2 hdr) by lia. rewrite skipn_app_exact by exact Hh.
    rewrite Hh. replace (N.to_nat (vlen c) - N.to_nat (off_vec fo c))%nat with (N.to_nat (vlen c - off_vec fo c)) by lia.
    rewrite firstn_app, firstn_firstn, firstn_length.
    rewrite (Nat.min_r (N.to_nat (vlen c * fbytes fo))) by nia.
    rewrite (Nat.min_l (N.to_nat (vlen c - off_vec fo c))) by nia. f_equal.
    rewrite skipn_rep, firstn_rep by nia. f_equal. lia.
  - replace (N.to_nat (vlen c) - length hdr)%nat with 0%nat by lia. cbn [firstn app].
    replace (vlen c - off_vec fo c) with 0 by lia. cbn [N.to_nat firstn app].
    rewrite skipn_app, (skipn_all2 (firstn _ hdr)) by (rewrite firstn_length; lia). cbn [app].
    rewrite firstn_length, Nat.min_l by lia. rewrite !skipn_rep, firstn_rep by nia. f_equal. lia.
Qed.
Lemma factor_image desc a b m : full m ->
  factor_kept (splice 0 (firstn (N.to_nat (vlen c)) (split_image fo c desc a b m)) (zeros fo c)) (s_dot fo m).
Proof.
  intros Hm Ek. pose proof (nodeSize_eq _ _ OK) as Hn. pose proof (off_dot_ge _ _ OK) as Ho. pose proof (off_vec_eq fo c) as Hov.
  rewrite Ek in Hov. pose proof (fb_pos _ _ OK) as Hfb.
  assert (E : exists hdr, split_image fo c desc a b m = hdr ++ enc_f fo (s_dot fo m) ++ enc_vec fo (s_vec fo m) /\ length hdr = N.to_nat (off_dot fo c)).
  { unfold split_image. cbv zeta. rewrite Ek. rewrite app_assoc. eexists. split; [reflexivity|].
    repeat rewrite ?app_length, ?length_enc_ix, ?length_enc_ixs, ?repeat_length. cbn [length]. lia. }
  destruct E as (hdr & -> & Hh).
  pose proof (lenN_enc_vec fo (s_vec fo m)) as Le. unfold full in Hm. rewrite Hm in Le.
  pose proof (length_enc_f fo (s_dot fo m)) as Lf.
  set (ev := enc_vec fo (s_vec fo m)) in *. set (ef := enc_f fo (s_dot fo m)) in *. unfold lenN in Le.
  exists (Nat.min (N.to_nat (fbytes fo)) (N.to_nat (vlen c - off_dot fo c))). split; [lia|].
  unfold splice, sub, zeros. cbn [N.to_nat firstn app Nat.add].
  rewrite firstn_length, !app_length. rewrite Nat.min_l by nia.
  rewrite firstn_app. rewrite <- app_assoc.
  destruct (N.le_gt_cases (off_dot fo c) (vlen c)) as [H|H].
  - rewrite (firstn_all2 hdr) by lia. rewrite skipn_app_exact by exact Hh.
    rewrite Hh. replace (N.to_nat (vlen c) - N.to_nat (off_dot fo c))%nat with (N.to_nat (vlen c - off_dot fo c)) by lia.
    rewrite firstn_app, firstn_firstn, firstn_length, app_length.
    rewrite (firstn_app _ ef). rewrite Lf. replace (Nat.min _ _ - N.to_nat (fbytes fo))%nat with 0%nat by lia.
    cbn [firstn]. rewrite app_nil_r. f_equal.
    rewrite skipn_rep, firstn_rep by nia. f_equal. nia.
  - replace (N.to_nat (vlen c) - length hdr)%nat with 0%nat by lia. cbn [firstn app].
    replace (vlen c - off_dot fo c) with 0 by lia. cbn [N.to_nat]. rewrite Nat.min_0_r. cbn [firstn app].
    rewrite skipn_app, (skipn_all2 (firstn _ hdr)) by (rewrite firstn_length; lia). cbn [app].
    rewrite firstn_length, Nat.min_l by lia. rewrite !skipn_rep, firstn_rep by nia. f_equal. lia.
Qed.
Lemma can_side_sub m bs b : can_side m (sub 0 NSZ bs) b -> can_side m bs b.
Proof.
  unfold can_side. replace (n_vec fo c (sub 0 NSZ bs)) with (n_vec fo c bs); [auto|].
  unfold n_vec, sub. cbn [N.to_nat skipn]. f_equal. rewrite skipn_firstn_comm, firstn_firstn. f_equal.
  pose proof (nodeSize_eq _ _ OK). lia.
Qed.
Lemma tcut_store desc c0 c1 m a b xs ys l : 3 * ixb c <= vlen c -> items_ok l -> Permutation (a ++ b) l ->
  split_usable (lenN a) (lenN b) = true -> nil_factor (s_dot fo m) ->
  planned (map (fun j => (j, sub 0 NSZ (img j))) l) (m, (a, b)) \/ all_zero m ->
  Permutation xs a -> Permutation ys b ->
  cut_bytes (splice 0 (firstn (N.to_nat (vlen c)) (split_image fo c desc c0 c1 m)) (zeros fo c)) xs ys.
Proof.
  intros Hv Hl Pl U Z D P1 P2. left. exists m. pose proof (full_planned _ (m, (a, b)) D) as Hf. cbn [fst] in Hf.
  split; [exact Hf|]. split; [now apply kept_image|]. split; [now apply factor_image|]. split; [exact Z|].
  split; [now rewrite (perm_lenN _ _ P1), (perm_lenN _ _ P2)|].
  destruct D as [[D1 [D2 D3]]|D]; [right|left; exact D]. cbn [fst snd] in *. split.
  { eapply made_mono; [|exact D1]. intros bs Hb. rewrite map_map in Hb. apply in_map_iff in Hb. destruct Hb as (j & <- & Hj). exists j.
    split; [eapply Permutation_in; [|exact Hj]; now rewrite P1, P2|]. destruct (Hl j Hj). auto. }
  split; intros j Hj.
  - destruct (D2 j) as (bs & Hb & Hc); [eapply Permutation_in; eauto|]. apply in_map_iff in Hb.
    destruct Hb as (j' & E & _). injection E as -> <-. now apply can_side_sub.
  - destruct (D3 j) as (bs & Hb & Hc); [eapply Permutation_in; eauto|]. apply in_map_iff in Hb.
    destruct Hb as (j' & E & _). injection E as -> <-. now apply can_side_sub.
Qed.

Definition split_body (f rf : nat) (l : list N) (desc : N) : prog N :=
  vis! ARLock;
  vis p <- AGetBase;
  do nodes <- read_nodes fo c p l;
  do mlr <- attempts fo c 3 nodes (zero_snode fo c) ([], []);
  vis! ARUnlock;
  do mlr' <- randomise fo c rf nodes (fst mlr) (snd mlr);
  let m := fst mlr' in
  let l := fst (snd mlr') in
  let r := snd (snd mlr') in
  do cc <- (if lenN r <? lenN l
            then do cr <- make_tree fo c nitems f rf r false;
                 do cl <- make_tree fo c nitems f rf l false; Ret (cl, cr)
            else do cl <- make_tree fo c nitems f rf l false;
                 do cr <- make_tree fo c nitems f rf r false; Ret (cl, cr));
  store_split fo c (split_image fo c desc (fst cc) (snd cc) m).

Lemma wp_split_body f rf l desc s (Q : N -> bst -> Prop) :
  (forall l', (0 < length l' < length l)%nat -> items_ok l' -> spec_tree (make_tree fo c nitems f rf l' false) l') ->
  items_ok l -> 2 <= lenN l < 2 ^ iw c -> K < desc < 2 ^ iw c -> desc = lenN l \/ (forall j, j < nitems -> n_desc c (img j) = 1 -> In j l) ->
  Inv s -> holds w s HFree -> lenN (own w s) + (lenN l - 1) <= bud w ->
  (forall i t, Inv t -> holds w t HFree -> keep s t -> lenN (own w s) < lenN (own w t) <= lenN (own w s) + (lenN l - 1) ->
     In i (own w t) -> ~ In i (own w s) -> i < nitems + total W bud ->
     (3 * ixb c <= vlen c -> exists xs m, tree (own w s) t i xs m /\ Permutation xs l /\ (m <= 2 * length l - 1)%nat) ->
     (exists new, own w t = i :: new ++ own w s /\ (3 <= lenN l -> new <> []) /\
        (ixb c <= vlen c -> n_desc c (simg t i) = desc /\ forall j, In j new -> n_desc c (simg t j) < lenN l)) -> covers s t [i] -> Q i t) ->
  wp (split_body f rf l desc) Q s.
Proof.
  intros IH Hl Hn Hd Hdn HI Hs Hb HQ. unfold split_body.
  apply rule_rlock; [exact Hs|]. intros t1 I1 H1 S1.
  apply rule_get_base; [exact H1|]. intros t2 I2 H2 S2 B2.
  apply wp_bind; [exact I2|]. unfold read_nodes. apply wp_reads; auto; [lia|intros j Hj; apply Hl; exact Hj|].
  intros t3 I3 H3 S3 B3. set (nodes := map (fun j => (j, sub 0 NSZ (img j))) l).
  assert (Hfst : map fst nodes = l) by (unfold nodes; rewrite map_map; apply map_id).
  assert (Hnl : lenN nodes = lenN l) by (unfold nodes; apply lenN_map).
  apply wp_bind; [exact I3|].
  eapply wp_dr; [apply (dr_attempts false nodes); [lia|apply nf_start|discriminate]|right; auto|exact H3|].
  intros [m0 cur] t4 [P4 D4] I4 H4 S4 B4. cbn [fst snd].
  apply rule_runlock; [exact H4|]. intros t5 I5 H5 S5.
  apply wp_bind; [exact I5|].
  eapply wp_dr; [apply (dr_randomise nodes rf); [lia|exact P4|exact (proj1 (proj1 D4))|left; exact D4]|left; reflexivity|exact H5|].
  intros [m [a b]] t6 (P6 & A6 & A7 & U6 & Z6 & D6) I6 H6 S6 _. cbv zeta. unfold parts in P6. cbn [fst snd] in *. rewrite Hfst in P6.
  pose proof (perm_lenN _ _ P6) as L6. rewrite lenN_app in L6.
  assert (S06 : same s t6) by (repeat (eapply same_trans; [eassumption|]); apply same_refl).
  pose proof (sm_own _ _ _ S06) as O6.
  assert (Ha : items_ok a). { intros j Hj. apply Hl. eapply Permutation_in; [exact P6|]. apply in_or_app. auto. }
  assert (Hbb : items_ok b). { intros j Hj. apply Hl. eapply Permutation_in; [exact P6|]. apply in_or_app. auto. }
  apply wp_bind; [exact I6|].
  apply (wp_pair _ _ a b).
  1,2: apply IH; [unfold lenN in *; lia|assumption].
  1,2: assumption.
  { rewrite O6. lia. }
  intros cc t7 (I7 & H7 & K7 & O7 & F7 & F8 & T7 & G7 & C7). rewrite O6 in O7.
  apply wp_store; auto; [lia|].
  intros i t8 I8 H8 K8 O8 G8 E8 X8 Y8.
  assert (K08 : keep s t8). { eapply keep_trans; [apply same_keep; exact S06|]. eapply keep_trans; eauto. }
  apply HQ; auto.
  - rewrite O8, lenN_cons. destruct (kp_own _ _ _ K7) as [x Hx]. rewrite Hx, lenN_app, O6 in *. lia.
  - rewrite O8. left. reflexivity.
  - apply (fresh_own s t8 i _ I8 O8). destruct (kp_own _ _ _ K7) as [x Hx]. exists x. now rewrite Hx, O6.
  - lia.
  - intro Hv. destruct (T7 Hv) as (xs & mx & ys & my & T1 & Q1 & M1 & T2 & Q2 & M2).
    destruct (split_header desc (fst cc) (snd cc) m) as [rest Hr].
    destruct (E8 _ _ Hr) as [rest' Ei].
    { rewrite lenN_app, lenN_enc_ix, lenN_enc_ixs. change (lenN [fst cc; snd cc]) with 2. lia. }
    rewrite <- app_assoc in Ei. pose proof cap_lt as Hcl.
    exists (xs ++ ys), (S (mx + my)). split; [|split].
    + eapply t_split.
      * rewrite O8. left. reflexivity.
      * apply (fresh_own s t8 i _ I8 O8). destruct (kp_own _ _ _ K7) as [x Hx]. exists x. now rewrite Hx, O6.
      * rewrite Ei, desc_enc; lia.
      * rewrite Ei. unfold n_children, sub, off_children.
        rewrite skipn_app_exact by apply length_enc_ix.
        rewrite firstn_app_exact by (rewrite length_enc_ixs; cbn [length]; lia).
        rewrite <- (app_nil_r (enc_ixs c [fst cc; snd cc])). change 2 with (lenN [fst cc; snd cc]) at 1.
        apply dec_enc_ixs. repeat constructor; lia.
      * split.
        { destruct Hdn as [Hdn|Hdn]; [left; rewrite Ei, desc_enc by lia; rewrite (perm_lenN _ _ Q1), (perm_lenN _ _ Q2); lia|right].
          intros j Hj1 Hj2. apply (Permutation_in j (l := l)); [|now apply Hdn]. now rewrite Q1, Q2, P6. }
        rewrite X8. apply (tcut_store _ _ _ _ a b _ _ l); auto.
      * eapply tree_keep; [exact K8|]. rewrite <- O6. exact T1.
      * eapply tree_keep; [exact K8|]. rewrite <- O6. exact T2.
      * split; [destruct (tree_root _ _ _ _ _ T1)|destruct (tree_root _ _ _ _ _ T2)]; auto; lia.
    + rewrite Q1, Q2. exact P6.
    + unfold lenN in *. lia.
  - destruct G7 as (new & N1 & N2 & N3). rewrite O6 in N1. exists new. split; [now rewrite O8, N1|]. split; [intro; apply N3; lia|].
    intro Hv. split.
    + destruct (split_header desc (fst cc) (snd cc) m) as [rest Hr]. rewrite <- app_assoc in Hr.
      destruct (E8 _ _ Hr) as [rest' Ei]; [rewrite lenN_enc_ix; lia|]. rewrite Ei, desc_enc; lia.
    + intros j Hj. rewrite (kp_img _ _ _ K8) by (rewrite N1; apply in_or_app; now left).
      specialize (N2 Hv j Hj). cbv beta in N2. lia.
  - intros Hv j Hj. destruct (T7 Hv) as (xs & mx & ys & my & T1 & _ & _ & T2 & _).
    destruct (split_header desc (fst cc) (snd cc) m) as [rest Hr].
    destruct (E8 _ _ Hr) as [rest' Ei].
    { rewrite lenN_app, lenN_enc_ix, lenN_enc_ixs. change (lenN [fst cc; snd cc]) with 2. lia. }
    rewrite <- app_assoc in Ei. pose proof cap_lt as Hcl.
    assert (Hd1 : K < n_desc c (simg t8 i)) by (rewrite Ei, desc_enc; lia).
    assert (Hc1 : n_children c 2 (simg t8 i) = [fst cc; snd cc]).
    { rewrite Ei. unfold n_children, sub, off_children.
      rewrite skipn_app_exact by apply length_enc_ix.
      rewrite firstn_app_exact by (rewrite length_enc_ixs; cbn [length]; lia).
      rewrite <- (app_nil_r (enc_ixs c [fst cc; snd cc])). change 2 with (lenN [fst cc; snd cc]) at 1.
      apply dec_enc_ixs. repeat constructor; lia. }
    assert (Hi : nitems <= i) by (apply (iv_own _ _ _ _ _ _ _ I8 i w); apply in_own; rewrite O8; now left).
    rewrite O8 in Hj. destruct Hj as [<-|Hj]; [right; exists i; split; [now left|now apply in_here]|].
    destruct (C7 Hv j Hj) as [Hj1|(r0 & Hr0 & Hin)]; [left; now rewrite <- O6|right]. exists i. split; [now left|].
    destruct Hr0 as [<-|[<-|[]]]; [eapply in_left|eapply in_right]; eauto.
    + eapply inside_up; [apply (kp_img _ _ _ K8)|exact Hin|exact T1].
    + eapply inside_up; [apply (kp_img _ _ _ K8)|exact Hin|exact T2].
Qed.

(** The subtrees: annoyindex.go:291-455. *)
Lemma spec_make_tree rf : nitems < 2 ^ iw c -> forall f l, (0 < length l <= f)%nat -> lenN l < 2 ^ iw c -> items_ok l ->
  spec_tree (make_tree fo c nitems f rf l false) l.
Proof.
  intro Hni. induction f as [|f IH]; intros l Hf Hn Hl; [lia|]. rewrite make_tree_S.
  destruct l as [|j [|j2 l0]]; [cbn in Hf; lia| |].
  - intros s Q HI Hs Hb HQ. eapply wp_ret; [exact Hs|]. intros t It Ht St. apply HQ.
    destruct (Hl j (or_introl eq_refl)) as [Hj Hd].
    split; [exact It|]. split; [exact Ht|]. split; [now apply same_keep|]. split; [rewrite (sm_own _ _ _ St); lia|].
    split; [lia|]. split.
    + intros _. exists [j], 1%nat. split; [now apply t_item|]. split; [reflexivity|cbn; lia].
    + split; [exists []; split; [apply (sm_own _ _ _ St)|]; split; [contradiction|]; rewrite lenN_cons, lenN_nil; lia|].
      intros _ x Hx. left. now rewrite <- (sm_own _ _ _ St).
  - set (l := j :: j2 :: l0) in *. assert (L2 : 2 <= lenN l) by (unfold l; rewrite !lenN_cons; lia).
    intros s Q HI Hs Hb HQ. unfold tree_body. cbv zeta. rewrite tix_small by exact Hn. cbn [negb orb].
    rewrite andb_true_r. destruct (N.leb_spec (lenN l) K) as [HK|HK].
    + apply wp_leaf; auto; [lia|]. intros i t It Ht Kt Ot Gt Et. cbn [negb] in Et. apply HQ.
      split; [exact It|]. split; [exact Ht|]. split; [exact Kt|]. split; [rewrite Ot, lenN_cons; lia|]. split; [lia|].
      assert (Hde : n_desc c (simg t i) = lenN l) by (rewrite Et; apply desc_enc; exact Hn).
      split; [|split; [exists [i]; split; [exact Ot|]; split; [intros _ x [<-|[]]; cbv beta; lia|discriminate]|]].
      2:{ intros _ x Hx. rewrite Ot in Hx. destruct Hx as [<-|Hx]; [right; exists i; split; [now left|apply in_here]|now left].
          apply (iv_own _ _ _ _ _ _ _ It i w). apply in_own. rewrite Ot. now left. }
      intros _. exists l, 1%nat. split; [|split; [reflexivity|unfold lenN in L2; lia]].
      assert (Hch : n_children c (lenN l) (simg t i) = l).
      { rewrite Et, children_enc; [|apply Forall_forall; intros x Hx; destruct (Hl x Hx); lia|lia|lia].
        rewrite N.sub_diag. apply app_nil_r. }
      rewrite <- Hch at 1. rewrite <- Hde at 1.
      apply t_bucket; [rewrite Ot; left; reflexivity|apply (fresh_own s t i _ It Ot); now exists []|rewrite Hde; exact HK].
    + apply wp_split_body; auto; try lia.
      * intros l' Hl' Ho. apply IH; [lia|unfold lenN in *; lia|exact Ho].
      * intros i t It Ht Kt Ot Hi _ Gt Tt (new & N1 & N2 & N3) Ct. apply HQ. split; [exact It|]. split; [exact Ht|]. split; [exact Kt|].
        split; [lia|]. split; [lia|]. split; [exact Tt|]. split; [|exact Ct]. exists (i :: new). split; [exact N1|]. split; [|discriminate].
        intros Hv x [<-|Hx]; cbv beta; [apply N.eq_le_incl; apply (N3 Hv)|]. destruct (N3 Hv) as [_ N4]. specialize (N4 x Hx). lia.
Qed.

(** ** A whole tree *)
Hypothesis Hdesc : forall i, i < nitems -> n_desc c (img i) <= 1.
Hypothesis Hlast : nitems = 0 \/ n_desc c (img (nitems - 1)) = 1.
(** An empty index still gets one (empty) bucket per tree. *)
Definition room : N := N.max 1 nitems.

Definition added : list N := filter (fun i => 1 <=? n_desc c (img i)) (rangeN nitems).
Lemma in_added i : In i added <-> i < nitems /\ n_desc c (img i) = 1.
Proof.
  unfold added. rewrite filter_In, in_rangeN. split; intros [H1 H2]; (split; [exact H1|]).
  - pose proof (Hdesc i H1). lia.
  - lia.
Qed.
Lemma NoDup_added : NoDup added.
Proof. apply NoDup_filter, NoDup_rangeN. Qed.
Lemma added_le : lenN added <= nitems.
Proof.
  unfold added. rewrite <- (lenN_rangeN nitems) at 2. unfold lenN.
  pose proof (filter_length_le (fun i => 1 <=? n_desc c (img i)) (rangeN nitems)). lia.
Qed.
Lemma added_pos : 1 <= nitems -> 1 <= lenN added.
Proof.
  intro Hone.
  destruct added as [|a l] eqn:E; [|rewrite lenN_cons; lia].
  assert (H : In (nitems - 1) added) by (apply in_added; split; [lia|destruct Hlast; [lia|assumption]]). rewrite E in H. contradiction.
Qed.
Lemma added_items : items_ok added.
Proof. intros j Hj. now apply in_added. Qed.
(** What a root lists: the items, and in an index that fits one bucket a 0 for every hole. *)
Definition root_lists (xs : list N) : Prop :=
  if K <? nitems then Permutation xs added else xs = added ++ repeat 0 (N.to_nat (nitems - lenN added)).
Definition good_root (t : bst) (r : N) : Prop :=
  In r (own w t) /\
  (3 * ixb c <= vlen c \/ nitems <= K -> exists xs m, tree [] t r xs m /\ root_lists xs /\ (m <= 2 * length added + 1)%nat /\ (nitems <= K -> m = 1%nat)).
Lemma good_root_keep s t r : keep s t -> good_root s r -> good_root t r.
Proof.
  intros Hk [Hi Ht]. split.
  - destruct (kp_own _ _ _ Hk) as [l ->]. apply in_or_app. now right.
  - intro Hv. destruct (Ht Hv) as (xs & m & A & B & C). exists xs, m. split; [eapply tree_keep; eauto|auto].
Qed.

(** The nodes a root brings along: none of them looks like a root. *)
Definition root_grew (s : bst) (i : N) (t : bst) : Prop :=
  exists new, own w t = i :: new ++ own w s /\ (K < nitems -> 3 <= lenN added -> new <> []) /\
    (ixb c <= vlen c -> n_desc c (simg t i) = nitems /\ forall j, In j new -> n_desc c (simg t j) < nitems) /\
    (3 * ixb c <= vlen c -> forall j, inside t i j -> ~ In j (own w s)) /\ covers s t [i] /\ (nitems <= K -> new = []).
Lemma wp_root f rf s (Q : N -> bst -> Prop) : (Nat.max 1 (length added) <= f)%nat ->
  Inv s -> holds w s HFree -> lenN (own w s) + room <= bud w ->
  (forall i t, Inv t -> holds w t HFree -> keep s t -> lenN (own w s) < lenN (own w t) <= lenN (own w s) + room ->
     good_root t i -> ~ In i (own w s) -> root_grew s i t -> Q i t) ->
  wp (make_tree fo c nitems f rf added true) Q s.
Proof.
  unfold room. intros Hf HI Hs Hb HQ. pose proof added_pos as Ha1. pose proof added_le as Ha2. pose proof cap_lt as Hcl.
  pose proof (maxK_ge2 _ _ OK) as HK2. pose proof (maxK_fits _ _ OK) as HKf.
  destruct f as [|f]; [lia|]. rewrite make_tree_S.
  assert (G : wp (tree_body fo c nitems f rf added true) Q s).
  2:{ destruct added as [|a [|b l]]; exact G. }
  unfold tree_body. cbv zeta. rewrite tix_small by lia. cbn [negb orb].
  destruct ((lenN added <=? K) && ((nitems <=? K) || (lenN added =? 1))) eqn:E.
  - apply wp_leaf; auto; [lia|lia|]. intros i t It Ht Kt Ot Gt Et. cbn [negb] in Et.
    assert (Hde : n_desc c (simg t i) = nitems) by (rewrite Et; apply desc_enc; lia).
    assert (Fi : ~ In i (own w s)) by (apply (fresh_own s t i _ It Ot); now exists []).
    assert (TT : exists xs m, tree (own w s) t i xs m /\ root_lists xs /\ (m <= 2 * length added + 1)%nat /\ (nitems <= K -> m = 1%nat)).
    2:{ apply HQ; auto; [rewrite Ot, lenN_cons; lia| |].
        - split; [rewrite Ot; left; reflexivity|]. intros _. destruct TT as (xs & m & T1 & T2). exists xs, m. split; [|exact T2].
          eapply tree_less; [|exact T1]. apply incl_nil_l.
        - exists []. split; [exact Ot|]. split; [lia|]. split; [intros _; split; [exact Hde|contradiction]|].
          split; [intros _ j Hj; destruct TT as (xs & m & T1 & _); eapply inside_tree; eauto|].
          split; [|reflexivity]. intros _ x Hx. rewrite Ot in Hx. destruct Hx as [<-|Hx]; [right; exists i; split; [now left|apply in_here]|now left].
          apply (iv_own _ _ _ _ _ _ _ It i w). apply in_own. rewrite Ot. now left. }
    assert (Hfa : Forall (fun x => x < 2 ^ iw c) added)
      by (apply Forall_forall; intros x Hx; apply in_added in Hx; lia).
    unfold root_lists. destruct (N.ltb_spec K nitems) as [HK|HK].
    + assert (E1 : lenN added = 1) by lia.
      destruct added as [|j [|j2 l0]] eqn:Ea; [rewrite lenN_nil in E1; lia| |rewrite !lenN_cons in E1; lia].
      assert (Hj : In j added) by (rewrite Ea; left; reflexivity). apply in_added in Hj.
      assert (Hl : In (nitems - 1) added) by (apply in_added; split; [lia|destruct Hlast; [lia|assumption]]).
      rewrite Ea in Hl. destruct Hl as [->|[]].
      assert (H0 : n_desc c (img 0) = 0).
      { destruct (N.eq_dec (n_desc c (img 0)) 0) as [|Hne]; [assumption|].
        assert (Hz : In 0 added) by (apply in_added; pose proof (Hdesc 0 ltac:(lia)); lia).
        rewrite Ea in Hz. destruct Hz as [Hz|[]]. lia. }
      exists [nitems - 1], 3%nat. split; [|split; [reflexivity|cbn; split; [lia|lia]]].
      change [nitems - 1] with ([nitems - 1] ++ []). change 3%nat with (S (1 + 1)).
      apply t_split with (l := nitems - 1) (r := 0).
      * rewrite Ot. left. reflexivity.
      * exact Fi.
      * lia.
      * rewrite Et, children_enc; [|exact Hfa|lia|rewrite E1; pose proof (nodeSize_ge _ _ OK); lia]. rewrite E1. reflexivity.
      * split.
        { right. intros j0 Hj1 Hj2. assert (Hj0 : In j0 added) by now apply in_added. rewrite Ea in Hj0. rewrite app_nil_r. exact Hj0. }
        right. split; [|split].
        3:{ intros x y Hx Hy Dx Dy. assert (Hx' : In x added) by now apply in_added. assert (Hy' : In y added) by now apply in_added.
            rewrite Ea in Hx', Hy'. destruct Hx' as [Hx'|[]], Hy' as [Hy'|[]]. congruence. }
        all: pose proof (off_vec_ge _ _ OK); pose proof (off_dot_ge _ _ OK); pose proof (nodeSize_eq _ _ OK);
          pose proof (off_dot_le fo c); rewrite Et; unfold sub; rewrite app_assoc;
          rewrite skipn_app, (skipn_all2 (enc_ix c nitems ++ _)) by
            (rewrite app_length, length_enc_ix, length_enc_ixs; cbn [length]; lia);
          cbn [app]; rewrite app_length, length_enc_ix, length_enc_ixs; cbn [length];
          rewrite skipn_rep, firstn_rep; [reflexivity|rewrite E1; pose proof (fb_pos _ _ OK); nia].
      * apply t_item; tauto.
      * apply t_hole; [lia|exact H0].
      * lia.
    + exists (added ++ repeat 0 (N.to_nat (nitems - lenN added))), 1%nat.
      split; [|split; [reflexivity|split; [lia|reflexivity]]].
      rewrite <- (children_enc nitems added nitems (NSZ - ixb c - ixb c * lenN added)); auto; [|nia].
      rewrite <- Et. rewrite <- Hde at 1. apply t_bucket; [rewrite Ot; left; reflexivity|exact Fi|lia].
  - apply wp_split_body; auto; try lia.
    + intros l' Hl' Ho. apply spec_make_tree; auto; [lia|lia|]. unfold lenN in *; lia.
    + exact added_items.
    + right. intros j Hj1 Hj2. now apply in_added.
    + intros i t It Ht Kt Ot Hi Fi Gt Tt (new & N1 & N2 & N3) Ct. apply HQ; auto; [lia| |].
      2:{ exists new. split; [exact N1|]. split; [auto|]. split.
          - intro Hv. destruct (N3 Hv) as [N4 N5]. split; [exact N4|]. intros j Hj. specialize (N5 j Hj). lia.
          - split; [|split; [exact Ct|lia]]. intros Hv j Hj. destruct (Tt Hv) as (xs & m & T1 & _). eapply inside_tree; eauto. }
      split; [exact Hi|]. intros [Hv|Hv]; [|lia]. destruct (Tt Hv) as (xs & m & A & B & C). exists xs, m.
      split; [eapply tree_less; [|exact A]; apply incl_nil_l|]. split; [|split; [lia|lia]].
      unfold root_lists. replace (K <? nitems) with true by lia. exact B.
Qed.

(** annoyindex.go:262-274. *)
Lemma wp_collect s (Q : list N -> bst -> Prop) : Inv s -> holds w s HFree ->
  (forall t, Inv t -> holds w t HFree -> same s t -> Q added t) -> wp (collect_items fo c nitems) Q s.
Proof.
  intros HI Hs HQ. unfold collect_items.
  apply rule_rlock; [exact Hs|]. intros t1 I1 H1 S1.
  apply rule_get_base; [exact H1|]. intros t2 I2 H2 S2 B2.
  apply wp_bind; [exact I2|].
  apply (wp_reads (fun i bs => (i, le_dec bs))); auto.
  { pose proof (nodeSize_ge _ _ OK). lia. }
  { intros j Hj. now apply in_rangeN. }
  intros t3 I3 H3 S3 B3. apply rule_runlock; [exact H3|]. intros t4 I4 H4 S4.
  eapply wp_ret; [exact H4|]. intros t5 I5 H5 S5.
  assert (S05 : same s t5) by (repeat (eapply same_trans; [eassumption|]); apply same_refl).
  replace (map fst (filter _ _)) with added; [now apply HQ|].
  unfold added. clear. induction (rangeN nitems) as [|a l IH]; [reflexivity|]. cbn [map filter snd].
  change (le_dec (sub 0 (ixb c) (img a))) with (n_desc c (img a)).
  destruct (1 <=? n_desc c (img a)); cbn [map fst]; now rewrite IH.
Qed.

Lemma own_le_owner s : lenN (own w s) <= lenN (owner s).
Proof.
  unfold own. rewrite lenN_map. unfold lenN.
  pose proof (filter_length_le (fun e : N * nat => Nat.eqb (snd e) w) (owner s)). lia.
Qed.
Lemma bud_total : bud w <= total W bud.
Proof.
  unfold total. assert (In w (seq 0 W)) by (apply in_seq; lia). clear - H.
  induction (seq 0 W) as [|a l IH]; [contradiction|]. cbn [map sumN fold_right].
  destruct H as [->|H]; [lia|]. specialize (IH H). unfold sumN in *. lia.
Qed.

Lemma NoDup_snoc {A} (l : list A) x : NoDup l -> ~ In x l -> NoDup (l ++ [x]).
Proof.
  intros H Hx. apply (Permutation_NoDup (l := x :: l)); [|now constructor].
  apply Permutation_cons_append.
Qed.
(** The nodes of a worker, latest first, have decreasing numbers. *)
Lemma order_down n (l : list (N * nat)) : (forall k e, nth_error l k = Some e -> fst e + N.of_nat k + 1 = n) ->
  StronglySorted (fun a b => b < a) (map fst l).
Proof.
  revert n. induction l as [|a l IH]; intros n H; [constructor|]. cbn [map]. constructor.
  - apply (IH (n - 1)). intros k e E. specialize (H (S k) e E). lia.
  - apply Forall_forall. intros x Hx. apply in_map_iff in Hx. destruct Hx as (e & <- & He). apply In_nth_error in He. destruct He as (k & He).
    pose proof (H 0%nat a eq_refl). pose proof (H (S k) e He). lia.
Qed.
Lemma sorted_filter {A B} (R : B -> B -> Prop) (g : A -> B) p l : StronglySorted R (map g l) -> StronglySorted R (map g (filter p l)).
Proof.
  induction l as [|a l IH]; intro H; [constructor|]. cbn [map] in H. inversion H as [|? ? H1 H2]; subst. cbn [filter].
  destruct (p a); [|auto]. cbn [map]. constructor; [auto|]. rewrite Forall_forall in *. intros x Hx. apply H2.
  apply in_map_iff in Hx. destruct Hx as (y & <- & Hy). apply filter_In in Hy. apply in_map. apply Hy.
Qed.
Lemma own_down s : Inv s -> StronglySorted (fun a b => b < a) (own w s).
Proof. intro I. unfold own. apply sorted_filter. apply (order_down (nn s)). apply (iv_order _ _ _ _ _ _ _ I). Qed.
Lemma sorted_snoc (l : list N) x : StronglySorted N.lt l -> (forall y, In y l -> y < x) -> StronglySorted N.lt (l ++ [x]).
Proof.
  induction 1 as [|a l H IH Ha]; intro Hx; [now repeat constructor|]. cbn [app]. constructor.
  - apply IH. intros y Hy. apply Hx. now right.
  - apply Forall_app. split; [exact Ha|]. constructor; [|constructor]. apply Hx. now left.
Qed.
(** The nodes of a worker that has built the roots [rs]: exactly the roots carry the item
    count; its latest node is its latest root, and the one before belongs to that tree;
    later roots have larger numbers. *)
Record shape (t : bst) (rs : list N) : Prop := mkShape {
  sh_root : ixb c <= vlen c -> forall r, In r rs -> n_desc c (simg t r) = nitems;
  sh_inner : ixb c <= vlen c -> forall j, In j (own w t) -> ~ In j rs -> n_desc c (simg t j) < nitems;
  sh_last : own w t <> [] -> exists rs' j l, rs = rs' ++ [j] /\ own w t = j :: l /\
     (K < nitems -> 3 <= lenN added -> exists k l', l = k :: l' /\ ~ In k rs);
  sh_up : StronglySorted N.lt rs;
  sh_apart : 3 * ixb c <= vlen c -> forall r r' j, In r rs -> In r' rs -> inside t r j -> inside t r' j -> r = r';
  sh_cover : 3 * ixb c <= vlen c -> forall j, In j (own w t) -> exists r, In r rs /\ inside t r j;
  sh_small : nitems <= K -> forall j, In j (own w t) -> In j rs
}.
Lemma good_own t rs : Forall (good_root t) rs -> forall r, In r rs -> In r (own w t).
Proof. rewrite Forall_forall. intros H r Hr. apply (H r Hr). Qed.
Lemma good_inside s t rs r j : 3 * ixb c <= vlen c -> (forall j, In j (own w s) -> simg t j = simg s j) ->
  Forall (good_root s) rs -> In r rs -> inside t r j -> inside s r j /\ In j (own w s).
Proof.
  intros Hv B G Hr Hj. rewrite Forall_forall in G. destruct (proj2 (G r Hr) (or_introl Hv)) as (xs & m & T & _).
  pose proof (inside_same s t r j B Hj _ _ _ T) as Hs. split; [exact Hs|]. eapply inside_tree; eauto.
Qed.
Lemma shape_eq s t rs : own w t = own w s -> (forall j, In j (own w s) -> simg t j = simg s j) ->
  Forall (good_root s) rs -> shape s rs -> shape t rs.
Proof.
  intros A B G [H1 H2 H3 H4 H5 H6 H7]. pose proof (good_own s rs G) as C. constructor; rewrite ?A; auto.
  - intros Hv r Hr. rewrite B; auto.
  - intros Hv j Hj Hn. rewrite B; auto.
  - intros Hv r r' j Hr Hr' Hj Hj'. apply (H5 Hv r r' j); auto; eapply good_inside; eauto.
  - intros Hv j Hj. destruct (H6 Hv j Hj) as (r & Hr & Hin). exists r. split; [exact Hr|].
    rewrite Forall_forall in G. destruct (proj2 (G r Hr) (or_introl Hv)) as (xs & m & T & _). eapply inside_up; eauto.
Qed.
Lemma shape_nil s : own w s = [] -> shape s [].
Proof. intro E. constructor; rewrite ?E; [contradiction|contradiction|congruence|constructor|contradiction|contradiction|contradiction]. Qed.
Lemma shape_step s t rs i : Inv t -> keep s t -> Forall (good_root s) rs -> shape s rs ->
  root_grew s i t -> shape t (rs ++ [i]).
Proof.
  intros It Hk Hg [H1 H2 H3 H4 H5 H6 H7] (new & A & B & C & D & E & Z). pose proof (good_own s rs Hg) as Hin. pose proof (NoDup_own t It) as ND. rewrite A in ND.
  assert (Hnew : forall j, In j new -> ~ In j (rs ++ [i])).
  { intros j Hj Hr. inversion ND as [|? ? Hn Hd]; subst. apply in_app_or in Hr. destruct Hr as [Hr|[<-|[]]].
    - apply Hin in Hr. clear - Hd Hj Hr. induction new as [|x new IH]; [contradiction|]. cbn [app] in Hd. inversion Hd as [|? ? Hx Hd']; subst.
      destruct Hj as [->|Hj]; [apply Hx; apply in_or_app; now right|auto].
    - apply Hn. apply in_or_app. now left. }
  constructor.
  - intros Hv r Hr. apply in_app_or in Hr. destruct Hr as [Hr|[<-|[]]]; [|now apply C]. rewrite (kp_img _ _ _ Hk) by auto. auto.
  - intros Hv j Hj Hn. rewrite A in Hj. destruct Hj as [<-|Hj]; [destruct Hn; apply in_or_app; right; now left|].
    apply in_app_or in Hj. destruct Hj as [Hj|Hj]; [now apply (C Hv)|]. rewrite (kp_img _ _ _ Hk) by auto. apply H2; auto.
    intro Hr. apply Hn. apply in_or_app. now left.
  - intros _. exists rs, i, (new ++ own w s). split; [reflexivity|]. split; [exact A|]. intros HK H3'.
    specialize (B HK H3'). destruct new as [|k new]; [congruence|]. exists k, (new ++ own w s). split; [reflexivity|]. apply Hnew. now left.
  - apply sorted_snoc; [exact H4|]. intros y Hy. pose proof (own_down t It) as D0. rewrite A in D0. inversion D0 as [|? ? _ D1]; subst.
    rewrite Forall_forall in D1. apply D1. apply in_or_app. right. now apply Hin.
  - intros Hv r r' j Hr Hr' Hj Hj'. apply in_app_or in Hr, Hr'.
    assert (Old : forall r, In r rs -> inside t r j -> inside s r j /\ In j (own w s)).
    { intros r0 Hr0 Hj0. exact (good_inside s t rs r0 j Hv (kp_img _ _ _ Hk) Hg Hr0 Hj0). }
    destruct Hr as [Hr|[<-|[]]], Hr' as [Hr'|[<-|[]]]; auto.
    + apply (H5 Hv r r' j); auto; now apply Old.
    + destruct (D Hv j Hj'). now apply (Old r).
    + destruct (D Hv j Hj). now apply (Old r').
  - intros Hv j Hj. destruct (E Hv j Hj) as [Hs|(r & [<-|[]] & Hjn)].
    + destruct (H6 Hv j Hs) as (r & Hr & Hjn). exists r. split; [apply in_or_app; now left|].
      rewrite Forall_forall in Hg. destruct (proj2 (Hg r Hr) (or_introl Hv)) as (xs & m & T & _). eapply inside_up; [apply (kp_img _ _ _ Hk)|exact Hjn|exact T].
    + exists i. split; [apply in_or_app; right; now left|exact Hjn].
  - intros HK j Hj. rewrite A, (Z HK) in Hj. cbn [app] in Hj. apply in_or_app. destruct Hj as [<-|Hj]; [right; now left|left; auto].
Qed.
(** One worker's loop: annoyindex.go:248-280. *)
Definition loop_post (trees : Z) (s : bst) (rs : list N) (t : bst) : Prop :=
  Inv t /\ holds w t HFree /\ keep s t /\ Forall (good_root t) rs /\
  ((trees <> -1)%Z -> Z.of_nat (length rs) = Z.max 0 trees) /\
  (trees = (-1)%Z -> 2 * nitems <= nn t) /\ (own w t <> [] -> rs <> []) /\ NoDup rs /\ shape t rs.
Lemma wp_loop_n mf rf trees (Q : list N -> bst -> Prop) : (trees <> -1)%Z -> (Nat.max 1 (length added) <= mf)%nat ->
  forall f acc s, (Z.of_nat (length acc) <= Z.max 0 trees)%Z -> (Z.max 0 trees - Z.of_nat (length acc) < Z.of_nat f)%Z ->
  Inv s -> holds w s HFree -> lenN (own w s) + Z.to_N (Z.max 0 trees - Z.of_nat (length acc)) * room <= bud w ->
  Forall (good_root s) acc -> (own w s <> [] -> acc <> []) -> NoDup acc -> shape s acc ->
  (forall rs t, loop_post trees s rs t -> Q rs t) ->
  wp (tree_loop fo c nitems f mf rf trees acc) Q s.
Proof.
  intros Ht Hmf. induction f as [|f IH]; intros acc s Hacc Hf HI Hs Hb Hg Hne Hnd Hsh HQ; [lia|]. cbn [tree_loop].
  replace (trees =? -1)%Z with false by lia. cbn [pbind].
  destruct (Z.leb_spec trees (Z.of_nat (length acc))) as [Hle|Hgt].
  - eapply wp_ret; [exact Hs|]. intros t It Htt St. apply HQ.
    split; [exact It|]. split; [exact Htt|]. split; [now apply same_keep|]. split.
    { eapply Forall_impl; [|exact Hg]. intros r Hr. eapply good_root_keep; [apply same_keep; exact St|exact Hr]. }
    split; [lia|]. split; [lia|]. split; [now rewrite (sm_own _ _ _ St)|]. split; [exact Hnd|].
    eapply shape_eq; [apply (sm_own _ _ _ St)|apply (sm_img _ _ _ St)|exact Hg|exact Hsh].
  - apply wp_bind; [exact HI|]. apply wp_collect; auto. intros t1 I1 H1 S1.
    apply wp_bind; [exact I1|]. apply wp_root; auto.
    { rewrite (sm_own _ _ _ S1). nia. }
    intros i t2 I2 H2 K2 O2 G2 F2 X2. rewrite (sm_own _ _ _ S1) in O2, F2.
    assert (K02 : keep s t2) by (eapply keep_trans; [apply same_keep; exact S1|exact K2]).
    apply IH; auto.
    + rewrite app_length. cbn [length]. lia.
    + rewrite app_length. cbn [length]. lia.
    + rewrite app_length. cbn [length].
      replace (Z.to_N (Z.max 0 trees - Z.of_nat (length acc))) with (Z.to_N (Z.max 0 trees - Z.of_nat (length acc + 1)) + 1) in Hb by lia.
      lia.
    + apply Forall_app. split; [|now constructor]. eapply Forall_impl; [|exact Hg]. intros r. now apply good_root_keep.
    + intros _. now destruct acc.
    + apply NoDup_snoc; [exact Hnd|]. intro Hi. rewrite Forall_forall in Hg. apply F2. exact (proj1 (Hg _ Hi)).
    + eapply shape_step; [exact I2|exact K02|exact Hg|exact Hsh|].
      destruct X2 as (new & X2). exists new. unfold covers in *. now rewrite <- (sm_own _ _ _ S1).
    + intros rs t (A1 & A2 & A3 & A4 & A5 & A6). apply HQ. split; [exact A1|]. split; [exact A2|].
      split; [eapply keep_trans; eauto|]. auto.
Qed.
Lemma wp_loop_auto mf rf (Q : list N -> bst -> Prop) : 2 * nitems <= bud w -> (Nat.max 1 (length added) <= mf)%nat ->
  forall f acc s, (0 < f)%nat -> nitems < lenN (own w s) + N.of_nat f ->
  Inv s -> holds w s HFree ->
  Forall (good_root s) acc -> (own w s <> [] -> acc <> []) -> NoDup acc -> shape s acc ->
  (forall rs t, loop_post (-1) s rs t -> Q rs t) ->
  wp (tree_loop fo c nitems f mf rf (-1) acc) Q s.
Proof.
  intros Hbud Hmf. pose proof cap_lt as Hcl. pose proof bud_total as Hbt.
  induction f as [|f IH]; intros acc s Hf0 Hf HI Hs Hg Hne Hnd Hsh HQ; [lia|]. cbn [tree_loop]. rewrite Z.eqb_refl. cbn [pbind].
  apply rule_lock_nn; [exact Hs|]. intros t1 I1 H1 S1.
  apply rule_get_nn; [exact H1|]. intros t2 I2 H2 S2 N2 M2.
  apply rule_unlock_nn; [exact H2|]. intros t3 I3 H3 S3. cbn [pbind].
  rewrite (tix_small c (2 * nitems)) by lia.
  assert (S13 : same s t3) by (repeat (eapply same_trans; [eassumption|]); apply same_refl).
  destruct (N.leb_spec (2 * nitems) (nn t1)) as [Hle|Hgt].
  - eapply wp_ret; [exact H3|]. intros t It Htt St. pose proof (same_trans _ _ _ _ S13 St) as S0. apply HQ.
    split; [exact It|]. split; [exact Htt|]. split; [now apply same_keep|]. split.
    { eapply Forall_impl; [|exact Hg]. intros r Hr. eapply good_root_keep; [apply same_keep; exact S0|exact Hr]. }
    split; [congruence|]. split; [|split; [now rewrite (sm_own _ _ _ S0)|split; [exact Hnd|]]].
    2:{ eapply shape_eq; [apply (sm_own _ _ _ S0)|apply (sm_img _ _ _ S0)|exact Hg|exact Hsh]. }
    intros _.
    pose proof (sm_nn _ _ _ S2). pose proof (sm_nn _ _ _ S3). pose proof (sm_nn _ _ _ St). lia.
  - assert (Ho : lenN (own w s) < nitems).
    { rewrite <- (sm_own _ _ _ S1). pose proof (own_le_owner t1). pose proof (iv_nn _ _ _ _ _ _ _ I1). lia. }
    apply wp_bind; [exact I3|]. apply wp_collect; auto. intros t4 I4 H4 S4.
    pose proof (same_trans _ _ _ _ S13 S4) as S04.
    apply wp_bind; [exact I4|]. apply wp_root; auto.
    { rewrite (sm_own _ _ _ S04). unfold room. lia. }
    intros i t5 I5 H5 K5 O5 G5 F5 X5. rewrite (sm_own _ _ _ S04) in O5, F5.
    assert (K05 : keep s t5) by (eapply keep_trans; [apply same_keep; exact S04|exact K5]).
    apply IH; auto; [lia|lia| | | | |].
    + apply Forall_app. split; [|now constructor]. eapply Forall_impl; [|exact Hg]. intros r. now apply good_root_keep.
    + intros _. now destruct acc.
    + apply NoDup_snoc; [exact Hnd|]. intro Hi. rewrite Forall_forall in Hg. apply F5. exact (proj1 (Hg _ Hi)).
    + eapply shape_step; [exact I5|exact K05|exact Hg|exact Hsh|].
      destruct X5 as (new & X5). exists new. unfold covers in *. now rewrite <- (sm_own _ _ _ S04).
    + intros rs t (A1 & A2 & A3 & A4 & A5 & A6). apply HQ. split; [exact A1|]. split; [exact A2|].
      split; [eapply keep_trans; eauto|]. auto.
Qed.

(** What a worker may need, at most. *)
Definition need (trees : Z) : N := if (trees =? -1)%Z then 2 * nitems else Z.to_N (Z.max 0 trees) * room.
(** ThreadBuild: annoyindex.go:237-285. *)
Definition thread_post (trees : Z) (t : bst) : Prop :=
  holds w t HFree /\ Forall (good_root t) (mine w t) /\
  ((trees <> -1)%Z -> Z.of_nat (length (mine w t)) = Z.max 0 trees) /\
  (trees = (-1)%Z -> 2 * nitems <= nn t) /\ (own w t <> [] -> mine w t <> []) /\ NoDup (mine w t) /\
  shape t (mine w t).
Lemma wp_thread f mf rf trees s : Inv s -> holds w s HFree -> own w s = [] -> mine w s = [] ->
  need trees <= bud w -> (Nat.max 1 (length added) <= mf)%nat ->
  (if (trees =? -1)%Z then N.to_nat nitems < f else Z.to_nat trees < f)%nat ->
  wp (thread_build fo c nitems f mf rf trees w) (fun _ t => thread_post trees t) s.
Proof.
  intros HI Hs Ho Hm Hn Hmf Hf. unfold thread_build, need in *. apply wp_bind; [exact HI|].
  assert (Hk : forall rs t, loop_post trees s rs t ->
     wp (vis! ALockRoots; vis old <- AGetRoots; vis! ASetRoots (old ++ map (fun r => (w, r)) rs); vis! AUnlockRoots; Ret tt)
       (fun _ t => thread_post trees t) t).
  { intros rs t (A1 & A2 & A3 & A4 & A5 & A6 & A7).
    apply rule_lock_roots; [exact A2|]. intros t1 I1 H1 S1.
    apply rule_get_roots; [exact H1|]. intros t2 I2 H2 S2 B2. rewrite <- B2.
    pose proof (same_trans _ _ _ _ S1 S2) as S02.
    apply rule_set_roots; [exact H2|exact Hw|]. intros t3 I3 H3 O3 N3 E3 M3.
    apply rule_unlock_roots; [exact H3|]. intros t4 I4 H4 S4.
    eapply wp_ret; [exact H4|]. intros t5 I5 H5 S5.
    pose proof (same_trans _ _ _ _ S4 S5) as S35.
    assert (Hrs : mine w t5 = rs).
    { rewrite (sm_mine _ _ _ S35), M3, (sm_mine _ _ _ S02), (kp_mine _ _ _ A3), Hm. reflexivity. }
    assert (O5 : own w t5 = own w t) by (rewrite (sm_own _ _ _ S35), O3; apply (sm_own _ _ _ S02)).
    assert (Hi : forall j, In j (own w t) -> simg t5 j = simg t j).
    { intros j Hj. rewrite (sm_img _ _ _ S35) by (rewrite O3, (sm_own _ _ _ S02); exact Hj).
      rewrite E3 by (rewrite (sm_own _ _ _ S02); exact Hj). apply (sm_img _ _ _ S02). exact Hj. }
    unfold thread_post. rewrite Hrs, O5. split; [exact H5|]. split.
    { eapply Forall_impl; [|exact A4]. intros r [Hr Ht]. split; [now rewrite O5|]. intro Hv.
      destruct (Ht Hv) as (xs & m & B1 & B3 & B4). exists xs, m. split; [|auto].
      clear - B1 Hi O5. induction B1 as [| |i Hi' Hn Hd|i l r' xs ys m n Hi' Hn Hd Hc Hx Hl IHl Hr' IHr].
      - now apply t_item.
      - now apply t_hole.
      - rewrite <- (Hi i Hi') in *. apply t_bucket; auto. now rewrite O5.
      - rewrite <- (Hi i Hi') in *. eapply t_split; eauto. now rewrite O5. }
    split; [exact A5|]. destruct A7 as (A7 & A8 & A9). split; [|split; [exact A7|]; split; [exact A8|]].
    2:{ eapply shape_eq; [exact O5|exact Hi|exact A4|exact A9]. }
    intro Ht. specialize (A6 Ht).
    pose proof (sm_nn _ _ _ S02). pose proof (sm_nn _ _ _ S35). lia. }
  destruct (Z.eqb_spec trees (-1)) as [E|E].
  - rewrite E in *. apply wp_loop_auto; auto; try (intro C; congruence); try (now apply shape_nil); try constructor; [lia|rewrite Ho, lenN_nil; lia].
  - apply wp_loop_n; auto; cbn [length]; try lia; try (intro C; congruence); try (now apply shape_nil); try constructor. rewrite Ho, lenN_nil, Z.sub_0_r. lia.
Qed.
End T.
