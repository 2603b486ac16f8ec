(** AddItem / GetItem: invariants over histories of additions. *)
From Verif Require Import Base Flt Layout Rng Alloc Prog Dist Build Policy Index Spec Lib LayoutProof MemProof.
Open Scope N_scope.

Section S.
Variable fo : FOps.
Variable c : Cfg.
Hypothesis OK : CfgOK fo c.
Notation NSZ := (nodeSize fo c).
Notation V := (list (F fo)).

(** A sequence of AddItem calls. *)
Fixpoint add_all (ix : idx) (h : list (N * V)) : res idx :=
  match h with
  | [] => Ok ix
  | (i, v) :: r => let* ix' := add_item fo c ix i v in add_all ix' r
  end.

(** The bytes of a stored item; [db] are the bytes of the dot factor. *)
Definition item_image (v : V) (db : list N) : list N :=
  enc_ix c 1 ++
  match knd c with
  | Angular => enc_f fo (dot fo v v) ++ repeat 0 (N.to_nat (off_vec fo c - ixb c - fbytes fo))
  | DotProduct => repeat 0 (N.to_nat (off_dot fo c - ixb c)) ++ db
  end ++ enc_vec fo v.
Definition zeros : list N := repeat 0 (N.to_nat NSZ).
Definition zero_dot : list N := repeat 0 (N.to_nat (fbytes fo)).
Definition image_of (o : option V) : list N :=
  match o with Some v => item_image v zero_dot | None => zeros end.

Lemma length_item_image v db :
  lenN v = vlen c -> length db = N.to_nat (fbytes fo) -> length (item_image v db) = N.to_nat NSZ.
Proof.
  intros Hv Hd. unfold item_image. rewrite !app_length, length_enc_ix, length_enc_vec.
  pose proof (nodeSize_eq _ _ OK). pose proof (off_dot_ge _ _ OK). pose proof (norm_before_dot _ _ OK).
  unfold off_children in *. pose proof (off_vec_ge _ _ OK). unfold lenN in Hv.
  pose proof (off_vec_eq fo c) as Ho.
  destruct (knd c); rewrite app_length, ?length_enc_f, repeat_length, ?Hd; nia.
Qed.
Lemma length_image_of o : (forall v, o = Some v -> lenN v = vlen c) -> length (image_of o) = N.to_nat NSZ.
Proof.
  destruct o as [v|]; cbn [image_of]; intro H.
  - apply length_item_image; [now apply H|]. apply repeat_length.
  - apply repeat_length.
Qed.

Lemma repeat_app0 (a b : nat) : repeat 0 (a + b) = repeat 0 a ++ repeat 0 b.
Proof. apply repeat_app. Qed.

(** Storing desc, vector and (angular) norm over an old image gives the new image. *)
Lemma add_image_angular o v :
  knd c = Angular -> lenN v = vlen c -> (forall v, o = Some v -> lenN v = vlen c) ->
  splice (off_children c) (enc_f fo (dot fo v v))
    (splice (off_vec fo c) (enc_vec fo v) (splice 0 (enc_ix c 1) (image_of o))) = item_image v zero_dot.
Proof.
  intros Hk Hv Ho.
  pose proof (norm_before_dot _ _ OK) as Hn. unfold off_children in *.
  pose proof (off_vec_ge _ _ OK). pose proof (nodeSize_eq _ _ OK) as Hs.
  assert (Hshape : exists a b z d, image_of o = a ++ b ++ z ++ d /\ length a = N.to_nat (ixb c) /\
     length b = N.to_nat (fbytes fo) /\ z = repeat 0 (N.to_nat (off_vec fo c - ixb c - fbytes fo)) /\
     length d = N.to_nat (vlen c * fbytes fo)).
  { destruct o as [v'|]; cbn [image_of].
    - unfold item_image. rewrite Hk. exists (enc_ix c 1), (enc_f fo (dot fo v' v')).
      eexists. exists (enc_vec fo v'). split; [now rewrite <- app_assoc|].
      rewrite length_enc_ix, length_enc_f, length_enc_vec. repeat split; auto.
      specialize (Ho v' eq_refl). unfold lenN in Ho. lia.
    - exists (repeat 0 (N.to_nat (ixb c))), (repeat 0 (N.to_nat (fbytes fo))).
      eexists. exists (repeat 0 (N.to_nat (vlen c * fbytes fo))).
      split; [|rewrite !repeat_length; auto].
      unfold zeros. rewrite <- !repeat_app. f_equal. lia. }
  destruct Hshape as (a & b & z & d & -> & Ha & Hb & Hz & Hd).
  unfold item_image. rewrite Hk.
  match goal with |- context [splice 0 (enc_ix c 1) (a ++ ?r)] =>
    rewrite (splice_mid [] a (enc_ix c 1) r 0 eq_refl ltac:(rewrite length_enc_ix; lia) : splice 0 (enc_ix c 1) (a ++ r) = enc_ix c 1 ++ r) end.
  replace (enc_ix c 1 ++ b ++ z ++ d) with ((enc_ix c 1 ++ b ++ z) ++ d ++ []) by (now rewrite app_nil_r, !app_assoc).
  rewrite (splice_mid _ d (enc_vec fo v) []).
  2:{ rewrite !lenN_app. rewrite (lenN_enc_ix c 1). unfold lenN. rewrite Hb, Hz, repeat_length. lia. }
  2:{ rewrite length_enc_vec. unfold lenN in Hv. lia. }
  rewrite app_nil_r, <- !app_assoc.
  rewrite (splice_mid (enc_ix c 1) b (enc_f fo (dot fo v v))).
  - now rewrite Hz.
  - apply lenN_enc_ix.
  - now rewrite length_enc_f.
Qed.
Lemma add_image_dot o v :
  knd c = DotProduct -> lenN v = vlen c -> (forall v, o = Some v -> lenN v = vlen c) ->
  splice (off_vec fo c) (enc_vec fo v) (splice 0 (enc_ix c 1) (image_of o)) = item_image v zero_dot.
Proof.
  intros Hk Hv Ho.
  pose proof (off_dot_ge _ _ OK) as Hn. pose proof (ixb_pos _ _ OK).
  pose proof (off_vec_ge _ _ OK). pose proof (nodeSize_eq _ _ OK) as Hs. pose proof (off_vec_eq fo c) as Hoe. rewrite Hk in Hoe.
  assert (Hshape : exists a b d, image_of o = a ++ b ++ d /\ length a = N.to_nat (ixb c) /\
     b = repeat 0 (N.to_nat (off_dot fo c - ixb c)) ++ zero_dot /\
     length d = N.to_nat (vlen c * fbytes fo)).
  { destruct o as [v'|]; cbn [image_of].
    - unfold item_image. rewrite Hk. exists (enc_ix c 1). eexists. exists (enc_vec fo v').
      split; [reflexivity|]. rewrite length_enc_ix, length_enc_vec. repeat split; auto.
      specialize (Ho v' eq_refl). unfold lenN in Ho. lia.
    - exists (repeat 0 (N.to_nat (ixb c))). eexists. exists (repeat 0 (N.to_nat (vlen c * fbytes fo))).
      split; [|rewrite !repeat_length; auto].
      unfold zeros, zero_dot. rewrite <- !repeat_app. f_equal. lia. }
  destruct Hshape as (a & b & d & -> & Ha & Hb & Hd).
  unfold item_image. rewrite Hk, <- Hb.
  match goal with |- context [splice 0 (enc_ix c 1) (a ++ ?r)] =>
    rewrite (splice_mid [] a (enc_ix c 1) r 0 eq_refl ltac:(rewrite length_enc_ix; lia) : splice 0 (enc_ix c 1) (a ++ r) = enc_ix c 1 ++ r) end.
  replace (enc_ix c 1 ++ b ++ d) with ((enc_ix c 1 ++ b) ++ d ++ []) by (now rewrite app_nil_r, !app_assoc).
  rewrite (splice_mid _ d (enc_vec fo v) []).
  - now rewrite app_nil_r, <- !app_assoc.
  - rewrite lenN_app, (lenN_enc_ix c 1), Hb. unfold lenN, zero_dot. rewrite app_length, !repeat_length. lia.
  - rewrite length_enc_vec. unfold lenN in Hv. lia.
Qed.

(** ** The invariant *)
Record items_inv (ix : idx) (f : N -> option V) : Prop := mkItemsInv {
  ii_store : store_wf fo c (ib ix);
  ii_len : forall i v, f i = Some v -> lenN v = vlen c;
  ii_img : forall i, snode_img fo c (ib ix) i = image_of (f i);
  ii_ext : forall i v, f i = Some v -> i < n_items ix;
  ii_last : n_items ix = 0 \/ f (n_items ix - 1) <> None;
  ii_cap : cap_ok fo c (n_items ix);
  ii_ns : n_items ix <= ns (ib ix);
  ii_loaded : iloaded ix = false;
  ii_mem : imemory ix = None
}.

Lemma off_fits_vec v : lenN v = vlen c -> off_vec fo c + lenN (enc_vec fo v) <= NSZ.
Proof. intro H. rewrite lenN_enc_vec, (nodeSize_eq _ _ OK). nia. Qed.

Lemma add_item_inv ix f i v :
  items_inv ix f -> cap_ok fo c (i + 1) -> lenN v = vlen c ->
  exists ix', add_item fo c ix i v = Ok ix' /\
    items_inv ix' (fun j => if j =? i then Some v else f j) /\
    n_items ix' = N.max (n_items ix) (i + 1) /\
    rnd (ib ix') = rnd (ib ix) /\ broots (ib ix') = broots (ib ix) /\ nn (ib ix') = nn (ib ix) /\
    ibuilt ix' = ibuilt ix /\ batchMax ix' = batchMax ix.
Proof.
  intros I Hc Hv. pose proof (cap_ok_small _ _ OK _ Hc) as Hsm.
  unfold add_item. rewrite (ii_loaded _ _ I).
  assert (Hvs : vlen c < 2 ^ iw c).
  { pose proof (ok_size _ _ OK). pose proof (fb_pos _ _ OK). nia. }
  rewrite Hv, (tix_small _ _ Hvs), N.eqb_refl. cbn [negb].
  replace (2 ^ 30 <? vlen c * fbytes fo) with false by (pose proof (ok_copy _ _ OK); symmetry; apply N.ltb_ge; lia).
  unfold add_prog. rewrite run_pbind, (tix_small _ _ Hsm).
  destruct (allocate_size_run _ _ OK 0%nat (i + 1) false (ib ix) (ii_store _ _ I) Hc)
    as (s1 & E1 & W1 & Hge & Hns & _ & Hm & Hnn & Hro & Hrn & _).
  rewrite E1. cbn [rbind run]. change (exec c 0 AGetBase s1) with (Ok (base s1, s1)). cbn [rbind run].
  rewrite (cap_ok_addr _ _ (i + 1) i Hc) by lia.
  assert (Hsame : forall j, snode_img fo c s1 j = image_of (f j)).
  { intro j. rewrite <- (ii_img _ _ I j). apply node_at_ext. exact Hm. }
  pose proof (nodeSize_ge _ _ OK). pose proof (norm_before_dot _ _ OK). pose proof (ixb_pos _ _ OK).
  destruct (exec_write_wf _ _ 0%nat s1 i 0 (enc_ix c 1) W1) as (s2 & E2 & W2 & N2 & M2 & R2 & D2 & B2 & I2 & O2);
    [lia|rewrite lenN_enc_ix; lia|].
  rewrite N.add_0_r in E2. rewrite E2. cbn [rbind run]. rewrite <- B2.
  destruct (exec_write_wf _ _ 0%nat s2 i (off_vec fo c) (enc_vec fo v) W2) as (s3 & E3 & W3 & N3 & M3 & R3 & D3 & B3 & I3 & O3);
    [lia|now apply off_fits_vec|].
  rewrite E3. cbn [rbind run].
  assert (Hfin : exists s4, run c 0 match knd c with
        | Angular => vis! AWrite (base s2) (i * NSZ + off_children c) (enc_f fo (dot fo v v)); Ret tt
        | DotProduct => Ret tt end s3 = Ok (tt, s4) /\ store_wf fo c s4 /\ ns s4 = ns s1 /\
        snode_img fo c s4 i = item_image v zero_dot /\ (forall j, j <> i -> snode_img fo c s4 j = snode_img fo c s1 j) /\
        rnd s4 = rnd s1 /\ broots s4 = broots s1 /\ nn s4 = nn s1).
  { rewrite I2, Hsame in I3. destruct (knd c) eqn:Ek.
    - cbn [run]. rewrite <- B3.
      destruct (exec_write_wf _ _ 0%nat s3 i (off_children c) (enc_f fo (dot fo v v)) W3) as (s4 & E4 & W4 & N4 & M4 & R4 & D4 & B4 & I4 & O4);
        [lia|rewrite (lenN_enc_f fo); lia|].
      rewrite E4. cbn [rbind run]. exists s4. rewrite I4, I3.
      rewrite (add_image_angular (f i) v Ek Hv) by (intros; eapply ii_len; eauto).
      split; [reflexivity|]. repeat split; auto; try congruence; try apply W4.
      intros j Hj. now rewrite O4, O3, O2.
    - cbn [run]. exists s3. rewrite I3.
      rewrite (add_image_dot (f i) v Ek Hv) by (intros; eapply ii_len; eauto).
      split; [reflexivity|]. repeat split; auto; try congruence; try apply W3.
      intros j Hj. now rewrite O3, O2. }
  destruct Hfin as (s4 & E4 & W4 & N4 & I4 & O4 & R4 & B4 & M4).
  rewrite E4. cbn [rbind]. eexists. split; [reflexivity|]. cbn [n_items ib iloaded imemory ibuilt batchMax].
  assert (Hni : (if n_items ix <=? i then i + 1 else n_items ix) = N.max (n_items ix) (i + 1)).
  { destruct (N.leb_spec (n_items ix) i); lia. }
  split; [|repeat split; congruence].
  constructor; cbn [n_items ib iloaded imemory]; rewrite ?Hni.
  - exact W4.
  - intros j w. destruct (N.eqb_spec j i); [intros [= <-]; exact Hv|apply (ii_len _ _ I)].
  - intro j. destruct (N.eqb_spec j i) as [->|Hj]; [exact I4|]. rewrite O4 by exact Hj. apply Hsame.
  - intros j w. destruct (N.eqb_spec j i); [lia|]. intro Hf. pose proof (ii_ext _ _ I _ _ Hf). lia.
  - right. destruct (N.max_spec (n_items ix) (i + 1)) as [[Hlt ->]|[Hle ->]].
    + replace (i + 1 - 1 =? i) with true by lia. discriminate.
    + destruct (N.eqb_spec (n_items ix - 1) i); [discriminate|].
      destruct (ii_last _ _ I) as [Hz|Hl]; [lia|exact Hl].
  - destruct (N.max_spec (n_items ix) (i + 1)) as [[_ ->]|[_ ->]]; [exact Hc|apply I].
  - pose proof (ii_ns _ _ I). lia.
  - reflexivity.
  - exact (ii_mem _ _ I).
Qed.

Lemma new_inv r hint : items_inv (new_index fo c r hint) (fun _ => None).
Proof.
  assert (Hcap0 : cap_ok fo c 0).
  { unfold cap_ok. replace (0 * 3 / 2) with 0 by reflexivity. pose proof (pow_iw_pos _ _ OK). lia. }
  pose proof (pow_iw_pos _ _ OK) as Hp.
  assert (Hz : store_wf fo c (no_bst r)).
  { constructor; cbn [no_bst ns heap al base]; auto; cbn; lia. }
  unfold new_index. destruct (0 <? hint).
  - unfold reallocate. cbn [arena_at]. constructor; cbn [n_items ib iloaded imemory set_heap no_bst]; try discriminate; auto.
    + constructor; cbn [ns heap al base]; auto; cbn; try lia.
      eexists. split; [reflexivity|]. intros a _. apply mget_mempty.
    + intro i. unfold snode_img, smem, cur_mem. cbn [heap al arena_at length nth_error app buf_zero bdata].
      apply node_at_mempty.
  - constructor; cbn [n_items ib iloaded imemory]; try discriminate; auto.
    intro i. apply node_at_mempty.
Qed.

Definition hist_ok (h : list (N * V)) : Prop :=
  Forall (fun iv => cap_ok fo c (fst iv + 1) /\ lenN (snd iv) = vlen c) h.

Lemma items_inv_ext ix f g : (forall i, f i = g i) -> items_inv ix f -> items_inv ix g.
Proof.
  intros H I. constructor; try apply I; intros; rewrite <- ?H in *; try (eapply ii_len; eassumption);
  try (eapply ii_ext; eassumption); try apply I.
Qed.

Lemma add_all_inv h : forall ix f,
  items_inv ix f -> hist_ok h ->
  exists ix', add_all ix h = Ok ix' /\
    items_inv ix' (fun i => match last_added h i with Some v => Some v | None => f i end) /\
    n_items ix' = N.max (n_items ix) (extent h) /\
    rnd (ib ix') = rnd (ib ix) /\ broots (ib ix') = broots (ib ix) /\ nn (ib ix') = nn (ib ix) /\
    ibuilt ix' = ibuilt ix /\ batchMax ix' = batchMax ix.
Proof.
  induction h as [|[i v] h IH]; intros ix f I H; cbn [add_all last_added extent fold_right fst].
  - exists ix. split; [reflexivity|]. split; [exact I|]. repeat split; lia.
  - inversion H as [|? ? [Hc Hv] H']; subst. cbn [fst snd] in *.
    destruct (add_item_inv ix f i v I Hc Hv) as (ix1 & -> & I1 & Hn & Hr & Hb & Hm & Hbu & Hba). cbn [rbind].
    destruct (IH _ _ I1 H') as (ix2 & -> & I2 & Hn2 & Hr2 & Hb2 & Hm2 & Hbu2 & Hba2).
    exists ix2. split; [reflexivity|]. split; [|unfold extent in *; repeat split; try congruence; lia].
    eapply items_inv_ext; [|exact I2]. intro j. cbn beta.
    destruct (last_added h j); [reflexivity|].
    destruct (N.eqb_spec j i), (N.eqb_spec i j); congruence.
Qed.

Lemma view_ok ix f fs : items_inv ix f -> ns (ib ix) <> 0 ->
  exists b, view fs ix = Some b /\ arena_at (heap (ib ix)) (al (ib ix)) = Some b /\ ns (ib ix) * NSZ <= bsize b.
Proof.
  intros I Hn. pose proof (ii_store _ _ I) as W.
  destruct (sw_base _ _ _ W) as [?|Hb]; [lia|]. destruct (sw_some _ _ _ W) as [?|Hs]; [lia|].
  pose proof (sw_alloc _ _ _ W) as Ha. pose proof (sw_room _ _ _ W) as Hr.
  unfold view. rewrite Hb. destruct (al (ib ix)) as [g|]; [|congruence].
  cbn [alloc_wf] in Ha. destruct Ha as (b & Hat & _). unfold ptr_size in Hr. rewrite Hat in Hr.
  exists b. auto.
Qed.

Lemma sub_img_vec ix f i v : items_inv ix f -> f i = Some v ->
  sub (off_vec fo c) (vlen c * fbytes fo) (image_of (f i)) = enc_vec fo v.
Proof.
  intros I Hf. rewrite Hf. cbn [image_of]. unfold item_image, sub.
  pose proof (ii_len _ _ I _ _ Hf) as Hv.
  rewrite app_assoc. rewrite skipn_app_exact.
  - apply firstn_all2. rewrite length_enc_vec. unfold lenN in Hv. lia.
  - rewrite app_length, length_enc_ix.
    pose proof (off_dot_ge _ _ OK). pose proof (norm_before_dot _ _ OK). unfold off_children in *.
    pose proof (off_vec_ge _ _ OK). pose proof (off_vec_eq fo c) as Ho. unfold zero_dot.
    destruct (knd c); rewrite app_length, ?length_enc_f, ?repeat_length; lia.
Qed.

Lemma get_item_spec ix f fs i :
  items_inv ix f -> i < n_items ix ->
  get_item fo c fs ix i =
  Ok (match f i with Some v => v | None => map (dec fo) (repeat 0 (N.to_nat (vlen c))) end).
Proof.
  intros I Hi. pose proof (ii_ns _ _ I).
  destruct (view_ok ix f fs I) as (b & Hv & Hat & Hsz); [lia|].
  unfold get_item. rewrite Hv. cbn [vread].
  rewrite (cap_ok_addr _ _ _ i (ii_cap _ _ I) Hi).
  pose proof (nodeSize_eq _ _ OK) as Hs.
  rewrite bread_ok by nia. cbn [rbind]. f_equal.
  assert (Hread : mread (bdata b) (i * NSZ + off_vec fo c) (N.to_nat (vlen c * fbytes fo)) =
                  sub (off_vec fo c) (vlen c * fbytes fo) (image_of (f i))).
  { rewrite <- (ii_img _ _ I i). unfold snode_img, smem, cur_mem. rewrite Hat.
    unfold node_at. rewrite sub_mread by lia. reflexivity. }
  rewrite Hread. destruct (f i) as [v|] eqn:Ef.
  - rewrite <- Ef, (sub_img_vec ix f i v I Ef). rewrite <- (app_nil_r (enc_vec fo v)).
    apply dec_enc_vec; [exact OK|]. eapply ii_len; eauto.
  - cbn [image_of]. unfold zeros, sub.
    assert (Hz : forall k n, skipn k (repeat 0 n) = repeat 0 (n - k)).
    { induction k as [|k IHk]; intros [|n]; cbn; auto. }
    rewrite Hz.
    assert (Hf : forall k n, (k <= n)%nat -> firstn k (repeat 0 n) = repeat 0 k).
    { induction k as [|k IHk]; intros [|n] Hk; cbn; auto; try lia. f_equal. apply IHk. lia. }
    rewrite Hf by lia.
    unfold dec_vec. replace (N.to_nat (vlen c * fbytes fo)) with (N.to_nat (vlen c) * N.to_nat (fbytes fo))%nat by lia.
    f_equal. generalize (N.to_nat (fbytes fo)) as k. generalize (N.to_nat (vlen c)) as n. clear.
    assert (Hd : forall n, le_dec (repeat 0 n) = 0) by (induction n; cbn; [reflexivity|rewrite IHn; reflexivity]).
    induction n as [|n IH]; intro k; [reflexivity|]. cbn [words repeat Nat.mul].
    rewrite repeat_app, firstn_app_exact, skipn_app_exact by apply repeat_length.
    now rewrite Hd, IH.
Qed.


(** ** From a fresh index *)
Lemma fresh_add_all r hint h : hist_ok h ->
  exists ix, add_all (new_index fo c r hint) h = Ok ix /\ items_inv ix (last_added h) /\ n_items ix = extent h /\
    rnd (ib ix) = r /\ broots (ib ix) = [] /\ ibuilt ix = false.
Proof.
  intro H. destruct (add_all_inv h _ _ (new_inv r hint) H) as (ix & E & I & Hn & Hr & Hb & _ & Hbu & _).
  exists ix. split; [exact E|].
  assert (Hnew : n_items (new_index fo c r hint) = 0 /\ rnd (ib (new_index fo c r hint)) = r /\
                 broots (ib (new_index fo c r hint)) = [] /\ ibuilt (new_index fo c r hint) = false).
  { unfold new_index. destruct (0 <? hint); cbn; auto. }
  destruct Hnew as (N1 & N2 & N3 & N4).
  split; [eapply items_inv_ext; [|exact I]; intro i; cbn beta; now destruct (last_added h i)|].
  rewrite N1 in Hn. repeat split; try congruence. lia.
Qed.

Lemma last_added_extent (h : list (N * V)) i v : last_added h i = Some v -> i < extent h.
Proof.
  induction h as [|[j w] h IH]; cbn [last_added extent fold_right fst]; [discriminate|].
  unfold extent in IH. destruct (last_added h i) as [v'|].
  - intros [= ->]. specialize (IH eq_refl). lia.
  - destruct (N.eqb_spec j i); [lia|discriminate].
Qed.

Lemma get_last_added r hint h : hist_ok h ->
  exists ix, add_all (new_index fo c r hint) h = Ok ix /\
    forall fs i v, last_added h i = Some v -> get_item fo c fs ix i = Ok v.
Proof.
  intro H. destruct (fresh_add_all r hint h H) as (ix & E & I & Hn & _). exists ix. split; [exact E|].
  intros fs i v Hl. rewrite (get_item_spec _ _ fs i I).
  - now rewrite Hl.
  - rewrite Hn. eapply last_added_extent; eauto.
Qed.

Lemma map_repeat {A B} (f : A -> B) x n : map f (repeat x n) = repeat (f x) n.
Proof. induction n; cbn; congruence. Qed.
Lemma get_hole r hint h : hist_ok h ->
  exists ix, add_all (new_index fo c r hint) h = Ok ix /\
    forall fs i, last_added h i = None -> i < extent h ->
      get_item fo c fs ix i = Ok (repeat (dec fo 0) (N.to_nat (vlen c))).
Proof.
  intro H. destruct (fresh_add_all r hint h H) as (ix & E & I & Hn & _). exists ix. split; [exact E|].
  intros fs i Hl Hi. rewrite (get_item_spec _ _ fs i I).
  - now rewrite Hl, map_repeat.
  - now rewrite Hn.
Qed.

Lemma add_accepts r hint h ix i v : hist_ok h -> add_all (new_index fo c r hint) h = Ok ix ->
  cap_ok fo c (i + 1) -> lenN v < 2 ^ iw c ->
  (lenN v = vlen c /\ exists ix', add_item fo c ix i v = Ok ix') \/
  (lenN v <> vlen c /\ add_item fo c ix i v = Er (Panic PLength)).
Proof.
  intros H E Hc Hl. destruct (fresh_add_all r hint h H) as (ix1 & E1 & I & _).
  rewrite E in E1. injection E1 as <-.
  destruct (N.eq_dec (lenN v) (vlen c)) as [Hv|Hv]; [left|right]; (split; [exact Hv|]).
  - destruct (add_item_inv ix _ i v I Hc Hv) as (ix' & E' & _). eauto.
  - unfold add_item. rewrite (ii_loaded _ _ I), (tix_small _ _ Hl).
    replace (vlen c =? lenN v) with false by lia. reflexivity.
Qed.

End S.

Lemma add_loaded fo c ix i v : iloaded ix = true -> add_item fo c ix i v = Er (Panic PLoaded).
Proof. intro H. unfold add_item. now rewrite H. Qed.
Lemma zero_patterns : dec fops32 0 = f0 fops32 /\ dec fops64 0 = f0 fops64.
Proof. split; reflexivity. Qed.
