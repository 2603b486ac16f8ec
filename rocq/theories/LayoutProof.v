(** Facts about node layout for configurations whose node size fits the index type. *)
From Verif Require Import Base Flt Layout Lib.
Open Scope N_scope.

(** A usable configuration: index width 4 or 8 bytes, an arithmetic whose encoding can be
    read back, and nodes of at most 2^30 bytes, the most that SetVector and SetChildren
    can copy (angular/node.go:51-57,71-77; longer vectors: C04).  Then the node size does
    not wrap in the index type. *)
Record CfgOK (fo : FOps) (c : Cfg) : Prop := mkCfgOK {
  ok_fl : FLaws fo;
  ok_ixb : ixb c = 4 \/ ixb c = 8;
  ok_copy : off_vec fo c + vlen c * fbytes fo <= 2 ^ 30
}.
Lemma ok_size fo c : CfgOK fo c -> off_vec fo c + vlen c * fbytes fo < 2 ^ iw c.
Proof.
  intro OK. eapply N.le_lt_trans; [apply (ok_copy _ _ OK)|]. apply N.pow_lt_mono_r; [lia|].
  unfold iw. destruct (ok_ixb _ _ OK) as [->| ->]; lia.
Qed.

Section P.
Variable fo : FOps.
Variable c : Cfg.
Hypothesis OK : CfgOK fo c.

Lemma ixb_pos : 0 < ixb c.
Proof. destruct (ok_ixb _ _ OK) as [->| ->]; lia. Qed.
Lemma ixb_le8 : 4 <= ixb c <= 8.
Proof. destruct (ok_ixb _ _ OK) as [->| ->]; lia. Qed.
Lemma fb_48 : fbytes fo = 4 \/ fbytes fo = 8.
Proof. apply (fl_bytes _ (ok_fl _ _ OK)). Qed.
Lemma fb_pos : 4 <= fbytes fo <= 8.
Proof. destruct fb_48 as [->| ->]; lia. Qed.

Lemma pow_iw : 2 ^ iw c = 256 ^ N.of_nat (N.to_nat (ixb c)).
Proof. unfold iw. rewrite N2Nat.id, N.pow_mul_r. reflexivity. Qed.
Lemma pow_iw_ge : 2 ^ 32 <= 2 ^ iw c.
Proof. apply N.pow_le_mono_r; [lia|]. unfold iw. destruct (ok_ixb _ _ OK) as [->| ->]; lia. Qed.
Lemma pow_iw_le : 2 ^ iw c <= 2 ^ 64.
Proof. apply N.pow_le_mono_r; [lia|]. unfold iw. destruct (ok_ixb _ _ OK) as [->| ->]; lia. Qed.
Lemma pow_iw_pos : 0 < 2 ^ iw c.
Proof. pose proof pow_iw_ge. change (2 ^ 32) with 4294967296 in H. lia. Qed.

Lemma tix_small x : x < 2 ^ iw c -> tix c x = x.
Proof. apply wrap_small. Qed.
Lemma tix_lt x : tix c x < 2 ^ iw c.
Proof. apply wrap_lt. Qed.

Lemma off_dot_ge : 3 * ixb c <= off_dot fo c <= 3 * ixb c + 4.
Proof.
  unfold off_dot, align.
  destruct (ok_ixb _ _ OK) as [->| ->], fb_48 as [->| ->]; vm_compute; split; discriminate.
Qed.
Lemma off_vec_eq : off_vec fo c = match knd c with Angular => off_dot fo c | DotProduct => off_dot fo c + fbytes fo end.
Proof. reflexivity. Qed.
Lemma off_vec_ge : 3 * ixb c <= off_vec fo c.
Proof. pose proof off_dot_ge. unfold off_vec. destruct (knd c); lia. Qed.
Lemma off_dot_le : off_dot fo c <= off_vec fo c.
Proof. unfold off_vec. destruct (knd c); lia. Qed.
Lemma norm_before_dot : off_children c + fbytes fo <= 3 * ixb c.
Proof. unfold off_children. destruct (ok_ixb _ _ OK) as [->| ->], fb_48 as [->| ->]; lia. Qed.

Lemma nodeSize_eq : nodeSize fo c = off_vec fo c + vlen c * fbytes fo.
Proof.
  pose proof (ok_size _ _ OK) as H. pose proof pow_iw_le.
  unfold nodeSize, u64. rewrite (wrap_small 64 (vlen c * fbytes fo)) by lia.
  rewrite (wrap_small 64) by lia. apply tix_small. exact H.
Qed.
Lemma nodeSize_lt : nodeSize fo c < 2 ^ iw c.
Proof. rewrite nodeSize_eq. apply (ok_size _ _ OK). Qed.
Lemma nodeSize_ge : 3 * ixb c <= nodeSize fo c.
Proof. rewrite nodeSize_eq. pose proof off_vec_ge. lia. Qed.
Lemma nodeSize_pos : 0 < nodeSize fo c.
Proof. pose proof nodeSize_ge. pose proof ixb_pos. lia. Qed.

Lemma maxK_eq : maxK fo c = (nodeSize fo c - ixb c) / ixb c.
Proof.
  pose proof nodeSize_ge. pose proof ixb_le8. pose proof nodeSize_lt. pose proof pow_iw_le.
  unfold maxK, u64.
  replace (wrap 64 (nodeSize fo c + 2 ^ 64 - ixb c)) with (nodeSize fo c - ixb c).
  - apply tix_small. apply N.le_lt_trans with (nodeSize fo c - ixb c); [|lia].
    apply N.div_le_upper_bound; [lia|]. nia.
  - unfold wrap. replace (nodeSize fo c + 2 ^ 64 - ixb c) with ((nodeSize fo c - ixb c) + 1 * 2 ^ 64) by lia.
    rewrite N.mod_add by lia. symmetry. apply N.mod_small. lia.
Qed.
Lemma maxK_fits : ixb c * (maxK fo c + 1) <= nodeSize fo c.
Proof.
  pose proof nodeSize_ge. pose proof ixb_pos. rewrite maxK_eq.
  pose proof (N.mul_div_le (nodeSize fo c - ixb c) (ixb c)). lia.
Qed.
Lemma maxK_ge2 : 2 <= maxK fo c.
Proof.
  pose proof nodeSize_ge. pose proof ixb_pos. rewrite maxK_eq.
  apply N.div_le_lower_bound; lia.
Qed.
Lemma maxK_lt : maxK fo c < 2 ^ iw c.
Proof. pose proof maxK_fits. pose proof nodeSize_lt. pose proof ixb_le8. nia. Qed.

Lemma addr_small i : i * nodeSize fo c < 2 ^ iw c -> addr fo c i = i * nodeSize fo c.
Proof. apply tix_small. Qed.

(** ** Encodings *)
Lemma length_enc_ix x : length (enc_ix c x) = N.to_nat (ixb c).
Proof. apply length_le_enc. Qed.
Lemma lenN_enc_ix x : lenN (enc_ix c x) = ixb c.
Proof. unfold lenN. rewrite length_enc_ix. lia. Qed.
Lemma dec_enc_ix x : x < 2 ^ iw c -> le_dec (enc_ix c x) = x.
Proof. intro H. apply le_dec_enc_small. rewrite <- pow_iw. exact H. Qed.
Lemma length_enc_ixs l : length (enc_ixs c l) = (N.to_nat (ixb c) * length l)%nat.
Proof. apply length_flat_map_le_enc. Qed.
Lemma lenN_enc_ixs l : lenN (enc_ixs c l) = ixb c * lenN l.
Proof. unfold lenN. rewrite length_enc_ixs. lia. Qed.
Lemma dec_enc_ixs l rest :
  Forall (fun x => x < 2 ^ iw c) l -> dec_ixs c (lenN l) (enc_ixs c l ++ rest) = l.
Proof.
  intro H. unfold dec_ixs, enc_ixs, lenN. rewrite Nat2N.id.
  change (enc_ix c) with (le_enc (N.to_nat (ixb c))). rewrite words_flat_map.
  rewrite <- pow_iw. rewrite <- (map_id l) at 2. apply map_ext_in.
  intros x Hx. rewrite Forall_forall in H. apply N.mod_small. auto.
Qed.
Lemma length_enc_f x : length (enc_f fo x) = N.to_nat (fbytes fo).
Proof. apply length_le_enc. Qed.
Lemma lenN_enc_f x : lenN (enc_f fo x) = fbytes fo.
Proof. unfold lenN. rewrite length_enc_f. lia. Qed.
Lemma dec_enc_f x : dec_f fo (enc_f fo x) = x.
Proof.
  unfold dec_f, enc_f. rewrite le_dec_enc_small; [apply (fl_dec_enc _ (ok_fl _ _ OK))|].
  rewrite N2Nat.id. change 256 with (2 ^ 8). rewrite <- N.pow_mul_r.
  apply (fl_enc_bound _ (ok_fl _ _ OK)).
Qed.
Lemma enc_vec_eq v : enc_vec fo v = flat_map (le_enc (N.to_nat (fbytes fo))) (map (enc fo) v).
Proof. unfold enc_vec, enc_f. induction v; cbn; congruence. Qed.
Lemma length_enc_vec v : length (enc_vec fo v) = (N.to_nat (fbytes fo) * length v)%nat.
Proof. rewrite enc_vec_eq, length_flat_map_le_enc, map_length. reflexivity. Qed.
Lemma lenN_enc_vec v : lenN (enc_vec fo v) = fbytes fo * lenN v.
Proof. unfold lenN. rewrite length_enc_vec. lia. Qed.
Lemma dec_enc_vec v rest : lenN v = vlen c -> dec_vec fo c (enc_vec fo v ++ rest) = v.
Proof.
  intro H. unfold dec_vec. rewrite <- H. unfold lenN. rewrite Nat2N.id.
  rewrite enc_vec_eq. replace (length v) with (length (map (enc fo) v)) by apply map_length.
  rewrite words_flat_map, !map_map. rewrite <- (map_id v) at 2. apply map_ext. intro x.
  rewrite N.mod_small.
  - apply (fl_dec_enc _ (ok_fl _ _ OK)).
  - rewrite N2Nat.id. change 256 with (2 ^ 8). rewrite <- N.pow_mul_r. apply (fl_enc_bound _ (ok_fl _ _ OK)).
Qed.
End P.
