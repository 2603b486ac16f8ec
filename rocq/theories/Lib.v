(** Lemmas about the vocabulary of Base.v and Layout.v: lists, bytes, memory. *)
From Verif Require Import Base Flt Layout.
From Coq Require Export Lia ZifyBool ZifyNat ZifyN.
From Coq Require Import FMapPositive FMapFacts Permutation.
Open Scope N_scope.

(** ** Lists *)
Lemma lenN_app {A} (l1 l2 : list A) : lenN (l1 ++ l2) = lenN l1 + lenN l2.
Proof. unfold lenN. rewrite app_length. lia. Qed.
Lemma lenN_cons {A} (x : A) l : lenN (x :: l) = lenN l + 1.
Proof. unfold lenN. cbn [length]. lia. Qed.
Lemma lenN_nil {A} : lenN (@nil A) = 0.
Proof. reflexivity. Qed.
Lemma lenN_map {A B} (f : A -> B) l : lenN (map f l) = lenN l.
Proof. unfold lenN. now rewrite map_length. Qed.

Lemma in_rangeN n x : In x (rangeN n) <-> x < n.
Proof.
  unfold rangeN. rewrite in_map_iff. split.
  - intros (y & <- & Hy). apply in_seq in Hy. lia.
  - intro H. exists (N.to_nat x). split; [lia|]. apply in_seq. lia.
Qed.
Lemma lenN_rangeN n : lenN (rangeN n) = n.
Proof. unfold lenN, rangeN. rewrite map_length, seq_length. lia. Qed.
Lemma length_rangeN n : length (rangeN n) = N.to_nat n.
Proof. unfold rangeN. now rewrite map_length, seq_length. Qed.
Lemma NoDup_rangeN n : NoDup (rangeN n).
Proof.
  unfold rangeN. apply FinFun.Injective_map_NoDup; [|apply seq_NoDup].
  intros a b H. lia.
Qed.
Lemma rangeN_0 : rangeN 0 = [].
Proof. reflexivity. Qed.
Lemma rangeN_add a b : rangeN (a + b) = rangeN a ++ map (fun k => a + k) (rangeN b).
Proof.
  unfold rangeN. replace (N.to_nat (a + b)) with (N.to_nat a + N.to_nat b)%nat by lia.
  rewrite seq_app, map_app. f_equal. rewrite map_map. cbn [plus].
  generalize (N.to_nat b) as m. intro m.
  replace (N.to_nat a) with (N.to_nat a + 0)%nat at 1 by lia.
  generalize 0%nat. induction m as [|m IH]; intro s; cbn [seq map]; [reflexivity|].
  f_equal; [lia|]. rewrite <- IH. f_equal. f_equal. lia.
Qed.
Lemma rangeN_succ a : rangeN (a + 1) = rangeN a ++ [a].
Proof. rewrite rangeN_add. do 2 f_equal. change (rangeN 1) with [0]. cbn [map]. f_equal. lia. Qed.
Lemma nth_error_rangeN n k : (k < N.to_nat n)%nat -> nth_error (rangeN n) k = Some (N.of_nat k).
Proof.
  intro H. unfold rangeN. rewrite nth_error_map.
  rewrite (nth_error_nth' _ 0%nat) by (rewrite seq_length; lia).
  rewrite seq_nth by lia. reflexivity.
Qed.

Lemma firstn_app_exact {A} (l1 l2 : list A) n : length l1 = n -> firstn n (l1 ++ l2) = l1.
Proof. intros <-. rewrite firstn_app, Nat.sub_diag, firstn_all. cbn. apply app_nil_r. Qed.
Lemma skipn_app_exact {A} (l1 l2 : list A) n : length l1 = n -> skipn n (l1 ++ l2) = l2.
Proof. intros <-. rewrite skipn_app, Nat.sub_diag, skipn_all. reflexivity. Qed.

Lemma list_split_at {A} (l : list A) g b :
  nth_error l g = Some b -> l = firstn g l ++ b :: skipn (S g) l.
Proof.
  revert l. induction g as [|g IH]; intros [|x l] H; cbn in *; try congruence.
  f_equal. apply IH. exact H.
Qed.
Lemma nth_error_update_eq {A} (l : list A) g b b' :
  nth_error l g = Some b -> nth_error (firstn g l ++ b' :: skipn (S g) l) g = Some b'.
Proof.
  intro H. assert (g < length l)%nat by (apply nth_error_Some; congruence).
  rewrite nth_error_app2; rewrite firstn_length_le by lia; [|lia].
  now rewrite Nat.sub_diag.
Qed.
Lemma nth_error_update_neq {A} (l : list A) g b b' k :
  nth_error l g = Some b -> k <> g -> nth_error (firstn g l ++ b' :: skipn (S g) l) k = nth_error l k.
Proof.
  intros H Hk. assert (g < length l)%nat by (apply nth_error_Some; congruence).
  rewrite (list_split_at l g b H) at 3.
  destruct (Nat.lt_ge_cases k g).
  - rewrite !nth_error_app1; rewrite ?firstn_length_le; try lia. reflexivity.
  - rewrite !nth_error_app2; rewrite ?firstn_length_le; try lia.
    destruct (k - g)%nat eqn:E; [lia|]. reflexivity.
Qed.
Lemma length_update {A} (l : list A) g b b' :
  nth_error l g = Some b -> length (firstn g l ++ b' :: skipn (S g) l) = length l.
Proof.
  intro H. assert (g < length l)%nat by (apply nth_error_Some; congruence).
  rewrite app_length. cbn [length]. rewrite firstn_length_le, skipn_length by lia. lia.
Qed.

(** ** Little-endian bytes *)
Lemma length_le_enc k x : length (le_enc k x) = k.
Proof. revert x; induction k; intro x; cbn; auto. Qed.
Lemma le_dec_enc k x : le_dec (le_enc k x) = x mod 256 ^ N.of_nat k.
Proof.
  revert x. induction k as [|k IH]; intro x.
  - cbn. now rewrite N.mod_1_r.
  - cbn [le_enc le_dec]. rewrite IH.
    rewrite Nat2N.inj_succ, N.pow_succ_r'.
    rewrite N.mod_mul_r by (try lia; apply N.pow_nonzero; lia). lia.
Qed.
Lemma le_dec_enc_small k x : x < 256 ^ N.of_nat k -> le_dec (le_enc k x) = x.
Proof. intro H. rewrite le_dec_enc. now apply N.mod_small. Qed.
Definition is_byte (b : N) : Prop := b < 256.
Lemma le_enc_bytes k x : Forall is_byte (le_enc k x).
Proof.
  revert x; induction k; intro x; cbn; constructor; auto.
  unfold is_byte. apply N.mod_lt. lia.
Qed.
Lemma le_dec_bound bs : Forall is_byte bs -> le_dec bs < 256 ^ lenN bs.
Proof.
  induction 1 as [|b bs Hb _ IH]; [cbn; lia|].
  rewrite lenN_cons. cbn [le_dec]. rewrite N.pow_add_r, N.pow_1_r.
  unfold is_byte in Hb. lia.
Qed.
Lemma le_enc_dec bs : Forall is_byte bs -> le_enc (length bs) (le_dec bs) = bs.
Proof.
  induction 1 as [|b bs Hb _ IH]; [reflexivity|].
  cbn [length le_enc le_dec]. unfold is_byte in Hb. f_equal.
  - rewrite N.mul_comm, N.mod_add by lia. now apply N.mod_small.
  - etransitivity; [|exact IH]. f_equal. rewrite N.mul_comm, N.div_add by lia.
    rewrite N.div_small by lia. lia.
Qed.

Lemma length_words k n bs : length (words k n bs) = n.
Proof. revert bs; induction n; intro bs; cbn; auto. Qed.
Lemma words_flat_map k (l : list N) rest :
  words k (length l) (flat_map (le_enc k) l ++ rest) = map (fun x => x mod 256 ^ N.of_nat k) l.
Proof.
  induction l as [|x l IH]; [reflexivity|].
  cbn [length words flat_map map]. rewrite <- app_assoc.
  rewrite firstn_app_exact, skipn_app_exact by apply length_le_enc.
  now rewrite le_dec_enc, IH.
Qed.
Lemma length_flat_map_le_enc k l : length (flat_map (le_enc k) l) = (k * length l)%nat.
Proof. induction l; cbn [flat_map length]; rewrite ?app_length, ?length_le_enc; lia. Qed.

(** ** Memory *)
Lemma mget_mempty a : mget mempty a = 0.
Proof. unfold mget, mempty. now rewrite PositiveMap.gempty. Qed.
Lemma mget_mset m a b a' : mget (mset m a b) a' = if a' =? a then b else mget m a'.
Proof.
  unfold mget, mset. destruct (N.eqb_spec a' a) as [->|H].
  - now rewrite PositiveMap.gss.
  - rewrite PositiveMap.gso; [reflexivity|]. intro E. apply H.
    rewrite <- (N.pos_pred_succ a'), <- (N.pos_pred_succ a). now rewrite E.
Qed.
Lemma mget_mwrite m off bs a :
  mget (mwrite m off bs) a =
  if (off <=? a) && (a <? off + lenN bs) then nth (N.to_nat (a - off)) bs 0 else mget m a.
Proof.
  revert m off. induction bs as [|b bs IH]; intros m off; cbn [mwrite].
  - rewrite lenN_nil. destruct (_ && _) eqn:E; [lia|reflexivity].
  - rewrite IH, mget_mset, lenN_cons.
    destruct (N.eqb_spec a off) as [->|Hne].
    + replace (off + 1 <=? off) with false by lia. cbn [andb].
      replace (off <=? off) with true by lia. replace (off <? _) with true by lia.
      now rewrite N.sub_diag.
    + destruct ((off + 1 <=? a) && (a <? off + 1 + lenN bs)) eqn:E1;
      destruct ((off <=? a) && (a <? off + (lenN bs + 1))) eqn:E2; try lia; try reflexivity.
      replace (N.to_nat (a - off)) with (S (N.to_nat (a - (off + 1)))) by lia. reflexivity.
Qed.
Lemma mget_mwrite_out m off bs a : a < off \/ off + lenN bs <= a -> mget (mwrite m off bs) a = mget m a.
Proof. intro H. rewrite mget_mwrite. destruct (_ && _) eqn:E; [lia|reflexivity]. Qed.

Lemma length_mread m off n : length (mread m off n) = n.
Proof. revert off; induction n; intro off; cbn; auto. Qed.
Lemma lenN_mread m off n : lenN (mread m off (N.to_nat n)) = n.
Proof. unfold lenN. rewrite length_mread. lia. Qed.
Lemma nth_mread m off n k : (k < n)%nat -> nth k (mread m off n) 0 = mget m (off + N.of_nat k).
Proof.
  revert off k. induction n as [|n IH]; intros off k H; [lia|].
  cbn [mread]. destruct k as [|k]; cbn [nth].
  - now rewrite N.add_0_r.
  - rewrite IH by lia. f_equal. lia.
Qed.
Lemma mread_ext m m' off off' n :
  (forall k, k < N.of_nat n -> mget m (off + k) = mget m' (off' + k)) -> mread m off n = mread m' off' n.
Proof.
  revert off off'. induction n as [|n IH]; intros off off' H; [reflexivity|].
  cbn [mread]. f_equal.
  - specialize (H 0). rewrite !N.add_0_r in H. apply H. lia.
  - apply IH. intros k Hk. specialize (H (k + 1)).
    replace (off + 1 + k) with (off + (k + 1)) by lia.
    replace (off' + 1 + k) with (off' + (k + 1)) by lia. apply H. lia.
Qed.
Lemma mread_ext_get m m' off off' n k :
  mread m off n = mread m' off' n -> k < N.of_nat n -> mget m (off + k) = mget m' (off' + k).
Proof.
  intros H Hk. pose proof (f_equal (fun l => nth (N.to_nat k) l 0) H) as E. cbn beta in E.
  rewrite !nth_mread in E by lia. now rewrite N2Nat.id in E.
Qed.
Lemma mread_mwrite_same m off bs : mread (mwrite m off bs) off (length bs) = bs.
Proof.
  apply nth_ext with (d := 0) (d' := 0); rewrite length_mread; [reflexivity|].
  intros k Hk. rewrite nth_mread by lia. rewrite mget_mwrite.
  unfold lenN. destruct (_ && _) eqn:E; [|lia]. f_equal. lia.
Qed.
Lemma mread_mwrite_disj m off bs off' n :
  off' + N.of_nat n <= off \/ off + lenN bs <= off' -> mread (mwrite m off bs) off' n = mread m off' n.
Proof. intro H. apply mread_ext. intros k Hk. apply mget_mwrite_out. lia. Qed.
Lemma mread_app m off a b : mread m off (a + b) = mread m off a ++ mread m (off + N.of_nat a) b.
Proof.
  revert off. induction a as [|a IH]; intro off; cbn [mread app plus].
  - now rewrite N.add_0_r.
  - f_equal. rewrite IH. do 2 f_equal. lia.
Qed.
Lemma firstn_mread m off n k : (k <= n)%nat -> firstn k (mread m off n) = mread m off k.
Proof.
  intro H. replace n with (k + (n - k))%nat by lia. rewrite mread_app.
  apply firstn_app_exact. apply length_mread.
Qed.
Lemma skipn_mread m off n k : (k <= n)%nat -> skipn k (mread m off n) = mread m (off + N.of_nat k) (n - k).
Proof.
  intro H. replace n with (k + (n - k))%nat at 1 by lia. rewrite mread_app.
  apply skipn_app_exact. apply length_mread.
Qed.
Lemma sub_mread m off n o l :
  o + l <= N.of_nat n -> sub o l (mread m off n) = mread m (off + o) (N.to_nat l).
Proof.
  intro H. unfold sub. rewrite skipn_mread by lia. rewrite firstn_mread by lia.
  f_equal. lia.
Qed.
Lemma mread_mwrite_within m off bs o n :
  o + N.of_nat n <= lenN bs ->
  mread (mwrite m off bs) (off + o) n = firstn n (skipn (N.to_nat o) bs).
Proof.
  intro H. rewrite <- (mread_mwrite_same m off bs) at 2.
  unfold lenN in H. rewrite skipn_mread by lia. rewrite firstn_mread by lia.
  f_equal. lia.
Qed.

(** Bytes stay bytes. *)
Definition bytes_mem (m : mem) : Prop := forall a, mget m a < 256.
Lemma bytes_mread m off n : bytes_mem m -> Forall is_byte (mread m off n).
Proof. intro H. revert off; induction n; intro off; cbn; constructor; auto. apply H. Qed.

(** ** Buffers *)
Lemma bread_ok b off len : off + len <= bsize b -> bread b off len = Ok (mread (bdata b) off (N.to_nat len)).
Proof. intro H. unfold bread. now replace (off + len <=? bsize b) with true by lia. Qed.
Lemma bread_inv b off len bs :
  bread b off len = Ok bs -> off + len <= bsize b /\ bs = mread (bdata b) off (N.to_nat len).
Proof. unfold bread. destruct (N.leb_spec (off + len) (bsize b)); intro E; inversion E; auto. Qed.
Lemma bwrite_ok b off bs :
  off + lenN bs <= bsize b -> bwrite b off bs = Ok (mkBuf (bsize b) (mwrite (bdata b) off bs)).
Proof. intro H. unfold bwrite. now replace (off + lenN bs <=? bsize b) with true by lia. Qed.
Lemma bwrite_inv b off bs b' :
  bwrite b off bs = Ok b' -> off + lenN bs <= bsize b /\ b' = mkBuf (bsize b) (mwrite (bdata b) off bs).
Proof. unfold bwrite. destruct (N.leb_spec (off + lenN bs) (bsize b)); intro E; inversion E; auto. Qed.

(** ** Results *)
Lemma rbind_ok {A B} (r : res A) (k : A -> res B) b :
  rbind r k = Ok b -> exists a, r = Ok a /\ k a = Ok b.
Proof. destruct r as [a|e]; cbn; intro H; [eauto|discriminate]. Qed.

Lemma wrap_small w x : x < 2 ^ w -> wrap w x = x.
Proof. intro H. unfold wrap. now apply N.mod_small. Qed.
Lemma wrap_lt w x : wrap w x < 2 ^ w.
Proof. unfold wrap. apply N.mod_lt. apply N.pow_nonzero. lia. Qed.
Lemma nth_error_ext {A} (l1 l2 : list A) : (forall k, nth_error l1 k = nth_error l2 k) -> l1 = l2.
Proof.
  revert l2; induction l1 as [|x l1 IH]; intros [|y l2] H; auto.
  - specialize (H 0%nat). discriminate.
  - specialize (H 0%nat). discriminate.
  - pose proof (H 0%nat) as H0. cbn in H0. f_equal; [congruence|]. apply IH. intro k. exact (H (S k)).
Qed.
