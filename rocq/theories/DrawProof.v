(** The randomising loop of makeTree can always be left (C22). *)
From Verif Require Import Base Flt Layout Rng Alloc Prog Imbalance Dist Build Lib RoundProof BuildSpec.
From Coq Require Import Permutation.
Open Scope N_scope.

Lemma drawn_bind {A B} (p : prog A) (f : A -> prog B) : forall a b x y,
  drawn p a = Some x -> drawn (f x) b = Some y -> drawn (pbind p f) (a ++ b) = Some y.
Proof.
  induction p as [r|e|X e k IH]; intros a b x y H1 H2; cbn [pbind drawn] in *.
  - destruct a; [|discriminate]. injection H1 as ->. exact H2.
  - discriminate.
  - destruct e; try discriminate. destruct a as [|d a]; [discriminate|]. cbn [app]. eapply IH; eauto.
Qed.

Definition bit (b : bool) : N := if b then 0 else 1.
Lemma side_bit b : side_of_draw (bit b) = b.
Proof. now destruct b. Qed.
Lemma partition_bits : forall (nodes : list (N * list N)) bits, length bits = length nodes ->
  exists lr, drawn (partition_by (fun _ => draw_side) nodes) (map bit bits) = Some lr /\
    lenN (fst lr) = N.of_nat (count_occ Bool.bool_dec bits false) /\
    lenN (snd lr) = N.of_nat (count_occ Bool.bool_dec bits true) /\
    Permutation (fst lr ++ snd lr) (map fst nodes).
Proof.
  induction nodes as [|x nodes IH]; intros [|b bits] H; try discriminate.
  - exists ([], []). repeat split. reflexivity.
  - injection H as H. destruct (IH bits H) as (lr & H1 & H2 & H3 & H4). cbn [partition_by map].
    exists (if b then (fst lr, fst x :: snd lr) else (fst x :: fst lr, snd lr)). split.
    + eapply (drawn_bind draw_side _ [bit b] (map bit bits)).
      * unfold draw_side. cbn [drawn]. rewrite side_bit. reflexivity.
      * rewrite <- (app_nil_r (map bit bits)). eapply drawn_bind; [exact H1|]. cbn [drawn]. reflexivity.
    + destruct b; cbn [count_occ fst snd]; rewrite ?lenN_cons.
      * destruct (Bool.bool_dec true false); [discriminate|]. destruct (Bool.bool_dec true true); [|congruence].
        split; [exact H2|]. split; [lia|]. rewrite <- Permutation_middle. now apply perm_skip.
      * destruct (Bool.bool_dec false false); [|congruence]. destruct (Bool.bool_dec false true); [discriminate|].
        split; [lia|]. split; [exact H3|]. cbn [app]. now apply perm_skip.
Qed.
Lemma count_repeat b b' n : count_occ Bool.bool_dec (repeat b n) b' = if Bool.bool_dec b b' then n else 0%nat.
Proof.
  induction n as [|n IH]; cbn [repeat count_occ]; [now destruct (Bool.bool_dec b b')|].
  rewrite IH. now destruct (Bool.bool_dec b b').
Qed.

Section D.
Variable fo : FOps.
Variable c : Cfg.
Lemma randomise_ends f nodes m cur : 2 <= lenN nodes < 2 ^ 64 ->
  exists bits m' lr, (length bits <= length nodes)%nat /\
    drawn (randomise fo c (S f) nodes m cur) (map bit bits) = Some (m', lr) /\
    split_usable (lenN (fst lr)) (lenN (snd lr)) = true.
Proof.
  intro Hn. cbn [randomise]. destruct (split_usable (lenN (fst cur)) (lenN (snd cur))) eqn:E.
  - exists [], m, cur. split; [cbn; lia|]. split; [reflexivity|exact E].
  - set (n := lenN nodes) in *. set (bits := repeat false (N.to_nat (n / 2)) ++ repeat true (N.to_nat (n - n / 2))).
    assert (Hd : n / 2 <= n) by (apply N.div_le_upper_bound; lia).
    assert (Hl : length bits = length nodes).
    { unfold bits. rewrite app_length, !repeat_length. unfold n, lenN in *. lia. }
    destruct (partition_bits nodes bits Hl) as (lr & H1 & H2 & H3 & _).
    assert (E2 : lenN (fst lr) = n / 2 /\ lenN (snd lr) = n - n / 2).
    { rewrite H2, H3. unfold bits. rewrite !count_occ_app, !count_repeat.
      destruct (Bool.bool_dec false false); [|congruence]. destruct (Bool.bool_dec true false); [discriminate|].
      destruct (Bool.bool_dec false true); [discriminate|]. destruct (Bool.bool_dec true true); [|congruence]. lia. }
    destruct E2 as [E2 E3].
    assert (Hu : split_usable (lenN (fst lr)) (lenN (snd lr)) = true).
    { rewrite E2, E3. apply good_usable; [lia|lia|]. apply balanced_good. lia. }
    exists bits, (mkSN fo (s_norm fo m) (s_dot fo m) (repeat (f0 fo) (N.to_nat (vlen c)))), lr.
    split; [lia|]. split; [|exact Hu]. rewrite <- (app_nil_r (map bit bits)). eapply drawn_bind; [exact H1|].
    destruct f; cbn [randomise]; rewrite Hu; reflexivity.
Qed.
Lemma bit_lt b : ixb c = 4 \/ ixb c = 8 -> bit b < 2 ^ iw c.
Proof. unfold iw. intros [-> | ->]; destruct b; reflexivity. Qed.
End D.
