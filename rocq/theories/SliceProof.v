(** Proofs about the slices GetItem returns. *)
From Verif Require Import Base Flt Layout Rng Alloc Prog Dist Build Index Spec Lib LayoutProof MemProof StoreProof Slice.
Open Scope N_scope.

Section S.
Variable fo : FOps.
Variable c : Cfg.
Hypothesis OK : CfgOK fo c.
Notation NSZ := (nodeSize fo c).

(** Byte slice [g] is no longer the index's memory; it contains [b]. *)
Definition retired (g : nat) (b : buf) (s : bst) : Prop :=
  base s <> Some g /\ al s <> Some g /\ nth_error (heap s) g = Some b.
(** Byte slice [g] is the index's memory. *)
Definition current (g : nat) (s : bst) : Prop := base s = Some g /\ al s = Some g.

Lemma write_other w p off bs s s' u : exec c w (AWrite p off bs) s = Ok (u, s') ->
  base s' = base s /\ al s' = al s /\ forall g, p <> Some g -> nth_error (heap s') g = nth_error (heap s) g.
Proof.
  cbn [exec]. destruct p as [g0|]; [|discriminate]. destruct (nth_error (heap s) g0) as [b|] eqn:E; [|discriminate].
  destruct (bwrite b off bs) as [b'|]; [|discriminate]. cbn [rbind]. intros [= <- <-].
  cbn [set_arenas set_heap base al heap]. split; [reflexivity|]. split; [reflexivity|]. intros g Hg.
  assert (L : (g0 < length (heap s))%nat) by (apply nth_error_Some; congruence).
  assert (Hne : g <> g0) by congruence. destruct (Nat.lt_ge_cases g g0).
  - rewrite nth_error_app1 by (rewrite firstn_length_le; lia).
    rewrite <- (firstn_skipn g0 (heap s)) at 2. rewrite nth_error_app1; [reflexivity|rewrite firstn_length_le; lia].
  - rewrite nth_error_app2; rewrite firstn_length_le by lia; [|lia].
    destruct (g - g0)%nat as [|j] eqn:Ej; [lia|]. cbn [app nth_error].
    rewrite <- (firstn_skipn (S g0) (heap s)) at 2. rewrite nth_error_app2; rewrite firstn_length_le by lia; [f_equal; lia|lia].
Qed.

Lemma realloc_cases h a n h' p : reallocate h a n = (h', p) ->
  (h' = h /\ p = a) \/ (p = Some (length h) /\ exists b, h' = h ++ [b]).
Proof.
  unfold reallocate. destruct (arena_at h a) as [b|]; [destruct (n <? bsize b)|]; intros [= <- <-]; eauto.
Qed.

Lemma alloc_retired n s s' g b u : run c 0 (allocate_size fo c n false) s = Ok (u, s') ->
  retired g b s -> retired g b s'.
Proof.
  intros E (R1 & R2 & R3). unfold allocate_size in E. cbn [run exec rbind] in E.
  destruct (ns s <? n); [|injection E as <- <-; repeat split; assumption].
  cbn [pbind run exec rbind] in E. destruct (reallocate (heap s) (al s) _) as [h p] eqn:Er.
  cbn [run exec rbind] in E. injection E as <- <-.
  assert (L : (g < length (heap s))%nat) by (apply nth_error_Some; congruence).
  destruct (realloc_cases _ _ _ _ _ Er) as [[-> ->]|[-> [b' ->]]]; unfold retired; cbn [set_ns set_heap base al heap].
  - repeat split; assumption.
  - split; [intro X; injection X; lia|]. split; [intro X; injection X; lia|]. now rewrite nth_error_app1.
Qed.
Lemma alloc_current n s s' g b u : run c 0 (allocate_size fo c n false) s = Ok (u, s') ->
  current g s -> nth_error (heap s) g = Some b -> current g s' \/ retired g b s'.
Proof.
  intros E (R1 & R2) R3. unfold allocate_size in E. cbn [run exec rbind] in E.
  destruct (ns s <? n); [|injection E as <- <-; left; split; assumption].
  cbn [pbind run exec rbind] in E. destruct (reallocate (heap s) (al s) _) as [h p] eqn:Er.
  cbn [run exec rbind] in E. injection E as <- <-.
  assert (L : (g < length (heap s))%nat) by (apply nth_error_Some; congruence).
  destruct (realloc_cases _ _ _ _ _ Er) as [[-> ->]|[-> [b' ->]]]; unfold retired, current; cbn [set_ns set_heap base al heap].
  - left. split; assumption.
  - right. split; [intro X; injection X; lia|]. split; [intro X; injection X; lia|]. now rewrite nth_error_app1.
Qed.

(** The writes of AddItem, all through the same pointer. *)
Lemma add_writes i v s s' u :
  run c 0 (vis p <- AGetBase; vis! AWrite p (addr fo c i) (enc_ix c 1);
           vis! AWrite p (addr fo c i + off_vec fo c) (enc_vec fo v);
           match knd c with
           | Angular => vis! AWrite p (addr fo c i + off_children c) (enc_f fo (dot fo v v)); Ret tt
           | DotProduct => Ret tt
           end) s = Ok (u, s') ->
  base s' = base s /\ al s' = al s /\ forall g, base s <> Some g -> nth_error (heap s') g = nth_error (heap s) g.
Proof.
  intro E. cbn [run] in E. change (exec c 0 AGetBase s) with (Ok (base s, s)) in E. cbn [rbind run] in E.
  destruct (exec c 0 (AWrite (base s) (addr fo c i) (enc_ix c 1)) s) as [[[] s1]|] eqn:E1; [|discriminate]. cbn [rbind run] in E.
  destruct (exec c 0 (AWrite (base s) (addr fo c i + off_vec fo c) (enc_vec fo v)) s1) as [[[] s2]|] eqn:E2; [|discriminate]. cbn [rbind] in E.
  destruct (write_other _ _ _ _ _ _ _ E1) as (A1 & A2 & A3). destruct (write_other _ _ _ _ _ _ _ E2) as (B1 & B2 & B3).
  destruct (knd c); cbn [run] in E.
  - destruct (exec c 0 (AWrite (base s) (addr fo c i + off_children c) (enc_f fo (dot fo v v))) s2) as [[[] s3]|] eqn:E3; [|discriminate].
    cbn [rbind run] in E. injection E as <- <-. destruct (write_other _ _ _ _ _ _ _ E3) as (C1 & C2 & C3).
    split; [congruence|]. split; [congruence|]. intros g Hg. rewrite C3, B3, A3 by assumption. reflexivity.
  - injection E as <- <-. split; [congruence|]. split; [congruence|]. intros g Hg. rewrite B3, A3 by assumption. reflexivity.
Qed.

Lemma add_retired ix i v ix' g b : add_item fo c ix i v = Ok ix' -> retired g b (ib ix) -> retired g b (ib ix').
Proof.
  unfold add_item. destruct (iloaded ix); [discriminate|]. destruct (negb _); [discriminate|]. destruct (2 ^ 30 <? _); [discriminate|]. unfold add_prog.
  rewrite run_pbind. destruct (run c 0 (allocate_size fo c (tix c (i + 1)) false) (ib ix)) as [[u s1]|] eqn:E1; [|discriminate].
  cbn [rbind]. intros E R. apply (alloc_retired _ _ _ _ _ _ E1) in R. destruct R as (R1 & R2 & R3).
  match type of E with rbind ?r _ = _ => destruct r as [[u' s2]|] eqn:E2; [|discriminate] end.
  cbn [rbind] in E. injection E as <-. cbn [ib]. destruct (add_writes _ _ _ _ _ E2) as (A1 & A2 & A3).
  unfold retired. rewrite A1, A2, A3 by assumption. auto.
Qed.
Lemma add_current ix i v ix' g b : add_item fo c ix i v = Ok ix' -> current g (ib ix) -> nth_error (heap (ib ix)) g = Some b ->
  current g (ib ix') \/ retired g b (ib ix').
Proof.
  unfold add_item. destruct (iloaded ix); [discriminate|]. destruct (negb _); [discriminate|]. destruct (2 ^ 30 <? _); [discriminate|]. unfold add_prog.
  rewrite run_pbind. destruct (run c 0 (allocate_size fo c (tix c (i + 1)) false) (ib ix)) as [[u s1]|] eqn:E1; [|discriminate].
  cbn [rbind]. intros E R R'. pose proof (alloc_current _ _ _ _ _ _ E1 R R') as Q.
  match type of E with rbind ?r _ = _ => destruct r as [[u' s2]|] eqn:E2; [|discriminate] end.
  cbn [rbind] in E. injection E as <-. cbn [ib]. destruct (add_writes _ _ _ _ _ E2) as (A1 & A2 & A3).
  destruct Q as [(R1 & R2)|(R1 & R2 & R3)]; [left; split; congruence|].
  right. unfold retired. rewrite A1, A2, A3 by assumption. auto.
Qed.

Notation V := (list (F fo)).
Definition value (f : N -> option V) (i : N) : V :=
  match f i with Some v => v | None => repeat (dec fo 0) (N.to_nat (vlen c)) end.

Lemma inv_current ix f i : items_inv fo c ix f -> i < n_items ix ->
  exists g b, current g (ib ix) /\ nth_error (heap (ib ix)) g = Some b /\ ns (ib ix) * NSZ <= bsize b.
Proof.
  intros I Hi. pose proof (ii_ns _ _ _ _ I). destruct (view_ok fo c ix f (fun _ => None) I) as (b & _ & Ha & Hz); [lia|].
  destruct (sw_base _ _ _ (ii_store _ _ _ _ I)) as [?|Hb]; [lia|].
  destruct (al (ib ix)) as [g|] eqn:Eg; [|discriminate]. cbn [arena_at] in Ha. exists g, b. repeat split; congruence.
Qed.
Lemma slice_current ix f i g : items_inv fo c ix f -> i < n_items ix -> current g (ib ix) ->
  slice_read fo c ix (mkSlice g (addr fo c i + off_vec fo c)) = Ok (value f i).
Proof.
  intros I Hi [C1 _]. pose proof (get_item_spec fo c OK ix f (fun _ => None) i I Hi) as G.
  rewrite map_repeat in G. fold (value f i) in G. rewrite <- G. unfold slice_read, get_item, view. cbn [sl_arena sl_off]. now rewrite C1.
Qed.

(** What a slice taken earlier shows after more additions. *)
Lemma slice_follows i : forall h2 ix f, items_inv fo c ix f -> i < n_items ix -> hist_ok fo c h2 ->
  exists ix2, add_all fo c ix h2 = Ok ix2 /\
  forall g, current g (ib ix) ->
  exists h2a h2b, h2 = h2a ++ h2b /\
    slice_read fo c ix2 (mkSlice g (addr fo c i + off_vec fo c)) =
      Ok (value (fun j => match last_added h2a j with Some v => Some v | None => f j end) i) /\
    (current g (ib ix2) -> h2b = []).
Proof.
  induction h2 as [|[j v] h2 IH]; intros ix f I Hi H.
  - exists ix. split; [reflexivity|]. intros g C. exists [], []. split; [reflexivity|]. split; [|reflexivity].
    exact (slice_current ix f i g I Hi C).
  - inversion H as [|? ? [Hc Hv] H']; subst. cbn [fst snd] in *.
    destruct (add_item_inv fo c OK ix f j v I Hc Hv) as (ix1 & E1 & I1 & Hn & _).
    assert (Hi1 : i < n_items ix1) by lia.
    destruct (IH ix1 _ I1 Hi1 H') as (ix2 & E2 & S2). exists ix2.
    split; [cbn [add_all]; rewrite E1; exact E2|]. intros g C.
    destruct (inv_current ix f i I Hi) as (g' & b & C' & Hb & _).
    assert (g' = g) as -> by (destruct C, C'; congruence).
    destruct (add_current _ _ _ _ _ _ E1 C Hb) as [C1|R1].
    + destruct (S2 g C1) as (a & r & -> & S & Z). exists ((j, v) :: a), r. split; [reflexivity|]. split; [|exact Z].
      rewrite S. f_equal. unfold value. cbn [last_added]. destruct (last_added a i); [reflexivity|].
      destruct (N.eqb_spec i j), (N.eqb_spec j i); congruence.
    + exists [], ((j, v) :: h2). split; [reflexivity|].
      assert (R2 : retired g b (ib ix2)).
      { clear - E2 R1. revert ix1 E2 R1. induction h2 as [|[k w] h2 IH]; intros ix1 E2 R1; cbn [add_all] in E2; [congruence|].
        destruct (add_item fo c ix1 k w) as [ix'|] eqn:E; [|discriminate]. cbn [rbind] in E2.
        exact (IH ix' E2 (add_retired _ _ _ _ _ _ E R1)). }
      split; [|intros [X _]; destruct R2 as [Y _]; congruence].
      cbn [last_added]. change (fun j0 : N => f j0) with f. rewrite <- (slice_current ix f i g I Hi C).
      unfold slice_read. cbn [sl_arena sl_off]. destruct R2 as (_ & _ & ->). now rewrite Hb.
Qed.

(** Writing through a slice that is still a window into the index. *)
Lemma slice_write_spec ix f i w g : items_inv fo c ix f -> i < n_items ix -> current g (ib ix) -> lenN w = vlen c ->
  exists ix', slice_write fo c ix (mkSlice g (addr fo c i + off_vec fo c)) w = Ok ix' /\ n_items ix' = n_items ix /\
    (forall fs, get_item fo c fs ix' i = Ok w) /\
    forall fs j, j < n_items ix -> j <> i -> get_item fo c fs ix' j = get_item fo c fs ix j.
Proof.
  intros I Hi C Hw. destruct (inv_current ix f i I Hi) as (g' & b & C' & Hb & Hz).
  assert (g' = g) as -> by (destruct C, C'; congruence). destruct C as [C1 C2].
  pose proof (ii_ns _ _ _ _ I) as Hns. pose proof (nodeSize_eq _ _ OK) as Hs.
  assert (La : forall j, j < n_items ix -> addr fo c j = j * NSZ)
    by (intros j Hj; apply (cap_ok_addr _ _ _ j (ii_cap _ _ _ _ I) Hj)).
  assert (Lw : lenN (enc_vec fo w) = vlen c * fbytes fo) by (rewrite lenN_enc_vec, Hw; apply N.mul_comm).
  assert (Fit : forall j, j < n_items ix -> j * NSZ + off_vec fo c + vlen c * fbytes fo <= bsize b) by (intros j Hj; nia).
  unfold slice_write. cbn [sl_arena sl_off]. rewrite (exec_write c 0 (ib ix) g b); [|exact Hb|rewrite La, Lw by exact Hi; apply Fit; exact Hi].
  cbn [rbind]. eexists. split; [reflexivity|]. split; [reflexivity|].
  set (b' := mkBuf (bsize b) (mwrite (bdata b) (addr fo c i + off_vec fo c) (enc_vec fo w))).
  assert (Hv : forall fs n k l, view fs (mkIdx (set_arenas (firstn g (heap (ib ix)) ++ [b'] ++ skipn (S g) (heap (ib ix))) (ib ix)) n k (iloaded ix) (ibuilt ix) l) = Some b').
  { intros fs n k l. unfold view. cbn [ib set_arenas set_heap base heap]. rewrite C1.
    assert (L : (g < length (heap (ib ix)))%nat) by (apply nth_error_Some; congruence).
    rewrite nth_error_app2; rewrite firstn_length_le by lia; [|lia]. now rewrite Nat.sub_diag. }
  split.
  - intro fs. unfold get_item. rewrite Hv. cbn [vread]. rewrite bread_ok by (cbn [bsize b']; rewrite La by exact Hi; apply Fit; exact Hi).
    cbn [rbind b' bdata]. replace (N.to_nat (vlen c * fbytes fo)) with (length (enc_vec fo w)) by (unfold lenN in Lw; lia).
    rewrite mread_mwrite_same. rewrite <- (app_nil_r (enc_vec fo w)). f_equal. now apply dec_enc_vec.
  - intros fs j Hj Hne. unfold get_item. rewrite Hv. unfold view. rewrite C1, Hb. cbn [vread].
    rewrite !bread_ok by (cbn [bsize b']; rewrite La by exact Hj; apply Fit; exact Hj). cbn [rbind b' bdata].
    rewrite mread_mwrite_disj; [reflexivity|]. rewrite !La, Lw by assumption.
    assert (j < i \/ i < j) as [X|X] by lia; [left|right]; nia.
Qed.
End S.
