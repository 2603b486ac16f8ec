(** Queries on a saved and loaded index, built by any number of workers. *)
From Verif Require Import Base Flt Layout Rng Sorts Alloc Prog Imbalance Dist Build Policy Index Search Spec ForestSpec BuildSpec OrderSpec
  Lib LayoutProof FltProof MemProof StoreProof SortsProof NumProof SearchProof QueryProof PolicyProof ConcProof TreeProof BuildProof ForestProof TopProof
  AfterProof CutProof IOProof SameProof OrderProof VisitProof PlaneProof ReloadProof.
From Coq Require Import Permutation Sorted.
Close Scope R_scope. Open Scope N_scope.

Section S.
Variable fo : FOps.
Variable c : Cfg.
Hypothesis OK : CfgOK fo c.
Hypothesis FL : is_float fo.
Notation NSZ := (nodeSize fo c).
Notation K := (maxK fo c).
Notation simg := (snode_img fo c).
Notation V := (list (F fo)).

Lemma sub_splits v w i l r : sub_view v w -> splits fo c v i l r -> splits fo c w i l r.
Proof. intros S H. destruct H as [bs l r R1 K1 C1]. econstructor; eauto. Qed.
Lemma sub_descends v w i d j : sub_view v w -> descends fo c v i d j -> descends fo c w i d j.
Proof.
  intros S H. induction H as [i|i l r d j Hs Hd IH|i l r d j Hs Hd IH]; [apply de_here|eapply de_left|eapply de_right]; eauto using sub_splits.
Qed.
Lemma splits_fun v i l r l' r' : splits fo c v i l r -> splits fo c v i l' r' -> l' = l /\ r' = r.
Proof.
  intros [bs a b R1 K1 C1] [bs' a' b' R2 K2 C2]. rewrite R1 in R2. injection R2 as <-. rewrite C1 in C2. injection C2. auto.
Qed.

Section IO.
Variable ix : idx.
Variable f : N -> option V.
Variable plan : list Z.
Variable ix' : idx.
Hypothesis I : items_inv fo c ix f.
Hypothesis A : after_build fo c ix f plan ix'.
Hypothesis Hv : 3 * ixb c <= vlen c.
Hypothesis HK : K < n_items ix.
Notation ni := (n_items ix).
Notation n := (nn (ib ix')).
Notation rs := (rootsN (ib ix')).
Notation R := (lenN rs).
Hypothesis Hne : rs <> [].
Notation im := (simg (ib ix')).
Notation v0 := (nodes_view fo c ix').

(** The view of a loaded index is that of the nodes that were saved. *)
Lemma file_view_back m : (forall i, i < n -> node_at fo c m i = im i) -> sub_view (Some (buf_of_bytes (mread m 0 (N.to_nat (n * NSZ))))) v0.
Proof.
  intros Hm off len bs E. assert (S : sub_view v0 (Some (buf_of_bytes (mread m 0 (N.to_nat (n * NSZ)))))) by (eapply file_view; eauto).
  assert (Hl : off + len <= n * NSZ).
  { cbn [vread] in E. unfold bread in E. cbn [buf_of_bytes bsize] in E. unfold lenN in E. rewrite length_mread, N2Nat.id in E.
    destruct (N.leb_spec (off + len) (n * NSZ)) as [H|]; [exact H|discriminate]. }
  destruct (vread v0 off len) as [bs'|e] eqn:E'.
  - apply S in E'. congruence.
  - unfold nodes_view in E'. cbn [vread] in E'. unfold bread in E'. cbn [bsize] in E'. replace (off + len <=? n * NSZ) with true in E' by lia. discriminate.
Qed.

Record loadedx (fs2 : files) (ix2 : idx) : Prop := mkLoadedx {
  lx_items : n_items ix2 = ni;
  lx_room : context_length ix2 = context_length ix';
  lx_into : sub_view v0 (view fs2 ix2);
  lx_back : sub_view (view fs2 ix2) v0;
  lx_some : rootsN (ib ix2) <> [];
  lx_dup : NoDup (rootsN (ib ix2));
  lx_count : (length rs <= length (rootsN (ib ix2)) <= 2 * length rs)%nat;
  lx_roots : forall r, In r (rootsN (ib ix2)) -> In r rs \/ exists r0, ren ix' r0 r;
  lx_forest : forest fo c (view fs2 ix2) (n_items ix2) (rootsN (ib ix2)) f
}.
Lemma loadedx_load m knd fs fs2 fl ix0 : (forall i, i < n -> node_at fo c m i = im i) -> fs2 fl = Some (file_bytes fo c ix' m) ->
  rnd (ib ix0) <> None -> exists ix2, load fo c knd fs2 ix0 fl = Ok (ix2, None) /\ loadedx fs2 ix2 /\ same_items fo c fs ix' fs2 ix2.
Proof.
  intros Hm Hf Hr. pose proof (n_ge fo c ix f plan ix' A Hv HK Hne) as Hge.
  destruct (load_run fo c OK ix f plan ix' I A Hv HK Hne m Hm knd fs2 fl ix0 Hf Hr) as (ix2 & k & E2 & L1 & _ & _ & L4 & _ & _ & _ & L5 & L6 & L7 & L8 & _).
  destruct (loaded_ok fo c OK ix f plan ix' I A Hv HK Hne m knd fs fs2 fl ix0 Hm Hf Hr) as (ix2' & E & (S1 & S2 & _ & _ & _ & FO)).
  rewrite E2 in E. injection E as <-. exists ix2. split; [exact E2|]. split; [|exact S1].
  assert (HR1 : rs <> []) by exact Hne.
  constructor; auto.
  - apply S1.
  - rewrite L4. eapply file_view; eauto.
  - rewrite L4. now apply file_view_back.
  - rewrite L5. destruct k as [|k]; [|discriminate]. destruct rs; [congruence|]. rewrite lenN_cons in L6. lia.
  - rewrite L5. apply NoDup_down. lia.
  - unfold lenN in S2. lia.
  - intros r Hin. rewrite L5 in Hin. apply in_down in Hin; [|lia]. destruct Hin as [H1 H2].
    destruct (N.lt_ge_cases r (n - R)) as [Hlt|Hge'].
    + left. eapply (root_of_desc fo c ix f plan ix' A Hv HK); [lia|exact Hlt|]. apply L8; lia.
    + right. destruct (nth_error rs (N.to_nat (r - (n - R)))) as [r0|] eqn:E0; [|apply nth_error_None in E0; unfold lenN in *; lia].
      exists r0, (N.to_nat (r - (n - R))). split; [exact E0|]. lia.
Qed.
Lemma loadedx_save knd fs fl :
  exists ix2 fs2, save fo c knd OsOk fs ix' fl = Ok (ix2, fs2, None) /\ loadedx fs2 ix2 /\ same_items fo c fs ix' fs2 ix2 /\
  forall knd3 ix0, rnd (ib ix0) <> None -> exists ix3, load fo c knd3 fs2 ix0 fl = Ok (ix3, None) /\ loadedx fs2 ix3 /\ same_items fo c fs ix' fs2 ix3.
Proof.
  destruct (save_run fo c OK ix f plan ix' A Hv HK Hne knd fs fl) as (m & Hm & E0). cbv zeta in E0.
  set (fs2 := fs_set fs fl (Some (file_bytes fo c ix' m))) in *.
  assert (Hf : fs2 fl = Some (file_bytes fo c ix' m)) by (unfold fs2, fs_set; now rewrite N.eqb_refl).
  destruct (loadedx_load m knd fs fs2 fl ix' Hm Hf (bt_rnd _ _ _ _ _ _ A)) as (ix2 & E2 & L & S).
  exists ix2, fs2. split; [rewrite E0, E2; reflexivity|]. split; [exact L|]. split; [exact S|]. intros knd3 ix0 H0. eapply loadedx_load; eauto.
Qed.

(** Its sides are those of the index that was saved. *)
Lemma loadedx_sides (P : F fo -> Prop) fs fs2 ix2 q : loadedx fs2 ix2 -> all_sides fo c P (view fs ix') rs q ->
  all_sides fo c P (view fs2 ix2) (rootsN (ib ix2)) q.
Proof.
  intros L AS. destruct (nodes_view_sub fo c fs ix f plan ix' A) as [Sub|X].
  2:{ pose proof (n_ge fo c ix f plan ix' A Hv HK Hne). lia. }
  pose proof (lx_back _ _ L) as Bk.
  assert (G : forall r d i l r' bs, In r rs -> descends fo c v0 r d i -> splits fo c v0 i l r' -> vread v0 (addr fo c i) NSZ = Ok bs -> P (side_value fo c bs q)).
  { intros r d i l r' bs H1 H2 H3 H4. eapply AS; eauto using sub_splits, sub_descends. }
  intros r d i l r' bs H1 H2 H3 H4.
  apply (sub_descends _ _ _ _ _ Bk) in H2. apply (sub_splits _ _ _ _ _ Bk) in H3. apply Bk in H4.
  destruct (lx_roots _ _ L r H1) as [Hr|[r0 Hr]]; [eauto|].
  destruct (ren_range fo c ix f plan ix' A Hv HK Hne r0 r Hr) as (Hin & B1 & B2 & _).
  destruct (ren_splits fo c OK ix f plan ix' A Hv HK Hne r0 r Hr) as (a & b & Sa & Sb).
  inversion H2 as [|? a' b' d' ? Ss Hd|? a' b' d' ? Ss Hd]; subst.
  - assert (Rd := v0_read fo c ix f plan ix' A i ltac:(lia)). rewrite Rd in H4. injection H4 as <-.
    rewrite (ren_side fo c OK FL ix f plan ix' A Hv HK Hne r0 i q Hr).
    eapply (G r0 0%nat r0 a b); [exact Hin|apply de_here|exact Sa|]. eapply v0_read; eauto. lia.
  - destruct (splits_fun _ _ _ _ _ _ Sb Ss) as [-> ->]. eapply (G r0); [exact Hin|eapply de_left; eauto|exact H3|exact H4].
  - destruct (splits_fun _ _ _ _ _ _ Sb Ss) as [-> ->]. eapply (G r0); [exact Hin|eapply de_right; eauto|exact H3|exact H4].
Qed.
End IO.
End S.
