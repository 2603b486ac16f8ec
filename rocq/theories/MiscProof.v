(** Proofs about the generators, the build allocator and the file-handle registry. *)
From Verif Require Import Base Flt Layout Rng Alloc Spec Lib LayoutProof MemProof.
Open Scope N_scope.

(** ** Generators *)
Lemma index_of_draw_lt n d : 0 < n -> exists k, index_of_draw n d = Ok k /\ k < n.
Proof.
  intro H. unfold index_of_draw. destruct (N.eqb_spec n 0); [lia|]. eexists; split; [reflexivity|].
  apply N.mod_lt. lia.
Qed.
Lemma index_of_draw_0 d : index_of_draw 0 d = Er (Panic PDivZero).
Proof. reflexivity. Qed.

Lemma kiss_next_lt w r : fst (kiss_next w r) < 2 ^ w.
Proof. apply wrap_lt. Qed.
Lemma kiss_next_seed w r : kseed (snd (kiss_next w r)) = kseed r.
Proof. reflexivity. Qed.
Lemma kiss64_next_lt r : fst (kiss64_next r) < 2 ^ 64.
Proof. apply wrap_lt. Qed.
Lemma kiss64_next_seed r : kseed (snd (kiss64_next r)) = kseed r.
Proof. reflexivity. Qed.
Lemma kiss_draws_lt w n : forall r, Forall (fun d => d < 2 ^ w) (fst (kiss_draws w n r)).
Proof.
  induction n as [|n IH]; intro r; cbn [kiss_draws]; [constructor|].
  destruct (kiss_next w r) as [d r1] eqn:E. specialize (IH r1). destruct (kiss_draws w n r1) as [ds r2]. cbn [fst] in *.
  constructor; [|exact IH]. pose proof (kiss_next_lt w r). now rewrite E in H.
Qed.
Lemma kiss_draws_seed w n : forall r, kseed (snd (kiss_draws w n r)) = kseed r.
Proof.
  induction n as [|n IH]; intro r; cbn [kiss_draws]; [reflexivity|].
  destruct (kiss_next w r) as [d r1] eqn:E. specialize (IH r1). destruct (kiss_draws w n r1) as [ds r2]. cbn [snd] in *.
  rewrite IH. replace r1 with (snd (kiss_next w r)) by now rewrite E. apply kiss_next_seed.
Qed.
Lemma kiss_clone_new w n s : kiss_clone (snd (kiss_draws w n (kiss_new s))) = kiss_new s.
Proof.
  unfold kiss_clone. rewrite kiss_draws_seed. unfold kiss_new.
  destruct (N.eqb_spec s 0); cbn [kseed]; [reflexivity|]. now replace (s =? 0) with false by lia.
Qed.
Lemma kiss64_draws_lt n : forall r, Forall (fun d => d < 2 ^ 64) (fst (kiss64_draws n r)).
Proof.
  induction n as [|n IH]; intro r; cbn [kiss64_draws]; [constructor|].
  destruct (kiss64_next r) as [d r1] eqn:E. specialize (IH r1). destruct (kiss64_draws n r1) as [ds r2]. cbn [fst] in *.
  constructor; [|exact IH]. pose proof (kiss64_next_lt r). now rewrite E in H.
Qed.
Lemma kiss64_draws_seed n : forall r, kseed (snd (kiss64_draws n r)) = kseed r.
Proof.
  induction n as [|n IH]; intro r; cbn [kiss64_draws]; [reflexivity|].
  destruct (kiss64_next r) as [d r1] eqn:E. specialize (IH r1). destruct (kiss64_draws n r1) as [ds r2]. cbn [snd] in *.
  rewrite IH. replace r1 with (snd (kiss64_next r)) by now rewrite E. apply kiss64_next_seed.
Qed.
Lemma kiss64_clone_new n s : kiss64_clone (snd (kiss64_draws n (kiss64_new s))) = kiss64_new s.
Proof.
  unfold kiss64_clone. rewrite kiss64_draws_seed. unfold kiss64_new.
  destruct (N.eqb_spec s 0); cbn [kseed]; [reflexivity|]. now replace (s =? 0) with false by lia.
Qed.

(** The xorshift component. *)
Lemma bits_zero y : (forall i, N.testbit y i = false) -> y = 0.
Proof. intro H. apply N.bits_inj. intro i. now rewrite H, N.bits_0. Qed.
Lemma xorshl_nonzero w k y : 0 < k -> y < 2 ^ w -> y <> 0 -> N.lxor y (wrap w (N.shiftl y k)) <> 0.
Proof.
  intros Hk Hy Hne H. apply N.lxor_eq in H. apply Hne. apply bits_zero.
  intro i. induction i as [i IH] using (well_founded_induction N.lt_wf_0).
  destruct (N.lt_ge_cases i w) as [Hi|Hi].
  - rewrite H. unfold wrap. rewrite N.mod_pow2_bits_low by exact Hi.
    destruct (N.lt_ge_cases i k) as [Hik|Hik]; [now apply N.shiftl_spec_low|].
    rewrite N.shiftl_spec_high' by exact Hik. apply IH. lia.
  - rewrite H. unfold wrap. now apply N.mod_pow2_bits_high.
Qed.
Lemma xorshr_nonzero k y : 0 < k -> y <> 0 -> N.lxor y (N.shiftr y k) <> 0.
Proof.
  intros Hk Hne H. apply N.lxor_eq in H. rewrite N.shiftr_div_pow2 in H.
  assert (y / 2 ^ k < y); [|lia]. apply N.div_lt; [lia|]. apply N.pow_gt_1; lia.
Qed.
Lemma lxor_lt w a b : a < 2 ^ w -> b < 2 ^ w -> N.lxor a b < 2 ^ w.
Proof.
  intros Ha Hb.
  assert (E : N.lxor a b = N.lxor a b mod 2 ^ w).
  { apply N.bits_inj. intro i. destruct (N.lt_ge_cases i w) as [Hi|Hi].
    - now rewrite N.mod_pow2_bits_low.
    - rewrite N.mod_pow2_bits_high by exact Hi. rewrite N.lxor_spec.
      rewrite <- (N.mod_small a (2 ^ w)), <- (N.mod_small b (2 ^ w)) by assumption.
      now rewrite !N.mod_pow2_bits_high. }
  rewrite E. apply N.mod_lt. apply N.pow_nonzero. lia.
Qed.
Lemma shiftr_lt w a k : a < 2 ^ w -> N.shiftr a k < 2 ^ w.
Proof.
  intro H. rewrite N.shiftr_div_pow2. eapply N.le_lt_trans; [|exact H].
  apply N.div_le_upper_bound; [apply N.pow_nonzero; lia|]. assert (2 ^ k <> 0) by (apply N.pow_nonzero; lia). nia.
Qed.
Definition y_ok (w : N) (r : kiss) : Prop := ky r < 2 ^ w /\ ky r <> 0.
Lemma xorshift_ok w k y : 0 < k -> y < 2 ^ w -> y <> 0 ->
  let y1 := N.lxor y (wrap w (N.shiftl y 13)) in
  let y2 := N.lxor y1 (N.shiftr y1 17) in
  let y3 := N.lxor y2 (wrap w (N.shiftl y2 k)) in y3 < 2 ^ w /\ y3 <> 0.
Proof.
  intros Hk Hy Hne y1 y2 y3.
  assert (H1 : y1 < 2 ^ w /\ y1 <> 0) by (split; [apply lxor_lt; [exact Hy|apply wrap_lt]|apply xorshl_nonzero; [lia|assumption..]]).
  destruct H1. assert (H2 : y2 < 2 ^ w /\ y2 <> 0) by (split; [apply lxor_lt; [|apply shiftr_lt]; assumption|apply xorshr_nonzero; [lia|assumption]]).
  destruct H2. split; [apply lxor_lt; [assumption|apply wrap_lt]|apply xorshl_nonzero; assumption].
Qed.
Lemma kiss_next_y w r : y_ok w r -> y_ok w (snd (kiss_next w r)).
Proof. intros [H1 H2]. unfold kiss_next, y_ok. cbn [snd ky]. now apply xorshift_ok. Qed.
Lemma kiss_draws_y w n : forall r, y_ok w r -> y_ok w (snd (kiss_draws w n r)).
Proof.
  induction n as [|n IH]; intros r H; cbn [kiss_draws]; [exact H|].
  pose proof (kiss_next_y w r H) as H1. destruct (kiss_next w r) as [d r1]. specialize (IH r1 H1).
  destruct (kiss_draws w n r1). exact IH.
Qed.
Lemma kiss_y_nonzero w n s : w = 32 \/ w = 64 -> ky (snd (kiss_draws w n (kiss_new s))) <> 0.
Proof.
  intro Hw. apply kiss_draws_y. unfold y_ok, kiss_new. cbn [ky]. destruct Hw as [->| ->]; split; lia.
Qed.
Lemma kiss64_y_nonzero n s : ky (snd (kiss64_draws n (kiss64_new s))) <> 0.
Proof.
  assert (H : forall n r, y_ok 64 r -> y_ok 64 (snd (kiss64_draws n r))).
  { clear n s. induction n as [|n IH]; intros r H; cbn [kiss64_draws]; [exact H|].
    assert (H1 : y_ok 64 (snd (kiss64_next r))).
    { destruct H as [H1 H2]. unfold kiss64_next, y_ok. cbn [snd ky]. now apply xorshift_ok. }
    destruct (kiss64_next r) as [d r1]. specialize (IH r1 H1). destruct (kiss64_draws n r1). exact IH. }
  apply H. unfold y_ok, kiss64_new. cbn [ky]. split; lia.
Qed.
Lemma set_seed_0_differs :
  exists r, r = kiss_set_seed (kiss_new 1) 0 /\
    fst (kiss_draws 32 3 (kiss_clone r)) <> fst (kiss_draws 32 3 r).
Proof. eexists. split; [reflexivity|]. vm_compute. discriminate. Qed.

(** ** The build allocator *)
(** States of the allocator: fresh, after Reallocate, after stores through the pointer. *)
Inductive alloc_reach : arenas -> ptr -> Prop :=
| ar_new : alloc_reach [] None
| ar_realloc h p n h' p' : alloc_reach h p -> reallocate h p n = (h', p') -> alloc_reach h' p'
| ar_free h p : alloc_reach h p -> alloc_reach h alloc_free
| ar_write h g b off bs b' : alloc_reach h (Some g) -> nth_error h g = Some b ->
    bwrite b off bs = Ok b' -> alloc_reach (firstn g h ++ [b'] ++ skipn (S g) h) (Some g).

Lemma alloc_reach_wf h p : alloc_reach h p -> alloc_wf h p.
Proof.
  induction 1 as [|h p n h' p' _ IH E|h p _ IH|h g b off bs b' _ IH Hb E]; try exact I.
  - destruct (reallocate_spec _ _ _ _ _ IH E) as (b' & _ & _ & _ & _ & _ & _ & W). exact W.
  - apply bwrite_inv in E. destruct E as [Hr ->]. cbn [alloc_wf] in *. destruct IH as (b0 & H0 & Hz).
    cbn [arena_at] in H0. rewrite Hb in H0. injection H0 as <-.
    eexists. split; [cbn [arena_at]; eapply nth_error_update_eq; eauto|].
    intros a Ha. cbn [bsize bdata] in *. rewrite mget_mwrite_out by lia. now apply Hz.
Qed.
Lemma reallocate_main h p n h' p' :
  alloc_reach h p -> reallocate h p n = (h', p') ->
  exists b', arena_at h' p' = Some b' /\ n <= bsize b' /\ ptr_size h p <= bsize b' /\
    (forall b off len, arena_at h p = Some b -> off + len <= bsize b -> bread b' off len = bread b off len) /\
    (forall off len, ptr_size h p <= off -> off + len <= bsize b' -> bread b' off len = Ok (repeat 0 (N.to_nat len))) /\
    (forall k, (k < length h)%nat -> nth_error h' k = nth_error h k).
Proof.
  intros R E. pose proof (alloc_reach_wf _ _ R) as W.
  destruct (reallocate_spec _ _ _ _ _ W E) as (b' & Hat & Hz & Hn & Hp & Hget & (tl & ->) & _).
  exists b'. repeat split; auto.
  - intros b off len Hb Hl. unfold ptr_size in Hp. rewrite Hb in Hp.
    rewrite !bread_ok by lia. f_equal. apply mread_ext. intros k Hk. rewrite Hget. unfold cur_mem. now rewrite Hb.
  - intros off len Ho Hl. rewrite bread_ok by lia. f_equal.
    apply nth_ext with (d := 0) (d' := 0); [now rewrite length_mread, repeat_length|].
    rewrite length_mread. intros k Hk. rewrite nth_mread by exact Hk.
    rewrite nth_repeat. rewrite Hget. unfold cur_mem. unfold ptr_size in Ho.
    destruct p as [g|]; [|cbn [arena_at]; apply mget_mempty].
    destruct W as (b & Hb & Hzb). rewrite Hb in *. apply Hzb. lia.
  - intros k Hk. now apply nth_error_app1.
Qed.

(** ** The registry *)
(** The registry after a trace, and the file each handle was opened for. *)
Fixpoint reg_run (t : list hop) : registry * list (nat * N) :=
  match t with
  | [] => (reg_empty, [])
  | HOpen f :: r => let '(g, n) := reg_run r in let '(g', h) := reg_open g f in (g', (h, f) :: n)
  | HClose h :: r =>
      let '(g, n) := reg_run r in
      match find (fun e => Nat.eqb (fst e) h) n with
      | Some (_, f) => (reg_close g f, n)
      | None => (g, n)
      end
  end.

Lemma find_reg_delete f g m :
  find (fun e : N * nat => fst e =? f) (reg_delete g m) = if f =? g then None else find (fun e => fst e =? f) m.
Proof.
  unfold reg_delete. induction m as [|[a h] m IH]; cbn [filter find fst]; [now destruct (f =? g)|].
  destruct (N.eqb_spec a g) as [->|Hag]; cbn [negb].
  - rewrite IH. rewrite (N.eqb_sym g f). now destruct (f =? g).
  - cbn [find fst]. destruct (N.eqb_spec a f) as [->|Haf].
    + now replace (f =? g) with false by lia.
    + exact IH.
Qed.

Definition reg_inv (t : list hop) : Prop :=
  let '(g, n) := reg_run t in
  reg_next g = opens_of t /\
  (forall h f, In (h, f) (live_of t) -> find (fun e => Nat.eqb (fst e) h) n = Some (h, f)) /\
  (forall h f, In (h, f) n -> (h < opens_of t)%nat) /\
  (forall h f, In (h, f) (live_of t) -> (h < opens_of t)%nat) /\
  NoDup (map snd (live_of t)) /\
  forall f, reg_get g f = newest t f.

Lemma NoDup_map_filter {A B} (p : A -> bool) (f : A -> B) l : NoDup (map f l) -> NoDup (map f (filter p l)).
Proof.
  induction l as [|x l IH]; cbn; [auto|]. intro H. inversion H; subst.
  destruct (p x); cbn; [|auto]. constructor; [|auto]. intro Hin. apply H2.
  apply in_map_iff in Hin. destruct Hin as (y & <- & Hy). apply filter_In in Hy. apply in_map. tauto.
Qed.

Lemma find_filter_live (l : list (nat * N)) h f f' :
  NoDup (map snd l) -> In (h, f) l -> (forall h' g, In (h', g) l -> h' = h -> g = f) ->
  find (fun e => snd e =? f') (filter (fun e => negb (Nat.eqb (fst e) h)) l) =
  if f' =? f then None else find (fun e => snd e =? f') l.
Proof.
  intros Hnd Hin Hu. induction l as [|[k g] l IH]; [destruct Hin|].
  cbn [map snd] in Hnd. inversion Hnd as [|? ? Hni Hnd']; subst. cbn [filter fst].
  destruct (Nat.eqb_spec k h) as [->|Hkh]; cbn [negb].
  - pose proof (Hu h g (or_introl eq_refl) eq_refl). subst g. cbn [find snd].
    destruct (N.eqb_spec f f') as [->|Hff].
    + rewrite N.eqb_refl.
      assert (Hnone : forall m : list (nat * N), ~ In f' (map snd m) -> find (fun e => snd e =? f') (filter (fun e => negb (Nat.eqb (fst e) h)) m) = None).
      { clear. induction m as [|[a b] m IH]; intro H; cbn; [reflexivity|].
        cbn in H. destruct (negb (Nat.eqb a h)); cbn; [|apply IH; tauto].
        destruct (N.eqb_spec b f'); [tauto|apply IH; tauto]. }
      now apply Hnone.
    + replace (f' =? f) with false by lia.
      assert (Hnoh : filter (fun e : nat * N => negb (Nat.eqb (fst e) h)) l = l).
      { assert (Hall : forall a b, In (a, b) l -> a <> h).
        { intros a b Hab ->. pose proof (Hu h b (or_intror Hab) eq_refl). subst b. apply Hni.
          apply in_map_iff. exists (h, f). auto. }
        clear - Hall. induction l as [|[a b] l IH]; cbn; [reflexivity|].
        destruct (Nat.eqb_spec a h) as [->|]; [destruct (Hall h b); cbn; auto|]. cbn. f_equal. apply IH.
        intros a' b' H'. apply (Hall a' b'). now right. }
      now rewrite Hnoh.
  - cbn [find snd]. destruct Hin as [[= -> ->]|Hin]; [congruence|].
    destruct (N.eqb_spec g f') as [->|Hgf].
    + destruct (N.eqb_spec f' f) as [->|]; [|reflexivity].
      exfalso. apply Hni. apply in_map_iff. exists (h, f). auto.
    + apply IH; auto. intros h' g' Hin' E. apply (Hu h' g'); auto. now right.
Qed.

Lemma reg_inv_holds t : one_handle_per_file t -> reg_inv t.
Proof.
  induction t as [|o t IH]; intro H.
  - unfold reg_inv. cbn. repeat split; auto; try tauto. constructor.
  - destruct o as [f|h]; cbn [one_handle_per_file] in H; destruct H as [Hn Ht]; specialize (IH Ht);
    unfold reg_inv in IH |- *; cbn [reg_run opens_of live_of]; destruct (reg_run t) as [g n] eqn:E;
    destruct IH as (I1 & I2 & I3 & I4 & I5 & I6).
    + unfold reg_open. rewrite I1. cbn [reg_next]. split; [reflexivity|].
      split; [|split; [|split; [|split]]].
      * intros h' f' [[= <- <-]|Hin]; cbn [find fst]; [now rewrite Nat.eqb_refl|].
        pose proof (I4 _ _ Hin). destruct (Nat.eqb_spec (opens_of t) h'); [lia|]. now apply I2.
      * intros h' f' [[= <- <-]|Hin]; [lia|]. pose proof (I3 _ _ Hin). lia.
      * intros h' f' [[= <- <-]|Hin]; [lia|]. pose proof (I4 _ _ Hin). lia.
      * cbn [map snd]. now constructor.
      * intro f'. unfold reg_get, newest in *. cbn [reg_map live_of find fst snd].
        destruct (N.eqb_spec f f') as [->|Hff]; [reflexivity|]. rewrite find_reg_delete.
        replace (f' =? f) with false by lia. apply I6.
    + apply in_map_iff in Hn. destruct Hn as ([h' f] & Eh & Hin). cbn in Eh. subst h'.
      rewrite (I2 _ _ Hin). unfold reg_close. cbn [reg_next].
      split; [exact I1|]. split; [|split; [exact I3|split; [|split]]].
      * intros h' f' Hf. apply filter_In in Hf. apply I2. tauto.
      * intros h' f' Hf. apply filter_In in Hf. eapply I4. apply Hf.
      * now apply NoDup_map_filter.
      * intro f'. unfold reg_get, newest in *. cbn [reg_map live_of]. rewrite find_reg_delete.
        rewrite (find_filter_live (live_of t) h f f'); auto.
        -- destruct (f' =? f); [reflexivity|]. apply I6.
        -- intros h1 g1 Hin1 ->. pose proof (I2 _ _ Hin1). pose proof (I2 _ _ Hin). congruence.
Qed.
Lemma registry_get t f : one_handle_per_file t -> reg_get (fst (reg_run t)) f = newest t f.
Proof.
  intro H. pose proof (reg_inv_holds t H) as I. unfold reg_inv in I. destruct (reg_run t) as [g n].
  apply I.
Qed.
(** Two handles on one file: closing the first unregisters the second. *)
Lemma registry_two_handles f : newest [HClose 0; HOpen f; HOpen f] f = Some 1%nat /\
  reg_get (fst (reg_run [HClose 0; HOpen f; HOpen f])) f = None.
Proof.
  unfold newest, reg_get. cbn. repeat (rewrite N.eqb_refl; cbn). now split.
Qed.
(** Closing a handle twice unregisters a later one. *)
Lemma registry_double_close f : newest [HClose 0; HOpen f; HClose 0; HOpen f] f = Some 1%nat /\
  reg_get (fst (reg_run [HClose 0; HOpen f; HClose 0; HOpen f])) f = None.
Proof.
  unfold newest, reg_get. cbn. repeat (rewrite N.eqb_refl; cbn). now split.
Qed.
