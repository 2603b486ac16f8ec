(** Properties of the random generators, the build allocator and the registry
    of open files (C44, C45, C56, C57). *)
From Verif Require Import Base Rng Alloc Spec Lib MiscProof.
Open Scope N_scope.

(** C44 *)
Theorem C44_next_index_in_range :
  forall n draw, 0 < n -> exists k, index_of_draw n draw = Ok k /\ k < n.
Proof. exact index_of_draw_lt. Qed.
Theorem C44_next_index_zero_panics :
  forall draw, index_of_draw 0 draw = Er (Panic PDivZero).
Proof. exact index_of_draw_0. Qed.
Theorem C44_kiss32_draws_fit :
  forall w n r, Forall (fun d => d < 2 ^ w) (fst (kiss_draws w n r)).
Proof. exact kiss_draws_lt. Qed.
Theorem C44_kiss64_draws_fit :
  forall n r, Forall (fun d => d < 2 ^ 64) (fst (kiss64_draws n r)).
Proof. exact kiss64_draws_lt. Qed.
(** After any number of draws the clone is the generator the constructor made,
    so it produces the same numbers again. *)
Theorem C44_kiss32_clone_restarts :
  forall w n s, kiss_clone (snd (kiss_draws w n (kiss_new s))) = kiss_new s.
Proof. exact kiss_clone_new. Qed.
Theorem C44_kiss64_clone_restarts :
  forall n s, kiss64_clone (snd (kiss64_draws n (kiss64_new s))) = kiss64_new s.
Proof. exact kiss64_clone_new. Qed.
Theorem C44_kiss32_xorshift_never_zero :
  forall w n s, w = 32 \/ w = 64 -> ky (snd (kiss_draws w n (kiss_new s))) <> 0.
Proof. exact kiss_y_nonzero. Qed.
Theorem C44_kiss64_xorshift_never_zero :
  forall n s, ky (snd (kiss64_draws n (kiss64_new s))) <> 0.
Proof. exact kiss64_y_nonzero. Qed.
Example C44_example :
  fst (kiss_draws 32 2 (kiss_clone (snd (kiss_draws 32 5 (kiss_new 7))))) = fst (kiss_draws 32 2 (kiss_new 7)) /\
  fst (kiss_draws 32 2 (kiss_new 7)) <> fst (kiss_draws 32 2 (kiss_new 8)) /\
  index_of_draw 10 3537034201 = Ok 1.
Proof. vm_compute. repeat split; discriminate. Qed.

(** C45: the clone of a generator reseeded with 0 differs from that generator,
    and from the generator the constructor makes. *)
Theorem C45_set_seed_zero_refuted :
  exists r, r = kiss_set_seed (kiss_new 1) 0 /\
    fst (kiss_draws 32 3 (kiss_clone r)) <> fst (kiss_draws 32 3 r).
Proof. exact set_seed_0_differs. Qed.
(** With any other seed, SetSeed on a new generator gives the generator that the
    constructor makes for that seed; the seed is remembered, and clones start from it. *)
Theorem C45_set_seed_otherwise :
  forall s, s <> 0 ->
  (forall t, kiss_set_seed (kiss_new t) s = kiss_new s /\ kiss64_set_seed (kiss64_new t) s = kiss64_new s) /\
  (forall r, kiss_get_seed (kiss_set_seed r s) = s /\ kiss_clone (kiss_set_seed r s) = kiss_new s /\ kiss64_clone (kiss64_set_seed r s) = kiss64_new s).
Proof.
  intros s Hs. apply N.eqb_neq in Hs. split; intros; unfold kiss_set_seed, kiss64_set_seed, kiss_get_seed, kiss_clone, kiss64_clone, kiss_new, kiss64_new; cbn [kseed];
    rewrite Hs; repeat match goal with |- context [if ?b then _ else _] => destruct b end; auto.
Qed.
(** The constructors replace the seed 0 by a fixed one, SetSeed does not; so after SetSeed(0)
    the clone starts from the seed of the constructor, and the 64 bit generator differs too. *)
Theorem C45_zero_seed :
  kiss_new 0 = kiss_new 123456789 /\ kiss64_new 0 = kiss64_new 1234567890987654321 /\
  (forall s, kx (kiss_new s) <> 0 /\ kx (kiss64_new s) <> 0 /\ kseed (kiss_new s) <> 0 /\ kseed (kiss64_new s) <> 0) /\
  (forall r, kx (kiss_set_seed r 0) = 0 /\ kx (kiss64_set_seed r 0) = 0 /\
     kiss_clone (kiss_set_seed r 0) = kiss_new 123456789 /\
     kiss64_clone (kiss64_set_seed r 0) = kiss64_new 1234567890987654321) /\
  fst (kiss64_draws 3 (kiss64_clone (kiss64_set_seed (kiss64_new 1) 0))) <> fst (kiss64_draws 3 (kiss64_set_seed (kiss64_new 1) 0)).
Proof.
  split; [reflexivity|]. split; [reflexivity|]. split.
  - intro s. unfold kiss_new, kiss64_new; cbn [kx kseed]. destruct (s =? 0) eqn:E.
    + repeat split; discriminate.
    + apply N.eqb_neq in E. auto.
  - split; [intro r; repeat split; reflexivity|]. vm_compute. discriminate.
Qed.
Example C45_example : kiss_set_seed (kiss_new 1) 5 = kiss_new 5 /\ kiss_clone (kiss_set_seed (snd (kiss_draws 32 3 (kiss_new 1))) 5) = kiss_new 5.
Proof. vm_compute. split; reflexivity. Qed.

(** C56 *)
Theorem C56_get_finds_newest :
  forall t f, one_handle_per_file t -> reg_get (fst (reg_run t)) f = newest t f.
Proof. exact registry_get. Qed.
Theorem C56_two_handles_refuted :
  forall f, newest [HClose 0; HOpen f; HOpen f] f = Some 1%nat /\
    reg_get (fst (reg_run [HClose 0; HOpen f; HOpen f])) f = None.
Proof. exact registry_two_handles. Qed.
Theorem C56_double_close_refuted :
  forall f, newest [HClose 0; HOpen f; HClose 0; HOpen f] f = Some 1%nat /\
    reg_get (fst (reg_run [HClose 0; HOpen f; HClose 0; HOpen f])) f = None.
Proof. exact registry_double_close. Qed.
Example C56_example :
  let t := [HOpen 5; HClose 0; HOpen 6; HOpen 5] in
  one_handle_per_file t /\ newest t 5 = Some 2%nat /\ newest t 6 = Some 1%nat /\
  reg_get (fst (reg_run t)) 5 = Some 2%nat.
Proof. cbn. intuition discriminate. Qed.

(** C57 *)
Theorem C57_reallocate :
  forall h p n h' p', alloc_reach h p -> reallocate h p n = (h', p') ->
  exists b', arena_at h' p' = Some b' /\ n <= bsize b' /\ ptr_size h p <= bsize b' /\
    (forall b off len, arena_at h p = Some b -> off + len <= bsize b -> bread b' off len = bread b off len) /\
    (forall off len, ptr_size h p <= off -> off + len <= bsize b' -> bread b' off len = Ok (repeat 0 (N.to_nat len))) /\
    (forall k, (k < length h)%nat -> nth_error h' k = nth_error h k).
Proof. exact reallocate_main. Qed.
Example C57_example :
  exists h p, alloc_reach h p /\ ptr_size h p = 4 /\
    match arena_at h p with Some b => bread b 0 4 = Ok [0; 7; 9; 0] | None => False end.
Proof.
  destruct (reallocate [] None 4) as [h p] eqn:E.
  pose proof (ar_realloc _ _ _ _ _ ar_new E) as R. vm_compute in E. injection E as <- <-.
  destruct (bwrite (buf_zero 4) 1 [7; 9]) as [b'|] eqn:Eb; [|discriminate].
  do 2 eexists. split; [eapply ar_write; [exact R|reflexivity|exact Eb]|].
  vm_compute in Eb. injection Eb as <-. split; reflexivity.
Qed.

Print Assumptions C44_next_index_in_range.
Print Assumptions C44_next_index_zero_panics.
Print Assumptions C44_kiss32_draws_fit.
Print Assumptions C44_kiss64_draws_fit.
Print Assumptions C44_kiss32_clone_restarts.
Print Assumptions C44_kiss64_clone_restarts.
Print Assumptions C44_kiss32_xorshift_never_zero.
Print Assumptions C44_kiss64_xorshift_never_zero.
Print Assumptions C45_set_seed_zero_refuted.
Print Assumptions C45_set_seed_otherwise.
Print Assumptions C45_zero_seed.
Print Assumptions C56_get_finds_newest.
Print Assumptions C56_two_handles_refuted.
Print Assumptions C56_double_close_refuted.
Print Assumptions C57_reallocate.
