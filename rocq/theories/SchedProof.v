(** An executable scheduler, for exhibiting particular schedules. *)
From Verif Require Import Base Layout Rng Alloc Prog Lib MiscProof ConcSpec.
Open Scope N_scope.

Section S.
Variable c : Cfg.

(** One step of worker [w], with the generator's own next number for a draw. *)
Definition step_fn (w : nat) {X} (e : act X) (s : bst) : option (X * bst) :=
  match e in act X return option (X * bst) with
  | ALockNN => match l_nn s with None => Some (tt, set_lnn (Some w) s) | Some _ => None end
  | AUnlockNN => match l_nn s with
                 | Some v => if Nat.eqb v w then Some (tt, set_lnn None s) else None
                 | None => None end
  | ALockNodesReq => match l_w s with None => Some (tt, set_lnodes (Some w) false (l_r s) s) | Some _ => None end
  | ALockNodesAcq => match l_w s, l_wh s, l_r s with
                     | Some v, false, [] => if Nat.eqb v w then Some (tt, set_lnodes (Some w) true [] s) else None
                     | _, _, _ => None end
  | AUnlockNodes => match l_w s, l_wh s with
                    | Some v, true => if Nat.eqb v w then Some (tt, set_lnodes None false (l_r s) s) else None
                    | _, _ => None end
  | ARLock => match l_w s with None => Some (tt, set_lnodes None false (w :: l_r s) s) | Some _ => None end
  | ARUnlock => if in_dec Nat.eq_dec w (l_r s)
                then Some (tt, set_lnodes (l_w s) (l_wh s) (remove Nat.eq_dec w (l_r s)) s) else None
  | ALockRoots => match l_roots s with None => Some (tt, set_lroots (Some w) s) | Some _ => None end
  | AUnlockRoots => match l_roots s with
                    | Some v => if Nat.eqb v w then Some (tt, set_lroots None s) else None
                    | None => None end
  | AGetNN => Some (nn s, s)
  | ASetNN n => Some (tt, set_nn n (claim w (nn s) n (owner s)) s)
  | AGetNS => Some (ns s, s)
  | ASetNS n => Some (tt, set_ns n s)
  | AGetBase => Some (base s, s)
  | ARealloc b => match exec c w (ARealloc b) s with Ok (_, s') => Some (tt, s') | Er _ => None end
  | ARead p off len => match exec c w (ARead p off len) s with Ok (bs, _) => Some (bs, s) | Er _ => None end
  | AWrite p off bs => match exec c w (AWrite p off bs) s with Ok (_, s') => Some (tt, s') | Er _ => None end
  | ADraw => match rnd s with
             | Some r => let (d, r') := kiss_next (iw c) r in Some (d, set_rnd (Some r') s)
             | None => None end
  | AGetRoots => Some (broots s, s)
  | ASetRoots l => Some (tt, set_roots l s)
  end.

Lemma step_fn_sound w X (e : act X) s x s' : step_fn w e s = Some (x, s') -> mstep c w X e s x s'.
Proof.
  destruct e; cbn [step_fn]; intro H.
  - destruct (l_nn s) eqn:E; [discriminate|]. injection H as <- <-. now constructor.
  - destruct (l_nn s) as [v|] eqn:E; [|discriminate]. destruct (Nat.eqb_spec v w) as [->|]; [|discriminate].
    injection H as <- <-. now constructor.
  - destruct (l_w s) eqn:E; [discriminate|]. injection H as <- <-. now constructor.
  - destruct (l_w s) as [v|] eqn:E; [|discriminate]. destruct (l_wh s) eqn:E1; [discriminate|].
    destruct (l_r s) eqn:E2; [|discriminate]. destruct (Nat.eqb_spec v w) as [->|]; [|discriminate].
    injection H as <- <-. now constructor.
  - destruct (l_w s) as [v|] eqn:E; [|discriminate]. destruct (l_wh s) eqn:E1; [|discriminate].
    destruct (Nat.eqb_spec v w) as [->|]; [|discriminate]. injection H as <- <-. now constructor.
  - destruct (l_w s) eqn:E; [discriminate|]. injection H as <- <-. now constructor.
  - destruct (in_dec Nat.eq_dec w (l_r s)) as [Hi|]; [|discriminate]. injection H as <- <-. now constructor.
  - destruct (l_roots s) eqn:E; [discriminate|]. injection H as <- <-. now constructor.
  - destruct (l_roots s) as [v|] eqn:E; [|discriminate]. destruct (Nat.eqb_spec v w) as [->|]; [|discriminate].
    injection H as <- <-. now constructor.
  - injection H as <- <-. constructor.
  - injection H as <- <-. constructor.
  - injection H as <- <-. constructor.
  - injection H as <- <-. constructor.
  - injection H as <- <-. constructor.
  - destruct (exec c w (ARealloc bytes) s) as [[[] t]|] eqn:E; [|discriminate]. injection H as <- <-. now constructor.
  - destruct (exec c w (ARead p off len) s) as [[bs t]|] eqn:E; [|discriminate]. injection H as <- <-. constructor.
    cbn [exec] in *. destruct (arena_at _ _); [|discriminate]. destruct (bread _ _ _); [|discriminate].
    cbn [rbind] in *. congruence.
  - destruct (exec c w (AWrite p off bs) s) as [[[] t]|] eqn:E; [|discriminate]. injection H as <- <-. now constructor.
  - destruct (rnd s) as [r|] eqn:E; [|discriminate]. pose proof (kiss_next_lt (iw c) r) as Hl.
    destruct (kiss_next (iw c) r) as [d r']. injection H as <- <-. constructor; [exact Hl|congruence].
  - injection H as <- <-. constructor.
  - injection H as <- <-. constructor.
Qed.

(** Let worker [w] run, at most [n] steps, until [stop] holds of its program or it
    cannot go on. *)
Fixpoint go {A} (stop : prog A -> bool) (n : nat) (w : nat) (x : list (prog A) * bst) : list (prog A) * bst :=
  match n with
  | O => x
  | S n' =>
      match nth_error (fst x) w with
      | Some (Vis e k) =>
          if stop (Vis e k) then x
          else match step_fn w e (snd x) with
               | Some (y, s') => go stop n' w (firstn w (fst x) ++ [k y] ++ skipn (S w) (fst x), s')
               | None => x
               end
      | _ => x
      end
  end.
Lemma steps_trans A (x y z : list (prog A) * bst) : pool_steps c x y -> pool_steps c y z -> pool_steps c x z.
Proof. intros H1 H2. induction H2 as [|x1 y1 z1 H2 IH H3]; [exact H1|]. eapply pss_step; [|exact H3]. auto. Qed.
Lemma go_sound A (stop : prog A -> bool) n w : forall x, pool_steps c x (go stop n w x).
Proof.
  induction n as [|n IH]; intros [ps s]; cbn [go fst snd]; [apply pss_refl|].
  destruct (nth_error ps w) as [[a|e|X e k]|] eqn:E; try apply pss_refl.
  destruct (stop (Vis e k)); [apply pss_refl|].
  destruct (step_fn w e s) as [[y s']|] eqn:E1; [|apply pss_refl].
  eapply steps_trans; [|apply IH]. eapply pss_step; [apply pss_refl|]. econstructor; [exact E|].
  now apply step_fn_sound.
Qed.

Definition drawing {A} (p : prog A) : bool := match p with Vis ADraw _ => true | _ => false end.
Definition never {A} (p : prog A) : bool := false.
Definition returned {A} (p : prog A) : bool := match p with Ret _ => true | _ => false end.

(** ** Every schedule ends *)
(** The programs are well-founded, so replacing one worker's program by what is left
    of it cannot go on for ever. *)
Definition rest_of {A} (q p : prog A) : Prop := match p with Vis e k => exists x, q = k x | _ => False end.
Lemma rest_wf A (p : prog A) : Acc rest_of p.
Proof. induction p as [a|e|X e k IH]; constructor; intros y H; cbn in H; try contradiction. destruct H as [x ->]. apply IH. Qed.
Inductive one_rest {A} : list (prog A) -> list (prog A) -> Prop :=
| or_here q p l : rest_of q p -> one_rest (q :: l) (p :: l)
| or_later p l l' : one_rest l' l -> one_rest (p :: l') (p :: l).
Lemma one_rest_wf A (l : list (prog A)) : Acc one_rest l.
Proof.
  induction l as [|p l IH]; [constructor; intros y H; inversion H|].
  pose proof (rest_wf A p) as Hp. revert l IH. induction Hp as [p _ IHp]. intros l Hl. induction Hl as [l Hl IHl].
  constructor. intros y H. inversion H; subst.
  - apply IHp; [assumption|]. now constructor.
  - now apply IHl.
Qed.
Lemma one_rest_at A w : forall (ps : list (prog A)) X (e : act X) k x, nth_error ps w = Some (Vis e k) ->
  one_rest (firstn w ps ++ [k x] ++ skipn (S w) ps) ps.
Proof.
  induction w as [|w IH]; intros [|p ps] X e k x H; try discriminate; cbn [nth_error] in H.
  - injection H as ->. cbn. apply or_here. cbn. eauto.
  - cbn [firstn skipn app]. apply or_later. eapply IH. exact H.
Qed.
Lemma schedules_end A (ps : list (prog A)) s : Acc (fun y x => pool_step c x y) (ps, s).
Proof.
  pose proof (one_rest_wf A ps) as H. revert s. induction H as [ps _ IH]. intro s. constructor.
  intros [ps' s'] H. inversion H; subst. apply IH. eapply one_rest_at; eauto.
Qed.
Lemma all_finished_dec A (ps : list (prog A)) :
  Forall finished ps \/ exists w p, nth_error ps w = Some p /\ ~ finished p.
Proof.
  induction ps as [|p ps IH]; [left; constructor|].
  assert (Hp : finished p \/ ~ finished p).
  { destruct p as [a|e|X e k]; cbn [finished]; [left; exact I| |right; auto].
    destruct e; try (left; reflexivity); right; discriminate. }
  destruct Hp as [Hp|Hp]; [|right; exists 0%nat, p; auto].
  destruct IH as [IH|(w & q & H1 & H2)]; [left; now constructor|right; exists (S w), q; auto].
Qed.
End S.
