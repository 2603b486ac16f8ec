(** Which actions a program performs, and what follows about its effect. *)
From Verif Require Import Base Flt Layout Rng Alloc Prog Dist Build Policy Index Lib MemProof.
Open Scope N_scope.

Section A.
Variable P : forall X, act X -> Prop.
Fixpoint all_acts {A} (p : prog A) : Prop :=
  match p with
  | Ret _ | Fail _ => True
  | Vis e k => P _ e /\ forall x, all_acts (k x)
  end.
Lemma all_acts_pbind {A B} (p : prog A) (f : A -> prog B) :
  all_acts p -> (forall a, all_acts (f a)) -> all_acts (pbind p f).
Proof. intros Hp Hf. induction p; cbn [pbind all_acts] in *; auto. destruct Hp. auto. Qed.
Lemma all_acts_plift {A} (r : res A) : all_acts (plift r).
Proof. destruct r; exact I. Qed.
Lemma all_acts_pmap {A B} (f : A -> prog B) l : (forall a, all_acts (f a)) -> all_acts (pmap f l).
Proof.
  intro H. induction l as [|a l IH]; cbn [pmap]; [exact I|].
  apply all_acts_pbind; [apply H|]. intro b. apply all_acts_pbind; [exact IH|]. intro bs. exact I.
Qed.
End A.

(** ** Programs of the build do not touch the root list *)
Definition not_roots X (e : act X) : Prop :=
  match e with AGetRoots | ASetRoots _ => False | _ => True end.
Definition not_set_roots X (e : act X) : Prop :=
  match e with ASetRoots _ => False | _ => True end.

Ltac acts :=
  repeat first
  [ exact I | split | progress intros
  | apply all_acts_pbind | apply all_acts_plift | apply all_acts_pmap
  | match goal with
    | |- all_acts _ (if ?b then _ else _) => destruct b
    | |- all_acts _ (match ?l with _ => _ end) => destruct l
    | |- all_acts _ (let (_, _) := ?x in _) => destruct x
    | |- all_acts _ (Vis _ _) => cbn [all_acts]
    | |- all_acts _ (Ret _) => exact I
    | |- all_acts _ (Fail _) => exact I
    end ].

Section B.
Variable fo : FOps.
Variable c : Cfg.
Variable nitems : N.

Lemma acts_allocate_size n l : all_acts not_roots (allocate_size fo c n l).
Proof. unfold allocate_size. acts. Qed.
Lemma acts_claim_node : all_acts not_roots (claim_node fo c).
Proof. unfold claim_node. cbn [all_acts]. acts. Qed.
Lemma acts_make_leaf l r : all_acts not_roots (make_leaf fo c nitems l r).
Proof. unfold make_leaf. apply all_acts_pbind; [apply acts_claim_node|]. acts. Qed.
Lemma acts_draw_side : all_acts not_roots draw_side.
Proof. unfold draw_side. acts. Qed.
Lemma acts_draw_index n : all_acts not_roots (draw_index n).
Proof. unfold draw_index. cbn [all_acts]. acts. Qed.
Lemma acts_side n y : all_acts not_roots (side fo c n y).
Proof. unfold side. acts. Qed.
Lemma acts_partition f l : (forall x, all_acts not_roots (f x)) -> all_acts not_roots (partition_by f l).
Proof.
  intro H. induction l as [|x l IH]; cbn [partition_by]; [exact I|].
  apply all_acts_pbind; [apply H|]. intro. apply all_acts_pbind; [exact IH|]. acts.
Qed.
Lemma acts_means l : forall nodes p q ic jc, all_acts not_roots (means_loop fo c l nodes p q ic jc).
Proof.
  induction l as [|l IH]; intros; cbn [means_loop]; [exact I|].
  apply all_acts_pbind; [apply acts_draw_index|]. intro. apply all_acts_pbind; [apply all_acts_plift|]. intro.
  repeat (match goal with |- all_acts _ (if ?b then _ else _) => destruct b end); apply IH.
Qed.
Lemma acts_create_split nodes m : all_acts not_roots (create_split fo c nodes m).
Proof.
  unfold create_split, two_means. apply all_acts_pbind; [|acts].
  apply all_acts_pbind; [apply acts_draw_index|]. intro. apply all_acts_pbind; [apply acts_draw_index|]. intro.
  apply all_acts_pbind; [apply all_acts_plift|]. intro. apply all_acts_pbind; [apply all_acts_plift|]. intro.
  apply acts_means.
Qed.
Lemma acts_attempts k : forall nodes m cur, all_acts not_roots (attempts fo c k nodes m cur).
Proof.
  induction k as [|k IH]; intros; cbn [attempts]; [exact I|].
  apply all_acts_pbind; [apply acts_create_split|]. intro. apply all_acts_pbind; [apply acts_partition; intro; apply acts_side|].
  intro. match goal with |- all_acts _ (if ?b then _ else _) => destruct b end; [exact I|apply IH].
Qed.
Lemma acts_randomise f : forall nodes m cur, all_acts not_roots (randomise fo c f nodes m cur).
Proof.
  induction f as [|f IH]; intros; cbn [randomise];
    match goal with |- all_acts _ (if ?b then _ else _) => destruct b end; try exact I.
  apply all_acts_pbind; [apply acts_partition; intro; apply acts_draw_side|]. intro. apply IH.
Qed.
Lemma acts_store_split img : all_acts not_roots (store_split fo c img).
Proof. unfold store_split. apply all_acts_pbind; [apply acts_claim_node|]. acts. Qed.

(** makeTree after the one-element case: bucket or split. *)
Definition tree_body (f rf : nat) (indices : list N) (isRoot : bool) : prog N :=
  let lenIdx := tix c (lenN indices) in
  if (lenIdx <=? maxK fo c) && (negb isRoot || (nitems <=? maxK fo c) || (lenIdx =? 1))
  then make_leaf fo c nitems indices isRoot
  else
    vis! ARLock;
    vis p <- AGetBase;
    do nodes <- read_nodes fo c p indices;
    do mlr <- attempts fo c 3 nodes (zero_snode fo c) ([], []);
    vis! ARUnlock;
    do mlr' <- randomise fo c rf nodes (fst mlr) (snd mlr);
    let m := fst mlr' in
    let l := fst (snd mlr') in
    let r := snd (snd mlr') in
    let desc := if isRoot then nitems else tix c (lenN indices) in
    do cc <- (if lenN r <? lenN l
              then do cr <- make_tree fo c nitems f rf r false;
                   do cl <- make_tree fo c nitems f rf l false; Ret (cl, cr)
              else do cl <- make_tree fo c nitems f rf l false;
                   do cr <- make_tree fo c nitems f rf r false; Ret (cl, cr));
    store_split fo c (split_image fo c desc (fst cc) (snd cc) m).
Lemma make_tree_S f rf l r :
  make_tree fo c nitems (S f) rf l r =
  match l, r with [j], false => Ret j | _, _ => tree_body f rf l r end.
Proof. destruct l as [|j [|j2 l]], r; reflexivity. Qed.

Lemma acts_make_tree f rf : forall l r, all_acts not_roots (make_tree fo c nitems f rf l r).
Proof.
  induction f as [|f IH]; intros; [exact I|]. rewrite make_tree_S.
  assert (H : all_acts not_roots (tree_body f rf l r)).
  { unfold tree_body. cbv zeta. match goal with |- all_acts _ (if ?b then _ else _) => destruct b end; [apply acts_make_leaf|].
    cbn [all_acts]. split; [exact I|]. intros _. split; [exact I|]. intro p.
    apply all_acts_pbind; [unfold read_nodes; acts|]. intro.
    apply all_acts_pbind; [apply acts_attempts|]. intro. cbn [all_acts]. split; [exact I|]. intros _.
    apply all_acts_pbind; [apply acts_randomise|]. intro.
    apply all_acts_pbind; [|intro; apply acts_store_split].
    match goal with |- all_acts _ (if ?b then _ else _) => destruct b end;
      (apply all_acts_pbind; [apply IH|]; intro; apply all_acts_pbind; [apply IH|]; acts). }
  destruct l as [|j [|j2 l]], r; auto. exact I.
Qed.
Lemma acts_tree_loop f mf rf t : forall acc, all_acts not_roots (tree_loop fo c nitems f mf rf t acc).
Proof.
  induction f as [|f IH]; intros; cbn [tree_loop]; [exact I|].
  apply all_acts_pbind; [acts|]. intros []; [exact I|].
  apply all_acts_pbind; [unfold collect_items; acts|]. intro.
  apply all_acts_pbind; [apply acts_make_tree|]. intro. apply IH.
Qed.
Lemma acts_preprocess : all_acts not_roots (preprocess fo c nitems).
Proof. unfold preprocess. acts. Qed.
Lemma acts_weaken {A} (p : prog A) : all_acts not_roots p -> all_acts not_set_roots p.
Proof. induction p; cbn [all_acts]; auto. intros [H1 H2]. split; [destruct e; easy|auto]. Qed.
Lemma acts_copy_roots : all_acts not_set_roots (copy_roots fo c).
Proof.
  unfold copy_roots. cbn [all_acts]. split; [exact I|]. intro rs. split; [exact I|]. intro n.
  apply all_acts_pbind; [apply acts_weaken, acts_allocate_size|]. acts.
Qed.

Lemma exec_broots w X (e : act X) s x s' : not_set_roots X e -> exec c w e s = Ok (x, s') -> broots s' = broots s.
Proof.
  intros H E. destruct e; cbn [exec] in E; try (injection E as <- <-; reflexivity); try destruct H.
  - destruct (reallocate _ _ _). injection E as <- <-. reflexivity.
  - destruct (arena_at _ _); [|discriminate]. destruct (bread _ _ _); [|discriminate]. injection E as <- <-. reflexivity.
  - destruct p; [|discriminate]. destruct (nth_error _ _); [|discriminate]. destruct (bwrite _ _ _); [|discriminate].
    injection E as <- <-. reflexivity.
  - destruct (rnd s); [|discriminate]. destruct (kiss_next _ _). injection E as <- <-. reflexivity.
Qed.
Lemma run_broots w {A} (p : prog A) : forall s a s',
  all_acts not_set_roots p -> run c w p s = Ok (a, s') -> broots s' = broots s.
Proof.
  induction p as [a|e|X e k IH]; intros s x s' H E; cbn [run all_acts] in *; [congruence|discriminate|].
  destruct H as [H1 H2]. destruct (exec c w e s) as [[y s1]|] eqn:Ee; [|discriminate]. cbn [rbind] in E.
  rewrite (IH y s1 x s' (H2 y) E). eapply exec_broots; eauto.
Qed.

(** ** The worker number only labels *)
(** Equal up to the ghost labels. *)
Definition sim (s t : bst) : Prop :=
  heap s = heap t /\ al s = al t /\ base s = base t /\ nn s = nn t /\ ns s = ns t /\
  rootsN s = rootsN t /\ rnd s = rnd t.
Lemma sim_refl s : sim s s.
Proof. repeat split. Qed.
Definition sim_res {X} (r1 r2 : res (X * bst)) : Prop :=
  match r1, r2 with
  | Ok (x, s), Ok (y, t) => x = y /\ sim s t
  | Er e, Er e' => e = e'
  | _, _ => False
  end.
Lemma exec_sim v w X (e : act X) s t : not_roots X e -> sim s t -> sim_res (exec c v e s) (exec c w e t).
Proof.
  intros H (H1 & H2 & H3 & H4 & H5 & H6 & H7). unfold sim_res.
  destruct e; cbn [exec]; try destruct H; try (split; [auto|repeat split; assumption]).
  - rewrite H1, H2. destruct (reallocate _ _ _). split; [auto|]. unfold sim, set_heap. cbn. repeat split; auto.
  - rewrite H1. destruct (arena_at _ _); [|auto]. destruct (bread _ _ _); cbn [rbind]; [|auto]. split; [auto|repeat split; auto].
  - destruct p; [|auto]. rewrite H1. destruct (nth_error _ _); [|auto]. destruct (bwrite _ _ _); cbn [rbind]; [|auto].
    split; [auto|]. unfold sim, set_arenas, set_heap. cbn. repeat split; auto.
  - rewrite H7. destruct (rnd t); [|auto]. destruct (kiss_next _ _). split; [auto|]. unfold sim. cbn. repeat split; auto.
Qed.
Lemma run_sim v w {A} (p : prog A) : forall s t,
  all_acts not_roots p -> sim s t -> sim_res (run c v p s) (run c w p t).
Proof.
  induction p as [a|e|X e k IH]; intros s t H Hs; cbn [run all_acts] in *; [split; auto|reflexivity|].
  destruct H as [H1 H2]. pose proof (exec_sim v w X e s t H1 Hs) as He. unfold sim_res in He.
  destruct (exec c v e s) as [[x s1]|], (exec c w e t) as [[y t1]|]; try easy.
  destruct He as [<- Hs1]. cbn [rbind]. apply IH; auto.
Qed.
Lemma thread_build_sim f mf rf t v w s :
  sim_res (run c v (thread_build fo c nitems f mf rf t v) s) (run c w (thread_build fo c nitems f mf rf t w) s).
Proof.
  unfold thread_build. rewrite !MemProof.run_pbind.
  pose proof (run_sim v w _ s s (acts_tree_loop f mf rf t []) (sim_refl s)) as H. unfold sim_res in H.
  destruct (run c v _ s) as [[x s1]|], (run c w _ s) as [[y t1]|]; try easy.
  destruct H as [<- (H1 & H2 & H3 & H4 & H5 & H6 & H7)]. cbn [rbind run].
  change (exec c v ALockRoots s1) with (Ok (tt, s1)). change (exec c w ALockRoots t1) with (Ok (tt, t1)). cbn.
  split; [reflexivity|]. unfold sim. cbn. repeat split; auto. unfold rootsN in *. cbn.
  rewrite !map_app, !map_map. cbn. now rewrite H6.
Qed.
End B.
