(** The slice GetItem returns is a window into the index (C89). *)
From Verif Require Import Base Flt Layout Rng Alloc Prog Dist Build Policy Index Slice Spec Lib LayoutProof MemProof StoreProof SliceProof Concrete PropItems.
Open Scope N_scope.

Lemma last_added_app {V} (h1 h2 : list (N * V)) i :
  last_added (h1 ++ h2) i = match last_added h2 i with Some v => Some v | None => last_added h1 i end.
Proof.
  induction h1 as [|[j w] h1 IH]; cbn [app last_added]; [now destruct (last_added h2 i)|].
  rewrite IH. destruct (last_added h2 i); [reflexivity|]. reflexivity.
Qed.

(** When GetItem returns, its elements are the item. *)
Theorem C89_slice_shows_item :
  forall fo c, CfgOK fo c -> forall r hint h ix i, in_capacity fo c h ->
  add_all fo c (new_index fo c r hint) h = Ok ix -> i < extent h ->
  exists s, get_slice fo c ix i = Some s /\
    forall fs, slice_read fo c ix s = get_item fo c fs ix i.
Proof.
  intros fo c OK r hint h ix i H E Hi. destruct (fresh_add_all fo c OK r hint h H) as (ix1 & E1 & I & Hn & _).
  rewrite E in E1. injection E1 as <-. rewrite <- Hn in Hi.
  destruct (inv_current fo c ix _ i I Hi) as (g & b & [C1 C2] & _). unfold get_slice. rewrite C1. eexists. split; [reflexivity|].
  intro fs. rewrite (slice_current fo c OK ix _ i g I Hi) by (split; assumption).
  rewrite (get_item_spec fo c OK ix _ fs i I Hi). now rewrite map_repeat.
Qed.

(** After more additions the slice shows the item as it was at the return of GetItem or
    after one of those additions.  As long as GetItem still returns a slice of the same
    memory, it shows the item as it is now. *)
Theorem C89_slice_after_additions :
  forall fo c, CfgOK fo c -> forall r hint h1 h2 ix1 ix2 i s, in_capacity fo c h1 -> in_capacity fo c h2 ->
  add_all fo c (new_index fo c r hint) h1 = Ok ix1 -> add_all fo c ix1 h2 = Ok ix2 -> i < extent h1 ->
  get_slice fo c ix1 i = Some s ->
  exists h2a h2b, h2 = h2a ++ h2b /\
    slice_read fo c ix2 s = Ok (match last_added (h1 ++ h2a) i with Some v => v | None => repeat (dec fo 0) (N.to_nat (vlen c)) end) /\
    (get_slice fo c ix2 i = Some s -> h2b = []).
Proof.
  intros fo c OK r hint h1 h2 ix1 ix2 i s H1 H2 E1 E2 Hi Hs.
  destruct (fresh_add_all fo c OK r hint h1 H1) as (ix & E & I & Hn & _). rewrite E1 in E. injection E as <-. rewrite <- Hn in Hi.
  destruct (inv_current fo c ix1 _ i I Hi) as (g & b & C & _).
  unfold get_slice in Hs. rewrite (proj1 C) in Hs. injection Hs as <-.
  destruct (slice_follows fo c OK i h2 ix1 _ I Hi H2) as (ix & E & F). rewrite E2 in E. injection E as <-.
  destruct (F g C) as (a & b' & -> & S & Z). exists a, b'. split; [reflexivity|]. split.
  - rewrite S. unfold value. now rewrite last_added_app.
  - intro G. apply Z. destruct (add_all_inv fo c OK _ _ _ I H2) as (ix & E & I2 & Hn2 & _). rewrite E2 in E. injection E as <-.
    destruct (inv_current fo c ix2 _ i I2) as (g2 & b2 & C2 & _); [lia|].
    unfold get_slice in G. rewrite (proj1 C2) in G. injection G as <-. exact C2.
Qed.

(** Writing to the elements of the slice GetItem just returned changes the item, and no
    other one. *)
Theorem C89_writing_changes_the_item :
  forall fo c, CfgOK fo c -> forall r hint h ix i s w, in_capacity fo c h ->
  add_all fo c (new_index fo c r hint) h = Ok ix -> i < extent h -> get_slice fo c ix i = Some s -> lenN w = vlen c ->
  exists ix', slice_write fo c ix s w = Ok ix' /\ n_items ix' = n_items ix /\
    (forall fs, get_item fo c fs ix' i = Ok w) /\
    forall fs j, j < extent h -> j <> i -> get_item fo c fs ix' j = get_item fo c fs ix j.
Proof.
  intros fo c OK r hint h ix i s w H E Hi Hs Hw. destruct (fresh_add_all fo c OK r hint h H) as (ix1 & E1 & I & Hn & _).
  rewrite E in E1. injection E1 as <-. rewrite <- Hn in *.
  destruct (inv_current fo c ix _ i I Hi) as (g & b & C & _).
  unfold get_slice in Hs. rewrite (proj1 C) in Hs. injection Hs as <-.
  exact (slice_write_spec fo c OK ix _ i w g I Hi C Hw).
Qed.

(** But it is not the same as adding the new vector: the stored norm stays the old one.
    Item 1 is (0,1).  Assigning (3,4) to its elements and adding (3,4) give the same item,
    but different distances to item 0, which is (1,0). *)
Definition wr_items : list (N * list (F fops32)) := [(0, fv [1; 0]%Z); (1, fv [0; 1]%Z)].
Definition wr_vec : list (F fops32) := fv [3; 4]%Z.
Definition written : res (idx * list N * list N * N * N) :=
  let* ix := add_all fops32 (cA 2) (ix0 (cA 2)) wr_items in
  match get_slice fops32 (cA 2) ix 1 with
  | None => Er (Panic PIndex)
  | Some s =>
      let* ixw := slice_write fops32 (cA 2) ix s wr_vec in
      let* ixa := add_item fops32 (cA 2) ix 1 wr_vec in
      let* vw := get_item fops32 (cA 2) no_files ixw 1 in
      let* va := get_item fops32 (cA 2) no_files ixa 1 in
      let* dw := get_distance fops32 (cA 2) no_files ixw 0 1 in
      let* da := get_distance fops32 (cA 2) no_files ixa 0 1 in
      Ok (ix, bits vw, bits va, enc fops32 dw, enc fops32 da)
  end.
Theorem C89_writing_leaves_the_norm :
  exists ix vw va dw da, written = Ok (ix, vw, va, dw, da) /\ vw = va /\ dw <> da.
Proof.
  destruct written as [[[[[ix vw] va] dw] da]|] eqn:E; [|exfalso; revert E; vm_compute; discriminate].
  exists ix, vw, va, dw, da. split; [reflexivity|].
  assert (X : match written with Ok (_, vw, va, dw, da) => vw = va /\ negb (dw =? da) = true | Er _ => False end) by (vm_compute; repeat split).
  rewrite E in X. destruct X as [X1 X2]. split; [exact X1|]. now intros ->; rewrite N.eqb_refl in X2.
Qed.

(** Both cases of the second theorem: adding item 0 again after GetItem(0) shows through
    the slice; if item 9 was added in between, for which the index had to move to larger
    memory, it does not. *)
Definition shown (h1 h2 : list (N * list (F fops32))) (i : N) : res (list N * list N) :=
  let* ix1 := add_all fops32 (cA 2) (ix0 (cA 2)) h1 in
  match get_slice fops32 (cA 2) ix1 i with
  | None => Er (Panic PIndex)
  | Some s =>
      let* ix2 := add_all fops32 (cA 2) ix1 h2 in
      let* a := slice_read fops32 (cA 2) ix2 s in
      let* b := get_item fops32 (cA 2) no_files ix2 i in
      Ok (bits a, bits b)
  end.
Example C89_example :
  in_capacity fops32 (cA 2) wr_items /\ in_capacity fops32 (cA 2) [(9, fv [1; 1]%Z); (0, fv [5; 6]%Z)] /\ 0 < extent wr_items /\
  shown wr_items [(0, fv [5; 6]%Z)] 0 = Ok (bits (fv [5; 6]%Z), bits (fv [5; 6]%Z)) /\
  shown wr_items [(9, fv [1; 1]%Z); (0, fv [5; 6]%Z)] 0 = Ok (bits (fv [1; 0]%Z), bits (fv [5; 6]%Z)).
Proof. split; [repeat constructor|]. split; [repeat constructor|]. split; [reflexivity|]. split; vm_compute; reflexivity. Qed.

Print Assumptions C89_slice_shows_item.
Print Assumptions C89_slice_after_additions.
Print Assumptions C89_writing_changes_the_item.
Print Assumptions C89_writing_leaves_the_norm.
