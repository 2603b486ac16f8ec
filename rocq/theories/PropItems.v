(** Properties of AddItem and GetItem (C01, C03, C04). *)
From Verif Require Import Base Flt Layout Rng Alloc Prog Dist Build Policy Index Spec Lib LayoutProof MemProof StoreProof Concrete.
Open Scope N_scope.

(** A history of additions inside the capacity bound: indices whose grown allocation
    is addressable in the index type, vectors of the configured length. *)
Definition in_capacity (fo : FOps) (c : Cfg) (h : list (N * list (F fo))) : Prop :=
  Forall (fun iv => (fst iv + 1) * 3 / 2 * nodeSize fo c < 2 ^ iw c /\ lenN (snd iv) = vlen c) h.

(** C01: last write wins. *)
Theorem C01_get_item_returns_last_added :
  forall fo c, CfgOK fo c -> forall r hint h, in_capacity fo c h ->
  exists ix, add_all fo c (new_index fo c r hint) h = Ok ix /\
    forall fs i v, last_added h i = Some v -> get_item fo c fs ix i = Ok v.
Proof. exact get_last_added. Qed.
Example C01_example :
  CfgOK fops32 (cA 2) /\ in_capacity fops32 (cA 2) [(2, fv [1; 2]%Z); (0, fv [3; 4]%Z); (2, fv [5; 6]%Z)] /\
  last_added [(2, fv [1; 2]%Z); (0, fv [3; 4]%Z); (2, fv [5; 6]%Z)] 2 = Some (fv [5; 6]%Z).
Proof. split; [apply cA_ok; reflexivity|]. split; [|reflexivity]. repeat constructor. Qed.

(** C03: never-added indices below the largest one read as zero bytes. *)
Theorem C03_holes_read_as_zero :
  forall fo c, CfgOK fo c -> forall r hint h, in_capacity fo c h ->
  exists ix, add_all fo c (new_index fo c r hint) h = Ok ix /\
    forall fs i, last_added h i = None -> i < extent h ->
      get_item fo c fs ix i = Ok (repeat (dec fo 0) (N.to_nat (vlen c))).
Proof. exact get_hole. Qed.
(** The zero pattern is the number zero in both float types. *)
Theorem C03_zero_pattern_is_zero : dec fops32 0 = f0 fops32 /\ dec fops64 0 = f0 fops64.
Proof. exact zero_patterns. Qed.
Example C03_example :
  in_capacity fops32 (cA 2) [(2, fv [1; 2]%Z)] /\
  last_added [(2, fv [1; 2]%Z)] 1 = None /\ 1 < extent [(2, fv [1; 2]%Z)].
Proof. split; [repeat constructor|]. split; reflexivity. Qed.

(** C04: when AddItem panics.  Vector lengths are Go ints, so the comparison in the
    index type is exact for lengths below 2^w. *)
Theorem C04_add_item_accepts_exactly :
  forall fo c, CfgOK fo c -> forall r hint h ix i v, in_capacity fo c h ->
  add_all fo c (new_index fo c r hint) h = Ok ix ->
  (i + 1) * 3 / 2 * nodeSize fo c < 2 ^ iw c -> lenN v < 2 ^ iw c ->
  (lenN v = vlen c /\ exists ix', add_item fo c ix i v = Ok ix') \/
  (lenN v <> vlen c /\ add_item fo c ix i v = Er (Panic PLength)).
Proof. exact add_accepts. Qed.
(** Vectors of more than 2^30 bytes cannot be added at all. *)
Theorem C04_huge_vectors_panic :
  forall fo c ix i v, iloaded ix = false -> lenN v = vlen c -> vlen c < 2 ^ iw c -> 2 ^ 30 < vlen c * fbytes fo ->
  add_item fo c ix i v = Er (Panic PIndex).
Proof.
  intros fo c ix i v Hl Hv Hs Hb. unfold add_item. rewrite Hl, Hv, (tix_small c _ Hs), N.eqb_refl. cbn [negb].
  now replace (2 ^ 30 <? vlen c * fbytes fo) with true by (symmetry; now apply N.ltb_lt).
Qed.
Example C04_huge_example :
  let c := cA (2 ^ 28 + 1) in let v := repeat (f0 fops32) (N.to_nat (2 ^ 28 + 1)) in
  iloaded (ix0 c) = false /\ lenN v = vlen c /\ vlen c < 2 ^ iw c /\ 2 ^ 30 < vlen c * fbytes fops32.
Proof.
  cbv zeta. split; [reflexivity|]. split; [unfold lenN; rewrite repeat_length, N2Nat.id; reflexivity|].
  split; reflexivity.
Qed.
Theorem C04_loaded_rejects :
  forall fo c ix i v, iloaded ix = true -> add_item fo c ix i v = Er (Panic PLoaded).
Proof. exact add_loaded. Qed.
Example C04_example :
  in_capacity fops32 (cA 2) [(2, fv [1; 2]%Z)] /\
  (exists ix, add_all fops32 (cA 2) (ix0 (cA 2)) [(2, fv [1; 2]%Z)] = Ok ix) /\
  (7 + 1) * 3 / 2 * nodeSize fops32 (cA 2) < 2 ^ iw (cA 2) /\ lenN (fv [1; 2; 3]%Z) <> vlen (cA 2).
Proof. split; [repeat constructor|]. split; [eexists; vm_compute; reflexivity|]. split; [reflexivity|discriminate]. Qed.

Print Assumptions C01_get_item_returns_last_added.
Print Assumptions C03_holes_read_as_zero.
Print Assumptions C03_zero_pattern_is_zero.
Print Assumptions C04_add_item_accepts_exactly.
Print Assumptions C04_huge_vectors_panic.
Print Assumptions C04_loaded_rejects.
