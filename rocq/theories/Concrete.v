(** Concrete configurations used by the examples and counterexamples. *)
From Verif Require Import Base Flt Layout Rng Sorts Alloc Prog Dist Build Policy Index Search Lib LayoutProof FltProof StoreProof.
Open Scope N_scope.

(** 32-bit indices, float32 vectors of length [n], angular distance. *)
Definition cA (n : N) : Cfg := mkCfg 4 n Angular.
(** The same with the dot-product distance. *)
Definition cD (n : N) : Cfg := mkCfg 4 n DotProduct.
(** 64-bit indices. *)
Definition cA64 (n : N) : Cfg := mkCfg 8 n Angular.

Lemma cA_ok n : n < 2 ^ 27 -> CfgOK fops32 (cA n).
Proof. intro H. constructor; [exact flaws32|now left|]. cbv [off_vec off_dot align iw cA knd vlen ixb fbytes fops32]. lia. Qed.
Lemma cD_ok n : n < 2 ^ 27 -> CfgOK fops32 (cD n).
Proof. intro H. constructor; [exact flaws32|now left|]. cbv [off_vec off_dot align iw cD knd vlen ixb fbytes fops32]. lia. Qed.
Lemma cA64_ok n : n < 2 ^ 26 -> CfgOK fops64 (cA64 n).
Proof. intro H. constructor; [exact flaws64|now right|]. cbv [off_vec off_dot align iw cA64 knd vlen ixb fbytes fops64]. lia. Qed.

(** A float32 vector from integers. *)
Definition fv (l : list Z) : list (F fops32) := map s_of_Z l.
Definition dv (l : list Z) : list (F fops64) := map d_of_Z l.
(** Bit patterns, for comparing computed vectors. *)
Definition bits (l : list (F fops32)) : list N := map (enc fops32) l.

Definition rbits (r : res (list (F fops32))) : res (list N) := let* v := r in Ok (bits v).

(** A fresh index with the default generator. *)
Definition ix0 (c : Cfg) : idx := new_index fops32 c (Some (kiss_new 0)) 0.
Definition no_files : files := fun _ => None.

Definition isortN : list N -> list N := isort N.ltb.
Definition isortP : list (F fops32 * N) -> list (F fops32 * N) := isort (pair_less (flt fops32) (feq fops32)).

Definition query (c : Cfg) (fuel : nat) (fs : files) (ix : idx) (v : list (F fops32)) (k inspect : Z) (bc : ctx (F fops32)) :=
  get_nns_by_vector fops32 c isortN isortP fuel fs ix v k inspect bc.
Definition ids {A B} (r : res (list N * A * B)) : res (list N) := let* (x, _) := r in Ok (fst x).

(** Items added to a fresh index, then Build with the single-worker policy.  The
    fuels are large enough for every use below: the results are [Ok]. *)
Definition built (c : Cfg) (items : list (N * list (F fops32))) (T : Z) : res idx :=
  let* ix := add_all fops32 c (ix0 c) items in build_single fops32 c 100 100 100 ix T.
(** A vector of length [n] starting with [l], then zeros. *)
Definition pad (n : nat) (l : list Z) : list (F fops32) := fv (l ++ repeat 0%Z (n - length l)).
(** The ids a query with a fresh context of the index returns. *)
Definition ask (c : Cfg) (fs : files) (ix : idx) (v : list (F fops32)) (k inspect : Z) : res (list N) :=
  ids (query c 1000 fs ix v k inspect (create_context fops32 ix)).
(** The fields of node [i]: descendants, first two children, and the sign of its
    margin for a vector (negative, positive). *)
Definition split_at (c : Cfg) (ix : idx) (i : N) (v : list (F fops32)) : res (N * list N * (bool * bool)) :=
  let* b := vread (view no_files ix) (addr fops32 c i) (nodeSize fops32 c) in
  let* m := margin fops32 c (snode_of fops32 c b) v in
  Ok (n_desc c b, n_children c 2 b, (flt fops32 m (f0 fops32), flt fops32 (f0 fops32) m)).
(** GetDistance of the only item of an index to itself. *)
Definition self_distance (v : list (F fops32)) : res (F fops32) :=
  let c := cA (lenN v) in
  let* ix := add_all fops32 c (ix0 c) [(0, v)] in get_distance fops32 c no_files ix 0 0.

Lemma ok_intro {A} (r : res A) (P : A -> Prop) :
  match r with Ok x => P x | Er _ => False end -> exists x, r = Ok x /\ P x.
Proof. destruct r; [eauto|easy]. Qed.
Lemma ok_intro2 {A} (r : res A) (Q P : A -> Prop) :
  match r with Ok x => Q x | Er _ => False end -> (forall x, Q x -> P x) -> exists x, r = Ok x /\ P x.
Proof. destruct r; [eauto|easy]. Qed.
