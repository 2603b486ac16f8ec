(** Specification vocabulary for the index object's life cycle. *)
From Verif Require Import Base Flt Layout Rng Alloc Prog Dist Build Policy Index Builder.
Open Scope N_scope.

Section S.
Variable fo : FOps.
Variable c : Cfg.
Notation V := (list (F fo)).
(** What a caller can do between two builds without loading. *)
Inductive op := OAdd (i : N) (v : V) | OClose.
Definition do_op (ix : idx) (o : op) : res idx :=
  match o with OAdd i v => add_item fo c ix i v | OClose => close ix end.
Fixpoint do_ops (ix : idx) (l : list op) : res idx :=
  match l with [] => Ok ix | o :: r => let* ix' := do_op ix o in do_ops ix' r end.

End S.
Arguments OAdd {fo} i v. Arguments OClose {fo}.

(** The last call of a kind decides; [sel k] is what call [k] sets, if anything. *)
Fixpoint last_set {A} (sel : bcall -> option A) (l : list bcall) (d : A) : A :=
  match l with [] => d | k :: r => last_set sel r (match sel k with Some x => x | None => d end) end.
Definition sel_policy (k : bcall) := match k with CMulti => Some MultiWorker | CSingle => Some SingleWorker | _ => None end.
Definition sel_im (k : bcall) := match k with CMmap => Some MmapMem | CGCMem => Some GCMem | _ => None end.
Definition sel_random (k : bcall) : option (option kiss) := match k with CRandom r => Some r | _ => None end.
Definition sel_vlen (w : N) (k : bcall) : option (option N) :=
  match k with CAngular n => Some (Some (Z.to_N (n mod 2 ^ Z.of_N w))) | _ => None end.

