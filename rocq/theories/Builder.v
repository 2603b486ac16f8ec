(** The fluent builder: /repo/builder/index.go. *)
From Verif Require Import Base Flt Layout Rng Policy Index.
Open Scope N_scope.

(** AnnoyIndexBuilderImpl: lines 12-21; nil fields are [None].  The distance is
    reduced to the vector length of AngularDistance (lines 42-45); a custom sorter
    and verbose logging are left out. *)
Record builder := mkBld {
  b_hint : N; b_random : option kiss; b_vlen : option N; b_policy : option policy; b_im : option imkind
}.

(** Index(): lines 24-26. *)
Definition bld_index : builder := mkBld 0 None None None None.

(** The fluent calls: lines 28-65. *)
Inductive bcall :=
| CRandom (r : option kiss) | CHint (h : Z) | CAngular (len : Z)
| CMulti | CSingle | CMmap | CGCMem.

Definition bld_call (w : N) (b : builder) (k : bcall) : builder :=
  match k with
  | CRandom r => mkBld (b_hint b) r (b_vlen b) (b_policy b) (b_im b)
  | CHint h => if (h <=? 0)%Z then b
               else mkBld (Z.to_N (h mod 2 ^ Z.of_N w)) (b_random b) (b_vlen b) (b_policy b) (b_im b)
  | CAngular n => mkBld (b_hint b) (b_random b) (Some (Z.to_N (n mod 2 ^ Z.of_N w))) (b_policy b) (b_im b)
  | CMulti => mkBld (b_hint b) (b_random b) (b_vlen b) (Some MultiWorker) (b_im b)
  | CSingle => mkBld (b_hint b) (b_random b) (b_vlen b) (Some SingleWorker) (b_im b)
  | CMmap => mkBld (b_hint b) (b_random b) (b_vlen b) (b_policy b) (Some MmapMem)
  | CGCMem => mkBld (b_hint b) (b_random b) (b_vlen b) (b_policy b) (Some GCMem)
  end.

(** What Build() hands to index.New: lines 77-113.  [w] is the width of TIX: the
    default generator exists for uint32 only (lines 91-101).  A nil distance is a
    nil dereference inside New. *)
Record built := mkBuilt { u_cfg : Cfg; u_policy : policy; u_im : imkind; u_idx : idx }.

Definition bld_random (w : N) (b : builder) : option kiss :=
  match b_random b with
  | Some r => Some r
  | None => if w =? 32 then Some (kiss_new 0) else None
  end.

Definition bld_build (fo : FOps) (w : N) (b : builder) : res built :=
  match b_vlen b with
  | None => Er (Panic PNil)
  | Some n =>
      let c := mkCfg (w / 8) n Angular in
      Ok (mkBuilt c
            (match b_policy b with Some p => p | None => SingleWorker end)
            (match b_im b with Some k => k | None => MmapMem end)
            (new_index fo c (bld_random w b) (b_hint b)))
  end.
