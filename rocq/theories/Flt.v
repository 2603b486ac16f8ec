(** The arithmetic of the vector element type TV (float32 | float64,
    /repo/interfaces/distance.go:14-16), as a record, so that structural theorems
    can be proved for every arithmetic and numeric ones for IEEE-754. *)
From Verif Require Import Base.
From Coq Require Import Lia.
From Flocq Require Import Core.Zaux IEEE754.BinarySingleNaN IEEE754.Binary IEEE754.Bits.
Open Scope N_scope.
Arguments B754_zero {prec emax}. Arguments B754_infinity {prec emax}.
Arguments B754_nan {prec emax}. Arguments B754_finite {prec emax}.

Record FOps := mkFOps {
  F : Type;                      (* values of TV *)
  D : Type;                      (* values of float64 *)
  fbytes : N;                    (* unsafe.Sizeof(TV(0)) : 4 or 8 *)
  enc : F -> N;                  (* bit pattern stored in memory *)
  dec : N -> F;
  f0 : F; f1 : F; f2 : F; finf : F;
  fadd : F -> F -> F; fsub : F -> F -> F; fmul : F -> F -> F; fdiv : F -> F -> F;
  fneg : F -> F;
  flt : F -> F -> bool;          (* Go <  on TV: false when an operand is NaN *)
  feq : F -> F -> bool;          (* Go == on TV: false when an operand is NaN *)
  fsqrt : F -> F;                (* TV(math.Sqrt(float64(x))) *)
  fmin : F -> F -> F;            (* TV(math.Min(float64(x), float64(y))) *)
  fsq : F -> F;                  (* TV(math.Pow(float64(x), 2.0)) *)
  fofN : N -> F;                 (* TV(x) for a small integer-valued float64 x *)
  dscale : N -> F -> D;          (* x * float64(y), x a small integer-valued float64 *)
  dlt : D -> D -> bool           (* Go < on float64 *)
}.

(** What structural theorems need from the encoding: a bit pattern of the
    right width that can be read back. *)
Record FLaws (fo : FOps) : Prop := mkFLaws {
  fl_bytes : fbytes fo = 4 \/ fbytes fo = 8;
  fl_dec_enc : forall x, dec fo (enc fo x) = x;
  fl_enc_bound : forall x, enc fo x < 2 ^ (8 * fbytes fo)
}.

(** ** IEEE-754 instances (Flocq) *)

Definition isnan32 (x : binary32) : bool := match x with B754_nan _ _ _ => true | _ => false end.
Definition isnan64 (x : binary64) : bool := match x with B754_nan _ _ _ => true | _ => false end.

Definition nan32 : binary32 := proj1_sig default_nan_pl32.
Definition nan64 : binary64 := proj1_sig default_nan_pl64.

(** float64(x) for x : float32.  Exact on numbers; NaN payloads are dropped
    (they are not observable through the library's comparisons). *)
Definition to64 (x : binary32) : binary64 :=
  match x with
  | B754_zero s => B754_zero s
  | B754_infinity s => B754_infinity s
  | B754_nan _ _ _ => nan64
  | B754_finite s m e _ =>
      binary_normalize 53 1024 eq_refl eq_refl mode_NE (cond_Zopp s (Zpos m)) e s
  end.

(** float32(x) for x : float64, round to nearest even. *)
Definition to32 (x : binary64) : binary32 :=
  match x with
  | B754_zero s => B754_zero s
  | B754_infinity s => B754_infinity s
  | B754_nan _ _ _ => nan32
  | B754_finite s m e _ =>
      binary_normalize 24 128 eq_refl eq_refl mode_NE (cond_Zopp s (Zpos m)) e s
  end.

Definition d_of_Z (z : Z) : binary64 := binary_normalize 53 1024 eq_refl eq_refl mode_NE z 0 false.
Definition s_of_Z (z : Z) : binary32 := binary_normalize 24 128 eq_refl eq_refl mode_NE z 0 false.

Definition lt64 (x y : binary64) : bool :=
  match Bcompare 53 1024 x y with Some Lt => true | _ => false end.
Definition eq64 (x y : binary64) : bool :=
  match Bcompare 53 1024 x y with Some Eq => true | _ => false end.
Definition lt32 (x y : binary32) : bool :=
  match Bcompare 24 128 x y with Some Lt => true | _ => false end.
Definition eq32 (x y : binary32) : bool :=
  match Bcompare 24 128 x y with Some Eq => true | _ => false end.

(** Go's math.Min (Go 1.20 src/math/dim.go): -Inf wins over NaN, NaN otherwise
    propagates, and the smaller zero is -0. *)
Definition min64 (x y : binary64) : binary64 :=
  match x, y with
  | B754_infinity true, _ => x
  | _, B754_infinity true => y
  | B754_nan _ _ _, _ => nan64
  | _, B754_nan _ _ _ => nan64
  | B754_zero s, B754_zero _ => if s then x else y
  | _, _ => if lt64 x y then x else y
  end.

Definition fops32 : FOps := {|
  F := binary32; D := binary64; fbytes := 4;
  enc := fun x => Z.to_N (bits_of_b32 x);
  dec := fun n => b32_of_bits (Z.of_N n);
  f0 := B754_zero false; f1 := s_of_Z 1; f2 := s_of_Z 2; finf := B754_infinity false;
  fadd := b32_plus mode_NE; fsub := b32_minus mode_NE; fmul := b32_mult mode_NE; fdiv := b32_div mode_NE;
  fneg := b32_opp; flt := lt32; feq := eq32;
  fsqrt := fun x => to32 (b64_sqrt mode_NE (to64 x));
  fmin := fun x y => to32 (min64 (to64 x) (to64 y));
  fsq := fun x => to32 (b64_mult mode_NE (to64 x) (to64 x));
  fofN := fun n => s_of_Z (Z.of_N n);
  dscale := fun n x => b64_mult mode_NE (d_of_Z (Z.of_N n)) (to64 x);
  dlt := lt64
|}.

Definition fops64 : FOps := {|
  F := binary64; D := binary64; fbytes := 8;
  enc := fun x => Z.to_N (bits_of_b64 x);
  dec := fun n => b64_of_bits (Z.of_N n);
  f0 := B754_zero false; f1 := d_of_Z 1; f2 := d_of_Z 2; finf := B754_infinity false;
  fadd := b64_plus mode_NE; fsub := b64_minus mode_NE; fmul := b64_mult mode_NE; fdiv := b64_div mode_NE;
  fneg := b64_opp; flt := lt64; feq := eq64;
  fsqrt := b64_sqrt mode_NE;
  fmin := min64;
  fsq := fun x => b64_mult mode_NE x x;
  fofN := fun n => d_of_Z (Z.of_N n);
  dscale := fun n x => b64_mult mode_NE (d_of_Z (Z.of_N n)) x;
  dlt := lt64
|}.
