(** Changing the sign of a coordinate everywhere, or adding zero coordinates, changes no inner product. *)
From Verif Require Import Base Flt Layout ForestSpec RealSpec MirrorSpec Lib FltProof NumProof AccProof.
From Coq Require Import Reals Lra Lia Bool.
From Flocq Require Import Core IEEE754.BinarySingleNaN IEEE754.Binary IEEE754.Bits Plus_error.
Open Scope R_scope.

Section B.
Variables prec emax : Z.
Context (Hp : Prec_gt_0 prec) (Hm : Prec_lt_emax prec emax).
Notation bf := (Binary.binary_float prec emax).
Variable nan2 : bf -> bf -> {x : bf | Binary.is_nan prec emax x = true}.
Variable nan1 : bf -> {x : bf | Binary.is_nan prec emax x = true}.
Notation plus := (Binary.Bplus prec emax Hp Hm nan2 mode_NE).
Notation mult := (Binary.Bmult prec emax Hp Hm nan2 mode_NE).
Notation opp := (Binary.Bopp prec emax nan1).
Hypothesis nan_left : forall x y, Binary.is_nan prec emax x = true -> Binary.build_nan prec emax (nan2 x y) = x.
Hypothesis nan_opp : forall x, Binary.is_nan prec emax x = true -> opp x = x.
Hypothesis nan_same : forall x y x' y', Binary.is_nan prec emax x = Binary.is_nan prec emax x' -> Binary.is_nan prec emax y = Binary.is_nan prec emax y' ->
  (Binary.is_nan prec emax x = true -> x = x') -> (Binary.is_nan prec emax y = true -> y = y') ->
  Binary.build_nan prec emax (nan2 x y) = Binary.build_nan prec emax (nan2 x' y').

Definition pz : bf := Binary.B754_zero false.
Definition mz : bf := Binary.B754_zero true.

Lemma plus_pz x : x <> mz -> plus x pz = x.
Proof.
  intro H. destruct x as [s|s|s pl e|s m e He]; try reflexivity.
  - destruct s; [exfalso; apply H; reflexivity|reflexivity].
  - unfold Binary.Bplus. cbn. apply nan_left. reflexivity.
Qed.
Lemma plus_mz x y : plus x y = mz -> x = mz.
Proof.
  intro H. destruct x as [s|s|s pl e|s m e He].
  - destruct y as [t|t|t pl' e'|t m' e' He'].
    + destruct s, t; cbn in H; try reflexivity; discriminate.
    + cbn in H. discriminate.
    + exfalso. assert (X : Binary.is_nan prec emax (plus (Binary.B754_zero s) (Binary.B754_nan t pl' e')) = true)
        by exact (Binary.is_nan_build_nan prec emax (nan2 _ _)). rewrite H in X. discriminate.
    + cbn in H. discriminate.
  - exfalso. destruct y as [t|t|t pl' e'|t m' e' He']; try (cbn in H; discriminate).
    + revert H. unfold Binary.Bplus. cbn. destruct (Bool.eqb s t); cbn; [discriminate|]. intro H.
      assert (X := Binary.is_nan_build_nan prec emax (nan2 (Binary.B754_infinity s) (Binary.B754_infinity t))).
      rewrite H in X. discriminate.
  - exfalso. assert (X : Binary.is_nan prec emax (plus (Binary.B754_nan s pl e) y) = true)
      by (destruct y; exact (Binary.is_nan_build_nan prec emax (nan2 _ _))). rewrite H in X. discriminate.
  - exfalso. destruct y as [t|t|t pl' e'|t m' e' He']; try (cbn in H; discriminate).
    + set (x := Binary.B754_finite s m e He) in *. set (y := Binary.B754_finite t m' e' He') in *.
      pose proof (Binary.Bplus_correct prec emax Hp Hm nan2 mode_NE x y eq_refl eq_refl) as C.
      destruct (Rlt_bool _ _).
      * rewrite H in C. destruct C as (C1 & _ & C3).
        assert (E0 : Binary.B2R prec emax x + Binary.B2R prec emax y = 0).
        { apply (round_plus_eq_0 radix2 (SpecFloat.fexp prec emax) (round_mode mode_NE)); try apply Binary.generic_format_B2R. symmetry. exact C1. }
        rewrite E0, Rcompare_Eq in C3 by reflexivity. cbn in C3.
        destruct s, t; cbn in C3; try discriminate.
        assert (N1 : Binary.B2R prec emax x < 0) by (unfold x, Binary.B2R; apply F2R_lt_0; reflexivity).
        assert (N2 : Binary.B2R prec emax y < 0) by (unfold y, Binary.B2R; apply F2R_lt_0; reflexivity). lra.
      * rewrite H in C. destruct C as [C _]. cbn in C. discriminate.
Qed.
Lemma mult_opp x y : mult (opp x) (opp y) = mult x y.
Proof.
  destruct x as [s|s|s pl e|s m e He].
  1,2,4: destruct y as [t|t|t pl' e'|t m' e' He'].
  all: try (cbn; now destruct s, t).
  all: try (rewrite (nan_opp (Binary.B754_nan _ _ _)) by reflexivity; unfold Binary.Bmult; cbn; apply nan_same; cbn; auto; discriminate).
  - refine (nan_same _ _ _ _ _ _ _ _); cbn; auto; discriminate.
  - refine (nan_same _ _ _ _ _ _ _ _); cbn; auto; discriminate.
  - unfold Binary.Bmult. cbn [Binary.Bopp Binary.B2BSN].
    assert (E : @BinarySingleNaN.Bmult prec emax Hp Hm mode_NE (BinarySingleNaN.B754_finite (negb s) m e He) (BinarySingleNaN.B754_finite (negb t) m' e' He') =
                @BinarySingleNaN.Bmult prec emax Hp Hm mode_NE (BinarySingleNaN.B754_finite s m e He) (BinarySingleNaN.B754_finite t m' e' He')).
    { apply BinarySingleNaN.B2SF_inj. cbn [BinarySingleNaN.Bmult]. rewrite !BinarySingleNaN.B2SF_SF2B. f_equal. now destruct s, t. }
    rewrite E. clear E. generalize (@BinarySingleNaN.Bmult prec emax Hp Hm mode_NE (BinarySingleNaN.B754_finite s m e He) (BinarySingleNaN.B754_finite t m' e' He')).
    intro z. destruct z; try reflexivity. cbn [Binary.BSN2B]. apply nan_same; cbn; auto; discriminate.
  - rewrite (nan_opp (Binary.B754_nan s pl e)) by reflexivity. 
    assert (E : forall z, mult (Binary.B754_nan s pl e) z = Binary.B754_nan s pl e)
      by (intro z; destruct z; exact (nan_left (Binary.B754_nan s pl e) _ eq_refl)).
    now rewrite !E.
Qed.
End B.

(** The same for the float types of the library. *)
Definition not_mz (fo : FOps) (a : F fo) : Prop := a <> fneg fo (f0 fo).
Section L.
Variable fo : FOps.
Hypothesis FL : is_float fo.
Notation V := (list (F fo)).

Lemma add_zero a : not_mz fo a -> fadd fo a (fmul fo (f0 fo) (f0 fo)) = a.
Proof.
  destruct FL as [->| ->]; intro H.
  - apply (plus_pz 24 128 eq_refl eq_refl binop_nan_pl32); [|exact H]. intros x y X. destruct x; try discriminate. reflexivity.
  - apply (plus_pz 53 1024 eq_refl eq_refl binop_nan_pl64); [|exact H]. intros x y X. destruct x; try discriminate. reflexivity.
Qed.
Lemma add_not_mz a b : not_mz fo a -> not_mz fo (fadd fo a b).
Proof.
  destruct FL as [->| ->]; intros H E; apply H; exact (plus_mz _ _ _ _ _ _ _ E).
Qed.
Lemma zero_not_mz : not_mz fo (f0 fo).
Proof. destruct FL as [->| ->]; discriminate. Qed.
Lemma mul_neg a b : fmul fo (fneg fo a) (fneg fo b) = fmul fo a b.
Proof.
  destruct FL as [->| ->].
  - apply (mult_opp 24 128 eq_refl eq_refl binop_nan_pl32 unop_nan_pl32).
    + intros x y X. destruct x; try discriminate. reflexivity.
    + intros x X. destruct x; try discriminate. reflexivity.
    + intros x y x' y' H1 H2 H3 H4. destruct x, x'; try discriminate H1; try (rewrite (H3 eq_refl)); try reflexivity;
        destruct y, y'; try discriminate H2; try (rewrite (H4 eq_refl)); reflexivity.
  - apply (mult_opp 53 1024 eq_refl eq_refl binop_nan_pl64 unop_nan_pl64).
    + intros x y X. destruct x; try discriminate. reflexivity.
    + intros x X. destruct x; try discriminate. reflexivity.
    + intros x y x' y' H1 H2 H3 H4. destruct x, x'; try discriminate H1; try (rewrite (H3 eq_refl)); try reflexivity;
        destruct y, y'; try discriminate H2; try (rewrite (H4 eq_refl)); reflexivity.
Qed.
Lemma inner_embed m : forall (x y : V), length x = length y -> inner fo (embed fo m x) (embed fo m y) = inner fo x y.
Proof.
  unfold inner. generalize zero_not_mz. generalize (f0 fo) at 1 2 3 as acc. intros acc. revert acc.
  induction m as [|k m IH]; intros acc HA x y Hl; [reflexivity|].
  destruct k; cbn [embed].
  - destruct x as [|a x], y as [|b y]; try discriminate Hl; [reflexivity|]. cbn [combine map fold_left fst snd]. apply IH; [now apply add_not_mz|].
    cbn [length] in Hl. lia.
  - destruct x as [|a x], y as [|b y]; try discriminate Hl; [reflexivity|]. cbn [combine map fold_left fst snd]. rewrite mul_neg. apply IH; [now apply add_not_mz|].
    cbn [length] in Hl. lia.
  - cbn [combine map fold_left fst snd]. rewrite add_zero by exact HA. now apply IH.
Qed.
Lemma gap_embed m (x y : V) : length x = length y -> cos_gap fo (embed fo m x) (embed fo m y) = cos_gap fo x y.
Proof. intro H. unfold cos_gap. now rewrite !inner_embed. Qed.
End L.

Section T.
Variable fm : Fmt.
Hypothesis FM : is_fmt fm.
Notation fo := (ops fm).
Lemma rv_neg a : rv fm (fneg fo a) = - rv fm a.
Proof. destruct FM as [->| ->]; apply Binary.B2R_Bopp. Qed.
Lemma fin_neg a : fin fm a -> fin fm (fneg fo a).
Proof. destruct FM as [->| ->]; cbn [fin fmt32 fmt64]; intro H; etransitivity; [apply Binary.is_finite_Bopp|exact H|apply Binary.is_finite_Bopp|exact H]. Qed.
Lemma rv_zero : rv fm (f0 fo) = 0 /\ fin fm (f0 fo).
Proof. destruct FM as [->| ->]; split; reflexivity. Qed.
Lemma dot_embed m : forall x, rdot (map (rv fm) (embed fo m x)) (map (rv fm) (embed fo m x)) = rdot (map (rv fm) x) (map (rv fm) x).
Proof.
  induction m as [|k m IH]; intro x; [reflexivity|]. destruct k; cbn [embed].
  - destruct x as [|a x]; [reflexivity|]. cbn [map rdot]. now rewrite IH.
  - destruct x as [|a x]; [reflexivity|]. cbn [map rdot]. rewrite IH, rv_neg. ring.
  - cbn [map rdot]. rewrite IH, (proj1 rv_zero). ring.
Qed.
Lemma tame_embed m x : tame fm x -> INR (length (embed fo m x)) <= 2 ^ 20 -> tame fm (embed fo m x).
Proof.
  intros (T1 & T2 & T3) Hl. split; [exact Hl|]. split; [|unfold rlen in *; now rewrite dot_embed].
  clear T1 T3 Hl. revert x T2. induction m as [|k m IH]; intros x T2; [exact T2|]. destruct k; cbn [embed].
  - destruct T2 as [|a x Ha T2]; constructor; auto.
  - destruct T2 as [|a x Ha T2]; constructor; auto. split; [now apply fin_neg|]. rewrite rv_neg, Rabs_Ropp. apply Ha.
  - constructor; [|now apply IH]. destruct rv_zero as [E Ef]. split; [exact Ef|]. rewrite E, Rabs_R0. apply pow_le. lra.
Qed.
End T.
