(** Facts about IEEE-754 arithmetic: comparisons are a total order away from NaN,
    multiplication commutes; hence the distances are symmetric. *)
From Verif Require Import Base Flt Layout Dist Sorts ForestSpec Lib SortsProof.
From Flocq Require Import Core.Zaux IEEE754.BinarySingleNaN IEEE754.Binary IEEE754.Bits.
From Coq Require Import Floats.SpecFloat.
Open Scope Z_scope.

(** ** Comparison *)
Definition key (x : spec_float) : Z * (Z * Z) :=
  match x with
  | S754_infinity true => (-2, (0, 0)) | S754_infinity false => (2, (0, 0))
  | S754_finite true m e => (-1, (- e, Zneg m)) | S754_finite false m e => (1, (e, Zpos m))
  | _ => (0, (0, 0))
  end.
Definition klt (a b : Z * (Z * Z)) : Prop :=
  fst a < fst b \/ (fst a = fst b /\ (fst (snd a) < fst (snd b) \/ (fst (snd a) = fst (snd b) /\ snd (snd a) < snd (snd b)))).
Definition sf_num (x : spec_float) : Prop := x <> S754_nan.
Lemma SFcompare_key x y : sf_num x -> sf_num y ->
  match SFcompare x y with
  | Some Lt => klt (key x) (key y)
  | Some Gt => klt (key y) (key x)
  | Some Eq => key x = key y
  | None => False
  end.
Proof.
  unfold sf_num, klt. destruct x as [sx|sx| |sx mx ex], y as [sy|sy| |sy my ey]; intros Hx Hy; try congruence;
  cbn [SFcompare]; try (destruct sx); try (destruct sy); cbn [key fst snd]; auto; try lia.
  - destruct (Z.compare_spec ex ey); try lia.
    rewrite Pos.compare_cont_spec. destruct (Pos.compare_spec mx my); cbn; subst; auto; try lia.
  - destruct (Z.compare_spec ex ey); try lia.
    rewrite Pos.compare_cont_spec. destruct (Pos.compare_spec mx my); cbn; subst; auto; try lia.
Qed.
Definition sf_lt x y := match SFcompare x y with Some Lt => true | _ => false end.
Definition sf_eq x y := match SFcompare x y with Some Eq => true | _ => false end.
Lemma sf_lt_iff x y : sf_num x -> sf_num y -> sf_lt x y = true <-> klt (key x) (key y).
Proof.
  intros Hx Hy. pose proof (SFcompare_key x y Hx Hy) as H. unfold sf_lt.
  destruct (SFcompare x y) as [[| |]|]; split; auto; try discriminate; try easy; unfold klt in *; intros; try lia.
  rewrite H in *. lia.
Qed.
Lemma sf_total : total_cmp sf_lt sf_eq sf_num.
Proof.
  constructor.
  - intros x y Hx Hy H. apply sf_lt_iff in H; auto. destruct (sf_lt y x) eqn:E; [|reflexivity].
    apply sf_lt_iff in E; auto. unfold klt in *. lia.
  - intros x y Hx Hy. pose proof (SFcompare_key x y Hx Hy) as H. pose proof (sf_lt_iff y x Hy Hx) as H'.
    unfold sf_eq, sf_lt at 1. destruct (SFcompare x y) as [[| |]|]; try easy; cbn [negb andb].
    + destruct (sf_lt y x); [|reflexivity]. destruct H' as [H' _]. specialize (H' eq_refl). rewrite H in H'. unfold klt in H'. lia.
    + destruct (sf_lt y x); [reflexivity|]. destruct H' as [_ H']. now apply H' in H.
  - intros x y z Hx Hy Hz H1 H2. destruct (sf_lt z x) eqn:E; [|reflexivity]. apply sf_lt_iff in E; auto.
    assert (~ klt (key y) (key x)) by (rewrite <- sf_lt_iff by auto; congruence).
    assert (~ klt (key z) (key y)) by (rewrite <- sf_lt_iff by auto; congruence).
    unfold klt in *. lia.
Qed.

Definition num32 (x : F fops32) : Prop := isnan32 x = false.
Definition num64 (x : F fops64) : Prop := isnan64 x = false.
Lemma total_transfer {A B} (f : A -> B) lt eqb num (lt' eqb' : A -> A -> bool) (num' : A -> Prop) :
  total_cmp lt eqb num -> (forall x, num' x -> num (f x)) ->
  (forall x y, lt' x y = lt (f x) (f y)) -> (forall x y, eqb' x y = eqb (f x) (f y)) ->
  total_cmp lt' eqb' num'.
Proof.
  intros T Hn Hl He. constructor; intros; rewrite ?Hl, ?He in *.
  - apply (tc_irr _ _ _ T); auto.
  - apply (tc_eq _ _ _ T); auto.
  - apply (tc_trans _ _ _ T (f x) (f y) (f z)); auto.
Qed.
Lemma total32 : total_cmp (flt fops32) (feq fops32) num32.
Proof.
  apply (total_transfer (fun x : binary32 => BinarySingleNaN.B2SF (B2BSN 24 128 x)) _ _ _ _ _ _ sf_total).
  - intros x H. unfold num32, num64, sf_num in *. destruct x; cbn in *; discriminate.
  - reflexivity.
  - reflexivity.
Qed.
Lemma total64 : total_cmp (flt fops64) (feq fops64) num64.
Proof.
  apply (total_transfer (fun x : binary64 => BinarySingleNaN.B2SF (B2BSN 53 1024 x)) _ _ _ _ _ _ sf_total).
  - intros x H. unfold num32, num64, sf_num in *. destruct x; cbn in *; discriminate.
  - reflexivity.
  - reflexivity.
Qed.

(** ** Multiplication *)
Lemma bsn_mult_comm prec emax (H1 : FLX.Prec_gt_0 prec) (H2 : Prec_lt_emax prec emax) m x y :
  BinarySingleNaN.Bmult (prec:=prec) (emax:=emax) m x y = BinarySingleNaN.Bmult m y x.
Proof.
  destruct x as [sx|sx| |sx mx ex Hx], y as [sy|sy| |sy my ey Hy]; cbn [BinarySingleNaN.Bmult];
  try reflexivity; try (now rewrite (xorb_comm sx sy)).
  apply BinarySingleNaN.B2SF_inj. rewrite !BinarySingleNaN.B2SF_SF2B. now rewrite (xorb_comm sx sy), (Pos.mul_comm mx my), (Z.add_comm ex ey).
Qed.

(** What symmetry needs from an arithmetic. *)
Record SymLaws (fo : FOps) (num : F fo -> Prop) : Prop := mkSym {
  sy_dec : forall x, num x \/ ~ num x;
  sy_mul : forall x y, num x -> num y -> fmul fo x y = fmul fo y x;
  sy_nan : forall x y, ~ num x \/ ~ num y -> flt fo (f0 fo) (fmul fo x y) = false;
  sy_zero_l : forall x y, feq fo x (f0 fo) = true -> flt fo (f0 fo) (fmul fo x y) = false;
  sy_irr : flt fo (f0 fo) (f0 fo) = false
}.
Lemma sym32 : SymLaws fops32 num32.
Proof.
  constructor.
  - intro x. unfold num32. destruct (isnan32 x); [right; discriminate|auto].
  - intros x y Hx Hy. unfold num32 in *. cbn [fmul fops32]. unfold b32_mult, Binary.Bmult.
    rewrite bsn_mult_comm. f_equal. destruct x, y; try reflexivity; discriminate.
  - intros x y H. unfold num32 in *. cbn [fmul fops32 flt f0]. unfold lt32, b32_mult, Binary.Bmult.
    destruct x, y; cbn in *; try (exfalso; intuition congruence); try reflexivity.
  - intros x y H. destruct x as [sx|sx|sx px Hx|sx mx ex Hx]; try (destruct sx; discriminate H).
    destruct y as [sy|sy|sy py Hy|sy my ey Hy]; cbn; destruct sx; try destruct sy; reflexivity.
  - reflexivity.
Qed.
Lemma sym64 : SymLaws fops64 num64.
Proof.
  constructor.
  - intro x. unfold num64. destruct (isnan64 x); [right; discriminate|auto].
  - intros x y Hx Hy. unfold num64 in *. cbn [fmul fops64]. unfold b64_mult, Binary.Bmult.
    rewrite bsn_mult_comm. f_equal. destruct x, y; try reflexivity; discriminate.
  - intros x y H. unfold num64 in *. cbn [fmul fops64 flt f0]. unfold lt64, b64_mult, Binary.Bmult.
    destruct x, y; cbn in *; try (exfalso; intuition congruence); try reflexivity.
  - intros x y H. destruct x as [sx|sx|sx px Hx|sx mx ex Hx]; try (destruct sx; discriminate H).
    destruct y as [sy|sy|sy py Hy|sy my ey Hy]; cbn; destruct sx; try destruct sy; reflexivity.
  - reflexivity.
Qed.

Section Sym.
Variable fo : FOps.
Variable num : F fo -> Prop.
Hypothesis L : SymLaws fo num.
Lemma dot_from_comm a : forall acc b, Forall num a -> Forall num b -> dot_from fo acc a b = dot_from fo acc b a.
Proof.
  induction a as [|x a IH]; intros acc [|y b] Ha Hb; cbn [dot_from]; auto.
  inversion Ha; inversion Hb; subst. rewrite (sy_mul _ _ L x y) by auto. apply IH; auto.
Qed.
Lemma distance_sym x y : Forall num (s_vec fo x) -> Forall num (s_vec fo y) -> distance fo x y = distance fo y x.
Proof.
  intros Hx Hy. unfold distance.
  set (pp := if feq fo (s_norm fo x) (f0 fo) then _ else _). set (qq := if feq fo (s_norm fo y) (f0 fo) then _ else _).
  unfold dot. rewrite (dot_from_comm (s_vec fo y)) by auto.
  destruct (feq fo pp (f0 fo)) eqn:Ep, (feq fo qq (f0 fo)) eqn:Eq; rewrite ?(sy_irr _ _ L); auto.
  - (* pp = 0 *)
    destruct (flt fo (f0 fo) (fmul fo qq pp)) eqn:E; [|reflexivity].
    destruct (sy_dec _ _ L pp) as [N1|N1]; [|rewrite (sy_nan _ _ L) in E by auto; discriminate].
    destruct (sy_dec _ _ L qq) as [N2|N2]; [|rewrite (sy_nan _ _ L) in E by auto; discriminate].
    rewrite (sy_mul _ _ L qq pp) in E by auto. now rewrite (sy_zero_l _ _ L pp qq Ep) in E.
  - destruct (flt fo (f0 fo) (fmul fo pp qq)) eqn:E; [|reflexivity].
    destruct (sy_dec _ _ L pp) as [N1|N1]; [|rewrite (sy_nan _ _ L) in E by auto; discriminate].
    destruct (sy_dec _ _ L qq) as [N2|N2]; [|rewrite (sy_nan _ _ L) in E by auto; discriminate].
    rewrite (sy_mul _ _ L pp qq) in E by auto. now rewrite (sy_zero_l _ _ L qq pp Eq) in E.
  - destruct (sy_dec _ _ L pp) as [N1|N1]; [|now rewrite !(sy_nan _ _ L) by auto].
    destruct (sy_dec _ _ L qq) as [N2|N2]; [|now rewrite !(sy_nan _ _ L) by auto].
    now rewrite (sy_mul _ _ L pp qq).
Qed.
End Sym.

(** ** Both float types at once *)
Lemma num32_iff x : not_nan fops32 x <-> num32 x.
Proof.
  unfold not_nan, num32. cbn [feq fops32]. unfold eq32.
  destruct x as [s|s|s p H|s m e H]; cbn; try (destruct s; cbn; intuition congruence).
  rewrite Z.compare_refl, Pos.compare_cont_refl. destruct s; cbn; intuition congruence.
Qed.
Lemma num64_iff x : not_nan fops64 x <-> num64 x.
Proof.
  unfold not_nan, num64. cbn [feq fops64]. unfold eq64.
  destruct x as [s|s|s p H|s m e H]; cbn; try (destruct s; cbn; intuition congruence).
  rewrite Z.compare_refl, Pos.compare_cont_refl. destruct s; cbn; intuition congruence.
Qed.
Lemma total_weaken {A} lt eqb (P Q : A -> Prop) : (forall x, P x -> Q x) -> total_cmp lt eqb Q -> total_cmp lt eqb P.
Proof. intros H T. apply (total_transfer (fun x => x) _ _ _ _ _ _ T); auto. Qed.
Lemma sym_weaken fo P Q : (forall x, P x <-> Q x) -> SymLaws fo Q -> SymLaws fo P.
Proof.
  intros H [H1 H2 H3 H4 H5]. constructor; intros; rewrite ?H in *; auto.
Qed.
Lemma float_total fo : is_float fo -> total_cmp (flt fo) (feq fo) (not_nan fo).
Proof.
  intros [->| ->]; (eapply total_weaken; [|apply total32 || apply total64]; intro x; cbn beta); [apply num32_iff|apply num64_iff].
Qed.
Lemma float_sym fo : is_float fo -> SymLaws fo (not_nan fo).
Proof. intros [->| ->]; [eapply sym_weaken; [apply num32_iff|apply sym32]|eapply sym_weaken; [apply num64_iff|apply sym64]]. Qed.
