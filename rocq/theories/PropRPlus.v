(** utils.RoundPlus (C103). *)
From Verif Require Import Base Flt Vec Lib AccProof VecProof RPlusProof PropVec.
From Coq Require Import Reals Lra.
From Flocq Require Import Core.Raux IEEE754.BinarySingleNaN IEEE754.Binary IEEE754.Bits.
Open Scope R_scope.

(** The result is within half a unit of the last place kept of the argument, up to
    rounding errors: it is z / shift, correctly rounded, for an integer z about as near
    to f * shift as possible.  [shift] is what math.Pow gives for 10 ^ places: at least 1 for
    places >= 0. *)
Theorem C103_round_plus_is_near :
  forall shift f, is_finite 53 1024 shift = true -> is_finite 53 1024 f = true ->
  let s := B2R 53 1024 shift in let x := B2R 53 1024 f in
  1 <= s <= IZR (2 ^ 100) -> Rabs (x * s) <= IZR (2 ^ 49) ->
  is_finite 53 1024 (round_plus shift f) = true /\
  (exists z : Z, B2R 53 1024 (round_plus shift f) = rnd 53 (-1074) (IZR z / s) /\
     Rabs (IZR z - x * s) <= / 2 + / IZR (2 ^ 52) * (Rabs (x * s) + 1)) /\
  Rabs (B2R 53 1024 (round_plus shift f) - x) <= (/ 2 + / IZR (2 ^ 51) * (Rabs (x * s) + 1)) / s.
Proof.
  intros shift f Fs Ff s x Hs Hx.
  destruct (round_plus_near shift f Fs Ff) as (A1 & (z & A2 & A3) & A4); [exact Hs|exact Hx|]. fold s x in A2, A3, A4.
  replace (/ IZR (2 ^ 52)) with (2 * u53) by (change (2 ^ 52)%Z with 4503599627370496%Z; unfold u53; lra).
  replace (/ IZR (2 ^ 51)) with (4 * u53) by (change (2 ^ 51)%Z with 2251799813685248%Z; unfold u53; lra).
  split; [exact A1|]. split; [exists z; auto|exact A4].
Qed.
(** Rounding again changes nothing. *)
Theorem C103_round_plus_twice :
  forall shift f, is_finite 53 1024 shift = true -> is_finite 53 1024 f = true ->
  1 <= B2R 53 1024 shift <= IZR (2 ^ 100) -> Rabs (B2R 53 1024 f * B2R 53 1024 shift) <= IZR (2 ^ 49 - 1) ->
  is_finite 53 1024 (round_plus shift (round_plus shift f)) = true /\
  B2R 53 1024 (round_plus shift (round_plus shift f)) = B2R 53 1024 (round_plus shift f).
Proof. intros shift f Fs Ff Hs Hx. exact (round_plus_twice shift f Fs Ff Hs Hx). Qed.
(** With more places than a float64 has room for (math.Pow gives +Inf from 309 on) every
    number, 0 included, is rounded to NaN .. *)
Theorem C103_many_places_give_nan :
  forall f, is_nan 53 1024 (round_plus (@Binary.B754_infinity 53%Z 1024%Z false) f) = true.
Proof. intros [s|s|s pl H|s m e H]; try destruct s; reflexivity. Qed.
(** .. and before that, large numbers to infinity: 10^300 at 10 places. *)
Definition ten300 : binary64 := b64_of_bits 9094988921128908188.
Theorem C103_large_numbers_overflow :
  is_finite 53 1024 ten300 = true /\ bits_of_b64 (round_plus (d_of_Z (10 ^ 10)) ten300) = bits_of_b64 (@Binary.B754_infinity 53%Z 1024%Z false).
Proof. split; vm_compute; reflexivity. Qed.

(** 2.71828 at two places is 2.72, and -2.71828 is -2.72; 7 meets the hypotheses. *)
Definition ratio (a b : Z) : binary64 := b64_div mode_NE (d_of_Z a) (d_of_Z b).
Example C103_example :
  bits_of_b64 (round_plus (d_of_Z 100) (ratio 271828 100000)) = bits_of_b64 (ratio 272 100) /\
  bits_of_b64 (round_plus (d_of_Z 100) (ratio (-271828) 100000)) = bits_of_b64 (ratio (-272) 100) /\
  is_finite 53 1024 (d_of_Z 100) = true /\ 1 <= B2R 53 1024 (d_of_Z 100) <= IZR (2 ^ 100) /\
  is_finite 53 1024 (d_of_Z 7) = true /\ Rabs (B2R 53 1024 (d_of_Z 7) * B2R 53 1024 (d_of_Z 100)) <= IZR (2 ^ 49 - 1).
Proof.
  split; [vm_compute; reflexivity|]. split; [vm_compute; reflexivity|].
  destruct (int64_ok 100) as [A B]; [lia|]. destruct (int64_ok 7) as [C D]; [lia|]. split; [exact A|]. split; [rewrite B; split; apply IZR_le; lia|].
  split; [exact C|]. rewrite B, D, <- mult_IZR, <- abs_IZR. apply IZR_le. lia.
Qed.

Print Assumptions C103_round_plus_is_near.
Print Assumptions C103_round_plus_twice.
Print Assumptions C103_many_places_give_nan.
Print Assumptions C103_large_numbers_overflow.
