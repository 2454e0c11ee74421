(* The three places where the code turns a binary64 result into an integer, against the
   integer functions of the model.  Rounding is IEEE 754 binary64, to nearest, ties to even
   (overflow cannot occur for the ranges below). *)
From Coq Require Import ZArith Reals Lra Lia Psatz Arith.
From Flocq Require Import Core.
From Verif Require Import Basis Space Geometry.
Local Open Scope R_scope.

Definition rnd (x : R) : R := round radix2 (FLT_exp (-1074) 53) ZnearestE x.
(* geometry_2d.py:296: int(num_boundary_points / 4) *)
Definition float_per_side (num : Z) : Z := Ztrunc (rnd (IZR num / 4)).
(* fespace2d.py:668: int(num_points * 0.9) *)
Definition float_sensor_count (n : Z) : Z := Ztrunc (rnd (IZR n * rnd (9 / 10))).
(* e.g. basis_2d_QN_Legendre.py:137: int(np.sqrt(self.num_shape_functions)) *)
Definition float_int_sqrt (n : Z) : Z := Ztrunc (rnd (sqrt (IZR n))).

Local Instance fexp_ok : Valid_exp (FLT_exp (-1074) 53).
Proof. apply FLT_exp_valid. unfold Prec_gt_0. lia. Qed.

(* a small integer times a power of two is a binary64 number *)
Lemma rnd_scaled : forall m e, (Z.abs m <= 2 ^ 53)%Z -> (-1074 <= e)%Z -> rnd (IZR m * bpow radix2 e) = IZR m * bpow radix2 e.
Proof.
  intros m e Hm He. unfold rnd. apply round_generic; [apply valid_rnd_N|].
  destruct (Z.eq_dec (Z.abs m) (2 ^ 53)) as [E | E].
  - replace (IZR m * bpow radix2 e) with (IZR (Z.sgn m) * bpow radix2 (53 + e)).
    + apply generic_format_FLT. exists (Float radix2 (Z.sgn m) (53 + e)); cbn [Fnum Fexp]; [reflexivity | destruct m; reflexivity | lia].
    + rewrite bpow_plus, <- Rmult_assoc. f_equal. rewrite <- (IZR_Zpower radix2) by lia. rewrite <- mult_IZR. f_equal.
      change (Zpower radix2 53) with (2 ^ 53)%Z. rewrite <- E. rewrite Z.mul_comm. apply Z.abs_sgn.
  - apply generic_format_FLT. exists (Float radix2 m e); cbn [Fnum Fexp]; [reflexivity | change (Zpower radix2 53) with (2 ^ 53)%Z; lia | lia].
Qed.
Lemma rnd_int : forall m, (Z.abs m <= 2 ^ 53)%Z -> rnd (IZR m) = IZR m.
Proof. intros m H. pose proof (rnd_scaled m 0 H ltac:(lia)) as E. simpl in E. now rewrite Rmult_1_r in E. Qed.
Lemma rnd_mono : forall x y, x <= y -> rnd x <= rnd y.
Proof. intros. unfold rnd. apply round_le; auto with typeclass_instances. Qed.

Lemma quot_trunc : forall m k, (0 < k)%Z -> Ztrunc (IZR m / IZR k) = Z.quot m k.
Proof.
  intros m k Hk. destruct (Z.le_gt_cases 0 m) as [H | H].
  - rewrite Ztrunc_floor, Zfloor_div by (first [lia | apply Rmult_le_pos; [now apply IZR_le | left; apply Rinv_0_lt_compat, IZR_lt; lia]]).
    symmetry. apply Z.quot_div_nonneg; lia.
  - replace (IZR m / IZR k) with (- (IZR (- m) / IZR k)) by (rewrite opp_IZR; field; apply not_0_IZR; lia).
    rewrite Ztrunc_opp, Ztrunc_floor, Zfloor_div by (first [lia | apply Rmult_le_pos; [apply IZR_le; lia | left; apply Rinv_0_lt_compat, IZR_lt; lia]]).
    rewrite <- Z.quot_div_nonneg by lia. rewrite Z.quot_opp_l by lia. lia.
Qed.

Lemma per_side_float : forall num, (Z.abs num <= 2 ^ 53)%Z -> float_per_side num = per_side num.
Proof.
  intros num H. unfold float_per_side, per_side.
  replace (IZR num / 4) with (IZR num * bpow radix2 (-2)) by (change (bpow radix2 (-2)) with (/ 4); field).
  rewrite rnd_scaled by (auto; lia). rewrite <- quot_trunc by lia. f_equal.
Qed.
Lemma int_sqrt_float : forall k, (Z.of_nat k <= 2 ^ 53)%Z -> float_int_sqrt (Z.of_nat (k * k)) = Z.of_nat (int_sqrt (k * k)).
Proof.
  intros k H. unfold float_int_sqrt, int_sqrt. rewrite Nat.sqrt_square.
  rewrite Nat2Z.inj_mul, mult_IZR, sqrt_square by (apply IZR_le; lia).
  rewrite rnd_int by lia. apply Ztrunc_IZR.
Qed.

(* 0.9 as a binary64 number *)
Lemma nine_tenths : rnd (9 / 10) = 8106479329266893 / 9007199254740992.
Proof.
  unfold rnd. assert (M : mag radix2 (9 / 10) = 0%Z :> Z).
  { apply mag_unique. rewrite Rabs_pos_eq by lra. simpl. lra. }
  unfold round, F2R, scaled_mantissa, cexp. rewrite M. change (FLT_exp (-1074) 53 0) with (-53)%Z. cbn [Fexp Fnum].
  assert (E : ZnearestE (9 / 10 * bpow radix2 (- -53)) = 8106479329266893%Z).
  { apply Znearest_imp. change (bpow radix2 (- -53)) with 9007199254740992. apply Rabs_def1; lra. }
  rewrite E. change (bpow radix2 (-53)) with (/ 9007199254740992). lra.
Qed.
Lemma sensor_count_float : forall n, (Z.of_nat n <= 2 ^ 49)%Z -> float_sensor_count (Z.of_nat n) = Z.of_nat (sensor_count n).
Proof.
  intros n H. unfold float_sensor_count, sensor_count. rewrite nine_tenths. set (c := 8106479329266893 / 9007199254740992).
  rewrite Nat2Z.inj_div, Nat2Z.inj_mul. change (Z.of_nat 9) with 9%Z. change (Z.of_nat 10) with 10%Z.
  set (z := Z.of_nat n) in *. set (f := (z * 9 / 10)%Z).
  pose proof (Z.div_mod (z * 9) 10 ltac:(lia)) as D. pose proof (Z.mod_pos_bound (z * 9) 10 ltac:(lia)) as B. fold f in D.
  assert (Hf : (0 <= f <= 2 ^ 49)%Z) by (change (2 ^ 49)%Z with 562949953421312%Z in *; lia).
  assert (Hz : 0 <= IZR z <= 562949953421312) by (split; apply IZR_le; change (2 ^ 49)%Z with 562949953421312%Z in H; lia).
  assert (D1 : IZR f * 10 <= IZR z * 9) by (rewrite <- !mult_IZR; apply IZR_le; lia).
  assert (D2 : IZR z * 9 + 1 <= IZR f * 10 + 10) by (rewrite <- !mult_IZR, <- !plus_IZR; apply IZR_le; lia).
  assert (L : IZR f <= rnd (IZR z * c)).
  { rewrite <- (rnd_int f) by (change (2 ^ 53)%Z with 9007199254740992%Z; change (2 ^ 49)%Z with 562949953421312%Z in *; lia).
    apply rnd_mono. unfold c. lra. }
  assert (U : rnd (IZR z * c) < IZR f + 1).
  { apply Rle_lt_trans with (IZR f + 15 / 16); [|lra].
    replace (IZR f + 15 / 16) with (IZR (16 * f + 15) * bpow radix2 (-4)).
    - destruct (Z.le_gt_cases (16 * f + 15) (2 ^ 53)) as [K | K].
      + rewrite <- rnd_scaled; [apply rnd_mono | lia | lia]. rewrite plus_IZR, mult_IZR. change (bpow radix2 (-4)) with (/ 16). unfold c. lra.
      + exfalso. change (2 ^ 53)%Z with 9007199254740992%Z in K. change (2 ^ 49)%Z with 562949953421312%Z in *. lia.
    - rewrite plus_IZR, mult_IZR. change (bpow radix2 (-4)) with (/ 16). field. }
  assert (P : 0 <= rnd (IZR z * c)) by (apply Rle_trans with (IZR f); [apply IZR_le; lia | exact L]).
  rewrite Ztrunc_floor by auto. apply Zfloor_imp. rewrite plus_IZR. lra.
Qed.
