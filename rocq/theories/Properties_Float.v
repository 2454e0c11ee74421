(* Properties C06, C18 and C29, the integers obtained from binary64 numbers: the model's
   integer functions are what the float expressions of the code give. *)
From Coq Require Import ZArith Reals Lia.
From Verif Require Import Basis Space Geometry FloatFacts.
Local Open Scope Z_scope.

(* int(np.sqrt(fe_order**2)) is fe_order *)
Theorem C06_float_order : forall k : nat, Z.of_nat k <= 2 ^ 53 ->
  float_int_sqrt (Z.of_nat k ^ 2) = Z.of_nat k /\ int_sqrt (k * k) = k.
Proof.
  intros k H. pose proof (int_sqrt_float k H) as E. unfold int_sqrt in *. rewrite Nat.sqrt_square in *.
  rewrite Nat2Z.inj_mul in E. split; [|reflexivity]. now rewrite Z.pow_2_r.
Qed.
(* int(num_boundary_points / 4) *)
Theorem C18_float_count : forall num, 0 <= num <= 2 ^ 53 -> float_per_side num = num / 4 /\ per_side num = num / 4.
Proof.
  intros num H. rewrite per_side_float by lia. unfold per_side. rewrite Z.quot_div_nonneg by lia. auto.
Qed.
(* int(num_points * 0.9) *)
Theorem C29_float_count : forall n : nat, Z.of_nat n <= 2 ^ 49 ->
  float_sensor_count (Z.of_nat n) = 9 * Z.of_nat n / 10 /\ Z.of_nat (sensor_count n) = 9 * Z.of_nat n / 10.
Proof.
  intros n H. rewrite sensor_count_float by auto. unfold sensor_count. rewrite Nat2Z.inj_div, Nat2Z.inj_mul.
  change (Z.of_nat 9) with 9. change (Z.of_nat 10) with 10. rewrite (Z.mul_comm 9). auto.
Qed.
Example C06_float_example : Z.of_nat 999 <= 2 ^ 53.
Proof. lia. Qed.
Example C18_float_example : 0 <= 403 <= 2 ^ 53 /\ float_per_side 403 = 100.
Proof. split; [lia|]. now rewrite (proj1 (C18_float_count 403 ltac:(lia))). Qed.
Example C29_float_example : Z.of_nat 50 <= 2 ^ 49 /\ float_sensor_count 50 = 45 /\ float_sensor_count 19 = 17.
Proof.
  split; [lia|]. change 50 with (Z.of_nat 50). change 19 with (Z.of_nat 19).
  rewrite (proj1 (C29_float_count 50 ltac:(lia))), (proj1 (C29_float_count 19 ltac:(lia))). auto.
Qed.
Print Assumptions C06_float_order.
Print Assumptions C18_float_count.
Print Assumptions C29_float_count.
