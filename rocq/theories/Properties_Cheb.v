(* Property C90: the test functions of the Chebyshev family, and the equation of the Jacobi
   polynomials all families are made of. *)
From Coq Require Import ZArith List Arith Lia Reals Lra.
From Coquelicot Require Import Coquelicot.
From Verif Require Import Num Py Jacobi Basis Spec ChebFacts.
Import ListNotations.
Local Open Scope R_scope.

(* The quotient P_n^(-1/2,-1/2)(x) / P_n^(-1/2,-1/2)(1) is the Chebyshev polynomial of the
   first kind: cos (n t) at x = cos t. *)
Theorem C90_cosine : forall n t,
  JacobiP n (-1/2) (-1/2) (cos t) / JacobiP n (-1/2) (-1/2) 1 = cos (INR n * t).
Proof. exact cheb_cos. Qed.
Print Assumptions C90_cosine.
Example C90_cosine_ex : JacobiP 2 (-1/2) (-1/2) (cos (PI / 2)) / JacobiP 2 (-1/2) (-1/2) 1 = -1.
Proof. rewrite C90_cosine. replace (INR 2 * (PI / 2)) with PI by (simpl; field). apply cos_PI. Qed.

(* Row k*i+j of the value table is a product of sines at every point (cos s, cos t). *)
Theorem C90_table : forall k (xi eta : list R) i j q s t,
  length xi = length eta -> (i < k)%nat -> (j < k)%nat -> (q < length xi)%nat ->
  nth q xi 0 = cos s -> nth q eta 0 = cos t ->
  entry (b_value FChebyshev2 (k * k) xi eta) (k * i + j) q =
  4 * (sin (INR (S i) * s) * sin s) * (sin (INR (S j) * t) * sin t).
Proof. exact cheb_table. Qed.
Print Assumptions C90_table.
Example C90_table_ex : entry (b_value FChebyshev2 (2 * 2) [cos (PI / 2)] [cos (PI / 2)]) 0 0 = 4.
Proof.
  etransitivity; [apply (C90_table 2 [cos (PI / 2)] [cos (PI / 2)] 0 0 0 (PI / 2) (PI / 2)); simpl; lia || reflexivity|].
  change (INR 1) with 1. rewrite Rmult_1_l, sin_PI2. ring.
Qed.

(* On the reference square every entry of the value table, at every order, is bounded by
   4 sqrt(1-x^2) sqrt(1-y^2). *)
Theorem C90_bound : forall k (xi eta : list R) r q,
  length xi = length eta -> (r < k * k)%nat -> (q < length xi)%nat ->
  -1 <= nth q xi 0 <= 1 -> -1 <= nth q eta 0 <= 1 ->
  Rabs (entry (b_value FChebyshev2 (k * k) xi eta) r q) <=
  4 * sqrt (1 - nth q xi 0 * nth q xi 0) * sqrt (1 - nth q eta 0 * nth q eta 0).
Proof. exact cheb_table_bound. Qed.
Print Assumptions C90_bound.
(* at the midpoint the bound is attained by the first test function *)
Example C90_bound_ex : Rabs (entry (b_value FChebyshev2 (1 * 1) [0] [0]) 0 0) = 4 /\
  4 * sqrt (1 - 0 * 0) * sqrt (1 - 0 * 0) = 4.
Proof.
  split.
  - assert (E : entry (b_value FChebyshev2 (1 * 1) [0] [0]) 0 0 = 4); [|rewrite E; apply Rabs_right; lra].
    etransitivity; [apply (C90_table 1 [0] [0] 0 0 0 (PI / 2) (PI / 2)); simpl; lia || (symmetry; apply cos_PI2) || reflexivity|].
    change (INR 1) with 1. rewrite Rmult_1_l, sin_PI2. ring.
  - replace (1 - 0 * 0) with 1 by ring. rewrite sqrt_1. ring.
Qed.

(* The zeros: the n-th test function vanishes at cos (j PI / n) for every j. *)
Theorem C90_zeros : forall n j, (1 <= n)%nat -> phi FChebyshev2 n (cos (INR j * PI / INR n)) = 0.
Proof. exact cheb_zeros. Qed.
Print Assumptions C90_zeros.
Example C90_zeros_ex : phi FChebyshev2 2 0 = 0.
Proof.
  pose proof (C90_zeros 2 1 ltac:(lia)) as E. replace (INR 1 * PI / INR 2) with (PI / 2) in E by (simpl; field).
  rewrite cos_PI2 in E. exact E.
Qed.

(* The differential equation of the polynomials jacobi(n, a, b) returns, for all real
   parameters and degrees. *)
Theorem C90_equation : forall n a b x, let y := JacobiP n a b in
  (1 - x * x) * Derive (Derive y) x + (b - a - (a + b + 2) * x) * Derive y x
  + INR n * (INR n + a + b + 1) * y x = 0.
Proof. exact jacobi_equation. Qed.
Print Assumptions C90_equation.
(* its Legendre instance *)
Example C90_equation_ex : forall n x, let y := JacobiP n 0 0 in
  (1 - x * x) * Derive (Derive y) x - 2 * x * Derive y x + INR n * (INR n + 1) * y x = 0.
Proof. intros n x y. pose proof (C90_equation n 0 0 x) as E. cbv zeta in E. fold y in E. lra. Qed.
