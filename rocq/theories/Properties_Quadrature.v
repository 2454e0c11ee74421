(* Properties C01-C03: the quadrature rules on the reference square. *)
From Coq Require Import String ZArith List Arith Lia Reals Lra.
From Coquelicot Require Import Coquelicot.
From Verif Require Import Num Py Jacobi Quadrature Spec Interp QuadFacts QuadExamples.
Import ListNotations.
Local Open Scope R_scope.

(* C01: n*n points and weights in the order eta-major, xi-minor, for both rule names. *)
Theorem C01_tensor_layout : forall (o : quad_oracle R) order ty w xi eta,
  lengths_ok o (Z.to_nat order) -> quad2d o order ty = Ok (w, xi, eta) ->
  let n := Z.to_nat order in
  exists x v, length x = n /\ length v = n /\
    (ty = "gauss-legendre"%string -> (x, v) = leggauss o n) /\
    (ty = "gauss-jacobi"%string -> x = -1 :: (roots_jacobi11 o (n - 2) ++ [1])) /\
    length w = (n * n)%nat /\ length xi = (n * n)%nat /\ length eta = (n * n)%nat /\
    (forall i j, (i < n)%nat -> (j < n)%nat ->
       nth (i * n + j) xi 0 = nth j x 0 /\ nth (i * n + j) eta 0 = nth i x 0 /\
       nth (i * n + j) w 0 = nth i v 0 * nth j v 0) /\
    (forall f g, Rule2 w xi eta (fun a b => f a * g b) = Rule x v f * Rule x v g).
Proof. exact quad2d_tensor. Qed.

(* Exactly these orders and names are accepted. *)
Theorem C01_accepted : forall (o : quad_oracle R) order ty,
  (exists r, quad2d o order ty = Ok r) <->
  (ty = "gauss-legendre"%string /\ (1 <= order)%Z \/ ty = "gauss-jacobi"%string /\ (3 <= order)%Z).
Proof. exact quad2d_valid. Qed.

(* get_num_quad_points reports the number of points there are *)
Theorem C01_count : forall (o : quad_oracle R) order ty w xi eta,
  lengths_ok o (Z.to_nat order) -> quad2d o order ty = Ok (w, xi, eta) ->
  num_quad_points order = Z.of_nat (length w) /\ length xi = length w /\ length eta = length w.
Proof. exact quad_count. Qed.

(* C02 *)
Theorem C02_gauss_legendre : forall o order w xi eta,
  leggauss_ok (Z.to_nat order) (leggauss o (Z.to_nat order)) ->
  quad2d o order "gauss-legendre" = Ok (w, xi, eta) ->
  (forall c, Rule2 w xi eta (Poly2 c (2 * Z.to_nat order)) = Int2 (Poly2 c (2 * Z.to_nat order)) (-1) 1 (-1) 1) /\
  (forall q, (q < length w)%nat -> 0 < nth q w 0 /\ -1 < nth q xi 0 < 1 /\ -1 < nth q eta 0 < 1) /\
  Sum (fun q => nth q w 0) (length w) = 4.
Proof. exact gauss_legendre_exact. Qed.

(* C03 *)
Theorem C03_gauss_lobatto : forall o order w xi eta,
  roots_ok (Z.to_nat order - 2) (roots_jacobi11 o (Z.to_nat order - 2)) ->
  quad2d o order "gauss-jacobi" = Ok (w, xi, eta) ->
  (forall c, Rule2 w xi eta (Poly2 c (2 * Z.to_nat order - 2)) = Int2 (Poly2 c (2 * Z.to_nat order - 2)) (-1) 1 (-1) 1) /\
  (forall q, (q < length w)%nat -> 0 < nth q w 0 /\ -1 <= nth q xi 0 <= 1 /\ -1 <= nth q eta 0 <= 1) /\
  Sum (fun q => nth q w 0) (length w) = 4.
Proof. exact gauss_jacobi_exact. Qed.

Theorem C03_end_points : forall (o : quad_oracle R) order w xi eta,
  length (roots_jacobi11 o (Z.to_nat order - 2)) = (Z.to_nat order - 2)%nat ->
  quad2d o order "gauss-jacobi" = Ok (w, xi, eta) ->
  forall a b, (a = -1 \/ a = 1) -> (b = -1 \/ b = 1) ->
  exists q, (q < length w)%nat /\ nth q xi 0 = a /\ nth q eta 0 = b.
Proof. exact gauss_jacobi_ends. Qed.

(* Non-vacuity: the contracts of leggauss and roots_jacobi are satisfiable at every
   order, and satisfied by the textbook nodes. *)
Example C02_contract_satisfiable : forall n, exists xw, leggauss_ok n xw.
Proof. exact gauss_exists. Qed.
Example C03_contract_satisfiable : forall n, exists x, roots_ok n x.
Proof. exact roots_exist. Qed.
Example C02_textbook : leggauss_ok 2 ([- / sqrt 3; / sqrt 3], [1; 1]).
Proof. exact leggauss2. Qed.
Example C03_textbook : roots_ok 1 [0].
Proof. exact roots1. Qed.
Example C01_case : exists w xi eta, lengths_ok example_oracle 2 /\
  quad2d example_oracle 2 "gauss-legendre" = Ok (w, xi, eta) /\ nth 1 xi 0 = / sqrt 3 /\ nth 1 eta 0 = - / sqrt 3.
Proof. exact example_gl. Qed.
Example C03_case : exists w xi eta,
  quad2d example_oracle 3 "gauss-jacobi" = Ok (w, xi, eta) /\ nth 4 w 0 = 16 / 9 /\ nth 0 w 0 = 1 / 9.
Proof. exact example_gj. Qed.

Print Assumptions C01_tensor_layout.
Print Assumptions C01_accepted.
Print Assumptions C01_count.
Print Assumptions C02_gauss_legendre.
Print Assumptions C03_gauss_lobatto.
Print Assumptions C03_end_points.
