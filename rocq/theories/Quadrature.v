(* Model of FE/quadratureformulas_quad2d.py. *)
From Coq Require Import String ZArith List Arith.
From Verif Require Import Num Py Jacobi.
Import ListNotations.

Section Quadrature.
Context {A : Type} `{Num A}.
Local Open Scope num_scope.

(* Library oracles: numpy.polynomial.legendre.leggauss(n) (nodes, weights) and
   scipy.special.roots_jacobi(n, 1, 1)[0].  Their contracts are hypotheses of the
   theorems that use them. *)
Record quad_oracle := {
  leggauss : nat -> list A * list A;
  roots_jacobi11 : nat -> list A
}.

(* FE/quadratureformulas_quad2d.py:81-85: jacobi_wrapper on an array. *)
Definition q_jacobi_wrapper (n : nat) (a b : A) (x : list A) : list A :=
  map (peval (jac n a b)) x.

(* FE/quadratureformulas_quad2d.py:88-135: GaussLobattoJacobiWeights(Q, 0, 0), the
   branch a == b == 0 (lines 91-94, 131-135).  The branch 95-130 for other a, b is
   not modelled: the only call is line 138 with a = b = 0. *)
Definition gauss_lobatto (o : quad_oracle) (Q : nat) : list A * list A :=
  let X := roots_jacobi11 o (Q - 2) in
  let w := fun p : A => nofZ 2 / (nofnat (Q - 1) * nofnat Q * (p * p)) in
  let W := map w (q_jacobi_wrapper (Q - 1) n0 n0 X) in
  let Wl := w (peval (jac (Q - 1) n0 n0) (nofZ (-1))) in
  let Wr := w (peval (jac (Q - 1) n0 n0) n1) in
  (nofZ (-1) :: (X ++ [n1]), Wl :: (W ++ [Wr])).

(* FE/quadratureformulas_quad2d.py:63-68 and 141-146: meshgrid, flatten and the
   flattened outer product of the weights. Result: (weights, xi, eta). *)
Definition tensorise (x w : list A) : list A * list A * list A :=
  let '(xi, eta) := meshgrid_flat x x in
  (outer_flat w w, xi, eta).

(* FE/quadratureformulas_quad2d.py:33-167: constructor and get_quad_values.  leggauss
   and roots_jacobi reject a non-positive degree with ValueError. *)
Definition quad2d (o : quad_oracle) (order : Z) (quad_type : string)
  : result (list A * list A * list A) :=
  if String.eqb quad_type "gauss-legendre" then
    if (order <=? 0)%Z then Err ValueError
    else let '(x, w) := leggauss o (Z.to_nat order) in Ok (tensorise x w)
  else if String.eqb quad_type "gauss-jacobi" then
    if (order - 2 <=? 0)%Z then Err ValueError
    else let '(x, w) := gauss_lobatto o (Z.to_nat order) in Ok (tensorise x w)
  else Err ValueError.

(* FE/quadratureformulas_quad2d.py:43-45, 169-176 *)
Definition num_quad_points (order : Z) : Z := (order * order)%Z.

End Quadrature.
Arguments quad_oracle : clear implicits.
