(* Polynomials (numpy.poly1d) and Jacobi polynomials (scipy.special.jacobi /
   legendre).  These are library calls in /repo; the model defines the Jacobi
   polynomial by its explicit sum (DLMF 18.5.8). *)
From Coq Require Import ZArith List Arith.
From Verif Require Import Num Py.
Import ListNotations.

Section Poly.
Context {A : Type} `{Num A}.
Local Open Scope num_scope.

(* Coefficients, lowest degree first. *)
Definition poly := list A.

Fixpoint peval (p : poly) (x : A) : A :=
  match p with [] => n0 | c :: r => c + x * peval r x end.

Fixpoint padd (p q : poly) : poly :=
  match p, q with
  | [], _ => q
  | _, [] => p
  | a :: p', b :: q' => (a + b) :: padd p' q'
  end.

Definition pscale (c : A) (p : poly) : poly := map (nmul c) p.

Fixpoint pmul (p q : poly) : poly :=
  match p with
  | [] => []
  | a :: p' => padd (pscale a q) (n0 :: pmul p' q)
  end.

Fixpoint ppow (p : poly) (n : nat) : poly :=
  match n with O => [n1] | S m => pmul p (ppow p m) end.

(* numpy.poly1d.deriv() *)
Fixpoint pderiv_from (k : nat) (p : poly) : poly :=
  match p with [] => [] | c :: r => (nofnat k * c) :: pderiv_from (S k) r end.
Definition pderiv (p : poly) : poly :=
  match p with [] => [] | _ :: r => pderiv_from 1 r end.

(* Generalised binomial coefficient z (z-1) ... (z-k+1) / k! *)
Fixpoint gbinom (z : A) (k : nat) : A :=
  match k with
  | O => n1
  | S m => gbinom z m * (z - nofnat m) / nofnat (S m)
  end.

(* One term of the explicit sum, without the factor 2^-n. *)
Definition jac_term (n : nat) (a b : A) (l : nat) : poly :=
  pscale (gbinom (nofnat n + a) l * gbinom (nofnat n + b) (n - l))
         (pmul (ppow [nopp n1; n1] (n - l)) (ppow [n1; n1] l)).

(* scipy.special.jacobi(n, a, b), n >= 0 *)
Definition jac (n : nat) (a b : A) : poly :=
  pscale (n1 / npow n2 n)
         (fold_right padd [] (map (jac_term n a b) (seq 0 (S n)))).

(* scipy.special.legendre(n) *)
Definition leg (n : nat) : poly := jac n n0 n0.

End Poly.
Arguments poly : clear implicits.
