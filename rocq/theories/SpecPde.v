(* Polynomials in two variables and the differential operators of the equations. *)
From Coq Require Import String ZArith List Reals.
From Verif Require Import Basis Transform Cell Spec SpecGeom SpecMesh.
Local Open Scope R_scope.

(* Degree < a in x and < b in y *)
Definition poly_box (a b : nat) (u : R -> R -> R) : Prop :=
  exists c : nat -> nat -> R, forall x y, u x y = Sum (fun i => Sum (fun j => c i j * (x ^ i * y ^ j)) b) a.
(* Total degree < d *)
Definition poly_total (d : nat) (u : R -> R -> R) : Prop :=
  exists c : nat -> nat -> R, (forall i j, (d <= i + j)%nat -> c i j = 0) /\
    forall x y, u x y = Sum (fun i => Sum (fun j => c i j * (x ^ i * y ^ j)) d) d.
Definition Lap (u : R -> R -> R) (x y : R) : R := Dx (Dx u) x y + Dy (Dy u) x y.
Definition Div (p q : R -> R -> R) (x y : R) : R := Dx p x y + Dy q x y.
(* The polynomials the argument covers on a cell: total degree < d on a parallelogram of
   nonzero area, degree < d in each variable on a rectangle with sides along the axes *)
Definition solution_on (d : nat) (u : R -> R -> R) (c : cell R) : Prop :=
  (parallelogram c /\ cross (v0 c) (v1 c) (v3 c) <> 0 /\ poly_total d u) \/
  (exists a b p q, c = rect a b p q /\ a <> b /\ p <> q /\ poly_box d d u).
(* The same for a flux (p, q): p needs the bound in x only, q in y only *)
Definition flux_on (d : nat) (p q : R -> R -> R) (c : cell R) : Prop :=
  (parallelogram c /\ cross (v0 c) (v1 c) (v3 c) <> 0 /\ poly_total d p /\ poly_total d q) \/
  (exists a b y0 y1 e, c = rect a b y0 y1 /\ a <> b /\ y0 <> y1 /\ poly_box d e p /\ poly_box e d q).
(* Coefficients per variable that the named rule of order n integrates exactly: degree 2n-1
   for gauss-legendre, 2n-3 for gauss-jacobi (see C01, C02) *)
Definition exactness (ty : string) (n : nat) : nat := if String.eqb ty "gauss-legendre" then (2 * n)%nat else (2 * n - 2)%nat.
(* Functions of the plane as functions of points *)
Definition on_points (u : R -> R -> R) (p : R * R) : R := u (fst p) (snd p).
Definition gradient (u : R -> R -> R) (p : R * R) : R * R := (Dx u (fst p) (snd p), Dy u (fst p) (snd p)).
