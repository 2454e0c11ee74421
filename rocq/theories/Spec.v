(* Specifications used by the property statements, written without the helpers of
   the model: classical formulas over the reals of the standard library. *)
From Coq Require Import Reals List Lra.
From Coquelicot Require Import Coquelicot.
From Verif Require Import Quadrature Basis.
Import ListNotations.
Local Open Scope R_scope.

(* Sum over k = 0 .. n-1 *)
Fixpoint Sum (f : nat -> R) (n : nat) : R :=
  match n with O => 0 | S m => Sum f m + f m end.

(* Generalised binomial coefficient (z over k) *)
Fixpoint Binom (z : R) (k : nat) : R :=
  match k with O => 1 | S m => Binom z m * (z - INR m) / INR (S m) end.

(* Jacobi polynomial P_n^(a,b)(x), DLMF 18.5.8 *)
Definition JacobiP (n : nat) (a b x : R) : R :=
  / 2 ^ n * Sum (fun l => Binom (INR n + a) l * Binom (INR n + b) (n - l)
                          * ((x - 1) ^ (n - l) * (x + 1) ^ l)) (S n).

Definition LegendreP (n : nat) (x : R) : R := JacobiP n 0 0 x.
(* Chebyshev polynomial of the first kind as a normalised Jacobi polynomial *)
Definition ChebyshevT (n : nat) (x : R) : R :=
  JacobiP n (-1/2) (-1/2) x / JacobiP n (-1/2) (-1/2) 1.

(* The n-th 1D test function (n >= 1) of each family. *)
Definition phi (f : family) (n : nat) (x : R) : R :=
  match f with
  | FLegendre | FLegendreSpecial => LegendreP (n + 1) x - LegendreP (n - 1) x
  | FChebyshev2 => ChebyshevT (n + 1) x - ChebyshevT (n - 1) x
  | FJacobiPlain => LegendreP (n - 1) x
  end.

(* The 2D test function with index i*k+j, 0 <= i, j < k. *)
Definition Phi (f : family) (i j : nat) (x y : R) : R := phi f (S i) x * phi f (S j) y.

(* Partial derivatives *)
Definition Dx (u : R -> R -> R) (x y : R) : R := Derive (fun t => u t y) x.
Definition Dy (u : R -> R -> R) (x y : R) : R := Derive (fun t => u x t) y.

(* Entry (i, q) of a table *)
Definition entry (m : list (list R)) (i q : nat) : R := nth q (nth i m []) 0.
(* Shape of a table *)
Definition has_shape {A} (m : list (list A)) (r c : nat) : Prop :=
  length m = r /\ forall row, In row m -> length row = c.

(* ---------- quadrature ---------- *)
(* Polynomials with d coefficients in one / d x d coefficients in two variables *)
Definition Poly (c : nat -> R) (d : nat) (x : R) : R := Sum (fun k => c k * x ^ k) d.
Definition Poly2 (c : nat -> nat -> R) (d : nat) (x y : R) : R :=
  Sum (fun a => Sum (fun b => c a b * (x ^ a * y ^ b)) d) d.
(* A rule applied to a function *)
Definition Rule (x w : list R) (f : R -> R) : R :=
  Sum (fun i => nth i w 0 * f (nth i x 0)) (length x).
Definition Rule2 (w xi eta : list R) (F : R -> R -> R) : R :=
  Sum (fun q => nth q w 0 * F (nth q xi 0) (nth q eta 0)) (length w).
Definition Int2 (F : R -> R -> R) (a b c d : R) : R := RInt (fun y => RInt (fun x => F x y) a b) c d.
(* exact for all polynomials with d coefficients on [-1,1] *)
Definition exact_upto (d : nat) (x w : list R) : Prop :=
  forall c, Rule x w (Poly c d) = RInt (Poly c d) (-1) 1.
(* Documented contract of numpy.polynomial.legendre.leggauss(n) *)
Definition leggauss_ok (n : nat) (xw : list R * list R) : Prop :=
  length (fst xw) = n /\ length (snd xw) = n /\ exact_upto (2 * n) (fst xw) (snd xw).
(* Documented contract of scipy.special.roots_jacobi(n, 1, 1)[0] *)
Definition roots_ok (n : nat) (x : list R) : Prop :=
  length x = n /\ NoDup x /\ forall a, In a x -> -1 < a < 1 /\ JacobiP n 1 1 a = 0.
(* The part of the two contracts that only speaks about lengths *)
Definition lengths_ok (o : quad_oracle R) (n : nat) : Prop :=
  length (fst (leggauss o n)) = n /\ length (snd (leggauss o n)) = n /\
  length (roots_jacobi11 o (n - 2)) = (n - 2)%nat.
(* Both contracts at the orders used by a rule of order n *)
Definition oracle_ok (o : quad_oracle R) (n : nat) : Prop :=
  leggauss_ok n (leggauss o n) /\ roots_ok (n - 2) (roots_jacobi11 o (n - 2)).
