(* Model of the basis function classes FE/basis_2d_QN_*.py. *)
From Coq Require Import ZArith List Arith.
From Verif Require Import Num Py Jacobi.
Import ListNotations.

(* int(np.sqrt(num_shape_functions)).  Simplification: the integer square root; for
   the squares below 10^6 used by the code binary64 gives the same value (see
   FloatFacts.v). *)
Definition int_sqrt (n : nat) : nat := Nat.sqrt n.

Section Basis.
Context {A : Type} `{Num A}.
Local Open Scope num_scope.

Definition arr := list A.
Definition mat := list (list A).

(* jacobi_wrapper: Legendre 30-47, Chebyshev_2 28-45, Jacobi 32-49. *)
Definition jw (n : nat) (a b : A) (x : arr) : arr := map (peval (jac n a b)) x.
(* The same at the scalar point 1. *)
Definition jw1 (n : nat) (a b : A) : A := peval (jac n a b) n1.

Definition half : A := n1 / n2.
Definition mhalf : A := nofZ (-1) / n2.
Definition th2 : A := nofZ 3 / n2.

(* ---------- FE/basis_2d_QN_Legendre.py ---------- *)
(* lines 50-66 *)
Definition leg_test_fcnx (n_test : nat) (x : arr) : mat :=
  map (fun n => vsub (jw (n + 1) n0 n0 x) (jw (n - 1) n0 n0 x)) (seq 1 n_test).
(* lines 68-84 *)
Definition leg_test_fcny (n_test : nat) (y : arr) : mat :=
  map (fun n => vsub (jw (n + 1) n0 n0 y) (jw (n - 1) n0 n0 y)) (seq 1 n_test).
(* lines 86-121, first component; the branches n == 2 and n > 2 coincide *)
Definition leg_d1 (n : nat) (x : arr) : arr :=
  if Nat.eqb n 1 then vscale (nofnat (n + 2) / n2) (jw n n1 n1 x)
  else vsub (vscale (nofnat (n + 2) / n2) (jw n n1 n1 x))
            (vscale (nofnat n / n2) (jw (n - 2) n1 n1 x)).
(* lines 86-121, second component; the branches n == 1 and n == 2 coincide *)
Definition leg_d2 (n : nat) (x : arr) : arr :=
  if orb (Nat.eqb n 1) (Nat.eqb n 2)
  then vscale (nofnat ((n + 2) * (n + 3)) / nofZ 4) (jw (n - 1) n2 n2 x)
  else vsub (vscale (nofnat ((n + 2) * (n + 3)) / nofZ 4) (jw (n - 1) n2 n2 x))
            (vscale (nofnat (n * (n + 1)) / nofZ 4) (jw (n - 3) n2 n2 x)).
Definition leg_dtest_fcn (n_test : nat) (x : arr) : mat * mat :=
  (map (fun n => leg_d1 n x) (seq 1 n_test), map (fun n => leg_d2 n x) (seq 1 n_test)).

(* ---------- FE/basis_2d_QN_Chebyshev_2.py ---------- *)
Definition vdivs (x : arr) (c : A) : arr := map (fun v => v / c) x.
(* lines 48-68 *)
Definition che_test_fcnx (n_test : nat) (x : arr) : mat :=
  map (fun n => vsub (vdivs (jw (n + 1) mhalf mhalf x) (jw1 (n + 1) mhalf mhalf))
                     (vdivs (jw (n - 1) mhalf mhalf x) (jw1 (n - 1) mhalf mhalf)))
      (seq 1 n_test).
(* lines 70-89 *)
Definition che_test_fcny (n_test : nat) (y : arr) : mat :=
  map (fun n => vsub (vdivs (jw (n + 1) mhalf mhalf y) (jw1 (n + 1) mhalf mhalf))
                     (vdivs (jw (n - 1) mhalf mhalf y) (jw1 (n - 1) mhalf mhalf)))
      (seq 1 n_test).
(* lines 91-156, first component *)
Definition che_d1 (n : nat) (x : arr) : arr :=
  let t1 := vdivs (vscale (nofnat (n + 1) / n2) (jw n half half x)) (jw1 (n + 1) mhalf mhalf) in
  if Nat.eqb n 1 then t1
  else vsub t1 (vdivs (vscale (nofnat (n - 1) / n2) (jw (n - 2) half half x))
                      (jw1 (n - 1) mhalf mhalf)).
(* lines 91-156, second component *)
Definition che_d2 (n : nat) (x : arr) : arr :=
  let t1 := vdivs (vscale (nofnat ((n + 2) * (n + 1)) / nofZ 4) (jw (n - 1) th2 th2 x))
                  (jw1 (n + 1) mhalf mhalf) in
  if orb (Nat.eqb n 1) (Nat.eqb n 2) then t1
  else vsub t1 (vdivs (vscale (nofnat (n * (n - 1)) / nofZ 4) (jw (n - 3) th2 th2 x))
                      (jw1 (n - 1) mhalf mhalf)).
Definition che_dtest_fcn (n_test : nat) (x : arr) : mat * mat :=
  (map (fun n => che_d1 n x) (seq 1 n_test), map (fun n => che_d2 n x) (seq 1 n_test)).

(* ---------- FE/basis_2d_QN_Jacobi.py ---------- *)
(* djacobi, lines 52-83 *)
Definition djacobi (n : nat) (a b : A) (x : arr) (k : nat) : result arr :=
  if Nat.eqb k 1 then Ok (map (peval (pderiv (jac n a b))) x)
  else if Nat.eqb k 2 then Ok (map (peval (pderiv (pderiv (jac n a b)))) x)
  else Err ValueError.
(* The two calls below pass k = 1 and k = 2, so the error branch is not taken. *)
Definition djacobi_ok (n : nat) (a b : A) (x : arr) (k : nat) : arr :=
  match djacobi n a b x k with Ok v => v | Err _ => [] end.
(* lines 86-102 *)
Definition jp_test_fcnx (n_test : nat) (x : arr) : mat :=
  map (fun n => jw (n - 1) n0 n0 x) (seq 1 n_test).
(* lines 104-119 *)
Definition jp_test_fcny (n_test : nat) (y : arr) : mat :=
  map (fun n => jw (n - 1) n0 n0 y) (seq 1 n_test).
(* lines 121-137 *)
Definition jp_dtest_fcn (n_test : nat) (x : arr) : mat :=
  map (fun n => djacobi_ok (n - 1) n0 n0 x 1) (seq 1 n_test).
(* lines 139-155 *)
Definition jp_ddtest_fcn (n_test : nat) (x : arr) : mat :=
  map (fun n => djacobi_ok (n - 1) n0 n0 x 2) (seq 1 n_test).

(* ---------- FE/basis_2d_QN_Legendre_Special.py ---------- *)
(* lines 42-59 *)
Definition ls_test_fcn (n_test : nat) (x : arr) : mat :=
  map (fun n => vsub (map (peval (leg (n + 1))) x) (map (peval (leg (n - 1))) x)) (seq 1 n_test).
(* lines 61-78 *)
Definition ls_test_grad_fcn (n_test : nat) (x : arr) : mat :=
  map (fun n => vsub (map (peval (pderiv (leg (n + 1)))) x)
                     (map (peval (pderiv (leg (n - 1)))) x)) (seq 1 n_test).
(* lines 80-98 *)
Definition ls_test_grad_grad_fcn (n_test : nat) (x : arr) : mat :=
  map (fun n => vsub (map (peval (pderiv (pderiv (leg (n + 1))))) x)
                     (map (peval (pderiv (pderiv (leg (n - 1))))) x)) (seq 1 n_test).

(* ---------- assembly of the tables ---------- *)
(* The common tail of value/gradx/... (e.g. Legendre 137-144): a zero array of shape
   (num_shape_functions, len(xi)) whose rows k*i .. k*(i+1) are overwritten by
   fx[i, :] * fy. *)
Definition fill_rows (nsf npts k : nat) (fx fy : mat) : mat :=
  fold_left (fun values i => set_rows (k * i) (map (vmul (nth i fx [])) fy) values)
            (seq 0 k) (zeros2 nsf npts).

Inductive family := FLegendre | FLegendreSpecial | FChebyshev2 | FJacobiPlain.

(* The 1D tables each method uses: Legendre 123-261, Chebyshev_2 158-296,
   Jacobi 157-297, Legendre_Special 100-266.  tx/ty: values in the first/second
   coordinate, dx/dy first and ddx/ddy second derivatives. *)
Definition tx (f : family) (k : nat) (x : arr) : mat :=
  match f with
  | FLegendre => leg_test_fcnx k x
  | FLegendreSpecial => ls_test_fcn k x
  | FChebyshev2 => che_test_fcnx k x
  | FJacobiPlain => jp_test_fcnx k x
  end.
Definition ty (f : family) (k : nat) (y : arr) : mat :=
  match f with
  | FLegendre => leg_test_fcny k y
  | FLegendreSpecial => ls_test_fcn k y
  | FChebyshev2 => che_test_fcny k y
  | FJacobiPlain => jp_test_fcny k y
  end.
Definition dtx (f : family) (k : nat) (x : arr) : mat :=
  match f with
  | FLegendre => fst (leg_dtest_fcn k x)
  | FLegendreSpecial => ls_test_grad_fcn k x
  | FChebyshev2 => fst (che_dtest_fcn k x)
  | FJacobiPlain => jp_dtest_fcn k x
  end.
Definition ddtx (f : family) (k : nat) (x : arr) : mat :=
  match f with
  | FLegendre => snd (leg_dtest_fcn k x)
  | FLegendreSpecial => ls_test_grad_grad_fcn k x
  | FChebyshev2 => snd (che_dtest_fcn k x)
  | FJacobiPlain => jp_ddtest_fcn k x
  end.

(* value: Legendre 123-144, Chebyshev_2 158-179, Jacobi 157-178, Special 100-126 *)
Definition b_value (f : family) (nsf : nat) (xi eta : arr) : mat :=
  let k := int_sqrt nsf in fill_rows nsf (length xi) k (tx f k xi) (ty f k eta).
(* gradx: Legendre 146-168, Chebyshev_2 181-202, Jacobi 180-201, Special 128-154 *)
Definition b_gradx (f : family) (nsf : nat) (xi eta : arr) : mat :=
  let k := int_sqrt nsf in fill_rows nsf (length xi) k (dtx f k xi) (ty f k eta).
(* grady: Legendre 170-191, Chebyshev_2 204-225, Jacobi 203-226, Special 156-182 *)
Definition b_grady (f : family) (nsf : nat) (xi eta : arr) : mat :=
  let k := int_sqrt nsf in fill_rows nsf (length xi) k (tx f k xi) (dtx f k eta).
(* gradxx: Legendre 193-214, Chebyshev_2 227-249, Jacobi 228-250, Special 184-210 *)
Definition b_gradxx (f : family) (nsf : nat) (xi eta : arr) : mat :=
  let k := int_sqrt nsf in fill_rows nsf (length xi) k (ddtx f k xi) (ty f k eta).
(* gradxy: Legendre 216-237, Chebyshev_2 251-272, Jacobi 252-273, Special 212-238 *)
Definition b_gradxy (f : family) (nsf : nat) (xi eta : arr) : mat :=
  let k := int_sqrt nsf in fill_rows nsf (length xi) k (dtx f k xi) (dtx f k eta).
(* gradyy: Legendre 239-261, Chebyshev_2 274-296, Jacobi 275-297, Special 240-266 *)
Definition b_gradyy (f : family) (nsf : nat) (xi eta : arr) : mat :=
  let k := int_sqrt nsf in fill_rows nsf (length xi) k (tx f k xi) (ddtx f k eta).

End Basis.
Arguments arr : clear implicits.
Arguments mat : clear implicits.
