(* Properties C06-C10: the test functions. *)
From Coq Require Import String ZArith List Arith Lia Reals Lra.
From Coquelicot Require Import Coquelicot.
From Verif Require Import Num Py Jacobi Quadrature Basis Transform Cell Spec BasisFacts2 CellFacts.
Import ListNotations.
Local Open Scope R_scope.

(* C06: k*k rows, one column per point; row k*i+j is the product of the i-th function
   (or its derivative) in the first and the j-th in the second coordinate. *)
Theorem C06_shape : forall f k (xi eta : list R), length xi = length eta ->
  has_shape (b_value f (k * k) xi eta) (k * k) (length xi) /\
  has_shape (b_gradx f (k * k) xi eta) (k * k) (length xi) /\
  has_shape (b_grady f (k * k) xi eta) (k * k) (length xi) /\
  has_shape (b_gradxx f (k * k) xi eta) (k * k) (length xi) /\
  has_shape (b_gradxy f (k * k) xi eta) (k * k) (length xi) /\
  has_shape (b_gradyy f (k * k) xi eta) (k * k) (length xi).
Proof. exact tables_shape. Qed.

Theorem C06_layout : forall f k (xi eta : list R) i j q,
  length xi = length eta -> (i < k)%nat -> (j < k)%nat -> (q < length xi)%nat ->
  let x := nth q xi 0 in let y := nth q eta 0 in let r := (k * i + j)%nat in
  let a := phi f (S i) in let b := phi f (S j) in
  entry (b_value f (k * k) xi eta) r q = a x * b y /\
  entry (b_gradx f (k * k) xi eta) r q = Derive a x * b y /\
  entry (b_grady f (k * k) xi eta) r q = a x * Derive b y /\
  entry (b_gradxx f (k * k) xi eta) r q = Derive (Derive a) x * b y /\
  entry (b_gradxy f (k * k) xi eta) r q = Derive a x * Derive b y /\
  entry (b_gradyy f (k * k) xi eta) r q = a x * Derive (Derive b) y.
Proof. exact tables_layout. Qed.

(* C07: every derivative table holds the derivative of the table it claims to
   differentiate, at every point of every point list. *)
Theorem C07_derivatives : forall f k (xi eta : list R) r q,
  length xi = length eta -> (r < k * k)%nat -> (q < length xi)%nat ->
  let x := nth q xi 0 in let y := nth q eta 0 in
  let at1 T t s := entry (T [t] [s]) r 0 in
  is_derive (fun t => at1 (b_value f (k * k)) t y) x (entry (b_gradx f (k * k) xi eta) r q) /\
  is_derive (fun s => at1 (b_value f (k * k)) x s) y (entry (b_grady f (k * k) xi eta) r q) /\
  is_derive (fun t => at1 (b_gradx f (k * k)) t y) x (entry (b_gradxx f (k * k) xi eta) r q) /\
  is_derive (fun s => at1 (b_gradx f (k * k)) x s) y (entry (b_gradxy f (k * k) xi eta) r q) /\
  is_derive (fun t => at1 (b_grady f (k * k)) t y) x (entry (b_gradxy f (k * k) xi eta) r q) /\
  is_derive (fun s => at1 (b_grady f (k * k)) x s) y (entry (b_gradyy f (k * k) xi eta) r q) /\
  at1 (b_value f (k * k)) x y = entry (b_value f (k * k) xi eta) r q.
Proof. exact tables_derivatives. Qed.

(* C08: zero on the four sides, except for jacobi_plain. *)
Theorem C08_vanish_on_boundary : forall f k (xi eta : list R) r q,
  f <> FJacobiPlain -> length xi = length eta -> (r < k * k)%nat -> (q < length xi)%nat ->
  (nth q xi 0 = 1 \/ nth q xi 0 = -1 \/ nth q eta 0 = 1 \/ nth q eta 0 = -1) ->
  entry (b_value f (k * k) xi eta) r q = 0.
Proof. exact tables_boundary. Qed.

(* For jacobi_plain the first test function is 1 everywhere, so it is not zero on the
   boundary, at every order. *)
Theorem C08_jacobi_plain_refuted : forall k, (1 <= k)%nat ->
  exists r, (r < k * k)%nat /\ forall (xi eta : list R) q,
    length xi = length eta -> (q < length xi)%nat ->
    entry (b_value FJacobiPlain (k * k) xi eta) r q = 1.
Proof.
  exact (fun k H => ex_intro _ 0%nat (conj (Nat.mul_pos_pos k k H H)
    (fun xi eta q => tables_boundary_plain k xi eta q H))).
Qed.

(* C09: the three names give the same tables, hence the same cell. *)
Theorem C09_tables : forall k (xi eta : list R),
  b_value FLegendre (k * k) xi eta = b_value FLegendreSpecial (k * k) xi eta /\
  b_gradx FLegendre (k * k) xi eta = b_gradx FLegendreSpecial (k * k) xi eta /\
  b_grady FLegendre (k * k) xi eta = b_grady FLegendreSpecial (k * k) xi eta /\
  b_gradxx FLegendre (k * k) xi eta = b_gradxx FLegendreSpecial (k * k) xi eta /\
  b_gradxy FLegendre (k * k) xi eta = b_gradxy FLegendreSpecial (k * k) xi eta /\
  b_gradyy FLegendre (k * k) xi eta = b_gradyy FLegendreSpecial (k * k) xi eta.
Proof. exact tables_agree. Qed.

Theorem C09_interchangeable : forall o cf (c : cell R),
  make_cell o (set_fe_type cf "jacobi") c = make_cell o (set_fe_type cf "legendre") c /\
  make_cell o (set_fe_type cf "legendre_special") c = make_cell o (set_fe_type cf "legendre") c.
Proof. exact make_cell_alias. Qed.

(* C10 *)
Theorem C10_independent : forall f k (c : nat -> R),
  (forall x y, -1 < x < 1 -> -1 < y < 1 ->
     Sum (fun r => c r * entry (b_value f (k * k) [x] [y]) r 0) (k * k) = 0) ->
  forall r, (r < k * k)%nat -> c r = 0.
Proof. exact tables_indep. Qed.

(* Non-vacuity: order 2 at the points (0, 1/3) and (1, 1/2). *)
Example C06_example : length [0; 1] = length [1/3; 1/2] /\ (1 < 2)%nat /\ (0 < 2)%nat /\ (1 < length [0; 1])%nat.
Proof. simpl; repeat split; lia. Qed.
Example C08_example : nth 1 [0; 1] 0 = 1 /\ FChebyshev2 <> FJacobiPlain.
Proof. split; [reflexivity | discriminate]. Qed.
(* Concrete values by computation over Q: gradx of order 2 at (1/2, 1/3). *)
From Coq Require Import QArith.
Example C07_run :
  b_value FLegendre 4 [1#2] [1#3] = [[3#2]; [5#6]; [5#4]; [25#36]] /\
  b_gradx FLegendre 4 [1#2] [1#3] = [[-2#1]; [-10#9]; [5#6]; [25#54]] /\
  b_gradx FLegendreSpecial 4 [1#2] [1#3] = [[-2#1]; [-10#9]; [5#6]; [25#54]].
Proof. vm_compute. repeat split. Qed.

Print Assumptions C06_shape.
Print Assumptions C06_layout.
Print Assumptions C07_derivatives.
Print Assumptions C08_vanish_on_boundary.
Print Assumptions C08_jacobi_plain_refuted.
Print Assumptions C09_tables.
Print Assumptions C09_interchangeable.
Print Assumptions C10_independent.
