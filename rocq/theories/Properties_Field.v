(* C88: the diffusion fields that the two scripts for a space-dependent coefficient are to recover. *)
From Coq Require Import String ZArith List Reals Lra Lia.
From Coquelicot Require Import Coquelicot.
From Verif Require Import Num Py Basis Transform Problems Spec SpecGeom SpecPde SpecWeak SpecProblem SpecMax FieldFacts Properties_Weak.
Import ListNotations.
Local Open Scope R_scope.

(* The disc of circle_quad.mesh: the actual coefficient is positive, so the equation is elliptic *)
Theorem C88_circle : forall x y eps, x ^ 2 + y ^ 2 <= 1001 / 1000 -> entry (circle_actual x y) "eps" eps -> 0 < eps.
Proof. exact circle_positive. Qed.
(* usa.mesh lies in the square [-1,1]^2: the actual coefficient is negative on its western half *)
Theorem C88_usa_sign_refuted : forall x y eps, -1 <= x <= 1 -> -1 <= y <= 1 -> entry (usa_actual x y) "eps" eps -> (0 < x -> 0 < eps) /\ (x < 0 -> eps < 0) /\ (x = 0 -> eps = 0).
Proof. exact usa_sign. Qed.
(* Every differentiable field that solves the equation together with u has no loss, on every mesh and in every space *)
Theorem C88_loss : forall tr cells fam k u a ax ay bx by_ c f, twice_smooth u -> smooth1 a ax ay -> solves_field a bx by_ c u f ->
  tr = "bilinear"%string \/ tr = "affine"%string -> (forall cl, In cl cells -> strictly_convex cl) -> fam <> FJacobiPlain ->
  exact_loss f (on_points u) (gradient u) (on_points a) bx by_ c tr fam k cells = 0.
Proof. exact field_zero_loss. Qed.
Theorem C88_kernel : forall a h u bx by_ c f s, solves_field a bx by_ c u f -> solves_field h 0 0 0 u (fun _ _ => 0) -> solves_field (fun x y => a x y + s * h x y) bx by_ c u f.
Proof. exact field_kernel. Qed.
(* The exact solution of the USA script, known at every point, does not determine the coefficient: other coefficients
   without any loss are as far from the actual one as one likes, everywhere *)
Theorem C88_usa_refuted : forall M, exists a, solves_field a 0 0 0 (pb_exact usa_inverse) (pb_rhs usa_inverse) /\
  (forall tr cells fam k, tr = "bilinear"%string \/ tr = "affine"%string -> (forall c, In c cells -> strictly_convex c) -> fam <> FJacobiPlain ->
     exact_loss (pb_rhs usa_inverse) (on_points (pb_exact usa_inverse)) (gradient (pb_exact usa_inverse)) (on_points a) 0 0 0 tr fam k cells = 0) /\
  forall x y eps, y <= 1 -> entry (usa_actual x y) "eps" eps -> eps + M <= a x y.
Proof. exact usa_far. Qed.

(* a node of usa.mesh and one of circle_quad.mesh *)
Example C88_node : exists eps, entry (usa_actual (-1) (- (112979 / 1000000))) "eps" eps /\ eps < 0.
Proof. eexists. split; [reflexivity|]. apply (C88_usa_sign_refuted (-1) (- (112979 / 1000000))); try lra. reflexivity. Qed.
Example C88_circle_example : exists eps, entry (circle_actual (-1) 0) "eps" eps /\ 0 < eps.
Proof. eexists. split; [reflexivity|]. apply (C88_circle (-1) 0); [lra | reflexivity]. Qed.
Example C88_loss_example : exists ax ay, twice_smooth (pb_exact usa_inverse) /\ smooth1 (usa_field 1) ax ay /\ solves_field (usa_field 1) 0 0 0 (pb_exact usa_inverse) (pb_rhs usa_inverse) /\
  (forall c, In c two -> strictly_convex c) /\ exists h, solves_field h 0 0 0 (pb_exact usa_inverse) (fun _ _ => 0) /\ h 0 0 = 1.
Proof.
  destruct (twice_once _ (usa_field_smooth 1)) as (ax & ay & S). exists ax, ay. split; [exact usa_smooth|]. split; [exact S|]. split; [apply usa_many|]. split; [exact two_convex|].
  eexists. split; [exact usa_kernel|]. cbn. replace (- (99 / 10) * 0) with 0 by ring. apply exp_0.
Qed.

Print Assumptions C88_circle.
Print Assumptions C88_usa_sign_refuted.
Print Assumptions C88_loss.
Print Assumptions C88_kernel.
Print Assumptions C88_usa_refuted.
