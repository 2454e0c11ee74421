(* Properties C52 and C53: the problem definitions shipped with the examples. *)
From Coq Require Import String ZArith List Reals Lra Lia.
From Coquelicot Require Import Coquelicot.
From Verif Require Import Num Py Basis Transform Cell Space Heap Tensor Data Physics Train Geometry Nets Problems
  Spec SpecGeom SpecMesh SpecProblem ListFacts NetFacts ProblemFacts.
Import ListNotations.
Local Open Scope R_scope.

(* C52: the exact solutions solve the equation of the loss they are used with, with the
   coefficients of their own file *)
Theorem C52_poisson : forall pb, In pb [uniform_poisson; hard_poisson; circle_poisson; usa_poisson] ->
  exists eps, entry (pb_params pb) "eps" eps /\ eps <> 0 /\ solves_poisson eps (pb_exact pb) (pb_rhs pb).
Proof.
  intros pb H. exists 1. destruct H as [<- | [<- | [<- | [<- | []]]]];
    (split; [reflexivity | split; [lra | exact (sincos_solves _)]]).
Qed.
Theorem C52_helmholtz : forall pb, In pb [uniform_helmholtz; circle_helmholtz] ->
  exists eps k, entry (pb_params pb) "eps" eps /\ entry (pb_params pb) "k" k /\ eps <> 0 /\
    solves_helmholtz eps k (pb_exact pb) (pb_rhs pb).
Proof.
  intros pb H. exists 1, 1. destruct H as [<- | [<- | []]];
    (split; [reflexivity | split; [reflexivity | split; [lra | exact helmholtz_solves]]]).
Qed.
Theorem C52_convection_diffusion : exists eps bx by_ c,
  entry (pb_params circle_cd) "eps" eps /\ entry (pb_params circle_cd) "b_x" bx /\ entry (pb_params circle_cd) "b_y" by_ /\
  entry (pb_params circle_cd) "c" c /\ solves_cd eps bx by_ c (pb_exact circle_cd) (pb_rhs circle_cd).
Proof. exists 1, 1, 0, 0. repeat (split; [reflexivity|]). exact circle_cd_solves. Qed.
(* the inverse problem: solved by the actual value of the parameter and by no other, so the
   initial guess is not already the answer and the answer is determined by the data *)
Theorem C52_inverse : forall eps,
  solves_poisson eps (pb_exact inverse_poisson) (pb_rhs inverse_poisson) <-> entry inverse_actual "eps" eps.
Proof. exact inverse_unique. Qed.
Theorem C52_field : exists bx by_ c a, (forall x y, entry (usa_actual x y) "eps" (a x y)) /\
  entry (pb_params usa_inverse) "b_x" bx /\ entry (pb_params usa_inverse) "b_y" by_ /\ entry (pb_params usa_inverse) "c" c /\
  solves_field a bx by_ c (pb_exact usa_inverse) (pb_rhs usa_inverse).
Proof. exists 0, 0, 0, (fun x y => sin x * cos (x * y)). repeat (split; [reflexivity|]). exact usa_solves. Qed.
(* boundary functions: with the limits of the input file, the internal mesh and the space
   produce boundary data that are values of the exact solution on the boundary *)
Theorem C52_boundary_internal : forall pb lim, In (pb, lim) [(uniform_poisson, unit_limits); (hard_poisson, unit_limits);
    (uniform_helmholtz, unit_limits); (inverse_poisson, inverse_limits)] ->
  forall lhs1 num, sampler_ok lhs1 -> (0 <= num)%Z ->
  exists bd x y, internal_boundary lhs1 (fst lim) (snd lim) num = Ok bd /\ dirichlet_data bd (pb_bound pb) = Ok (x, y) /\
    length x = (4 * Z.to_nat (num / 4))%nat /\ length y = length x /\
    forall i, (i < length x)%nat -> (exists t, on_side lim t (nth i x (0, 0))) /\
      nth i y 0 = pb_exact pb (fst (nth i x (0, 0))) (snd (nth i x (0, 0))).
Proof. exact example_rows. Qed.
Theorem C52_boundary_external : forall pb t g x y, In pb [circle_poisson; usa_poisson; circle_helmholtz; circle_cd; usa_inverse] ->
  In (t, g) (pb_bound pb) -> t = 1000%Z /\ g x y = pb_exact pb x y.
Proof.
  intros pb t g x y H K. destruct H as [<- | [<- | [<- | [<- | [<- | []]]]]]; destruct K as [E | []]; injection E as <- <-; split; reflexivity.
Qed.
(* two files have a placeholder: exact_solution is zero and does not solve the equation, so
   the errors reported against it are not errors of the computed solution *)
Theorem C52_gear_refuted : ~ exists eps bx by_ c,
  entry (pb_params gear_cd) "eps" eps /\ entry (pb_params gear_cd) "b_x" bx /\ entry (pb_params gear_cd) "b_y" by_ /\
  entry (pb_params gear_cd) "c" c /\ solves_cd eps bx by_ c (pb_exact gear_cd) (pb_rhs gear_cd).
Proof. exact gear_not. Qed.
Theorem C52_circle_inverse_refuted : ~ exists bx by_ c a, (forall x y, entry (circle_actual x y) "eps" (a x y)) /\
  solves_field a bx by_ c (pb_exact circle_inverse) (pb_rhs circle_inverse).
Proof. exact circle_inverse_not. Qed.

(* C53: the hard constraint of the example *)
Theorem C53_boundary : forall nt b y r v, nn_out (hard_network (Some ansatz_constraint) nt) b = Ok y -> (r < length b)%nat ->
  (exists t, on_side unit_limits t (nth r b (0, 0))) -> In v (nth r y []) ->
  v = pb_exact hard_poisson (fst (nth r b (0, 0))) (snd (nth r b (0, 0))).
Proof. exact hard_example. Qed.
(* nothing is lost off the boundary: the raw network value that gives any wanted value exists and is unique *)
Theorem C53_interior : forall p, (forall t, ~ on_side unit_limits t p) ->
  forall u : R, exists! raw, forall b y r, length y = length b -> (r < length b)%nat -> nth r b (0, 0) = p -> nth r y [] = [raw] ->
    nth r (ansatz_constraint b y) [] = [u].
Proof. exact ansatz_interior. Qed.

(* ---------- examples ---------- *)
Example C52_boundary_example : sampler_ok (fun _ n => repeat (1 / 2) n).
Proof. intros k n. split; [apply repeat_length|]. intros v H. apply repeat_spec in H. subst v. lra. Qed.
Example C53_example_boundary : on_side unit_limits 1001 (1, 1 / 3) /\ ~ (exists t, on_side unit_limits t (1 / 2, 1 / 3)).
Proof.
  split. { right; left. split; reflexivity. }
  intros [t H]. unfold on_side, unit_limits in H. cbn [fst snd] in H. lra.
Qed.
Example C53_example_run : exists nt y, nn_out (hard_network (Some ansatz_constraint) nt) [(1, 1 / 3); (1 / 2, 1 / 2)] = Ok y /\
  n_layers nt <> [] /\ exists u v, y = [[u]; [v]] /\ u = 0 /\ v <> 0.
Proof. exact hard_run. Qed.
Example C52_not_all_zero : pb_rhs uniform_poisson (1 / 8) (1 / 8) <> 0.
Proof. exact rhs_nonzero. Qed.

Print Assumptions C52_poisson.
Print Assumptions C52_helmholtz.
Print Assumptions C52_convection_diffusion.
Print Assumptions C52_inverse.
Print Assumptions C52_field.
Print Assumptions C52_boundary_internal.
Print Assumptions C52_boundary_external.
Print Assumptions C52_gear_refuted.
Print Assumptions C52_circle_inverse_refuted.
Print Assumptions C53_boundary.
Print Assumptions C53_interior.
