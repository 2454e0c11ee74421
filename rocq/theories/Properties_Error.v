(* Properties C58-C61: the error of the quadrature, of the residuals and of the loss; exact solutions, and nothing else, have zero loss. *)
From Coq Require Import String ZArith List Arith Lia Reals Lra.
From Coquelicot Require Import Coquelicot.
From Verif Require Import Num Py Jacobi Quadrature Basis Transform Cell Space Tensor Data Physics Train
  Spec SpecGeom SpecMesh SpecTrain SpecPde QuadFacts QuadExamples TransformFacts TransformFacts2 SpaceFacts CellFacts2 ForcingFacts
  DataFacts PipelineFacts ExactFacts ExactTrain ExactExamples SpecWeak WeakFacts NumberFacts Weierstrass SquareInt ErrorFacts Converse Properties_Weak.
Import ListNotations.
Local Open Scope R_scope.

(* C58: the 2D rule of either type integrates a continuous function with an error of at most eight
   times its distance to the polynomials the rule is exact for, ... *)
Theorem C58_error : forall o order ty w xi eta F eps, oracle_ok o (Z.to_nat order) -> quad2d o order ty = Ok (w, xi, eta) ->
  (forall x y, in_square x y -> continuity_2d_pt F x y) -> near_poly eps (exactness ty (Z.to_nat order)) F ->
  Rabs (Rule2 w xi eta F - Int2 F (-1) 1 (-1) 1) <= 8 * eps.
Proof.
  intros o order ty w xi eta F eps Ho Hq HF (co & Hn).
  exact (quad_error o order ty w xi eta F co _ eps Ho Hq HF (Nat.le_refl _) Hn).
Qed.
Print Assumptions C58_error.
(* ... which tends to zero as quad_order grows, uniformly in the rule type and the root finder, ... *)
Theorem C58_convergence : forall F, (forall x y, in_square x y -> continuity_2d_pt F x y) ->
  forall eps, 0 < eps -> exists N, forall order, (N <= order)%Z -> forall o ty w xi eta,
  oracle_ok o (Z.to_nat order) -> quad2d o order ty = Ok (w, xi, eta) -> Rabs (Rule2 w xi eta F - Int2 F (-1) 1 (-1) 1) < eps.
Proof. exact quad_conv. Qed.
Print Assumptions C58_convergence.
(* ... and no rule integrates all polynomials with one more coefficient in each variable. *)
Theorem C58_sharp : forall o order ty w xi eta, oracle_ok o (Z.to_nat order) -> quad2d o order ty = Ok (w, xi, eta) ->
  exists co, Rule2 w xi eta (Poly2 co (S (exactness ty (Z.to_nat order))))
             <> Int2 (Poly2 co (S (exactness ty (Z.to_nat order)))) (-1) 1 (-1) 1.
Proof. exact quad_sharp. Qed.
Print Assumptions C58_sharp.

(* C59: the residual a training step uses for cell c and test function (i, j) differs from the
   exact integral of the weak form by at most eight times the distance of its integrand to the
   polynomials the rule is exact for, ... *)
Theorem C59_residual : forall o cf cells bp bf plot s f U G a bx bn g fam eps c i j,
  oracle_ok o (Z.to_nat (cf_quad_order cf)) -> make_space o cf cells bp bf plot = Ok s ->
  (forall c, In c cells -> strictly_convex c) -> family_of (cf_fe_type cf) = Some fam ->
  continuous_data (cf_trafo cf) cells f U G a -> integrands_near eps cf cells fam f U G a bx bn g ->
  let k := Z.to_nat (cf_fe_order cf) in (c < length cells)%nat -> (i < k)%nat -> (j < k)%nat ->
  exists val gx gy pts,
    get_shape_function_val s (Z.of_nat c) = Ok val /\ get_shape_function_grad_x s (Z.of_nat c) = Ok gx /\
    get_shape_function_grad_y s (Z.of_nat c) = Ok gy /\ get_quadrature_actual_coordinates s (Z.of_nat c) = Ok pts /\
    Rabs (weak_res a bx bn g U G f val gx gy pts (k * i + j)
          - exact_res f U G a bx bn g (cf_trafo cf) fam (nth c cells unit_square) i j) <= 8 * eps.
Proof. exact getter_error. Qed.
Print Assumptions C59_residual.
(* ... and the root of the PDE part of the loss from its value with exact integrals by at most
   8 eps sqrt (number of cells), for every model. *)
Theorem C59_loss : forall o cf cells bp bf plot s f h dir sensor nn beta,
  oracle_ok o (Z.to_nat (cf_quad_order cf)) -> make_space o cf cells bp bf plot = Ok s -> make_handler s f true = Ok h ->
  get_dirichlet_input bp bf = Ok dir -> fst dir <> [] -> (forall c, In c cells -> strictly_convex c) ->
  forall U G fam eps, family_of (cf_fe_type cf) = Some fam ->
  (forall loss d al bx bn g, pointwise nn U G -> equation loss d al bx bn g ->
    continuous_data (cf_trafo cf) cells f U G (fun _ => al) -> integrands_near eps cf cells fam f U G (fun _ => al) bx bn g ->
    let m := model_of h dir sensor loss (length cells) in
    (exists L, train_standard m nn beta (Some d) = Ok L /\ loss_close eps cf cells fam f U G (fun _ => al) bx bn g (l_pde L)) /\
    (exists L, train_hard m nn beta (Some d) = Ok L /\ loss_close eps cf cells fam f U G (fun _ => al) bx bn g (l_pde L))) /\
  (forall d ip al, pointwise nn U G -> has ip "eps" al ->
    continuous_data (cf_trafo cf) cells f U G (fun _ => al) -> integrands_near eps cf cells fam f U G (fun _ => al) 0 0 0 ->
    let m := model_of h dir sensor pde_loss_poisson_inverse (length cells) in sensors_fit m ->
    exists L, train_inverse m nn beta d (Some ip) = Ok L /\ loss_close eps cf cells fam f U G (fun _ => al) 0 0 0 (l_pde L)) /\
  (forall d a bx bn g, pointwise2 nn U a G -> has d "b_x" bx -> has d "b_y" bn -> has d "c" g ->
    continuous_data (cf_trafo cf) cells f U G a -> integrands_near eps cf cells fam f U G a bx bn g ->
    let m := model_of h dir sensor pde_loss_cd2d_inverse_domain (length cells) in sensors_fit m ->
    exists L, train_inverse_domain m nn beta (Some d) = Ok L /\ loss_close eps cf cells fam f U G a bx bn g (l_pde L)).
Proof.
  intros o cf cells bp bf plot s f h dir sensor nn beta Ho Hs Hh Hd Hne Hc U G fam eps Hf.
  exact (errors o cf cells bp bf plot s f h dir sensor nn beta Ho Hs Hh Hd Hne Hc U G fam eps Hf).
Qed.
Print Assumptions C59_loss.

(* C60: a solution of the differential equation has loss zero up to quadrature error.  With exact
   integrals the loss is zero, for test functions that vanish on the boundary of the cell ... *)
Theorem C60_exact : forall f u a U G A bx bn g tr fam k cells, tr = "bilinear"%string \/ tr = "affine"%string ->
  (forall c, In c cells -> strictly_convex c) -> fam <> FJacobiPlain ->
  C1_on tr cells (fun s t => a s t * Dx u s t) -> C1_on tr cells (fun s t => a s t * Dy u s t) ->
  strong_solution tr cells u a bx bn g f -> represents tr cells u a U G A ->
  exact_loss f U G A bx bn g tr fam k cells = 0.
Proof. exact exact_loss_zero. Qed.
Print Assumptions C60_exact.
(* ... and the loss of a training step is at most 64 eps^2 (number of cells). *)
Theorem C60_solutions : forall o cf cells bp bf plot s f h dir sensor nn beta,
  oracle_ok o (Z.to_nat (cf_quad_order cf)) -> make_space o cf cells bp bf plot = Ok s -> make_handler s f true = Ok h ->
  get_dirichlet_input bp bf = Ok dir -> fst dir <> [] -> (forall c, In c cells -> strictly_convex c) ->
  forall U G fam eps, family_of (cf_fe_type cf) = Some fam -> fam <> FJacobiPlain -> forall u a A bx bn g,
  C1_on (cf_trafo cf) cells (fun s t => a s t * Dx u s t) -> C1_on (cf_trafo cf) cells (fun s t => a s t * Dy u s t) ->
  strong_solution (cf_trafo cf) cells u a bx bn g f -> represents (cf_trafo cf) cells u a U G A ->
  continuous_data (cf_trafo cf) cells f U G A -> integrands_near eps cf cells fam f U G A bx bn g ->
  let bound := 64 * eps ^ 2 * INR (length cells) in
  (forall loss d al, A = (fun _ => al) -> pointwise nn U G -> equation loss d al bx bn g ->
    let m := model_of h dir sensor loss (length cells) in
    (exists L, train_standard m nn beta (Some d) = Ok L /\ l_pde L <= bound) /\
    (exists L, train_hard m nn beta (Some d) = Ok L /\ l_pde L <= bound)) /\
  (forall d ip al, A = (fun _ => al) -> bx = 0 -> bn = 0 -> g = 0 -> pointwise nn U G -> has ip "eps" al ->
    let m := model_of h dir sensor pde_loss_poisson_inverse (length cells) in sensors_fit m ->
    exists L, train_inverse m nn beta d (Some ip) = Ok L /\ l_pde L <= bound) /\
  (forall d, pointwise2 nn U A G -> has d "b_x" bx -> has d "b_y" bn -> has d "c" g ->
    let m := model_of h dir sensor pde_loss_cd2d_inverse_domain (length cells) in sensors_fit m ->
    exists L, train_inverse_domain m nn beta (Some d) = Ok L /\ l_pde L <= bound).
Proof.
  intros o cf cells bp bf plot s f h dir sensor nn beta Ho Hs Hh Hd Hne Hc U G fam eps Hf Hp u a A bx bn g HP HQ Hsol Hrep Hcont Hnear.
  exact (solutions o cf cells bp bf plot s f h dir sensor nn beta Ho Hs Hh Hd Hne Hc U G fam eps Hf Hp u a A bx bn g HP HQ Hsol Hrep Hcont Hnear).
Qed.
Print Assumptions C60_solutions.

(* C61: the first k test functions of a family that vanishes at the ends span the polynomials of degree
   at most k+1 that vanish at the ends, ... *)
Theorem C61_span : forall fam k f, fam <> FJacobiPlain ->
  ((exists co, forall x, f x = Poly co (k + 2) x) /\ f 1 = 0 /\ f (-1) = 0 <-> exists a, forall x, f x = Sum (fun i => a i * phi fam (S i) x) k).
Proof. exact span_iff. Qed.
Print Assumptions C61_span.
(* ... and a network whose loss, with exact integrals, is zero for every number of test functions
   solves the differential equation at every point of every cell. *)
Theorem C61_converse : forall f u a U G A bx bn g tr fam cells, tr = "bilinear"%string \/ tr = "affine"%string ->
  (forall c, In c cells -> strictly_convex c) -> fam <> FJacobiPlain ->
  C1_on tr cells (fun s t => a s t * Dx u s t) -> C1_on tr cells (fun s t => a s t * Dy u s t) ->
  continuous_on tr cells u -> continuous_on tr cells (Dx u) -> continuous_on tr cells (Dy u) -> continuous_on tr cells f ->
  represents tr cells u a U G A ->
  (strong_solution tr cells u a bx bn g f <-> forall k, exact_loss f U G A bx bn g tr fam k cells = 0).
Proof. exact zero_loss_solves. Qed.
Print Assumptions C61_converse.

(* Examples *)
(* exp x on the square, by the rule of order 5 and its distance to the polynomials *)
Example C58_example : exists o w xi eta eps, oracle_ok o 5 /\ quad2d o 5 "gauss-jacobi" = Ok (w, xi, eta) /\
  (forall x y, in_square x y -> continuity_2d_pt (fun s _ => exp s) x y) /\
  near_poly eps (exactness "gauss-jacobi" 5) (fun s _ => exp s) /\ exactness "gauss-jacobi" 5 = 8%nat.
Proof.
  destruct (any_oracle_ok 5) as [o Ho]. destruct (quad2d o 5 "gauss-jacobi") as [[[w xi] eta]|] eqn:E; [|discriminate].
  exists o, w, xi, eta, (exp 1 + 0). refine (conj Ho (conj E (conj (fun x y _ => exp_cont x y) (conj _ eq_refl)))).
  exists (fun _ _ => 0). intros x y [Hx _]. replace (Poly2 _ _ x y) with 0 by (cbn; ring). rewrite Rminus_0_r, Rplus_0_r, Rabs_right by (left; apply exp_pos).
  destruct (Rle_lt_or_eq_dec x 1 (proj2 Hx)) as [H | ->]; [left; now apply exp_increasing | right; reflexivity].
Qed.
(* u = exp x solves - u_xx - u_yy = - exp x on a square and a kite *)
Example C59_example : exists o s h dir eps, oracle_ok o 5 /\ make_space o (kite_cf "bilinear") two bp1 bf1 false = Ok s /\
  make_handler s (fun x _ => - exp x) true = Ok h /\ get_dirichlet_input bp1 bf1 = Ok dir /\ fst dir <> [] /\
  (forall c, In c two -> strictly_convex c) /\ family_of (cf_fe_type (kite_cf "bilinear")) = Some FLegendre /\
  pointwise exp_net (fun p => exp (fst p)) (fun p => (exp (fst p), 0)) /\ equation pde_loss_poisson [("eps"%string, 1)] 1 0 0 0 /\
  continuous_data "bilinear" two (fun x _ => - exp x) (fun p => exp (fst p)) (fun p => (exp (fst p), 0)) (fun _ => 1) /\
  integrands_near eps (kite_cf "bilinear") two FLegendre (fun x _ => - exp x) (fun p => exp (fst p)) (fun p => (exp (fst p), 0)) (fun _ => 1) 0 0 0.
Proof.
  destruct (any_oracle_ok 5) as [o Ho]. destruct (any_space o two Ho ltac:(discriminate)) as [s Hs].
  destruct (handler_spec o (kite_cf "bilinear") _ _ _ _ s (oracle_lengths _ _ Ho) Hs (fun x _ => - exp x)) as (h & Eh & _).
  destruct (get_dirichlet_input bp1 bf1) as [dir|] eqn:Ed; [|discriminate].
  assert (Hne : fst dir <> []) by (cbn in Ed; injection Ed as <-; discriminate).
  destruct (near_some (kite_cf "bilinear") two FLegendre (fun x _ => - exp x) (fun p => exp (fst p)) (fun p => (exp (fst p), 0)) (fun _ => 1) 0 0 0
    (or_introl eq_refl) two_convex (proj1 (exp_data _ _))) as [eps He].
  exists o, s, h, dir, eps.
  refine (conj Ho (conj Hs (conj Eh (conj eq_refl (conj Hne (conj two_convex (conj eq_refl (conj exp_pointwise (conj _ (conj (proj1 (exp_data _ _)) He)))))))))).
  constructor; reflexivity.
Qed.
Example C60_example : forall tr, C1_on tr two (fun s t => 1 * Dx (fun s _ => exp s) s t) /\ C1_on tr two (fun s t => 1 * Dy (fun s _ => exp s) s t) /\
  strong_solution tr two (fun s _ => exp s) (fun _ _ => 1) 0 0 0 (fun x _ => - exp x) /\
  represents tr two (fun s _ => exp s) (fun _ _ => 1) (fun p => exp (fst p)) (fun p => (exp (fst p), 0)) (fun _ => 1) /\ FLegendre <> FJacobiPlain.
Proof. intros tr. destruct (exp_data tr two) as (_ & H1 & H2 & H3 & H4). refine (conj H1 (conj H2 (conj H3 (conj H4 _)))). discriminate. Qed.
(* u = exp x: a solution for f = - exp x (C60_example) and none for f = 0 *)
Example C61_example : forall tr,
  C1_on tr two (fun s t => 1 * Dx (fun s _ => exp s) s t) /\ C1_on tr two (fun s t => 1 * Dy (fun s _ => exp s) s t) /\
  continuous_on tr two (fun s _ => exp s) /\ continuous_on tr two (Dx (fun s _ => exp s)) /\ continuous_on tr two (Dy (fun s _ => exp s)) /\
  represents tr two (fun s _ => exp s) (fun _ _ => 1) (fun p => exp (fst p)) (fun p => (exp (fst p), 0)) (fun _ => 1) /\
  ~ strong_solution tr two (fun s _ => exp s) (fun _ _ => 1) 0 0 0 (fun _ _ => 0).
Proof. intros tr. exact (exp_converse tr unit_square two (or_introl eq_refl)). Qed.
