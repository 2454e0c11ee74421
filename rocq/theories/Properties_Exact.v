(* Properties C05 and C33: the quadrature of a whole mesh, and exact polynomial solutions. *)
From Coq Require Import String ZArith List Arith Lia Reals Lra.
From Coquelicot Require Import Coquelicot.
From Verif Require Import Num Py Jacobi Quadrature Basis Transform Cell Space Tensor Data Physics Train Geometry
  Spec SpecGeom SpecMesh SpecTrain SpecPde QuadFacts QuadExamples TransformFacts TransformFacts2 SpaceFacts CellFacts2 ForcingFacts
  DataFacts PipelineFacts AngleFacts MeshFacts GlobalQuad ExactFacts ExactTrain ExactExamples.
Import ListNotations.
Local Open Scope R_scope.

(* C05: on the internal mesh of a rectangle, multipliers times values at the quadrature
   points, summed over all points of all cells. *)
(* degree at most 2n-1 in each variable for gauss-legendre, 2n-3 for gauss-jacobi *)
Theorem C05_gauss_legendre : forall (e : numpy R) lhs1 x0 x1 y0 y1 nx ny num cells mo bd o cf bp bf plot s,
  numpy_ok e -> sampler_ok lhs1 -> (1 <= nx)%Z -> (1 <= ny)%Z -> (0 <= num)%Z -> x0 < x1 -> y0 < y1 ->
  generate_quad_mesh_internal e lhs1 (x0, x1) (y0, y1) nx ny num = Ok (cells, mo, bd) ->
  oracle_ok o (Z.to_nat (cf_quad_order cf)) -> make_space o cf cells bp bf plot = Ok s -> cf_quad_type cf = "gauss-legendre"%string ->
  let n := Z.to_nat (cf_quad_order cf) in
  exists mult pts : nat -> list _,
    (forall c, (c < length cells)%nat -> get_quadrature_weights s (Z.of_nat c) = Ok (mult c) /\
       get_quadrature_actual_coordinates s (Z.of_nat c) = Ok (pts c) /\ length (mult c) = (n * n)%nat /\ length (pts c) = (n * n)%nat) /\
    forall co, Sum (fun c => Sum (fun q => nth q (mult c) 0 *
          Poly2 co (2 * n) (fst (nth q (pts c) (0, 0))) (snd (nth q (pts c) (0, 0)))) (n * n)) (length cells)
      = Int2 (Poly2 co (2 * n)) x0 x1 y0 y1.
Proof.
  intros e lhs1 x0 x1 y0 y1 nx ny num cells mo bd o cf bp bf plot s H1 H2 H3 H4 H5 H6 H7 H8 H9 H10 E.
  pose proof (mesh_integral e lhs1 x0 x1 y0 y1 nx ny num cells mo bd o cf bp bf plot s H1 H2 H3 H4 H5 H6 H7 H8 H9 H10) as H.
  rewrite E in H. exact H.
Qed.
Theorem C05_gauss_jacobi : forall (e : numpy R) lhs1 x0 x1 y0 y1 nx ny num cells mo bd o cf bp bf plot s,
  numpy_ok e -> sampler_ok lhs1 -> (1 <= nx)%Z -> (1 <= ny)%Z -> (0 <= num)%Z -> x0 < x1 -> y0 < y1 ->
  generate_quad_mesh_internal e lhs1 (x0, x1) (y0, y1) nx ny num = Ok (cells, mo, bd) ->
  oracle_ok o (Z.to_nat (cf_quad_order cf)) -> make_space o cf cells bp bf plot = Ok s -> cf_quad_type cf = "gauss-jacobi"%string ->
  let n := Z.to_nat (cf_quad_order cf) in
  exists mult pts : nat -> list _,
    (forall c, (c < length cells)%nat -> get_quadrature_weights s (Z.of_nat c) = Ok (mult c) /\
       get_quadrature_actual_coordinates s (Z.of_nat c) = Ok (pts c) /\ length (mult c) = (n * n)%nat /\ length (pts c) = (n * n)%nat) /\
    forall co, Sum (fun c => Sum (fun q => nth q (mult c) 0 *
          Poly2 co (2 * n - 2) (fst (nth q (pts c) (0, 0))) (snd (nth q (pts c) (0, 0)))) (n * n)) (length cells)
      = Int2 (Poly2 co (2 * n - 2)) x0 x1 y0 y1.
Proof.
  intros e lhs1 x0 x1 y0 y1 nx ny num cells mo bd o cf bp bf plot s H1 H2 H3 H4 H5 H6 H7 H8 H9 H10 E.
  pose proof (mesh_integral e lhs1 x0 x1 y0 y1 nx ny num cells mo bd o cf bp bf plot s H1 H2 H3 H4 H5 H6 H7 H8 H9 H10) as H.
  rewrite E in H. exact H.
Qed.

(* C33: u is a polynomial of degree below d (total degree on a parallelogram, degree in each
   variable on a rectangle), the rule integrates degree d - 2 + k exactly (k = fe_order), the
   network is u.  Standard and hard training steps: no PDE loss, and the total loss is the
   boundary misfit alone (standard), zero (hard). *)
Theorem C33_poisson : forall o cf cells bp bf plot s f h dir sensor nn beta u d params eps,
  oracle_ok o (Z.to_nat (cf_quad_order cf)) -> make_space o cf cells bp bf plot = Ok s -> make_handler s f true = Ok h ->
  cf_fe_type cf <> "jacobi_plain"%string -> get_dirichlet_input bp bf = Ok dir -> fst dir <> [] ->
  (forall c, In c cells -> solution_on d u c) ->
  (d - 1 + Z.to_nat (cf_fe_order cf) <= exactness (cf_quad_type cf) (Z.to_nat (cf_quad_order cf)))%nat ->
  pointwise nn (on_points u) (gradient u) -> has params "eps" eps ->
  (forall x y, f x y = - (eps * Lap u x y)) ->
  let m := model_of h dir sensor pde_loss_poisson (length cells) in
  (exists L, train_standard m nn beta (Some params) = Ok L /\ l_pde L = 0 /\
     l_total L = [beta * misfit (on_points u) (fst dir) (snd dir)] /\
     ((forall tag g, In (tag, g) bf -> forall x y, g x y = u x y) -> l_total L = [0])) /\
  (exists L, train_hard m nn beta (Some params) = Ok L /\ l_pde L = 0 /\ l_total L = [0]).
Proof.
  exact (fun o cf cells bp bf plot s f h dir sensor nn beta u d params eps Ho Hs Hh Hp Hd Hne Hu Hdeg Hn =>
    exact_poisson o cf cells bp bf plot s f h dir sensor nn beta Ho Hs Hh Hp Hd Hne u d Hu Hdeg Hn params eps).
Qed.
Theorem C33_convection_diffusion : forall o cf cells bp bf plot s f h dir sensor nn beta u d params eps b_x b_y c0,
  oracle_ok o (Z.to_nat (cf_quad_order cf)) -> make_space o cf cells bp bf plot = Ok s -> make_handler s f true = Ok h ->
  cf_fe_type cf <> "jacobi_plain"%string -> get_dirichlet_input bp bf = Ok dir -> fst dir <> [] ->
  (forall c, In c cells -> solution_on d u c) ->
  (d - 1 + Z.to_nat (cf_fe_order cf) <= exactness (cf_quad_type cf) (Z.to_nat (cf_quad_order cf)))%nat ->
  pointwise nn (on_points u) (gradient u) ->
  has params "eps" eps -> has params "b_x" b_x -> has params "b_y" b_y -> has params "c" c0 ->
  (forall x y, f x y = - (eps * Lap u x y) + b_x * Dx u x y + b_y * Dy u x y + c0 * u x y) ->
  let m := model_of h dir sensor pde_loss_cd2d (length cells) in
  (exists L, train_standard m nn beta (Some params) = Ok L /\ l_pde L = 0 /\
     l_total L = [beta * misfit (on_points u) (fst dir) (snd dir)] /\
     ((forall tag g, In (tag, g) bf -> forall x y, g x y = u x y) -> l_total L = [0])) /\
  (exists L, train_hard m nn beta (Some params) = Ok L /\ l_pde L = 0 /\ l_total L = [0]).
Proof.
  exact (fun o cf cells bp bf plot s f h dir sensor nn beta u d params eps b_x b_y c0 Ho Hs Hh Hp Hd Hne Hu Hdeg Hn =>
    exact_cd2d o cf cells bp bf plot s f h dir sensor nn beta Ho Hs Hh Hp Hd Hne u d Hu Hdeg Hn params eps b_x b_y c0).
Qed.
Theorem C33_helmholtz : forall o cf cells bp bf plot s f h dir sensor nn beta u d params eps k,
  oracle_ok o (Z.to_nat (cf_quad_order cf)) -> make_space o cf cells bp bf plot = Ok s -> make_handler s f true = Ok h ->
  cf_fe_type cf <> "jacobi_plain"%string -> get_dirichlet_input bp bf = Ok dir -> fst dir <> [] ->
  (forall c, In c cells -> solution_on d u c) ->
  (d - 1 + Z.to_nat (cf_fe_order cf) <= exactness (cf_quad_type cf) (Z.to_nat (cf_quad_order cf)))%nat ->
  pointwise nn (on_points u) (gradient u) -> has params "eps" eps -> has params "k" k ->
  (forall x y, f x y = eps * Lap u x y + k ^ 2 * u x y) ->
  let m := model_of h dir sensor pde_loss_helmholtz (length cells) in
  (exists L, train_standard m nn beta (Some params) = Ok L /\ l_pde L = 0 /\
     l_total L = [beta * misfit (on_points u) (fst dir) (snd dir)] /\
     ((forall tag g, In (tag, g) bf -> forall x y, g x y = u x y) -> l_total L = [0])) /\
  (exists L, train_hard m nn beta (Some params) = Ok L /\ l_pde L = 0 /\ l_total L = [0]).
Proof.
  exact (fun o cf cells bp bf plot s f h dir sensor nn beta u d params eps k Ho Hs Hh Hp Hd Hne Hu Hdeg Hn =>
    exact_helmholtz o cf cells bp bf plot s f h dir sensor nn beta Ho Hs Hh Hp Hd Hne u d Hu Hdeg Hn params eps k).
Qed.
(* Inverse problems: a constant eps, and a diffusion field E(x, y) with
   -div (E grad u) + b . grad u + c u = f. *)
Theorem C33_poisson_inverse : forall o cf cells bp bf plot s f h dir sensor nn beta u d bpar ip eps,
  oracle_ok o (Z.to_nat (cf_quad_order cf)) -> make_space o cf cells bp bf plot = Ok s -> make_handler s f true = Ok h ->
  cf_fe_type cf <> "jacobi_plain"%string -> get_dirichlet_input bp bf = Ok dir -> fst dir <> [] ->
  (forall c, In c cells -> solution_on d u c) ->
  (d - 1 + Z.to_nat (cf_fe_order cf) <= exactness (cf_quad_type cf) (Z.to_nat (cf_quad_order cf)))%nat ->
  pointwise nn (on_points u) (gradient u) ->
  let m := model_of h dir sensor pde_loss_poisson_inverse (length cells) in
  sensors_fit m -> has ip "eps" eps -> (forall x y, f x y = - (eps * Lap u x y)) ->
  exists L, train_inverse m nn beta bpar (Some ip) = Ok L /\ l_pde L = 0 /\
    l_total L = [beta * misfit (on_points u) (fst dir) (snd dir) + 10 * misfit (on_points u) (fst sensor) (snd sensor)].
Proof.
  exact (fun o cf cells bp bf plot s f h dir sensor nn beta u d bpar ip eps Ho Hs Hh Hp Hd Hne Hu Hdeg Hn =>
    exact_poisson_inverse o cf cells bp bf plot s f h dir sensor nn beta Ho Hs Hh Hp Hd Hne u d Hu Hdeg Hn bpar ip eps).
Qed.
Theorem C33_diffusion_field : forall o cf cells bp bf plot s f h dir sensor nn beta u E d params b_x b_y c0,
  oracle_ok o (Z.to_nat (cf_quad_order cf)) -> make_space o cf cells bp bf plot = Ok s -> make_handler s f true = Ok h ->
  cf_fe_type cf <> "jacobi_plain"%string -> get_dirichlet_input bp bf = Ok dir -> fst dir <> [] ->
  let p x y := E x y * Dx u x y in let q x y := E x y * Dy u x y in
  (forall c, In c cells -> flux_on d p q c) ->
  (d + Z.to_nat (cf_fe_order cf) <= exactness (cf_quad_type cf) (Z.to_nat (cf_quad_order cf)))%nat ->
  pointwise2 nn (on_points u) (on_points E) (gradient u) ->
  let m := model_of h dir sensor pde_loss_cd2d_inverse_domain (length cells) in
  sensors_fit m -> has params "b_x" b_x -> has params "b_y" b_y -> has params "c" c0 ->
  (forall x y, f x y = - Div p q x y + b_x * Dx u x y + b_y * Dy u x y + c0 * u x y) ->
  exists L, train_inverse_domain m nn beta (Some params) = Ok L /\ l_pde L = 0 /\
    l_total L = [beta * misfit (on_points u) (fst dir) (snd dir) + 10 * misfit (on_points u) (fst sensor) (snd sensor)].
Proof.
  exact (fun o cf cells bp bf plot s f h dir sensor nn beta u E d params b_x b_y c0 Ho Hs Hh Hp Hd Hne Hpq Hdeg Hn =>
    exact_domain o cf cells bp bf plot s f h dir sensor nn beta Ho Hs Hh Hp Hd Hne u E d Hpq Hdeg Hn params b_x b_y c0).
Qed.
(* The cells of an internal mesh are covered, with the degree counted in each variable. *)
Theorem C33_internal_mesh : forall (e : numpy R) lhs1 x0 x1 y0 y1 nx ny num cells mo bd u d,
  numpy_ok e -> sampler_ok lhs1 -> (1 <= nx)%Z -> (1 <= ny)%Z -> (0 <= num)%Z -> x0 < x1 -> y0 < y1 ->
  generate_quad_mesh_internal e lhs1 (x0, x1) (y0, y1) nx ny num = Ok (cells, mo, bd) ->
  poly_box d d u -> forall c, In c cells -> solution_on d u c.
Proof. exact internal_solution. Qed.

(* Without these conditions the loss of an exact solution is not zero, and nothing warns: the
   jacobi_plain functions do not vanish on the boundary ... *)
Theorem C33_jacobi_plain_refuted : exists o s h dir L, oracle_ok o 5 /\
  make_space o plain_cf [unit_square] bp1 bf1 false = Ok s /\ make_handler s (fun _ _ => 0) true = Ok h /\ get_dirichlet_input bp1 bf1 = Ok dir /\
  pointwise net_x (on_points (fun x _ => x)) (gradient (fun x _ => x)) /\ (forall x y, 0 = - (1 * Lap (fun x _ => x) x y)) /\
  train_standard (model_of h dir dir pde_loss_poisson 1) net_x 1 (Some [("eps"%string, 1)]) = Ok L /\ l_pde L <> 0.
Proof.
  destruct plain_not_zero as (o & s & h & dir & L & H1 & H2 & H3 & H4 & H5 & H6). exists o, s, h, dir, L.
  refine (conj H1 (conj H2 (conj H3 (conj H4 (conj net_x_ok (conj _ (conj H5 H6))))))). intros. rewrite Lap_x. ring.
Qed.
(* ... and quad_order 3 is accepted together with fe_order 4. *)
Theorem C33_short_rule_refuted : exists o s h dir L, oracle_ok o 3 /\
  make_space o short_cf [unit_square] bp1 bf1 false = Ok s /\ make_handler s (fun _ _ => 0) true = Ok h /\ get_dirichlet_input bp1 bf1 = Ok dir /\
  pointwise net_x (on_points (fun x _ => x)) (gradient (fun x _ => x)) /\ (forall x y, 0 = - (1 * Lap (fun x _ => x) x y)) /\
  train_standard (model_of h dir dir pde_loss_poisson 1) net_x 1 (Some [("eps"%string, 1)]) = Ok L /\ l_pde L <> 0.
Proof.
  destruct short_not_zero as (o & s & h & dir & L & H1 & H2 & H3 & H4 & H5 & H6). exists o, s, h, dir, L.
  refine (conj H1 (conj H2 (conj H3 (conj H4 (conj net_x_ok (conj _ (conj H5 H6))))))). intros. rewrite Lap_x. ring.
Qed.

(* Examples *)
Example C05_example : exists cells mo bd o s,
  generate_quad_mesh_internal numpy_R mid_sampler (0, 2) (-1, 1) 3 2 9 = Ok (cells, mo, bd) /\ numpy_ok numpy_R /\ sampler_ok mid_sampler /\
  oracle_ok o 5 /\ make_space o (kite_cf "bilinear") cells bp1 bf1 false = Ok s.
Proof.
  destruct (any_oracle_ok 5) as [o Ho].
  pose proof (internal_ok numpy_R mid_sampler 0 2 (-1) 1 3 2 9 numpy_R_ok mid_sampler_ok) as E.
  destruct (generate_quad_mesh_internal numpy_R mid_sampler (0, 2) (-1, 1) 3 2 9) as [[[cells mo] bd]|] eqn:G;
    [|discriminate E; (lia || (intro K; lra))].
  assert (S : exists s, make_space o (kite_cf "bilinear") cells bp1 bf1 false = Ok s).
  { apply (space_iff o (kite_cf "bilinear") cells bp1 bf1 false (oracle_lengths _ _ Ho)).
    split; [intros ->; pose proof (tile_count numpy_R mid_sampler 0 2 (-1) 1 3 2 9 [] mo bd numpy_R_ok mid_sampler_ok ltac:(lia) ltac:(lia) ltac:(lia) G ltac:(lra) ltac:(lra)) as L; discriminate L|].
    split; [|split; [|discriminate]]. 2:{ intros tag pts [K|[]] _. injection K as <- <-. now left. }
    intros c _. constructor; cbn; try lia; auto 10. }
  destruct S as [s Hs]. exists cells, mo, bd, o, s. exact (conj eq_refl (conj numpy_R_ok (conj mid_sampler_ok (conj Ho Hs)))).
Qed.
(* a square and a slanted parallelogram, u = x^2 + x y, -Lap u + 2 u_x - u_y + 3 u = f *)
Definition slanted : cell R := mkcell (0, 0) (2, 1) (3, 4) (1, 3).
Definition u2 : R -> R -> R := fun x y => x * x + x * y.
Lemma u2_Dx : forall x y, Dx u2 x y = 2 * x + y.
Proof. intros. unfold Dx, u2. apply is_derive_unique. auto_derive; auto; ring. Qed.
Lemma u2_Dy : forall x y, Dy u2 x y = x.
Proof. intros. unfold Dy, u2. apply is_derive_unique. auto_derive; auto; ring. Qed.
Lemma u2_Lap : forall x y, Lap u2 x y = 2.
Proof.
  intros. unfold Lap. unfold Dx at 1, Dy at 1. rewrite (Derive_ext _ (fun t => 2 * t + y)) by (intros; apply u2_Dx).
  rewrite (Derive_ext (fun t => Dy u2 x t) (fun _ => x)) by (intros; apply u2_Dy). rewrite Derive_const.
  rewrite (is_derive_unique _ _ 2) by (auto_derive; auto; ring). ring.
Qed.
Definition u2_net : network R :=
  {| nn_out := fun l => Ok (map (fun p => [u2 (fst p) (snd p)]) l); nn_grad := fun _ l => map (fun p => (2 * fst p + snd p, fst p)) l |}.
Definition u2_net2 : network R :=
  {| nn_out := fun l => Ok (map (fun p => [u2 (fst p) (snd p); fst p]) l); nn_grad := fun _ l => map (fun p => (2 * fst p + snd p, fst p)) l |}.
Lemma u2_on : forall c, c = unit_square \/ c = slanted -> solution_on 3 u2 c.
Proof.
  assert (P : poly_total 3 u2).
  { exists (fun i j => match i, j with 2%nat, 0%nat | 1%nat, 1%nat => 1 | _, _ => 0 end). split.
    - intros [|[|[|i]]] [|[|[|j]]] H; try reflexivity; lia.
    - intros x y. unfold u2. cbn [Sum]. simpl. ring. }
  intros c [-> | ->]; left; (split; [|split; [|exact P]]); unfold parallelogram, cross, unit_square, slanted; cbn; try (split; lra); intro K; lra.
Qed.
Lemma ux_flux : forall c, c = unit_square \/ c = slanted ->
  flux_on 3 (fun x y => x * Dx u2 x y) (fun x y => x * Dy u2 x y) c.
Proof.
  assert (P : poly_total 3 (fun x y => x * Dx u2 x y) /\ poly_total 3 (fun x y => x * Dy u2 x y)).
  { split.
    - exists (fun i j => match i, j with 2%nat, 0%nat => 2 | 1%nat, 1%nat => 1 | _, _ => 0 end). split.
      + intros [|[|[|i]]] [|[|[|j]]] H; try reflexivity; lia.
      + intros x y. rewrite u2_Dx. cbn [Sum]. simpl. ring.
    - exists (fun i j => match i, j with 2%nat, 0%nat => 1 | _, _ => 0 end). split.
      + intros [|[|[|i]]] [|[|[|j]]] H; try reflexivity; lia.
      + intros x y. rewrite u2_Dy. cbn [Sum]. simpl. ring. }
  intros c [-> | ->]; left; (split; [|split; [|exact P]]); unfold parallelogram, cross, unit_square, slanted; cbn; try (split; lra); intro K; lra.
Qed.
Example C33_example : forall f, exists o s h dir,
  oracle_ok o 5 /\ make_space o (kite_cf "bilinear") [unit_square; slanted] bp1 [(7%Z, u2)] false = Ok s /\ make_handler s f true = Ok h /\
  cf_fe_type (kite_cf "bilinear") <> "jacobi_plain"%string /\ get_dirichlet_input bp1 [(7%Z, u2)] = Ok dir /\ fst dir <> [] /\
  (forall c, In c [unit_square; slanted] -> solution_on 3 u2 c /\ flux_on 3 (fun x y => x * Dx u2 x y) (fun x y => x * Dy u2 x y) c) /\
  (3 + Z.to_nat (cf_fe_order (kite_cf "bilinear")) <= exactness (cf_quad_type (kite_cf "bilinear")) 5)%nat /\
  pointwise u2_net (on_points u2) (gradient u2) /\ pointwise2 u2_net2 (on_points u2) (on_points (fun x _ => x)) (gradient u2) /\
  sensors_fit (model_of h dir dir pde_loss_poisson_inverse 2) /\
  (forall x y, - (1 * Lap u2 x y) + 2 * Dx u2 x y + -1 * Dy u2 x y + 3 * u2 x y = -2 + 3 * x + 2 * y + 3 * (x * x + x * y)).
Proof.
  intros f. destruct (any_oracle_ok 5) as [o Ho].
  destruct (proj2 (space_iff o (kite_cf "bilinear") [unit_square; slanted] bp1 [(7%Z, u2)] false (oracle_lengths _ _ Ho))) as [s Hs].
  { split; [discriminate|]. split; [|split; [|discriminate]]. 2:{ intros tag pts [K|[]] _. injection K as <- <-. now left. }
    intros c _. constructor; cbn; try lia; auto 10. }
  destruct (handler_spec o (kite_cf "bilinear") _ _ _ _ s (oracle_lengths _ _ Ho) Hs f) as (h & Eh & _).
  destruct (get_dirichlet_input bp1 [(7%Z, u2)]) as [dir|] eqn:Ed; [|discriminate].
  exists o, s, h, dir. pose proof Ed as Ed'. cbn in Ed'. injection Ed' as E.
  assert (Hne : fst dir <> []) by (rewrite <- E; discriminate).
  refine (conj Ho (conj Hs (conj Eh (conj _ (conj eq_refl (conj Hne (conj _ (conj _ (conj _ (conj _ (conj _ _))))))))))).
  - discriminate.
  - intros c [<- | [<- | []]]; split; (apply u2_on || apply ux_flux); auto.
  - cbn. lia.
  - intros l. split; [reflexivity|]. cbn. apply map_ext. intros p. unfold gradient. now rewrite u2_Dx, u2_Dy.
  - intros l. split; [reflexivity|]. cbn. apply map_ext. intros p. unfold gradient. now rewrite u2_Dx, u2_Dy.
  - split; cbn [model_of m_sensor_in m_sensor_act]; [exact Hne | exact (proj1 (dirichlet_input_shape _ _ _ Ed))].
  - intros. rewrite u2_Lap, u2_Dx, u2_Dy. unfold u2. ring.
Qed.
Print Assumptions C05_gauss_legendre.
Print Assumptions C05_gauss_jacobi.
Print Assumptions C33_poisson.
Print Assumptions C33_convection_diffusion.
Print Assumptions C33_helmholtz.
Print Assumptions C33_poisson_inverse.
Print Assumptions C33_diffusion_field.
Print Assumptions C33_internal_mesh.
Print Assumptions C33_jacobi_plain_refuted.
Print Assumptions C33_short_rule_refuted.
