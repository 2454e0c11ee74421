(* C85: the residual and the boundary misfit control the error on the whole rectangle. *)
From Coq Require Import String ZArith List Arith Lia Bool Reals Lra.
From Coquelicot Require Import Coquelicot.
From Verif Require Import Num Py Jacobi Quadrature Basis Transform Cell Space Tensor Data Physics Train Geometry Nets Metrics Problems Driver
  Spec SpecGeom SpecTrain SpecMesh SpecPde SpecWeak SpecProblem SpecDriver SpecScript SpecLoop SpecInit SpecMax
  ListFacts MeshFacts AngleFacts NetFacts InitFacts LoopFacts MaxFacts RimFacts SmoothFacts UniqueFacts ShippedError HardFacts TransformFacts2 Properties_Driver Properties_Loop.
Import ListNotations.
Local Open Scope R_scope.

(* If the network leaves a residual of at most r on the rectangle and is within m of the exact solution on its four
   sides, it is within top * max(m, r/rho) everywhere *)
Theorem C85_stability : forall sg al bx bn g xl yl phi top rho u v f r m K L, barrier sg al bx bn g xl yl phi top rho -> fst xl <= snd xl -> fst yl <= snd yl ->
  residual_below al bx bn g xl yl u f r -> residual_below al bx bn g xl yl v f 0 -> 0 <= K -> 0 <= L ->
  steepness_on (in_box xl yl) (fun p => u (fst p) (snd p)) K -> steepness_on (in_box xl yl) (fun p => v (fst p) (snd p)) L ->
  0 <= m -> (forall p, on_rim xl yl p -> Rabs (u (fst p) (snd p) - v (fst p) (snd p)) <= m) ->
  forall x y, in_box xl yl (x, y) -> Rabs (u x y - v x y) <= top * Rmax m (r / rho).
Proof. exact stability. Qed.
(* top and rho for the Poisson and the convection-diffusion equation ... *)
Theorem C85_barrier : forall al bx bn g xl yl, 0 < al -> 0 <= g -> let lam := (Rabs bx + 1) / al in
  exists phi, barrier 1 al bx bn g xl yl phi (exp (lam * (snd xl - fst xl))) lam.
Proof. intros al bx bn g xl yl Ha Hg lam. eexists. exact (exp_barrier al bx bn g xl yl Ha Hg). Qed.
(* ... and for the Helmholtz equation below its first resonance in x *)
Theorem C85_barrier_helmholtz : forall eps k mu xl yl, 0 < eps -> k ^ 2 < eps * mu ^ 2 -> 0 < mu -> mu * (snd xl - fst xl) < PI -> fst xl <= snd xl ->
  exists phi, barrier (-1) (- eps) 0 0 (k ^ 2) xl yl phi (/ cos (mu * ((snd xl - fst xl) / 2))) (eps * mu ^ 2 - k ^ 2).
Proof. intros eps k mu xl yl H1 H2 H3 H4 H5. eexists. exact (cos_barrier eps k mu xl yl H1 H2 H3 H4 H5). Qed.
(* The scripts with a soft boundary on the internal mesh: the misfit on the sides is read off the loss that the script
   prints and the number of boundary points *)
Theorem C85_script : forall e lhs1 o template vtk pb sc i weights fs r al bx bn g, numpy_ok e -> sampler_ok lhs1 -> (forall i n, latin n (lhs1 i n)) -> oracle_ok o (Z.to_nat (i_quad_order i)) ->
  fst (i_xlim i) < snd (i_xlim i) -> fst (i_ylim i) < snd (i_ylim i) -> (1 <= i_ncx i)%Z /\ (1 <= i_ncy i)%Z -> (4 <= i_nb i)%Z -> 0 < i_beta i ->
  script_pde sc (pb_params pb) al bx bn g false -> run_internal e lhs1 o template vtk pb sc i weights fs = Ok r ->
  (forall tag b, dget Z.eqb (pb_bound pb) tag = Ok b -> forall p, side_point (i_xlim i) (i_ylim i) tag p -> b (fst p) (snd p) = pb_exact pb (fst p) (snd p)) ->
  forall t U G phi sg top rho K L rs, (t < Z.to_nat (i_epochs i))%nat -> pointwise (the_network sc (weights t)) U G -> barrier sg al bx bn g (i_xlim i) (i_ylim i) phi top rho ->
  0 <= K -> 0 <= L -> steepness_on (in_box (i_xlim i) (i_ylim i)) U K -> steepness_on (in_box (i_xlim i) (i_ylim i)) (fun p => pb_exact pb (fst p) (snd p)) L ->
  residual_below al bx bn g (i_xlim i) (i_ylim i) (fun x y => U (x, y)) (pb_rhs pb) rs -> residual_below al bx bn g (i_xlim i) (i_ylim i) (pb_exact pb) (pb_rhs pb) 0 ->
  exists loss, nth t (r_loss r) [] = [loss] /\ let k := INR (Z.to_nat (i_nb i / 4)) in
  forall p, in_box (i_xlim i) (i_ylim i) p -> Rabs (U p - pb_exact pb (fst p) (snd p)) <=
    top * Rmax (sqrt (4 * k * (loss / i_beta i)) + (K + L) * (Rmax (snd (i_xlim i) - fst (i_xlim i)) (snd (i_ylim i) - fst (i_ylim i)) / k)) (rs / rho).
Proof. exact script_error. Qed.
(* The two shipped scripts on the unit square, with numbers *)
Theorem C85_poisson : forall e lhs1 o template vtk i weights fs r t U G K rs, numpy_ok e -> sampler_ok lhs1 -> (forall i n, latin n (lhs1 i n)) -> oracle_ok o (Z.to_nat (i_quad_order i)) ->
  i_xlim i = (0, 1) -> i_ylim i = (0, 1) -> (1 <= i_ncx i)%Z /\ (1 <= i_ncy i)%Z -> (4 <= i_nb i)%Z -> 0 < i_beta i -> (t < Z.to_nat (i_epochs i))%nat ->
  0 <= K -> steepness_on (in_box (0, 1) (0, 1)) U K ->
  run_internal e lhs1 o template vtk uniform_poisson main_uniform_poisson i weights fs = Ok r -> pointwise (the_network main_uniform_poisson (weights t)) U G ->
  residual_below 1 0 0 0 (0, 1) (0, 1) (fun x y => U (x, y)) (pb_rhs uniform_poisson) rs ->
  exists loss, nth t (r_loss r) [] = [loss] /\ let k := INR (Z.to_nat (i_nb i / 4)) in forall p, in_box (0, 1) (0, 1) p ->
    Rabs (U p - - (sin (4 * PI * fst p) * sin (4 * PI * snd p))) <= exp 1 * Rmax (sqrt (4 * k * (loss / i_beta i)) + (K + 8 * PI) / k) rs.
Proof.
  intros e lhs1 o template vtk i weights fs r t U G K rs H1 H2 H3 H4 H5 H6 H7 H8 H9 H10 H11 H12 H13 H14 H15.
  destruct (poisson_error e lhs1 o template vtk i weights fs r t U G K rs H1 H2 H3 H4 H5 H6 H7 H8 H9 H10 H11 H12 H13 H14 H15) as (loss & E & B). exists loss. split; [exact E|].
  intros k p Hp. specialize (B p Hp). cbn [pb_exact uniform_poisson] in B. replace (-1 * sin (4 * PI * fst p) * sin (4 * PI * snd p)) with (- (sin (4 * PI * fst p) * sin (4 * PI * snd p))) in B by ring. exact B.
Qed.
Theorem C85_helmholtz : forall e lhs1 o template vtk i weights fs r t U G K rs, numpy_ok e -> sampler_ok lhs1 -> (forall i n, latin n (lhs1 i n)) -> oracle_ok o (Z.to_nat (i_quad_order i)) ->
  i_xlim i = (0, 1) -> i_ylim i = (0, 1) -> (1 <= i_ncx i)%Z /\ (1 <= i_ncy i)%Z -> (4 <= i_nb i)%Z -> 0 < i_beta i -> (t < Z.to_nat (i_epochs i))%nat ->
  0 <= K -> steepness_on (in_box (0, 1) (0, 1)) U K ->
  run_internal e lhs1 o template vtk uniform_helmholtz main_uniform_helmholtz i weights fs = Ok r -> pointwise (the_network main_uniform_helmholtz (weights t)) U G ->
  residual_below (-1) 0 0 1 (0, 1) (0, 1) (fun x y => U (x, y)) (pb_rhs uniform_helmholtz) rs ->
  exists loss, nth t (r_loss r) [] = [loss] /\ let k := INR (Z.to_nat (i_nb i / 4)) in forall p, in_box (0, 1) (0, 1) p ->
    Rabs (U p - (fst p + snd p) * sin (PI * fst p) * sin (PI * snd p)) <= / cos 1 * Rmax (sqrt (4 * k * (loss / i_beta i)) + (K + (2 + 4 * PI)) / k) (rs / 3).
Proof. exact helmholtz_error. Qed.
(* K and rs exist: a network without attention and with a smooth activation is twice continuously differentiable, has
   a finite steepness and leaves a finite residual for every continuous right-hand side *)
Theorem C85_network : forall dims nt U al bx bn g xl yl f, starts dims 1 nt -> smooth_activation (n_act nt) -> (forall p, nn_out (network_of nt) [p] = Ok [[U p]]) ->
  twice_smooth (fun x y => U (x, y)) /\ (nonexpansive (n_act nt) -> exists K, 0 <= K /\ steepness_on (in_box xl yl) U K) /\
  ((forall x y, in_box xl yl (x, y) -> continuity_2d_pt f x y) -> exists rs, residual_below al bx bn g xl yl (fun x y => U (x, y)) f rs).
Proof.
  intros dims nt U al bx bn g xl yl f Hs Ha HU. assert (T : twice_smooth (fun x y => U (x, y))) by exact (network_smooth dims 1 nt Hs Ha (fun p => [U p]) HU 0%nat ltac:(lia)).
  split; [exact T|]. split; [intros Hn; now apply (network_steep dims nt) | intros Hf; now apply residual_finite].
Qed.
Theorem C85_tanh : smooth_activation tanh /\ nonexpansive tanh.
Proof. split; [exact smooth_tanh | exact tanh_nonexpansive]. Qed.
(* No loss for any number of test functions and no misfit for any number of boundary points: the network is the exact
   solution *)
Theorem C85_unique : forall e lhs1 xl yl nx ny num cells mo bd bf dims nt U u f fam sg al bx bn g phi top rho L,
  numpy_ok e -> sampler_ok lhs1 -> (forall i n, latin n (lhs1 i n)) -> fst xl < snd xl -> fst yl < snd yl -> (1 <= nx)%Z -> (1 <= ny)%Z -> (0 <= num)%Z ->
  generate_quad_mesh_internal e lhs1 xl yl nx ny num = Ok (cells, mo, bd) ->
  starts dims 1 nt -> smooth_activation (n_act nt) -> nonexpansive (n_act nt) -> (forall p, nn_out (network_of nt) [p] = Ok [[U p]]) ->
  barrier sg al bx bn g xl yl phi top rho -> residual_below al bx bn g xl yl u f 0 -> 0 <= L -> steepness_on (in_box xl yl) (fun p => u (fst p) (snd p)) L ->
  (forall x y, in_box xl yl (x, y) -> continuity_2d_pt f x y) -> (forall tag b, dget Z.eqb bf tag = Ok b -> forall p, side_point xl yl tag p -> b (fst p) (snd p) = u (fst p) (snd p)) ->
  fam <> FJacobiPlain -> (forall k, exact_loss f U (gradient (fun x y => U (x, y))) (fun _ => al) bx bn g "bilinear" fam k cells = 0) ->
  (forall nb, (4 <= nb)%Z -> exists cells' mo' bd' data, generate_quad_mesh_internal e lhs1 xl yl nx ny nb = Ok (cells', mo', bd') /\ boundary_data bd' bf data /\ mean_gap data U = 0) ->
  forall x y, in_box xl yl (x, y) -> U (x, y) = u x y.
Proof. exact unique. Qed.
(* the loss is zero for every number of test functions exactly if there is no residual *)
Theorem C85_zero_loss : forall e lhs1 xl yl nx ny num cells mo bd w f fam al bx bn g,
  numpy_ok e -> sampler_ok lhs1 -> fst xl < snd xl -> fst yl < snd yl -> (1 <= nx)%Z -> (1 <= ny)%Z -> (0 <= num)%Z ->
  generate_quad_mesh_internal e lhs1 xl yl nx ny num = Ok (cells, mo, bd) -> twice_smooth w -> (forall x y, in_box xl yl (x, y) -> continuity_2d_pt f x y) -> fam <> FJacobiPlain ->
  (residual_below al bx bn g xl yl w f 0 <-> forall k, exact_loss f (fun p => w (fst p) (snd p)) (gradient w) (fun _ => al) bx bn g "bilinear" fam k cells = 0).
Proof. exact smooth_loss. Qed.

(* The script with hard constraints: whatever the weights, its network is a twice differentiable function that is zero
   on the rim, and the residual alone bounds its error on the unit square *)
Theorem C85_hard : forall dims nt V G rs, starts dims 1 nt -> smooth_activation (n_act nt) -> pointwise (the_network main_hard_poisson nt) V G ->
  residual_below 1 0 0 0 (0, 1) (0, 1) (fun x y => V (x, y)) (pb_rhs hard_poisson) rs ->
  forall p, in_box (0, 1) (0, 1) p -> Rabs (V p - pb_exact hard_poisson (fst p) (snd p)) <= exp 1 * rs.
Proof. exact hard_error. Qed.
Theorem C85_hard_network : forall dims nt, starts dims 1 nt -> smooth_activation (n_act nt) -> exists V,
  pointwise (the_network main_hard_poisson nt) V (grad V) /\ twice_smooth (fun x y => V (x, y)) /\ (forall p, on_rim (0, 1) (0, 1) p -> V p = 0).
Proof. exact hard_network_smooth. Qed.
(* A twice differentiable function has a steepness bound and a residual bound on every rectangle *)
Theorem C85_smooth : forall u al bx bn g xl yl f, twice_smooth u -> (forall x y, in_box xl yl (x, y) -> continuity_2d_pt f x y) ->
  (exists K, 0 <= K /\ steepness_on (in_box xl yl) (fun p => u (fst p) (snd p)) K) /\ (exists rs, residual_below al bx bn g xl yl u f rs).
Proof. intros u al bx bn g xl yl f Hu Hf. split; [exact (smooth_steep u xl yl Hu) | exact (residual_finite al bx bn g xl yl u f Hu Hf)]. Qed.

(* ---------- examples ---------- *)
(* the unit square, exact solution x, a network off by 1/10 *)
Lemma linear_residual : forall c, residual_below 1 0 0 0 (0, 1) (0, 1) (fun x _ => x + c) (fun _ _ => 0) 0.
Proof.
  intros c. exists (fun _ _ => 1), (fun _ _ => 0), (fun _ _ => 0), (fun _ _ => 0). split.
  - intros x y. split; [auto_derive; auto|]. split; [auto_derive; auto|]. split; auto_derive; auto.
  - intros x y _. unfold applied. match goal with |- Rabs ?q <= 0 => replace q with 0 by ring end. rewrite Rabs_R0. lra.
Qed.
Lemma linear_steep : forall c D, steepness_on D (fun p => fst p + c) 1.
Proof. intros c D p q _ _. rewrite Rmult_1_l. replace (fst p + c - (fst q + c)) with (fst p - fst q) by ring. apply Rmax_l. Qed.
Example C85_stability_example : exists phi, barrier 1 1 0 0 0 (0, 1) (0, 1) phi (exp 1) 1 /\ residual_below 1 0 0 0 (0, 1) (0, 1) (fun x _ => x + 1 / 10) (fun _ _ => 0) 0 /\
  residual_below 1 0 0 0 (0, 1) (0, 1) (fun x _ => x + 0) (fun _ _ => 0) 0 /\ (forall p, on_rim (0, 1) (0, 1) p -> Rabs (fst p + 1 / 10 - (fst p + 0)) <= 1 / 10) /\ on_rim (0, 1) (0, 1) (0, 1 / 2).
Proof.
  destruct (C85_barrier 1 0 0 0 (0, 1) (0, 1) ltac:(lra) ltac:(lra)) as [phi B]. cbn [fst snd] in B. rewrite Rabs_R0 in B. replace ((0 + 1) / 1) with 1 in B by field. replace (1 * (1 - 0)) with 1 in B by ring.
  exists phi. split; [exact B|]. split; [apply linear_residual|]. split; [apply linear_residual|]. split.
  - intros p _. apply Rabs_le. lra.
  - unfold on_rim, in_box. cbn. lra.
Qed.
Example C85_barrier_helmholtz_example : exists phi, barrier (-1) (- (1)) 0 0 (1 ^ 2) (0, 1) (0, 1) phi (/ cos (2 * ((1 - 0) / 2))) (1 * 2 ^ 2 - 1 ^ 2).
Proof. pose proof PI2_1. apply (C85_barrier_helmholtz 1 1 2 (0, 1) (0, 1)); cbn; lra. Qed.
(* the shipped problem, the shipped script and a tanh network of its four layers *)
Example C85_poisson_example : exists o r U G K rs, oracle_ok o 5 /\ let i := ex_settings "internal" in let weights := fun _ : nat => Properties_Loop.ex_tanh fixed_layers in
  (forall i n, latin n (mid_sampler i n)) /\ i_xlim i = (0, 1) /\ i_ylim i = (0, 1) /\ 0 < i_beta i /\ 0 <= K /\ steepness_on (in_box (0, 1) (0, 1)) U K /\
  run_internal numpy_R mid_sampler o "template" (Err FileNotFoundError) uniform_poisson main_uniform_poisson i weights [] = Ok r /\
  pointwise (the_network main_uniform_poisson (weights 2%nat)) U G /\ residual_below 1 0 0 0 (0, 1) (0, 1) (fun x y => U (x, y)) (pb_rhs uniform_poisson) rs.
Proof.
  destruct (TransformFacts2.any_oracle_ok 5) as [o Ho]. set (nt := Properties_Loop.ex_tanh fixed_layers).
  assert (S : starts fixed_layers 1 nt) by (apply Properties_Loop.ex_starts; cbn; auto; lia).
  destruct (plain_pointwise nt eq_refl (starts_chain _ _ _ S)) as (U & HU & P & _).
  destruct (C85_network fixed_layers nt U 1 0 0 0 (0, 1) (0, 1) (pb_rhs uniform_poisson) S smooth_tanh HU) as (_ & HK & HR).
  destruct (HK tanh_nonexpansive) as (K & K0 & SK). destruct (HR (fun x y _ => poisson_rhs_continuous x y)) as [rs R0].
  destruct (C63_runs numpy_R mid_sampler o "template" (Err FileNotFoundError) uniform_poisson main_uniform_poisson (ex_settings "internal") (fun _ => nt) [] 1 0 0 0
    numpy_R_ok mid_sampler_ok Ho (proj1 (ex_good _)) eq_refl) as (H & _); cbn; try lra; try lia; auto; [constructor; reflexivity | intros; exists U, (grad U); exact P |].
  destruct H as [r E]; [cbn; lia | discriminate|].
  exists o, r, U, (grad U), K, rs. split; [exact Ho|]. cbv zeta. split; [exact mid_sampler_latin|]. split; [reflexivity|]. split; [reflexivity|]. split; [cbn; lra|]. split; [exact K0|]. split; [exact SK|]. split; [exact E|]. split; [exact P | exact R0].
Qed.
(* the script with hard constraints and a tanh network of its layers *)
Example C85_hard_example : exists V rs, let nt := Properties_Loop.ex_tanh fixed_layers in starts fixed_layers 1 nt /\ smooth_activation (n_act nt) /\
  pointwise (the_network main_hard_poisson nt) V (grad V) /\ residual_below 1 0 0 0 (0, 1) (0, 1) (fun x y => V (x, y)) (pb_rhs hard_poisson) rs.
Proof.
  assert (S : starts fixed_layers 1 (Properties_Loop.ex_tanh fixed_layers)) by (apply Properties_Loop.ex_starts; cbn; auto; lia).
  destruct (C85_hard_network _ _ S smooth_tanh) as (V & P & T & _). destruct (C85_smooth _ 1 0 0 0 (0, 1) (0, 1) (pb_rhs hard_poisson) T (fun x y _ => poisson_rhs_continuous x y)) as [_ [rs R0]].
  exists V, rs. cbv zeta. split; [exact S|]. split; [exact smooth_tanh|]. split; [exact P | exact R0].
Qed.
(* a network that is the solution: x with the equation - Lap u = 0 on the unit square *)
Definition x_net : net := {| n_act := tanh; n_attention := false; n_layers := [(false, ([[1]; [0]], [0]))] |}.
Definition x_sides : list (Z * (R -> R -> R)) := sides (fun x _ => x) (fun x _ => x) (fun x _ => x) (fun x _ => x).
Example C85_unique_example : exists cells mo bd, generate_quad_mesh_internal numpy_R mid_sampler (0, 1) (0, 1) 2 2 400 = Ok (cells, mo, bd) /\
  starts [2; 1]%Z 1 x_net /\ (forall p, nn_out (network_of x_net) [p] = Ok [[fst p]]) /\
  (forall tag b, dget Z.eqb x_sides tag = Ok b -> forall p, side_point (0, 1) (0, 1) tag p -> b (fst p) (snd p) = fst p) /\
  (forall k, exact_loss (fun _ _ => 0) (fun p => fst p) (gradient (fun x _ => x)) (fun _ => 1) 0 0 0 "bilinear" FLegendre k cells = 0) /\
  (forall nb, (4 <= nb)%Z -> exists cells' mo' bd' data, generate_quad_mesh_internal numpy_R mid_sampler (0, 1) (0, 1) 2 2 nb = Ok (cells', mo', bd') /\ boundary_data bd' x_sides data /\ mean_gap data (fun p => fst p) = 0).
Proof.
  assert (Gen : forall nb, (0 <= nb)%Z -> exists cells mo b r t l, generate_quad_mesh_internal numpy_R mid_sampler (0, 1) (0, 1) 2 2 nb = Ok (cells, mo, [(1000, b); (1001, r); (1002, t); (1003, l)]%Z)).
  { intros nb Hnb. do 6 eexists. apply internal_ok; try lia; try lra; [exact numpy_R_ok | exact mid_sampler_ok]. }
  destruct (Gen 400%Z ltac:(lia)) as (cells & mo & b & r & t & l & E). exists cells, mo. eexists. split; [exact E|].
  assert (S : starts [2; 1]%Z 1 x_net).
  { constructor; auto. split; [reflexivity|]. intros [|k] d Hk; [|cbn in Hk; lia]. cbn. repeat split. intros row [<- | [<- | []]]; reflexivity. }
  split; [exact S|]. split; [intros [x y]; cbn; unfold vsum; cbn; do 3 f_equal; ring|]. split.
  { intros tag g H p _. apply PyFacts.dgetZ_in, ProblemFacts.in_sides in H. now destruct H as [[_ ->] | [[_ ->] | [[_ ->] | [_ ->]]]]. }
  split.
  - apply (smooth_loss numpy_R mid_sampler (0, 1) (0, 1) 2 2 400 cells mo _ (fun x _ => x) (fun _ _ => 0) FLegendre 1 0 0 0 numpy_R_ok mid_sampler_ok) in E; cbn; try lia; try lra; try discriminate.
    + apply E. destruct (linear_residual 0) as (a1 & a2 & a3 & a4 & H & Z). exists a1, a2, a3, a4. split.
      * intros x y. destruct (H x y) as (D1 & D2 & D3 & D4). split; [eapply is_derive_ext; [|exact D1]; intros; cbn; ring|]. split; [eapply is_derive_ext; [|exact D2]; intros; cbn; ring | auto].
      * intros x y Hin. specialize (Z x y Hin). unfold applied in *. rewrite Rplus_0_r in Z. exact Z.
    + apply twice_fst.
    + intros x y _. apply continuity_2d_pt_const.
  - intros nb Hnb. destruct (Gen nb ltac:(lia)) as (cells' & mo' & b' & r' & t' & l' & E'). do 3 eexists. exists (map (fun p => (p, fst p)) (b' ++ r' ++ t' ++ l')). split; [exact E'|]. split.
    + split; [rewrite map_map; cbn; now rewrite map_id, app_nil_r|]. cbn [map snd fst concat]. rewrite app_nil_r, !map_app.
      assert (F : forall tag pts, In tag [1000; 1001; 1002; 1003]%Z -> List.Forall2 (fun tag (d : point * R) => exists b, dget Z.eqb x_sides tag = Ok b /\ snd d = b (fst (fst d)) (snd (fst d))) (map (fun _ => tag) pts) (map (fun p => (p, fst p)) pts)).
      { intros tag pts Ht. induction pts as [|p pts IH]; constructor; auto. exists (fun x _ => x). split; [|reflexivity]. repeat destruct Ht as [<- | Ht]; try reflexivity; destruct Ht. }
      repeat apply List.Forall2_app; apply F; cbn; auto.
    + unfold mean_gap. replace (fold_right _ 0 _) with 0; [unfold Rdiv; ring|]. induction (b' ++ r' ++ t' ++ l') as [|p pts IH]; [reflexivity|]. cbn [map fold_right fst snd]. rewrite <- IH. ring.
Qed.
Print Assumptions C85_stability.
Print Assumptions C85_barrier.
Print Assumptions C85_barrier_helmholtz.
Print Assumptions C85_script.
Print Assumptions C85_poisson.
Print Assumptions C85_helmholtz.
Print Assumptions C85_network.
Print Assumptions C85_tanh.
Print Assumptions C85_unique.
Print Assumptions C85_zero_loss.
Print Assumptions C85_hard.
Print Assumptions C85_hard_network.
Print Assumptions C85_smooth.
