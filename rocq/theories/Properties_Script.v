(* Property C73: the losses written by the example scripts are discrete weak-form losses of the stated equations. *)
From Coq Require Import String ZArith List Arith Lia Reals Lra Permutation.
From Verif Require Import Num Py Jacobi Quadrature Basis Transform Cell Space Tensor Data Physics Train Geometry Nets Metrics Problems Driver DriverInverse
  Spec SpecGeom SpecTrain SpecMesh SpecWeak SpecDriver SpecDriverInverse SpecScript NetFacts MeshFacts ExternalFacts AngleFacts TunerFacts ScriptFacts.
From Verif Require Properties_Mesh Properties_Driver Properties_DriverInverse.
Import ListNotations.
Local Open Scope R_scope.

(* Forward scripts on an internal mesh ... *)
Theorem C73_internal : forall e lhs1 o template vtk pb sc i weights fs r al bx bn g hard, numpy_ok e -> sampler_ok lhs1 -> oracle_ok o (Z.to_nat (i_quad_order i)) ->
  fst (i_xlim i) < snd (i_xlim i) -> fst (i_ylim i) < snd (i_ylim i) -> (1 <= i_ncx i)%Z /\ (1 <= i_ncy i)%Z -> (4 <= i_nb i)%Z ->
  script_pde sc (pb_params pb) al bx bn g hard -> run_internal e lhs1 o template vtk pb sc i weights fs = Ok r ->
  exists cells mo bd fam w xi eta data, generate_quad_mesh_internal e lhs1 (i_xlim i) (i_ylim i) (i_ncx i) (i_ncy i) (i_nb i) = Ok (cells, mo, bd) /\
    family_of (i_fe_type i) = Some fam /\ quad2d o (i_quad_order i) (i_quad_type i) = Ok (w, xi, eta) /\ boundary_data bd (pb_bound pb) data /\
    length (r_loss r) = Z.to_nat (i_epochs i) /\
    forall t U G, (t < Z.to_nat (i_epochs i))%nat -> pointwise (the_network sc (weights t)) U G ->
      nth t (r_loss r) [] = [discrete_loss (Rule2 w xi eta) (pb_rhs pb) U G (fun _ => al) bx bn g fam (Z.to_nat (i_fe_order i)) cells
                             + (if hard then 0 else i_beta i * mean_gap data U)].
Proof. exact internal_script. Qed.
(* ... and on a mesh file with convex cells *)
Theorem C73_external : forall e lhs2 o file template vtk fmt pb sc i weights fs r al bx bn g hard cells raw, oracle_ok o (Z.to_nat (i_quad_order i)) ->
  script_pde sc (pb_params pb) al bx bn g hard -> run_external e lhs2 o file template vtk fmt pb sc i weights fs = Ok r ->
  read_mesh e lhs2 file (i_mesh_file i) (i_level i) (i_sampling i) (sc_refinement sc i) = Ok (cells, raw) ->
  (forall c, In c cells -> strictly_convex c) -> concat (map snd raw) <> [] ->
  exists fam w xi eta data, 
    family_of (i_fe_type i) = Some fam /\ quad2d o (i_quad_order i) (i_quad_type i) = Ok (w, xi, eta) /\ boundary_data (plane_points raw) (pb_bound pb) data /\
    length (r_loss r) = Z.to_nat (i_epochs i) /\
    forall t U G, (t < Z.to_nat (i_epochs i))%nat -> pointwise (the_network sc (weights t)) U G ->
      nth t (r_loss r) [] = [discrete_loss (Rule2 w xi eta) (pb_rhs pb) U G (fun _ => al) bx bn g fam (Z.to_nat (i_fe_order i)) cells
                             + (if hard then 0 else i_beta i * mean_gap data U)].
Proof. exact external_script. Qed.
(* such cells are read from a file whose elements list the corners of convex quadrilaterals in any order *)
Theorem C73_file : forall e lhs2 file name level rl m edges quads tags cells raw, numpy_ok e -> suffix name = ".mesh"%string -> file name = Ok m ->
  edges_of m edges -> quads_of m quads -> first_refs m tags -> (length edges <= length tags)%nat -> spatial m -> (0 <= level)%Z -> edges <> [] ->
  (forall q, In q quads -> exists q0, convex_ccw q0 /\ Permutation (vertices q) (vertices q0)) ->
  read_mesh e lhs2 file name level "uniform" rl = Ok (cells, raw) ->
  (forall c, In c cells -> strictly_convex c) /\ concat (map snd raw) <> [] /\ Forall2 (fun q c => Permutation (vertices c) (vertices q)) quads cells.
Proof. exact file_convex. Qed.
(* The inverse script: the parameter of epoch t in the equation, and ten times the misfit at the sensors *)
Theorem C73_const : forall e lhs1 lhs2 lhs o file template vtk fmt times pb i sensors weights params fs r, numpy_ok e -> sampler_ok lhs1 -> (forall m, length (lhs m) = m) ->
  oracle_ok o (Z.to_nat (i_quad_order i)) -> fst (i_xlim i) < snd (i_xlim i) -> fst (i_ylim i) < snd (i_ylim i) -> (1 <= i_ncx i)%Z /\ (1 <= i_ncy i)%Z -> (4 <= i_nb i)%Z ->
  (2 <= sensors)%nat -> run_const e lhs1 lhs2 lhs o file template vtk fmt times pb i sensors weights params fs = Ok r ->
  exists cells mo bd fam w xi eta data P, generate_quad_mesh_internal e lhs1 (i_xlim i) (i_ylim i) (i_ncx i) (i_ncy i) (i_nb i) = Ok (cells, mo, bd) /\
    family_of (i_fe_type i) = Some fam /\ quad2d o (i_quad_order i) (i_quad_type i) = Ok (w, xi, eta) /\ boundary_data bd (pb_bound pb) data /\
    length P = (sensors * 9 / 10)%nat /\ length (c_loss r) = Z.to_nat (i_epochs i) /\
    forall t eps U G, (t < Z.to_nat (i_epochs i))%nat -> has (params t) "eps" eps -> pointwise (network_of (weights t)) U G ->
      nth t (c_loss r) [] = [discrete_loss (Rule2 w xi eta) (pb_rhs pb) U G (fun _ => eps) 0 0 0 fam (Z.to_nat (i_fe_order i)) cells
                             + i_beta i * mean_gap data U + 10 * mean_gap (map (fun p => (p, pb_exact pb (fst p) (snd p))) P) U].
Proof. exact const_script. Qed.
(* The scripts for a parameter field: the second output of the network in the equation *)
Theorem C73_domain : forall e lhs1 lhs2 ch o file csv template vtk fmt times ds i sensors weights fs r bx bn g, oracle_ok o (Z.to_nat (i_quad_order i)) ->
  has (pb_params (ds_problem ds)) "b_x" bx -> has (pb_params (ds_problem ds)) "b_y" bn -> has (pb_params (ds_problem ds)) "c" g ->
  run_domain e lhs1 lhs2 ch o file csv template vtk fmt times ds i sensors weights fs = Ok r ->
  exists cells bd mp gm P V,
    ((i_method i = "internal"%string /\ exists mo, generate_quad_mesh_internal e lhs1 (i_xlim i) (i_ylim i) (i_ncx i) (i_ncy i) (i_nb i) = Ok (cells, mo, bd)) \/
     (i_method i = "external"%string /\ exists raw, bd = plane_points raw /\ read_mesh e lhs2 file (i_mesh_file i) (i_level i) (i_sampling i) 0 = Ok (cells, raw))) /\
    domain_sensors ds i mp gm vtk csv ch sensors = Ok (P, V) /\ get_test_points gm vtk = Ok (d_points r) /\ length (d_loss r) = Z.to_nat (i_epochs i) /\
    ((forall c, In c cells -> strictly_convex c) -> concat (map snd bd) <> [] -> P <> [] -> has_shape V (length P) 1 ->
     exists fam w xi eta data, family_of (i_fe_type i) = Some fam /\ quad2d o (i_quad_order i) (i_quad_type i) = Ok (w, xi, eta) /\
       boundary_data bd (pb_bound (ds_problem ds)) data /\
       forall t U eps G, (t < Z.to_nat (i_epochs i))%nat -> pointwise2 (network_of (weights t)) U eps G ->
         nth t (d_loss r) [] = [discrete_loss (Rule2 w xi eta) (pb_rhs (ds_problem ds)) U G eps bx bn g fam (Z.to_nat (i_fe_order i)) cells
                                + i_beta i * mean_gap data U + 10 * misfit U P V]).
Proof. exact domain_script_loss. Qed.

Example C73_internal_example : exists o r cells mo bd U G w xi eta data, oracle_ok o 5 /\
  let i := Properties_Driver.ex_settings "internal" in let weights := fun _ : nat => Properties_Driver.ex_layers fixed_layers in
  run_internal numpy_R mid_sampler o "template" (Err FileNotFoundError) uniform_poisson main_uniform_poisson i weights [] = Ok r /\
  generate_quad_mesh_internal numpy_R mid_sampler (i_xlim i) (i_ylim i) (i_ncx i) (i_ncy i) (i_nb i) = Ok (cells, mo, bd) /\
  pointwise (the_network main_uniform_poisson (weights 2%nat)) U G /\ boundary_data bd (pb_bound uniform_poisson) data /\
  nth 2 (r_loss r) [] = [discrete_loss (Rule2 w xi eta) (pb_rhs uniform_poisson) U G (fun _ => 1) 0 0 0 FLegendre 3 cells + 10 * mean_gap data U].
Proof.
  destruct Properties_Driver.C63_example as (o & r & Ho & E & _).
  destruct (Properties_Driver.C63_networks main_uniform_poisson (Properties_Driver.ex_settings "internal") (Properties_Driver.ex_layers fixed_layers)) as (U & G & P);
    try (cbn; auto; lia); [apply Properties_Driver.ex_layers_ok|].
  destruct (C73_internal numpy_R mid_sampler o "template" (Err FileNotFoundError) uniform_poisson main_uniform_poisson (Properties_Driver.ex_settings "internal")
    (fun _ => Properties_Driver.ex_layers fixed_layers) [] r 1 0 0 0 false numpy_R_ok mid_sampler_ok Ho) as (cells & mo & bd & fam & w & xi & eta & data & H1 & H2 & _ & H4 & _ & H6);
    try (cbn; lra); try (cbn; lia); auto; [constructor; reflexivity|].
  exists o, r, cells, mo, bd, U, G, w, xi, eta, data. do 5 (split; [assumption|]). cbn in H2. injection H2 as <-. rewrite (H6 2%nat U G); [reflexivity | cbn; lia | exact P].
Qed.
Example C73_external_example : exists o r cells raw U G fam w xi eta data, oracle_ok o 5 /\
  let i := Properties_Driver.ex_settings "external" in let weights := fun _ : nat => Properties_Driver.ex_layers [2; 10; 1]%Z in
  let file := fun _ : string => Ok (square_file [square_lines [1; 2; 3; 4]%Z; square_quads]) in
  run_external numpy_R (fun _ _ => []) o file "template" (Ok [[1; 0; 0]; [0; 1; 0]])
    (fun _ => "x"%string) Properties_Driver.square_problem main_complex_cd i weights [] = Ok r /\
  read_mesh numpy_R (fun _ _ => []) file "square.mesh" 2 "uniform" 1 = Ok (cells, raw) /\ length cells = 1%nat /\
  boundary_data (plane_points raw) (pb_bound Properties_Driver.square_problem) data /\ pointwise (the_network main_complex_cd (weights 0%nat)) U G /\
  nth 0 (r_loss r) [] = [discrete_loss (Rule2 w xi eta) (fun _ _ => 0) U G (fun _ => 1) 0 0 0 fam 3 cells + 10 * mean_gap data U].
Proof.
  destruct Properties_Driver.C65_example as (o & r & Ho & E & _).
  destruct (Properties_Driver.C63_networks main_complex_cd (Properties_Driver.ex_settings "external") (Properties_Driver.ex_layers [2; 10; 1]%Z)) as (U & G & P);
    try (cbn; auto; lia); try (cbn; tauto); [apply (Properties_Driver.ex_layers_ok [2; 10; 1]%Z)|].
  destruct Properties_Mesh.C19_example as (He & Hn & H1 & H2 & H3 & H4 & _).
  destruct (Properties_Driver.C65_files _ _ _ _ _ _ _ _ _ _ _ _ _ E) as (cells & raw & m & rows & head & Em & _).
  destruct (C73_file numpy_R (fun _ _ => []) (fun _ => Ok (square_file [square_lines [1; 2; 3; 4]%Z; square_quads])) "square.mesh" 2 1 _ _ _ _ cells raw
    numpy_R_ok eq_refl eq_refl H1 H2 H3 ltac:(cbn; lia) H4 ltac:(lia) ltac:(discriminate)) as (C1 & C2 & C3); [|exact Em|].
  { intros q [<- | []]. exists (rect 0 1 0 1). split; [apply rect_convex; lra|]. unfold square_cell, rect, vertices. cbn [v0 v1 v2 v3].
    apply perm_skip. apply perm_swap. }
  assert (Sp : script_pde main_complex_cd (pb_params Properties_Driver.square_problem) 1 0 0 0 false) by (apply spde_complex_cd; reflexivity).
  destruct (C73_external _ _ o _ _ _ _ Properties_Driver.square_problem main_complex_cd (Properties_Driver.ex_settings "external") _ _ r 1 0 0 0 false cells raw Ho Sp E Em C1 C2)
    as (fam & w & xi & eta & data & _ & _ & D & _ & V).
  exists o, r, cells, raw, U, G, fam, w, xi, eta, data. do 3 (split; [assumption|]).
  split; [inversion C3 as [|? ? ? ? _ C4]; inversion C4; reflexivity|]. do 2 (split; [assumption|]). exact (V 0%nat U G ltac:(cbn; lia) P).
Qed.
Example C73_const_example : exists o r cells U G w xi eta data P, oracle_ok o 5 /\
  run_const numpy_R mid_sampler (fun _ _ => []) (fun m => repeat (1 / 2, 1 / 4) m) o (fun _ => Err FileNotFoundError) "template" (Err FileNotFoundError) (fun _ => "x"%string) (Ok tt)
    inverse_poisson (Properties_DriverInverse.ex_inverse "internal" [2; 10; 1]%Z) 50 (fun _ => Properties_Driver.ex_layers [2; 10; 1]%Z) (fun t => [("eps"%string, 2 - INR t)]) [] = Ok r /\
  length P = 45%nat /\
  nth 3 (c_loss r) [] = [discrete_loss (Rule2 w xi eta) (pb_rhs inverse_poisson) U G (fun _ => 2 - INR 3) 0 0 0 FLegendre 3 cells
    + 10 * mean_gap data U + 10 * mean_gap (map (fun p => (p, pb_exact inverse_poisson (fst p) (snd p))) P) U].
Proof.
  destruct Properties_DriverInverse.C71_example as (o & r & Ho & E & _).
  destruct (Properties_Driver.C63_networks main_complex_cd (Properties_DriverInverse.ex_inverse "internal" [2; 10; 1]%Z) (Properties_Driver.ex_layers [2; 10; 1]%Z)) as (U & G & P);
    try (cbn; auto; lia); try (cbn; tauto); [apply (Properties_Driver.ex_layers_ok [2; 10; 1]%Z)|].
  destruct (C73_const numpy_R mid_sampler _ _ o _ _ _ _ _ inverse_poisson (Properties_DriverInverse.ex_inverse "internal" [2; 10; 1]%Z) 50 _ _ _ r numpy_R_ok mid_sampler_ok (fun m => repeat_length _ m) Ho
    ltac:(cbn; lra) ltac:(cbn; lra) ltac:(cbn; lia) ltac:(cbn; lia) ltac:(lia) E) as (cells & mo & bd & fam & w & xi & eta & data & S & _ & Ef & _ & _ & LS & _ & V).
  exists o, r, cells, U, G, w, xi, eta, data, S. do 2 (split; [assumption|]). split; [rewrite LS; reflexivity|]. cbn in Ef. injection Ef as <-.
  exact (V 3%nat _ U G ltac:(cbn; lia) eq_refl P).
Qed.
Example C73_domain_example : exists o r, oracle_ok o 5 /\
  run_domain numpy_R mid_sampler (fun _ _ => []) Properties_DriverInverse.ex_chance o (fun _ => Ok (square_file [square_lines [1000; 1000; 1000; 1000]%Z; square_quads])) (Err FileNotFoundError) "template"
    (Ok [[1; 0; 0]; [0; 1; 0]]) (fun _ => "x"%string) (Ok tt) main_domain_usa (Properties_DriverInverse.ex_inverse "external" [2; 10; 2]%Z) 1 (fun _ => Properties_Driver.ex_layers [2; 10; 2]%Z) [] = Ok r /\
  exists bx bn g, has (pb_params usa_inverse) "b_x" bx /\ has (pb_params usa_inverse) "b_y" bn /\ has (pb_params usa_inverse) "c" g.
Proof.
  destruct Properties_DriverInverse.C72_example as (o & r & r' & Ho & E & _). exists o, r. refine (conj Ho (conj E _)). do 3 eexists. repeat split; reflexivity.
Qed.
Print Assumptions C73_internal.
Print Assumptions C73_external.
Print Assumptions C73_file.
Print Assumptions C73_const.
Print Assumptions C73_domain.
