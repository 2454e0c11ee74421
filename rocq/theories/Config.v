(* The input files of the scripts: what yaml.safe_load returns, how the scripts read it, and the input
   files that come with the examples.
   The text of the file is not parsed here.  The scripts do not look at the types of the values; a value
   of a type that the settings cannot hold is refused here when it is read. *)
From Coq Require Import String ZArith List Bool Reals.
From Verif Require Import Num Py Quadrature Cell Geometry Nets Tensor Metrics Problems Driver DriverInverse Optim Loop.
Import ListNotations.
Local Open Scope string_scope.
Local Open Scope R_scope.

(* An empty value is None *)
Inductive yaml := YStr (s : string) | YInt (z : Z) | YFloat (r : R) | YBool (b : bool) | YNull | YList (l : list yaml) | YMap (d : list (string * yaml)).
(* y[k] *)
Definition item (y : yaml) (k : string) : result yaml := match y with YMap d => dget String.eqb d k | _ => Err TypeError end.
Fixpoint items (y : yaml) (path : list string) : result yaml :=
  match path with [] => Ok y | k :: r => do y' <- item y k; items y' r end.

Definition as_str (y : yaml) : result string := match y with YStr s => Ok s | _ => Err TypeError end.
Definition as_int (y : yaml) : result Z := match y with YInt z => Ok z | _ => Err TypeError end.
Definition as_real (y : yaml) : result R := match y with YInt z => Ok (IZR z) | YFloat r => Ok r | _ => Err TypeError end.
Definition as_bool (y : yaml) : result bool := match y with YBool b => Ok b | _ => Err TypeError end.
Definition as_ints (y : yaml) : result (list Z) := match y with YList l => mapM as_int l | _ => Err TypeError end.
Definition as_rate (kv : string * yaml) : result (string * lrval) :=
  match snd kv with
  | YInt z => Ok (fst kv, LNum (IZR z))
  | YFloat r => Ok (fst kv, LNum r)
  | YBool b => Ok (fst kv, LBool b)
  | _ => Err TypeError
  end.
Definition as_rates (y : yaml) : result lrdict := match y with YMap d => mapM as_rate d | _ => Err TypeError end.

(* What a script reads: its settings, the activation, where the exact solution comes from, the file with
   the solution or the sensor data, the number of sensors (empty or 0 if the script does not read it) *)
Record input := { in_settings : settings; in_activation : string; in_generation : string; in_file : string; in_sensors : Z }.
(* Forward: complex_mesh and uniform_mesh; HardForward: hard_boundary_constraints, which has no section
   exact_solution; Sensors: main_inverse.py and main_inverse_domain_usa.py; SensorFile:
   main_inverse_domain_circle.py *)
Inductive reader := Forward | HardForward | Sensors | SensorFile.
(* uniform_mesh/poisson_2d/main_poisson2d.py:43-94, hard_boundary_constraints/poisson_2d/main_poisson2d_hard.py:43-90,
   const_inverse_poisson2d/main_inverse.py:46-102, domain_inverse_cd2d/circle/main_inverse_domain_circle.py:46-99 *)
Definition read_input (k : reader) (y : yaml) : result input :=
  do out <- bind (items y ["experimentation"; "output_path"]) as_str;
  do method <- bind (items y ["geometry"; "mesh_generation_method"]) as_str;
  do plot <- match k with Forward | HardForward => bind (items y ["geometry"; "generate_mesh_plot"]) as_bool | _ => Ok false end;
  do mtype <- bind (items y ["geometry"; "mesh_type"]) as_str;
  do x0 <- bind (items y ["geometry"; "internal_mesh_params"; "x_min"]) as_real;
  do x1 <- bind (items y ["geometry"; "internal_mesh_params"; "x_max"]) as_real;
  do y0 <- bind (items y ["geometry"; "internal_mesh_params"; "y_min"]) as_real;
  do y1 <- bind (items y ["geometry"; "internal_mesh_params"; "y_max"]) as_real;
  do ncx <- bind (items y ["geometry"; "internal_mesh_params"; "n_cells_x"]) as_int;
  do ncy <- bind (items y ["geometry"; "internal_mesh_params"; "n_cells_y"]) as_int;
  do nb <- bind (items y ["geometry"; "internal_mesh_params"; "n_boundary_points"]) as_int;
  do ntx <- bind (items y ["geometry"; "internal_mesh_params"; "n_test_points_x"]) as_int;
  do nty <- bind (items y ["geometry"; "internal_mesh_params"; "n_test_points_y"]) as_int;
  do generation <- match k with Forward => bind (items y ["geometry"; "exact_solution"; "exact_solution_generation"]) as_str | _ => Ok "" end;
  do solution <- match k with Forward => bind (items y ["geometry"; "exact_solution"; "exact_solution_file_name"]) as_str | _ => Ok "" end;
  do mfile <- bind (items y ["geometry"; "external_mesh_params"; "mesh_file_name"]) as_str;
  do level <- bind (items y ["geometry"; "external_mesh_params"; "boundary_refinement_level"]) as_int;
  do sampling <- bind (items y ["geometry"; "external_mesh_params"; "boundary_sampling_method"]) as_str;
  do fe_order <- bind (items y ["fe"; "fe_order"]) as_int;
  do fe_type <- bind (items y ["fe"; "fe_type"]) as_str;
  do quad_order <- bind (items y ["fe"; "quad_order"]) as_int;
  do quad_type <- bind (items y ["fe"; "quad_type"]) as_str;
  do layers <- bind (items y ["model"; "model_architecture"]) as_ints;
  do act <- bind (items y ["model"; "activation"]) as_str;
  do attention <- bind (items y ["model"; "use_attention"]) as_bool;
  do epochs <- bind (items y ["model"; "epochs"]) as_int;
  do dtype <- bind (items y ["model"; "dtype"]) as_str;
  do _ <- check_dtype dtype;
  do _ <- items y ["model"; "set_memory_growth"];
  do rates <- bind (items y ["model"; "learning_rate"]) as_rates;
  do sensors <- match k with Sensors | SensorFile => bind (items y ["inverse"; "num_sensor_points"]) as_int | _ => Ok 0%Z end;
  do data <- match k with SensorFile => bind (items y ["inverse"; "sensor_data_file"]) as_str | _ => Ok solution end;
  do beta <- bind (items y ["pde"; "beta"]) as_real;
  do update <- bind (items y ["logging"; "update_console_output"]) as_int;
  Ok {| in_settings :=
          {| i_output_path := out; i_method := method; i_mesh_type := mtype; i_mesh_plot := plot; i_xlim := (x0, x1); i_ylim := (y0, y1);
             i_ncx := ncx; i_ncy := ncy; i_nb := nb; i_ntx := ntx; i_nty := nty; i_mesh_file := mfile; i_level := level; i_sampling := sampling;
             i_fe_order := fe_order; i_fe_type := fe_type; i_quad_order := quad_order; i_quad_type := quad_type; i_architecture := layers;
             i_attention := attention; i_epochs := epochs; i_dtype := dtype; i_rates := rates; i_beta := beta; i_update := update |};
        in_activation := act; in_generation := generation; in_file := data; in_sensors := sensors |}.

(* cd2d_gear/main_gear_cd2d.py with its own training, as in Loop.v *)
Definition train_gear (generation : string) (csv : result (list (R * R * R))) (e : numpy R) (lhs2 : nat -> nat -> list (R * R)) (o : quad_oracle R)
    (file : string -> result (mesh_file R)) (template : string) (vtk : result (list (list R))) (fmt : R -> string) (pb : problem) (i : settings) (nt : net) (fs : files)
    : result report :=
  run_gear generation csv e lhs2 o file template vtk fmt pb i (forward_weights main_complex_cd pb i nt (external_model e lhs2 o file pb main_complex_cd i)) fs.

(* ---------- the input files of the examples ---------- *)
(* examples/forward_problems_2d/uniform_mesh/poisson_2d/input.yaml *)
Definition input_uniform_poisson : yaml := YMap [
  ("experimentation", YMap [("output_path", YStr "output/poisson2d/1")]);
  ("geometry", YMap [("mesh_generation_method", YStr "internal"); ("generate_mesh_plot", YBool true); ("internal_mesh_params", YMap [("x_min", YInt 0); ("x_max", YInt 1); ("y_min", YInt 0); ("y_max", YInt 1); ("n_cells_x", YInt 4); ("n_cells_y", YInt 4); ("n_boundary_points", YInt 400); ("n_test_points_x", YInt 100); ("n_test_points_y", YInt 100)]); ("exact_solution", YMap [("exact_solution_generation", YStr "internal"); ("exact_solution_file_name", YStr "")]); ("mesh_type", YStr "quadrilateral"); ("external_mesh_params", YMap [("mesh_file_name", YStr "meshes/hemker.mesh"); ("boundary_refinement_level", YInt 4); ("boundary_sampling_method", YStr "uniform")])]);
  ("fe", YMap [("fe_order", YInt 6); ("fe_type", YStr "legendre"); ("quad_order", YInt 10); ("quad_type", YStr "gauss-jacobi")]);
  ("pde", YMap [("beta", YInt 10)]);
  ("model", YMap [("model_architecture", YList [YInt 2; YInt 50; YInt 50; YInt 50; YInt 50; YInt 1]); ("activation", YStr "tanh"); ("use_attention", YBool false); ("epochs", YInt 10000); ("dtype", YStr "float32"); ("set_memory_growth", YBool false); ("learning_rate", YMap [("initial_learning_rate", YFloat (1 / 1000)); ("use_lr_scheduler", YBool false); ("decay_steps", YInt 1000); ("decay_rate", YFloat (99 / 100)); ("staircase", YBool false)])]);
  ("logging", YMap [("update_console_output", YInt 5000)])].
(* examples/forward_problems_2d/uniform_mesh/helmholtz_2d/input.yaml *)
Definition input_uniform_helmholtz : yaml := YMap [
  ("experimentation", YMap [("output_path", YStr "output/helmholtz/1")]);
  ("geometry", YMap [("mesh_generation_method", YStr "internal"); ("generate_mesh_plot", YBool true); ("internal_mesh_params", YMap [("x_min", YInt 0); ("x_max", YInt 1); ("y_min", YInt 0); ("y_max", YInt 1); ("n_cells_x", YInt 4); ("n_cells_y", YInt 4); ("n_boundary_points", YInt 400); ("n_test_points_x", YInt 100); ("n_test_points_y", YInt 100)]); ("exact_solution", YMap [("exact_solution_generation", YStr "internal"); ("exact_solution_file_name", YStr "fem_solutions/neumann_solutions/solution_problem_3.txt")]); ("mesh_type", YStr "quadrilateral"); ("external_mesh_params", YMap [("mesh_file_name", YStr "meshes/hemker.mesh"); ("boundary_refinement_level", YInt 4); ("boundary_sampling_method", YStr "uniform")])]);
  ("fe", YMap [("fe_order", YInt 6); ("fe_type", YStr "legendre"); ("quad_order", YInt 10); ("quad_type", YStr "gauss-jacobi")]);
  ("pde", YMap [("beta", YInt 10)]);
  ("model", YMap [("model_architecture", YList [YInt 2; YInt 30; YInt 30; YInt 30; YInt 1]); ("activation", YStr "tanh"); ("use_attention", YBool false); ("epochs", YInt 10000); ("dtype", YStr "float32"); ("set_memory_growth", YBool false); ("learning_rate", YMap [("initial_learning_rate", YFloat (1 / 1000)); ("use_lr_scheduler", YBool false); ("decay_steps", YInt 1000); ("decay_rate", YFloat (99 / 100)); ("staircase", YBool false)])]);
  ("logging", YMap [("update_console_output", YInt 5000)])].
(* examples/forward_problems_2d/hard_boundary_constraints/poisson_2d/input.yaml *)
Definition input_hard_poisson : yaml := YMap [
  ("experimentation", YMap [("output_path", YStr "output/poisson2d/1")]);
  ("geometry", YMap [("mesh_generation_method", YStr "internal"); ("generate_mesh_plot", YBool true); ("internal_mesh_params", YMap [("x_min", YInt 0); ("x_max", YInt 1); ("y_min", YInt 0); ("y_max", YInt 1); ("n_cells_x", YInt 4); ("n_cells_y", YInt 4); ("n_boundary_points", YInt 400); ("n_test_points_x", YInt 100); ("n_test_points_y", YInt 100)]); ("mesh_type", YStr "quadrilateral"); ("external_mesh_params", YMap [("mesh_file_name", YStr "meshes/rect.mesh"); ("boundary_refinement_level", YInt 4); ("boundary_sampling_method", YStr "uniform")])]);
  ("fe", YMap [("fe_order", YInt 5); ("fe_type", YStr "legendre"); ("quad_order", YInt 20); ("quad_type", YStr "gauss-jacobi")]);
  ("pde", YMap [("beta", YInt 10)]);
  ("model", YMap [("model_architecture", YList [YInt 2; YInt 30; YInt 30; YInt 30; YInt 1]); ("activation", YStr "tanh"); ("use_attention", YBool false); ("epochs", YInt 10000); ("dtype", YStr "float32"); ("set_memory_growth", YBool false); ("learning_rate", YMap [("initial_learning_rate", YFloat (1 / 1000)); ("use_lr_scheduler", YBool false); ("decay_steps", YInt 1000); ("decay_rate", YFloat (99 / 100)); ("staircase", YBool false)])]);
  ("logging", YMap [("update_console_output", YInt 5000)])].
(* examples/forward_problems_2d/complex_mesh/poisson2d/input.yaml *)
Definition input_complex_poisson : yaml := YMap [
  ("experimentation", YMap [("output_path", YStr "output/poisson2d/1")]);
  ("geometry", YMap [("mesh_generation_method", YStr "external"); ("generate_mesh_plot", YBool true); ("internal_mesh_params", YMap [("x_min", YInt 0); ("x_max", YInt 1); ("y_min", YInt 0); ("y_max", YInt 1); ("n_cells_x", YInt 4); ("n_cells_y", YInt 4); ("n_boundary_points", YInt 400); ("n_test_points_x", YInt 100); ("n_test_points_y", YInt 100)]); ("exact_solution", YMap [("exact_solution_generation", YStr "external"); ("exact_solution_file_name", YStr "")]); ("mesh_type", YStr "quadrilateral"); ("external_mesh_params", YMap [("mesh_file_name", YStr "../meshes/circle_quad.mesh"); ("boundary_refinement_level", YInt 4); ("boundary_sampling_method", YStr "uniform")])]);
  ("fe", YMap [("fe_order", YInt 2); ("fe_type", YStr "legendre"); ("quad_order", YInt 3); ("quad_type", YStr "gauss-jacobi")]);
  ("pde", YMap [("beta", YInt 10)]);
  ("model", YMap [("model_architecture", YList [YInt 2; YInt 30; YInt 30; YInt 30; YInt 1]); ("activation", YStr "tanh"); ("use_attention", YBool false); ("epochs", YInt 6000); ("dtype", YStr "float32"); ("set_memory_growth", YBool false); ("learning_rate", YMap [("initial_learning_rate", YFloat (1 / 1000)); ("use_lr_scheduler", YBool false); ("decay_steps", YInt 1000); ("decay_rate", YFloat (99 / 100)); ("staircase", YBool false)])]);
  ("logging", YMap [("update_console_output", YInt 2000)])].
(* examples/forward_problems_2d/complex_mesh/USA/input.yaml *)
Definition input_complex_usa : yaml := YMap [
  ("experimentation", YMap [("output_path", YStr "output/poisson2d/1")]);
  ("geometry", YMap [("mesh_generation_method", YStr "external"); ("generate_mesh_plot", YBool false); ("internal_mesh_params", YMap [("x_min", YInt 0); ("x_max", YInt 1); ("y_min", YInt 0); ("y_max", YInt 1); ("n_cells_x", YInt 4); ("n_cells_y", YInt 4); ("n_boundary_points", YInt 400); ("n_test_points_x", YInt 100); ("n_test_points_y", YInt 100)]); ("exact_solution", YMap [("exact_solution_generation", YStr "external"); ("exact_solution_file_name", YStr "")]); ("mesh_type", YStr "quadrilateral"); ("external_mesh_params", YMap [("mesh_file_name", YStr "../meshes/usa.mesh"); ("boundary_refinement_level", YInt 4); ("boundary_sampling_method", YStr "uniform")])]);
  ("fe", YMap [("fe_order", YInt 3); ("fe_type", YStr "legendre"); ("quad_order", YInt 4); ("quad_type", YStr "gauss-jacobi")]);
  ("pde", YMap [("beta", YInt 10)]);
  ("model", YMap [("model_architecture", YList [YInt 2; YInt 30; YInt 30; YInt 30; YInt 1]); ("activation", YStr "tanh"); ("use_attention", YBool false); ("epochs", YInt 30000); ("dtype", YStr "float32"); ("set_memory_growth", YBool false); ("learning_rate", YMap [("initial_learning_rate", YFloat (1 / 1000)); ("use_lr_scheduler", YBool false); ("decay_steps", YInt 1000); ("decay_rate", YFloat (99 / 100)); ("staircase", YBool false)])]);
  ("logging", YMap [("update_console_output", YInt 5000)])].
(* examples/forward_problems_2d/complex_mesh/cd2d/input.yaml *)
Definition input_complex_cd : yaml := YMap [
  ("experimentation", YMap [("output_path", YStr "output/cd2d/1")]);
  ("geometry", YMap [("mesh_generation_method", YStr "external"); ("generate_mesh_plot", YBool true); ("internal_mesh_params", YMap [("x_min", YInt 0); ("x_max", YInt 1); ("y_min", YInt 0); ("y_max", YInt 1); ("n_cells_x", YInt 4); ("n_cells_y", YInt 4); ("n_boundary_points", YInt 400); ("n_test_points_x", YInt 100); ("n_test_points_y", YInt 100)]); ("exact_solution", YMap [("exact_solution_generation", YStr "internal"); ("exact_solution_file_name", YStr "")]); ("mesh_type", YStr "quadrilateral"); ("external_mesh_params", YMap [("mesh_file_name", YStr "../meshes/circle_quad.mesh"); ("boundary_refinement_level", YInt 4); ("boundary_sampling_method", YStr "uniform")])]);
  ("fe", YMap [("fe_order", YInt 3); ("fe_type", YStr "jacobi"); ("quad_order", YInt 4); ("quad_type", YStr "gauss-jacobi")]);
  ("pde", YMap [("beta", YInt 10)]);
  ("model", YMap [("model_architecture", YList [YInt 2; YInt 50; YInt 50; YInt 50; YInt 50; YInt 1]); ("activation", YStr "tanh"); ("use_attention", YBool false); ("epochs", YInt 10000); ("dtype", YStr "float32"); ("set_memory_growth", YBool false); ("learning_rate", YMap [("initial_learning_rate", YFloat (1 / 1000)); ("use_lr_scheduler", YBool false); ("decay_steps", YInt 1000); ("decay_rate", YFloat (99 / 100)); ("staircase", YBool false)])]);
  ("logging", YMap [("update_console_output", YInt 5000)])].
(* examples/forward_problems_2d/complex_mesh/cd2d_gear/input.yaml *)
Definition input_complex_gear : yaml := YMap [
  ("experimentation", YMap [("output_path", YStr "output/cd2d_gear")]);
  ("geometry", YMap [("mesh_generation_method", YStr "external"); ("generate_mesh_plot", YBool false); ("internal_mesh_params", YMap [("x_min", YInt 0); ("x_max", YInt 1); ("y_min", YInt 0); ("y_max", YInt 1); ("n_cells_x", YInt 8); ("n_cells_y", YInt 8); ("n_boundary_points", YInt 2000); ("n_test_points_x", YInt 100); ("n_test_points_y", YInt 100)]); ("exact_solution", YMap [("exact_solution_generation", YStr "external"); ("exact_solution_file_name", YStr "fem_output_gear_forward_sin.csv")]); ("mesh_type", YStr "quadrilateral"); ("external_mesh_params", YMap [("mesh_file_name", YStr "../meshes/gear.mesh"); ("boundary_refinement_level", YInt 2); ("boundary_sampling_method", YStr "uniform")])]);
  ("fe", YMap [("fe_order", YInt 4); ("fe_type", YStr "jacobi"); ("quad_order", YInt 5); ("quad_type", YStr "gauss-jacobi")]);
  ("pde", YMap [("beta", YInt 5)]);
  ("model", YMap [("model_architecture", YList [YInt 2; YInt 50; YInt 50; YInt 50; YInt 1]); ("activation", YStr "tanh"); ("use_attention", YBool false); ("epochs", YInt 150000); ("dtype", YStr "float32"); ("set_memory_growth", YBool false); ("learning_rate", YMap [("initial_learning_rate", YFloat (5 / 1000)); ("use_lr_scheduler", YBool true); ("decay_steps", YInt 1000); ("decay_rate", YFloat (99 / 100)); ("staircase", YBool false)])]);
  ("logging", YMap [("update_console_output", YInt 10000)])].
(* examples/forward_problems_2d/complex_mesh/helmholtz2d/input.yaml *)
Definition input_complex_helmholtz : yaml := YMap [
  ("experimentation", YMap [("output_path", YStr "output/helmholtz/1")]);
  ("geometry", YMap [("mesh_generation_method", YStr "external"); ("generate_mesh_plot", YBool true); ("internal_mesh_params", YMap [("x_min", YInt 0); ("x_max", YInt 1); ("y_min", YInt 0); ("y_max", YInt 1); ("n_cells_x", YInt 4); ("n_cells_y", YInt 4); ("n_boundary_points", YInt 400); ("n_test_points_x", YInt 100); ("n_test_points_y", YInt 100)]); ("exact_solution", YMap [("exact_solution_generation", YStr "internal"); ("exact_solution_file_name", YStr "")]); ("mesh_type", YStr "quadrilateral"); ("external_mesh_params", YMap [("mesh_file_name", YStr "../meshes/circle_quad.mesh"); ("boundary_refinement_level", YInt 4); ("boundary_sampling_method", YStr "uniform")])]);
  ("fe", YMap [("fe_order", YInt 4); ("fe_type", YStr "jacobi"); ("quad_order", YInt 5); ("quad_type", YStr "gauss-jacobi")]);
  ("pde", YMap [("beta", YInt 10)]);
  ("model", YMap [("model_architecture", YList [YInt 2; YInt 30; YInt 30; YInt 30; YInt 1]); ("activation", YStr "tanh"); ("use_attention", YBool false); ("epochs", YInt 10000); ("dtype", YStr "float32"); ("set_memory_growth", YBool false); ("learning_rate", YMap [("initial_learning_rate", YFloat (1 / 1000)); ("use_lr_scheduler", YBool false); ("decay_steps", YInt 1000); ("decay_rate", YFloat (99 / 100)); ("staircase", YBool false)])]);
  ("logging", YMap [("update_console_output", YInt 5000)])].
(* examples/inverse_problems_2d/const_inverse_poisson2d/input_inverse.yaml *)
Definition input_inverse : yaml := YMap [
  ("experimentation", YMap [("output_path", YStr "output/inv_test")]);
  ("geometry", YMap [("mesh_generation_method", YStr "internal"); ("internal_mesh_params", YMap [("x_min", YInt (-1)); ("x_max", YInt 1); ("y_min", YInt (-1)); ("y_max", YInt 1); ("n_cells_x", YInt 2); ("n_cells_y", YInt 2); ("n_boundary_points", YInt 2000); ("n_test_points_x", YInt 100); ("n_test_points_y", YInt 100)]); ("mesh_type", YStr "quadrilateral"); ("external_mesh_params", YMap [("mesh_file_name", YStr "meshes/rect_quad.mesh"); ("boundary_refinement_level", YInt 8); ("boundary_sampling_method", YStr "uniform")])]);
  ("fe", YMap [("fe_order", YInt 10); ("fe_type", YStr "jacobi"); ("quad_order", YInt 40); ("quad_type", YStr "gauss-jacobi")]);
  ("pde", YMap [("beta", YInt 10)]);
  ("model", YMap [("model_architecture", YList [YInt 2; YInt 30; YInt 30; YInt 30; YInt 1]); ("activation", YStr "tanh"); ("use_attention", YBool false); ("epochs", YInt 10000); ("dtype", YStr "float32"); ("set_memory_growth", YBool false); ("learning_rate", YMap [("initial_learning_rate", YFloat (1 / 1000)); ("use_lr_scheduler", YBool false); ("decay_steps", YInt 1000); ("decay_rate", YFloat (9 / 10)); ("staircase", YBool false)])]);
  ("inverse", YMap [("num_sensor_points", YInt 50)]);
  ("logging", YMap [("update_console_output", YInt 5000)])].
(* examples/inverse_problems_2d/domain_inverse_cd2d/USA/input_inverse_domain.yaml *)
Definition input_domain_usa : yaml := YMap [
  ("experimentation", YMap [("output_path", YStr "output/usa_2")]);
  ("geometry", YMap [("mesh_generation_method", YStr "external"); ("internal_mesh_params", YMap [("x_min", YInt 0); ("x_max", YInt 1); ("y_min", YInt 0); ("y_max", YInt 1); ("n_cells_x", YInt 20); ("n_cells_y", YInt 20); ("n_boundary_points", YInt 1500); ("n_test_points_x", YInt 100); ("n_test_points_y", YInt 100)]); ("mesh_type", YStr "quadrilateral"); ("external_mesh_params", YMap [("mesh_file_name", YStr "usa.mesh"); ("boundary_refinement_level", YInt 2); ("boundary_sampling_method", YStr "uniform")])]);
  ("fe", YMap [("fe_order", YInt 4); ("fe_type", YStr "jacobi"); ("quad_order", YInt 5); ("quad_type", YStr "gauss-jacobi")]);
  ("pde", YMap [("beta", YInt 10)]);
  ("model", YMap [("model_architecture", YList [YInt 2; YInt 30; YInt 30; YInt 30; YInt 2]); ("activation", YStr "tanh"); ("use_attention", YBool false); ("epochs", YInt 20000); ("dtype", YStr "float32"); ("set_memory_growth", YBool true); ("learning_rate", YMap [("initial_learning_rate", YFloat (2 / 1000)); ("use_lr_scheduler", YBool true); ("decay_steps", YInt 1000); ("decay_rate", YFloat (99 / 100)); ("staircase", YBool true)])]);
  ("logging", YMap [("update_progress_bar", YInt 100); ("update_console_output", YInt 5000); ("update_solution_images", YInt 5000)]);
  ("inverse", YMap [("num_sensor_points", YInt 500)])].
(* examples/inverse_problems_2d/domain_inverse_cd2d/circle/input_inverse_domain.yaml *)
Definition input_domain_circle : yaml := YMap [
  ("experimentation", YMap [("output_path", YStr "output/inverse/circle_1")]);
  ("geometry", YMap [("mesh_generation_method", YStr "external"); ("internal_mesh_params", YMap [("x_min", YInt 0); ("x_max", YInt 1); ("y_min", YInt 0); ("y_max", YInt 1); ("n_cells_x", YInt 20); ("n_cells_y", YInt 20); ("n_boundary_points", YInt 1500); ("n_test_points_x", YInt 100); ("n_test_points_y", YInt 100)]); ("mesh_type", YStr "quadrilateral"); ("external_mesh_params", YMap [("mesh_file_name", YStr "circle_quad.mesh"); ("boundary_refinement_level", YInt 2); ("boundary_sampling_method", YStr "uniform")])]);
  ("fe", YMap [("fe_order", YInt 3); ("fe_type", YStr "jacobi"); ("quad_order", YInt 5); ("quad_type", YStr "gauss-jacobi")]);
  ("pde", YMap [("beta", YInt 10)]);
  ("model", YMap [("model_architecture", YList [YInt 2; YInt 30; YInt 30; YInt 30; YInt 2]); ("activation", YStr "tanh"); ("use_attention", YBool false); ("epochs", YInt 50000); ("dtype", YStr "float32"); ("set_memory_growth", YBool true); ("learning_rate", YMap [("initial_learning_rate", YFloat (3 / 1000)); ("use_lr_scheduler", YBool false); ("decay_steps", YInt 1000); ("decay_rate", YFloat (98 / 100)); ("staircase", YBool true)])]);
  ("logging", YMap [("update_progress_bar", YInt 100); ("update_console_output", YInt 5000); ("update_solution_images", YInt 5000)]);
  ("inverse", YMap [("num_sensor_points", YInt 500); ("sensor_data_file", YStr "fem_output_circle2.csv")])].

