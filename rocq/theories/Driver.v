(* Model of the main scripts in examples/ and of utils/print_utils.py: the forward scripts from the
   configuration to the files they leave, their training loop, the matrices handed to plot_contour and
   the tables printed at the end.
   Reading the settings is in Config.v.  Not modelled: wall-clock times (an arbitrary list), console output and progress bar, the pictures themselves, the output folder.
   [weights t] are the network's weights after t training steps. *)
From Coq Require Import String ZArith List Arith Bool Reals DecimalString.
From Verif Require Import Num Py Jacobi Quadrature Basis Transform Cell Space Tensor Data Physics Train Geometry Nets Metrics Problems.
Import ListNotations.
Local Open Scope R_scope.

(* The values of the input file that the forward scripts use,
   examples/forward_problems_2d/uniform_mesh/poisson_2d/main_poisson2d.py:45-94 *)
Record settings := {
  i_output_path : string; i_method : string; i_mesh_type : string; i_mesh_plot : bool;
  i_xlim : R * R; i_ylim : R * R; i_ncx : Z; i_ncy : Z; i_nb : Z; i_ntx : Z; i_nty : Z;
  i_mesh_file : string; i_level : Z; i_sampling : string;
  i_fe_order : Z; i_fe_type : string; i_quad_order : Z; i_quad_type : string;
  i_architecture : list Z; i_attention : bool; i_epochs : Z; i_dtype : string; i_rates : lrdict;
  i_beta : R; i_update : Z
}.
(* main_poisson2d.py:80-87 *)
Definition check_dtype (d : string) : result unit :=
  if orb (String.eqb d "float64") (String.eqb d "float32") then Ok tt else Err ValueError.
(* main_poisson2d.py:122-137; the map is always "bilinear" *)
Definition space_config (i : settings) : config :=
  {| cf_cell_type := i_mesh_type i; cf_fe_order := i_fe_order i; cf_fe_type := i_fe_type i;
     cf_quad_order := i_quad_order i; cf_quad_type := i_quad_type i; cf_trafo := "bilinear" |}.

(* What differs between the scripts: the model class, the loss, the layers (fixed in the script or
   taken from the configuration) and the hard constraint *)
Record script := {
  sc_kind : kind; sc_loss : pyfun R; sc_layers : option (list Z); sc_constraint : option constraint;
  sc_refinement : settings -> Z                  (* refinement_level of read_mesh *)
}.
Definition fixed_layers : list Z := [2; 30; 30; 30; 1]%Z.
(* examples/forward_problems_2d/uniform_mesh/poisson_2d/main_poisson2d.py:153-169 *)
Definition main_uniform_poisson : script :=
  {| sc_kind := Standard; sc_loss := pde_loss_poisson; sc_layers := Some fixed_layers; sc_constraint := None; sc_refinement := fun _ => 0%Z |}.
(* examples/forward_problems_2d/uniform_mesh/helmholtz_2d/main_helmholtz.py:153-169 *)
Definition main_uniform_helmholtz : script :=
  {| sc_kind := Standard; sc_loss := pde_loss_helmholtz; sc_layers := Some fixed_layers; sc_constraint := None; sc_refinement := fun _ => 0%Z |}.
(* examples/forward_problems_2d/hard_boundary_constraints/poisson_2d/main_poisson2d_hard.py:148-188 *)
Definition main_hard_poisson : script :=
  {| sc_kind := Hard; sc_loss := pde_loss_poisson; sc_layers := Some fixed_layers; sc_constraint := Some ansatz_constraint; sc_refinement := fun _ => 0%Z |}.
(* examples/forward_problems_2d/complex_mesh/poisson2d/main_poisson2d.py:117-174, the same text in
   complex_mesh/USA/main_poisson2d.py *)
Definition main_complex_poisson : script :=
  {| sc_kind := Standard; sc_loss := pde_loss_poisson; sc_layers := Some fixed_layers; sc_constraint := None; sc_refinement := fun _ => 1%Z |}.
(* examples/forward_problems_2d/complex_mesh/cd2d/main_cd2d.py:117-174 and
   complex_mesh/cd2d_gear/main_gear_cd2d.py:117-174 *)
Definition main_complex_cd : script :=
  {| sc_kind := Standard; sc_loss := pde_loss_cd2d; sc_layers := None; sc_constraint := None; sc_refinement := fun _ => 1%Z |}.
(* examples/forward_problems_2d/complex_mesh/helmholtz2d/main_helmholtz.py:117-173 *)
Definition main_complex_helmholtz : script :=
  {| sc_kind := Standard; sc_loss := pde_loss_helmholtz; sc_layers := None; sc_constraint := None; sc_refinement := i_level |}.
Definition layer_dims (sc : script) (i : settings) : list Z :=
  match sc_layers sc with Some l => l | None => i_architecture i end.
Definition the_network (sc : script) (w : net) : network R :=
  match sc_kind sc with Hard => hard_network (sc_constraint sc) w | _ => network_of w end.
Definition train_step (sc : script) (m : model R) (nn : network R) (beta : R) (bp : pdict R) : result (losses R) :=
  match sc_kind sc with Hard => train_hard m nn beta bp | _ => train_standard m nn beta bp end.

(* ---------- plots ---------- *)
(* numpy reshape of a flat array to (rows, cols), both at least 0 *)
Definition np_reshape {T} (rows cols : nat) (l : list T) : result (list (list T)) :=
  if Nat.eqb (rows * cols) (length l) then Ok (chunks rows cols l) else Err ValueError.
(* main_poisson2d.py:175-178 and utility.py:100-113: the matrices given to plot_contour for the
   values z at the test points *)
Definition contour_args (ntx nty : Z) (pts : list (R * R)) (z : list R) : result (mat R * mat R * mat R) :=
  let nx := Z.to_nat ntx in let ny := Z.to_nat nty in
  do X <- np_reshape nx ny (map fst pts);
  do Y <- np_reshape nx ny (map snd pts);
  do Z <- np_reshape nx ny z;
  Ok (X, Y, Z).
(* utils/plot_utils.py:230-258, plot_contour; matplotlib's contourf refuses fewer than two rows or columns *)
Definition plot_contour (a : mat R * mat R * mat R) : result unit :=
  let '(_, _, z) := a in
  if orb (Nat.ltb (length z) 2) (Nat.ltb (length (nth 0 z [])) 2) then Err TypeError else Ok tt.

(* ---------- the training loop ---------- *)
Definition errors6 : Type := npfloat * npfloat * npfloat * npfloat * npfloat * npfloat.
Definition arr (l : list R) : ndarray := {| a_shape := [length l]; a_data := l |}.
(* float(t.numpy()) of a tensor with one entry *)
Definition as_float (l : list R) : result R := match l with [v] => Ok v | _ => Err TypeError end.
(* main_poisson2d.py:221: (epoch + 1) % i_update_console_output == 0 or epoch == num_epochs - 1 *)
Definition report_due (n upd : Z) (epoch : nat) : result bool :=
  if Z.eqb upd 0 then Err ZeroDivisionError
  else Ok (orb (Z.eqb ((Z.of_nat epoch + 1) mod upd) 0) (Z.eqb (Z.of_nat epoch) (n - 1))).
(* The variables that live on after the loop; [p_last] is None as long as no report was due *)
Record progress := {
  p_loss : list (list R);                              (* loss_array *)
  p_test : list npfloat;                               (* test_loss_array *)
  p_last : option (errors6 * list R * list R);         (* the six errors, y_pred, error *)
  p_files : files
}.
Section Loop.
Variables (step : nat -> result (losses R)) (predict : nat -> result (list R)) (exact : list R) (n upd : Z).
(* the plots or files of one report *)
Variable show : nat -> list R -> list R -> files -> result files.
(* main_poisson2d.py:208-267 and complex_mesh/poisson2d/main_poisson2d.py:199-253, one epoch: the
   training step runs with the weights of [epoch] steps, the report with those of one more *)
Definition one_epoch (p : progress) (epoch : nat) : result progress :=
  do L <- step epoch;
  do due <- report_due n upd epoch;
  if due then
    do pred <- predict (S epoch);
    do d <- np_subtract exact pred;
    do errs <- compute_errors_combined (arr exact) (arr pred);
    do _ <- as_float (l_dirichlet L);
    do _ <- as_float (l_total L);
    let '(_, _, _, _, l1, _) := errs in
    do fs <- show epoch pred (np_abs d) (p_files p);
    Ok {| p_loss := p_loss p ++ [l_total L]; p_test := p_test p ++ [l1]; p_last := Some (errs, pred, np_abs d); p_files := fs |}
  else Ok {| p_loss := p_loss p ++ [l_total L]; p_test := p_test p; p_last := p_last p; p_files := p_files p |}.
Fixpoint epochs_loop (p : progress) (l : list nat) : result progress :=
  match l with [] => Ok p | e :: r => do p' <- one_epoch p e; epochs_loop p' r end.
Definition train_loop (fs : files) : result progress :=
  epochs_loop {| p_loss := []; p_test := []; p_last := None; p_files := fs |} (seq 0 (Z.to_nat n)).
End Loop.

(* What a forward script leaves: the text files, the tables and the saved weights *)
Record report := {
  r_loss : list (list R);            (* loss_function.txt *)
  r_test : list npfloat;             (* the curve of test_loss_function.png *)
  r_errors : errors6;                (* table "Error Values" *)
  r_pred : list R;                   (* prediction.txt *)
  r_exact : list R;                  (* exact.txt *)
  r_error : list R;                  (* error.txt *)
  r_saved : nat;                     (* model_weights: the weights after so many steps *)
  r_points : list (R * R);           (* test_points *)
  r_files : files                    (* the .vtk files *)
}.
(* The space, the data handler and the model, main_poisson2d.py:119-169 *)
Definition build (o : quad_oracle R) (pb : problem) (sc : script) (i : settings) (cells : list (cell R)) (bd : bdict R)
    : result (model R) :=
  do sp <- make_space o (space_config i) cells bd (pb_bound pb) (i_mesh_plot i);
  do h <- make_handler sp (pb_rhs pb) true;
  do dir <- get_dirichlet_input bd (pb_bound pb);
  do _ <- construct (sc_kind sc) true (Some (length cells)) (i_rates i) (layer_dims sc i) (i_attention i);
  Ok (model_of h dir ([], []) (sc_loss sc) (length cells)).
Definition step_of (sc : script) (pb : problem) (i : settings) (m : model R) (weights : nat -> net) (t : nat) : result (losses R) :=
  train_step sc m (the_network sc (weights t)) (i_beta i) (Some (params_as_tensors (fun r => r) (pb_params pb))).
(* y_pred = model(test_points).numpy(); y_pred.reshape(-1) *)
Definition predict_of (sc : script) (weights : nat -> net) (pts : list (R * R)) (t : nat) : result (list R) :=
  do y <- nn_out (the_network sc (weights t)) pts; Ok (concat y).
(* After the loop the errors, the prediction and the error of the last report are used: a NameError if
   there was none, main_poisson2d.py:270-314 *)
Definition finish (i : settings) (pts : list (R * R)) (exact : list R) (p : progress) : result report :=
  match p_last p with
  | None => Err NameError
  | Some (errs, pred, err) =>
      Ok {| r_loss := p_loss p; r_test := p_test p; r_errors := errs; r_pred := pred; r_exact := exact; r_error := err;
            r_saved := Z.to_nat (i_epochs i); r_points := pts; r_files := p_files p |}
  end.
(* The plots of one report, examples/forward_problems_2d/uniform_mesh/poisson_2d/utility.py:66-113 *)
Definition show_plots (i : settings) (pts : list (R * R)) (epoch : nat) (pred err : list R) (fs : files) : result files :=
  do a <- contour_args (i_ntx i) (i_nty i) pts pred;
  do _ <- plot_contour a;
  do b <- contour_args (i_ntx i) (i_nty i) pts err;
  do _ <- plot_contour b;
  Ok fs.
(* The scripts on an internal mesh: uniform_mesh/poisson_2d, uniform_mesh/helmholtz_2d and
   hard_boundary_constraints/poisson_2d, main_poisson2d.py:36-314.  [vtk] is meshio.read of
   external.vtk, used if mesh_generation_method is "external" *)
Definition run_internal (e : numpy R) (lhs1 : nat -> nat -> list R) (o : quad_oracle R) (template : string) (vtk : result (list (list R)))
    (pb : problem) (sc : script) (i : settings) (weights : nat -> net) (fs : files) : result report :=
  do _ <- check_dtype (i_dtype i);
  do g <- make_geometry (i_mesh_type i) (i_method i) (i_ntx i) (i_nty i) (i_output_path i) false;
  let '(made, g', fs') := call_internal e lhs1 template g fs (i_xlim i) (i_ylim i) (i_ncx i) (i_ncy i) (i_nb i) in
  do mesh <- made;
  let '(cells, _, bd) := mesh in
  do m <- build o pb sc i cells bd;
  do pts <- get_test_points g' vtk;
  let exact := map (fun p => pb_exact pb (fst p) (snd p)) pts in
  do a <- contour_args (i_ntx i) (i_nty i) pts exact;
  do _ <- plot_contour a;
  do p <- train_loop (step_of sc pb i m weights) (predict_of sc weights pts) exact (i_epochs i) (i_update i) (show_plots i pts) fs';
  finish i pts exact p.

(* f"{n}" *)
Definition decimal (n : nat) : string := NilZero.string_of_uint (Nat.to_uint n).
(* output_path / f"prediction_{epoch+1}.vtk" *)
Definition vtk_path (i : settings) (epoch : nat) : string :=
  (i_output_path i ++ "/" ++ "prediction_" ++ decimal (epoch + 1) ++ ".vtk")%string.
Definition vtk_names : list string := ["Sol"; "Exact"; "Error"]%string.
(* complex_mesh/poisson2d/main_poisson2d.py:235-242 and 258-264; numpy.c_ needs columns of one length *)
Definition show_vtk (fmt : R -> string) (g : geom R) (i : settings) (exact : list R) (epoch : nat) (pred err : list R) (fs : files) : result files :=
  if negb (andb (Nat.eqb (length pred) (length exact)) (Nat.eqb (length exact) (length err))) then Err ValueError
  else
    let rows := map2 (fun a be => [a; fst be; snd be]) pred (combine exact err) in
    let (x, fs') := write_vtk fmt g fs rows 3 (vtk_path i epoch) vtk_names in
    do _ <- x; Ok fs'.
(* The scripts on a mesh file: complex_mesh/poisson2d, USA, cd2d, cd2d_gear and helmholtz2d,
   complex_mesh/poisson2d/main_poisson2d.py:36-307; [exact_of] gives y_exact at the test points *)
Definition run_external_with (exact_of : list (R * R) -> result (list R)) (e : numpy R) (lhs2 : nat -> nat -> list (R * R)) (o : quad_oracle R)
    (file : string -> result (mesh_file R)) (template : string) (vtk : result (list (list R))) (fmt : R -> string) (pb : problem) (sc : script) (i : settings)
    (weights : nat -> net) (fs : files) : result report :=
  do _ <- check_dtype (i_dtype i);
  do g <- make_geometry (i_mesh_type i) (i_method i) (i_ntx i) (i_nty i) (i_output_path i) false;
  let '(made, g', fs') := call_read e lhs2 file template g fs (i_mesh_file i) (i_level i) (i_sampling i) (sc_refinement sc i) in
  do mesh <- made;
  let bd := boundary_xy (snd mesh) in
  do m <- build o pb sc i (fst mesh) bd;
  do pts <- get_test_points g' vtk;
  do exact <- exact_of pts;
  do p <- train_loop (step_of sc pb i m weights) (predict_of sc weights pts) exact (i_epochs i) (i_update i) (show_vtk fmt g' i exact) fs';
  do r <- finish i pts exact p;
  do d <- np_subtract exact (r_pred r);
  do fs'' <- show_vtk fmt g' i exact (Z.to_nat (i_epochs i) - 1) (r_pred r) (np_abs d) (r_files r);
  Ok {| r_loss := r_loss r; r_test := r_test r; r_errors := r_errors r; r_pred := r_pred r; r_exact := r_exact r; r_error := r_error r;
        r_saved := r_saved r; r_points := r_points r; r_files := fs'' |}.
(* y_exact = exact_solution(test_points[:, 0], test_points[:, 1]) *)
Definition exact_values (pb : problem) (pts : list (R * R)) : list R := map (fun p => pb_exact pb (fst p) (snd p)) pts.
Definition run_external (e : numpy R) (lhs2 : nat -> nat -> list (R * R)) (o : quad_oracle R) (file : string -> result (mesh_file R))
    (template : string) (vtk : result (list (list R))) (fmt : R -> string) (pb : problem) (sc : script) (i : settings)
    (weights : nat -> net) (fs : files) : result report :=
  run_external_with (fun pts => Ok (exact_values pb pts)) e lhs2 o file template vtk fmt pb sc i weights fs.
(* cd2d_gear/main_gear_cd2d.py:178-182: unless [generation] is "internal", y_exact is the third column of
   the csv file; [csv] are the first three columns read by pandas *)
Definition gear_exact (generation : string) (csv : result (list (R * R * R))) (pb : problem) (pts : list (R * R)) : result (list R) :=
  if String.eqb generation "internal" then Ok (exact_values pb pts) else do rows <- csv; Ok (map snd rows).
(* cd2d_gear/main_gear_cd2d.py:36-311 *)
Definition run_gear (generation : string) (csv : result (list (R * R * R))) (e : numpy R) (lhs2 : nat -> nat -> list (R * R)) (o : quad_oracle R)
    (file : string -> result (mesh_file R)) (template : string) (vtk : result (list (list R))) (fmt : R -> string) (pb : problem) (i : settings)
    (weights : nat -> net) (fs : files) : result report :=
  run_external_with (gear_exact generation csv pb) e lhs2 o file template vtk fmt pb main_complex_cd i weights fs.

(* ---------- tables ---------- *)
(* utils/print_utils.py:13-50: the rows of the table, before formatting *)
Definition print_table {V} (col1 : list string) (col2 : list V) : list (string * V) := combine col1 col2.
(* main_poisson2d.py:273-285 *)
Definition error_labels : list string :=
  ["L2 Error"; "Linf Error"; "Relative L2 Error"; "Relative Linf Error"; "L1 Error"; "Relative L1 Error"]%string.
Definition error_values (e : errors6) : list npfloat :=
  let '(l2, linf, l2r, linfr, l1, l1r) := e in [l2; linf; l2r; linfr; l1; l1r].
Definition error_table (e : errors6) : list (string * npfloat) := print_table error_labels (error_values e).

(* The values of the time table; numpy's median and percentile are parameters *)
Inductive cellval := VReal (r : R) | VInt (z : Z).
Record statistics := { st_median : list R -> R; st_percentile : list R -> Z -> R }.
(* int() of a float *)
Definition trunc (x : R) : Z := if Rle_dec 0 x then Int_part x else (- Int_part (- x))%Z.
(* int(i_epochs / np.sum(time_array)); int(inf) is an OverflowError *)
Definition per_second (epochs : Z) (ts : list R) : result Z :=
  if Req_EM_T (vsum ts) 0 then Err OverflowError else Ok (trunc (IZR epochs / vsum ts)).
(* main_poisson2d.py:288-307 *)
Definition time_table_forward (st : statistics) (epochs : Z) (ts : list R) : result (list (string * cellval)) :=
  do eps <- per_second epochs ts;
  Ok (print_table
    ["Time per Epoch(s) - Median"; "Time per Epoch(s) IQR-25% "; "Time per Epoch(s) IQR-75% "; "Mean (s)"; "Epochs per second"; "Total Train Time"]%string
    [VReal (st_median st ts); VReal (st_percentile st ts 25); VReal (st_percentile st ts 75); VReal (vmean ts); VInt eps; VReal (vsum ts)]).
(* examples/inverse_problems_2d/const_inverse_poisson2d/main_inverse.py:453-474 *)
Definition time_table_inverse (st : statistics) (epochs : Z) (ts : list R) : result (list (string * cellval)) :=
  do eps <- per_second epochs ts;
  let rest := tl ts in
  Ok (print_table
    ["Time per Epoch(s) - Median"; "Time per Epoch(s) IQR-25% "; "Time per Epoch(s) IQR-75% "; "Mean without first(s)"; "Mean with first(s)";
     "Epochs per second"; "Total Train Time"]%string
    [VReal (st_median st rest); VReal (st_percentile st rest 25); VReal (st_percentile st rest 75); VReal (vmean rest); VReal (vmean ts); VInt eps; VReal (vsum rest)]).
(* domain_inverse_cd2d/circle/main_inverse_domain_circle.py:451-471 and USA/main_inverse_domain_usa.py:447-467:
   adjacent string literals, there is no comma between the fifth and the sixth label *)
Definition time_table_domain (st : statistics) (epochs : Z) (ts : list R) : result (list (string * cellval)) :=
  do eps <- per_second epochs ts;
  let rest := tl ts in
  Ok (print_table
    ["Time per Epoch(s) - Median"; "Time per Epoch(s) IQR-25% "; "Time per Epoch(s) IQR-75% "; "Mean without first(s)";
     "Mean with first(s)" ++ "Epochs per second"; "Total Train Time"]%string
    [VReal (st_median st rest); VReal (st_percentile st rest 25); VReal (st_percentile st rest 75); VReal (vmean rest); VReal (vmean ts); VInt eps; VReal (vsum rest)]).
