(* Model of the main scripts in examples/inverse_problems_2d: const_inverse_poisson2d/main_inverse.py
   and domain_inverse_cd2d/{circle/main_inverse_domain_circle,USA/main_inverse_domain_usa}.py, from the
   configuration to the files they leave.
   Reading the settings is in Config.v.  Not modelled: console output and pictures, wall-clock times.  Whether the time
   table could be printed is an input ([times]; C64 treats the table itself).
   [weights t] and [params t] are the network's weights and the inverse parameters after t training steps. *)
From Coq Require Import String ZArith List Arith Bool Reals.
From Verif Require Import Num Py Jacobi Quadrature Basis Transform Cell Space Tensor Data Physics Train Geometry Nets Metrics Problems Driver.
Import ListNotations.
Local Open Scope R_scope.

(* ---------- the training loop ---------- *)
(* What the loop collects: something in every epoch, something in every report, and the files *)
Record history (E X : Type) := { hy_steps : list E; hy_reports : list X; hy_files : files }.
Arguments hy_steps {E X}. Arguments hy_reports {E X}. Arguments hy_files {E X}.
Section Loop.
Context {E X : Type}.
Variables (step : nat -> result E) (rep : nat -> E -> files -> result (X * files)) (n upd : Z).
(* main_inverse.py:257-367, one epoch *)
Definition hist_epoch (h : history E X) (epoch : nat) : result (history E X) :=
  do s <- step epoch;
  do due <- report_due n upd epoch;
  if due then
    do xf <- rep epoch s (hy_files h);
    Ok {| hy_steps := hy_steps h ++ [s]; hy_reports := hy_reports h ++ [fst xf]; hy_files := snd xf |}
  else Ok {| hy_steps := hy_steps h ++ [s]; hy_reports := hy_reports h; hy_files := hy_files h |}.
Fixpoint hist_loop (h : history E X) (l : list nat) : result (history E X) :=
  match l with [] => Ok h | t :: r => do h' <- hist_epoch h t; hist_loop h' r end.
Definition run_epochs (fs : files) : result (history E X) :=
  hist_loop {| hy_steps := []; hy_reports := []; hy_files := fs |} (seq 0 (Z.to_nat n)).
End Loop.

(* ---------- mesh, output ---------- *)
(* main_inverse.py:83-132: the data type, the geometry and the mesh; read_mesh is called with
   refinement_level = 0.  Returns cells, boundary points, the points of domain.mesh (used for an internal
   mesh only), the geometry object and the files *)
Definition make_mesh (e : numpy R) (lhs1 : nat -> nat -> list R) (lhs2 : nat -> nat -> list (R * R)) (file : string -> result (mesh_file R))
    (template : string) (i : settings) (fs : files) : result (list (cell R) * bdict R * list (R * R) * geom R * files) :=
  do _ <- check_dtype (i_dtype i);
  do g <- make_geometry (i_mesh_type i) (i_method i) (i_ntx i) (i_nty i) (i_output_path i) false;
  if String.eqb (i_method i) "external" then
    let '(made, g', fs') := call_read e lhs2 file template g fs (i_mesh_file i) (i_level i) (i_sampling i) 0%Z in
    do mesh <- made; Ok (fst mesh, boundary_xy (snd mesh), [], g', fs')
  else
    let '(made, g', fs') := call_internal e lhs1 template g fs (i_xlim i) (i_ylim i) (i_ncx i) (i_ncy i) (i_nb i) in
    do mesh <- made;
    let '(cells, mo, bd) := mesh in Ok (cells, bd, mo_points mo, g', fs').
(* main_inverse.py:134-202: space (no mesh plot), data handler, boundary data and model; the sensor data are
   obtained in between *)
Definition build_inverse (o : quad_oracle R) (pb : problem) (k : kind) (loss : pyfun R) (i : settings) (cells : list (cell R)) (bd : bdict R)
    (sensors : result (list (R * R) * mat R)) : result (model R) :=
  do sp <- make_space o (space_config i) cells bd (pb_bound pb) false;
  do h <- make_handler sp (pb_rhs pb) true;
  do dir <- get_dirichlet_input bd (pb_bound pb);
  do sd <- sensors;
  do _ <- construct k true (Some (length cells)) (i_rates i) (i_architecture i) (i_attention i);
  Ok (model_of h dir sd loss (length cells)).
(* numpy.c_ of columns of one length and Geometry_2D.write_vtk, main_inverse.py:361-367 *)
Definition write_columns (fmt : R -> string) (g : geom R) (cols : list (list R)) (path : string) (names : list string) (fs : files) : result files :=
  let len := length (nth 0 cols []) in
  if negb (forallb (fun c => Nat.eqb (length c) len) cols) then Err ValueError
  else
    let rows := map (fun k => map (fun c => nth k c 0) cols) (seq 0 len) in
    let (x, fs') := write_vtk fmt g fs rows (length cols) path names in
    do _ <- x; Ok fs'.
(* contour plots of several tables of values at the test points, main_inverse.py:334-358 *)
Fixpoint plot_all (i : settings) (pts : list (R * R)) (zs : list (list R)) : result unit :=
  match zs with
  | [] => Ok tt
  | z :: r => do a <- contour_args (i_ntx i) (i_nty i) pts z; do _ <- plot_contour a; plot_all i pts r
  end.
(* The values as they are when saved with numpy.savetxt: reshaped for an internal mesh, else one per line.
   The scripts reshape before they subtract; the entries are the same *)
Definition saved_table (i : settings) (l : list R) : result (mat R) :=
  if String.eqb (i_method i) "internal" then np_reshape (Z.to_nat (i_ntx i)) (Z.to_nat (i_nty i)) l else Ok (as_column l).
Definition params_of (pb : problem) : pdict R := Some (params_as_tensors (fun r => r) (pb_params pb)).
Definition at_all (f : R -> R -> R) (pts : list (R * R)) : list R := map (fun p => f (fst p) (snd p)) pts.

(* ---------- const_inverse_poisson2d/main_inverse.py ---------- *)
Record const_report := {
  c_loss : list (list R);            (* loss_function.txt *)
  c_params : list R;                 (* inverse_params.txt *)
  c_test : list npfloat;             (* the curve of the test loss *)
  c_errors : errors6;                (* table "Error Values" *)
  c_pred : mat R;                    (* prediction.txt *)
  c_exact : list R;                  (* exact.txt *)
  c_error : mat R;                   (* error.txt *)
  c_saved : nat;                     (* model_weights: the weights after so many steps *)
  c_points : list (R * R);           (* test_points *)
  c_files : files                    (* the .vtk files *)
}.
(* main_inverse.py:168-171: get_sensor_data is called without file_name, pandas.read_csv(None) is a ValueError *)
Definition const_sensors (pb : problem) (i : settings) (mesh_points : list (R * R)) (lhs : nat -> list (R * R)) (sensors : nat)
    : result (list (R * R) * mat R) :=
  handler_sensor_data (i_method i) (get_sensor_data mesh_points lhs (pb_exact pb) sensors) (Err ValueError).
(* main_inverse.py:259-270: one training step; the parameter is read off after the update *)
Definition const_step (pb : problem) (i : settings) (m : model R) (weights : nat -> net) (params : nat -> list (string * R)) (t : nat)
    : result (losses R * R) :=
  do L <- train_inverse m (network_of (weights t)) (i_beta i) (params_of pb) (Some (params t));
  do v <- dget String.eqb (params (S t)) "eps"%string;
  Ok (L, v).
Definition predict_all (weights : nat -> net) (pts : list (R * R)) (t : nat) : result (list R) :=
  do y <- nn_out (network_of (weights t)) pts; Ok (concat y).
(* The plots or the file of a prediction, main_inverse.py:334-367 *)
Definition show_const (fmt : R -> string) (g : geom R) (i : settings) (pts : list (R * R)) (exact : list R) (path : string) (pred err : list R) (fs : files)
    : result files :=
  if String.eqb (i_method i) "internal" then do _ <- plot_all i pts [pred; err]; Ok fs
  else write_columns fmt g [pred; exact; err] path vtk_names fs.
(* main_inverse.py:277-367 *)
Definition const_due (fmt : R -> string) (g : geom R) (i : settings) (weights : nat -> net) (pts : list (R * R)) (exact : list R)
    (t : nat) (x : losses R * R) (fs : files) : result (npfloat * files) :=
  do pred <- predict_all weights pts (S t);
  do errs <- compute_errors_combined (arr exact) (arr pred);
  do _ <- as_float (l_dirichlet (fst x));
  do _ <- as_float (l_total (fst x));
  do _ <- as_float (l_sensor (fst x));
  let '(_, _, _, _, l1, _) := errs in
  do d <- np_subtract exact pred;
  do fs' <- show_const fmt g i pts exact (vtk_path i t) pred (np_abs d) fs;
  Ok (l1, fs').
Definition final_path (i : settings) : string := (i_output_path i ++ "/" ++ "final_prediction.vtk")%string.
(* main_inverse.py:41-482 *)
Definition run_const (e : numpy R) (lhs1 : nat -> nat -> list R) (lhs2 : nat -> nat -> list (R * R)) (lhs : nat -> list (R * R)) (o : quad_oracle R)
    (file : string -> result (mesh_file R)) (template : string) (vtk : result (list (list R))) (fmt : R -> string) (times : result unit)
    (pb : problem) (i : settings) (sensors : nat) (weights : nat -> net) (params : nat -> list (string * R)) (fs : files) : result const_report :=
  do mesh <- make_mesh e lhs1 lhs2 file template i fs;
  let '(cells, bd, mesh_points, g, fs') := mesh in
  do m <- build_inverse o pb Inverse pde_loss_poisson_inverse i cells bd (const_sensors pb i mesh_points lhs sensors);
  do pts <- get_test_points g vtk;
  let exact := at_all (pb_exact pb) pts in
  do _ <- (if String.eqb (i_method i) "internal" then plot_all i pts [exact] else Ok tt);
  do h <- run_epochs (const_step pb i m weights params) (const_due fmt g i weights pts exact) (i_epochs i) (i_update i) fs';
  let n := Z.to_nat (i_epochs i) in
  (* after the loop *)
  do pred <- predict_all weights pts n;
  do errs <- compute_errors_combined (arr exact) (arr pred);
  do d <- np_subtract exact pred;
  do fs'' <- show_const fmt g i pts exact (final_path i) pred (np_abs d) (hy_files h);
  do _ <- times;
  do sp <- saved_table i pred;
  do se <- saved_table i (np_abs d);
  Ok {| c_loss := map (fun x => l_total (fst x)) (hy_steps h); c_params := map snd (hy_steps h); c_test := hy_reports h; c_errors := errs;
        c_pred := sp; c_exact := exact; c_error := se; c_saved := n; c_points := pts; c_files := fs'' |}.

(* ---------- domain_inverse_cd2d ---------- *)
(* What differs between the two scripts: the problem file and where the sensor data and the exact solution
   come from *)
Record domain_script := {
  ds_problem : problem;
  ds_actual : R -> R -> list (string * R);       (* get_inverse_params_actual_dict *)
  ds_file : bool                                 (* from the file sensor_data_file *)
}.
Definition main_domain_circle : domain_script := {| ds_problem := circle_inverse; ds_actual := circle_actual; ds_file := true |}.
Definition main_domain_usa : domain_script := {| ds_problem := usa_inverse; ds_actual := usa_actual; ds_file := false |}.
(* The random choices: pyDOE's lhs, np.random.randint, tf.random.shuffle *)
Record chance := { ch_lhs : nat -> list (R * R); ch_index : nat -> nat -> list nat; ch_shuffle : list (R * R) -> list (R * R) }.
(* main_inverse_domain_circle.py:166-174, main_inverse_domain_usa.py:166-172.  [csv] are the first three
   columns of the file *)
Definition domain_sensors (ds : domain_script) (i : settings) (mesh_points : list (R * R)) (g : geom R) (vtk : result (list (list R)))
    (csv : result (list (R * R * R))) (ch : chance) (sensors : nat) : result (list (R * R) * mat R) :=
  if ds_file ds then
    handler_sensor_data (i_method i) (get_sensor_data mesh_points (ch_lhs ch) (pb_exact (ds_problem ds)) sensors)
      (do rows <- csv; get_sensor_data_external rows (ch_index ch) sensors)
  else
    do pts <- get_test_points g vtk;
    let s := firstn sensors (ch_shuffle ch pts) in
    Ok (s, as_column (at_all (pb_exact (ds_problem ds)) s)).
(* main_inverse_domain_circle.py:212-214, main_inverse_domain_usa.py:211 *)
Definition domain_exact (ds : domain_script) (csv : result (list (R * R * R))) (pts : list (R * R)) : result (list R) :=
  if ds_file ds then do rows <- csv; Ok (map snd rows) else Ok (at_all (pb_exact (ds_problem ds)) pts).
(* main_inverse_domain_circle.py:231-236 *)
Definition actual_eps (ds : domain_script) (pts : list (R * R)) : result (list R) :=
  mapM (fun p => dget String.eqb (ds_actual ds (fst p) (snd p)) "eps"%string) pts.
Definition domain_step (ds : domain_script) (i : settings) (m : model R) (weights : nat -> net) (t : nat) : result (losses R) :=
  train_inverse_domain m (network_of (weights t)) (i_beta i) (params_of (ds_problem ds)).
(* The variables of a report that live on: the errors of the solution and of the parameter, both
   predictions and both error tables *)
Record domain_state := { dr_errors : errors6; dr_inverse : errors6; dr_pred : list R; dr_inv : list R; dr_error : list R; dr_inverror : list R }.
Definition vtk_names6 : list string := ["Sol"; "Exact"; "Error"; "Inv"; "ExactInv"; "InvError"]%string.
(* main_inverse_domain_circle.py:283-425 *)
Definition domain_due (fmt : R -> string) (g : geom R) (i : settings) (weights : nat -> net) (pts : list (R * R)) (exact eps : list R)
    (t : nat) (L : losses R) (fs : files) : result (domain_state * files) :=
  do y <- nn_out (network_of (weights (S t))) pts;
  do pred <- column y 0;
  do inv <- column y 1;
  do errs <- compute_errors_combined (arr exact) (arr pred);
  do ierrs <- compute_errors_combined (arr eps) (arr inv);
  do _ <- as_float (l_dirichlet L);
  do _ <- as_float (l_sensor L);
  do _ <- as_float (l_total L);
  do d <- np_subtract exact pred;
  do di <- np_subtract eps inv;
  do fs' <- (if String.eqb (i_method i) "internal" then do _ <- plot_all i pts [pred; np_abs d; inv; np_abs di]; Ok fs
             else write_columns fmt g [pred; exact; np_abs d; inv; eps; np_abs di] (vtk_path i t) vtk_names6 fs);
  Ok ({| dr_errors := errs; dr_inverse := ierrs; dr_pred := pred; dr_inv := inv; dr_error := np_abs d; dr_inverror := np_abs di |}, fs').
Record domain_report := {
  d_loss : list (list R);            (* loss_function.txt *)
  d_sensor : list (list R);          (* sensor_loss.txt *)
  d_test : list npfloat;             (* test_loss_array *)
  d_itest : list npfloat;            (* inverse_test_loss_array *)
  d_errors : errors6;                (* table "Error Values" *)
  d_pred : mat R; d_exact : list R; d_error : mat R;   (* prediction.txt, exact.txt, error.txt *)
  d_inv : mat R; d_inverror : mat R;                   (* inverse_prediction.txt, inverse_error.txt *)
  d_saved : nat; d_points : list (R * R); d_files : files
}.
Definition l1_of (e : errors6) : npfloat := let '(_, _, _, _, l1, _) := e in l1.
(* main_inverse_domain_circle.py:39-483, main_inverse_domain_usa.py:39-479 *)
Definition run_domain (e : numpy R) (lhs1 : nat -> nat -> list R) (lhs2 : nat -> nat -> list (R * R)) (ch : chance) (o : quad_oracle R)
    (file : string -> result (mesh_file R)) (csv : result (list (R * R * R))) (template : string) (vtk : result (list (list R))) (fmt : R -> string)
    (times : result unit) (ds : domain_script) (i : settings) (sensors : nat) (weights : nat -> net) (fs : files) : result domain_report :=
  do mesh <- make_mesh e lhs1 lhs2 file template i fs;
  let '(cells, bd, mesh_points, g, fs') := mesh in
  do m <- build_inverse o (ds_problem ds) Domain pde_loss_cd2d_inverse_domain i cells bd (domain_sensors ds i mesh_points g vtk csv ch sensors);
  do pts <- get_test_points g vtk;
  do exact <- domain_exact ds csv pts;
  do _ <- (if String.eqb (i_method i) "internal" then plot_all i pts [exact] else Ok tt);
  do eps <- actual_eps ds pts;
  do h <- run_epochs (domain_step ds i m weights) (domain_due fmt g i weights pts exact eps) (i_epochs i) (i_update i) fs';
  (* the variables of the last report: a NameError if there was none *)
  match rev (hy_reports h) with
  | [] => Err NameError
  | x :: _ =>
      do _ <- times;
      do sp <- saved_table i (dr_pred x);
      do se <- saved_table i (dr_error x);
      do si <- saved_table i (dr_inv x);
      do sie <- saved_table i (dr_inverror x);
      Ok {| d_loss := map (fun L => l_total L) (hy_steps h); d_sensor := map (fun L => l_sensor L) (hy_steps h);
            d_test := map (fun x => l1_of (dr_errors x)) (hy_reports h); d_itest := map (fun x => l1_of (dr_inverse x)) (hy_reports h);
            d_errors := dr_errors x; d_pred := sp; d_exact := exact; d_error := se; d_inv := si; d_inverror := sie;
            d_saved := Z.to_nat (i_epochs i); d_points := pts; d_files := hy_files h |}
  end.
