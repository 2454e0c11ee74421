(* The example scripts with the optimizer of Optim.v: Driver.v and DriverInverse.v take the weights after
   t training steps as an input, here they are those that the scripts' own training steps produce from
   the initial network [nt] (Keras initialises the kernels at random, so nt is arbitrary).
   Where the construction of the model fails, or a training step, the script ends with that error and the
   weights are never looked at; they are filled up with nt. *)
From Coq Require Import String ZArith List Arith Bool Reals.
From Verif Require Import Num Py Jacobi Quadrature Basis Transform Cell Space Tensor Data Physics Train Geometry Nets Metrics Problems Driver DriverInverse Optim.
Import ListNotations.
Local Open Scope R_scope.

(* The trainable variables before step t; w0 at the beginning *)
Definition variables_at (rate : result (nat -> R)) (f : list R -> result (losses R)) (w0 : list R) (t : nat) : list R :=
  match rate with
  | Ok r => match trained r f w0 t with Ok s => snd s | Err _ => w0 end
  | Err _ => w0
  end.
Definition from_model {T} (m : result (model R)) (k : model R -> T) (d : T) : T := match m with Ok m => k m | Err _ => d end.

(* ---------- forward scripts ---------- *)
(* The losses of a training step of the script as a function of the weights,
   main_poisson2d.py:211, model/model.py:196-322 *)
Definition forward_at (sc : script) (pb : problem) (i : settings) (m : model R) (nt : net) (w : list R) : result (losses R) :=
  train_step sc m (the_network sc (with_weights nt w)) (i_beta i) (Some (params_as_tensors (fun r => r) (pb_params pb))).
Definition forward_weights (sc : script) (pb : problem) (i : settings) (nt : net) (m : result (model R)) : nat -> net :=
  from_model m (fun m t => with_weights nt (variables_at (learning_rate (sc_kind sc) (i_rates i)) (forward_at sc pb i m nt) (weights_of nt) t)) (fun _ => nt).
(* The model a script builds, on an internal mesh and on a mesh file (see run_internal, run_external) *)
Definition internal_model (e : numpy R) (lhs1 : nat -> nat -> list R) (o : quad_oracle R) (pb : problem) (sc : script) (i : settings) : result (model R) :=
  do mesh <- generate_quad_mesh_internal e lhs1 (i_xlim i) (i_ylim i) (i_ncx i) (i_ncy i) (i_nb i);
  let '(cells, _, bd) := mesh in build o pb sc i cells bd.
Definition external_model (e : numpy R) (lhs2 : nat -> nat -> list (R * R)) (o : quad_oracle R) (file : string -> result (mesh_file R)) (pb : problem)
    (sc : script) (i : settings) : result (model R) :=
  do mesh <- read_mesh e lhs2 file (i_mesh_file i) (i_level i) (i_sampling i) (sc_refinement sc i);
  build o pb sc i (fst mesh) (boundary_xy (snd mesh)).
Definition train_internal (e : numpy R) (lhs1 : nat -> nat -> list R) (o : quad_oracle R) (template : string) (vtk : result (list (list R)))
    (pb : problem) (sc : script) (i : settings) (nt : net) (fs : files) : result report :=
  run_internal e lhs1 o template vtk pb sc i (forward_weights sc pb i nt (internal_model e lhs1 o pb sc i)) fs.
Definition train_external (e : numpy R) (lhs2 : nat -> nat -> list (R * R)) (o : quad_oracle R) (file : string -> result (mesh_file R))
    (template : string) (vtk : result (list (list R))) (fmt : R -> string) (pb : problem) (sc : script) (i : settings) (nt : net) (fs : files) : result report :=
  run_external e lhs2 o file template vtk fmt pb sc i (forward_weights sc pb i nt (external_model e lhs2 o file pb sc i)) fs.

(* ---------- inverse scripts ---------- *)
Definition const_model (e : numpy R) (lhs1 : nat -> nat -> list R) (lhs2 : nat -> nat -> list (R * R)) (lhs : nat -> list (R * R)) (o : quad_oracle R)
    (file : string -> result (mesh_file R)) (template : string) (pb : problem) (i : settings) (sensors : nat) (fs : files) : result (model R) :=
  do mesh <- make_mesh e lhs1 lhs2 file template i fs;
  let '(cells, bd, mesh_points, g, fs') := mesh in
  build_inverse o pb Inverse pde_loss_poisson_inverse i cells bd (const_sensors pb i mesh_points lhs sensors).
Definition const_at (pb : problem) (i : settings) (m : model R) (nt : net) (ip : list (string * R)) : list R -> result (losses R) :=
  inverse_at m nt (i_beta i) (params_of pb) ip.
(* Weights and inverse parameters; [ip] is inverse_params_dict, the initial guess (main_inverse.py:190-202) *)
Definition const_variables (pb : problem) (i : settings) (nt : net) (ip : list (string * R)) (m : result (model R)) : nat -> list R :=
  from_model m (fun m => variables_at (learning_rate Inverse (i_rates i)) (const_at pb i m nt ip) (variables nt ip)) (fun _ => variables nt ip).
Definition train_const (e : numpy R) (lhs1 : nat -> nat -> list R) (lhs2 : nat -> nat -> list (R * R)) (lhs : nat -> list (R * R)) (o : quad_oracle R)
    (file : string -> result (mesh_file R)) (template : string) (vtk : result (list (list R))) (fmt : R -> string) (times : result unit)
    (pb : problem) (i : settings) (sensors : nat) (nt : net) (ip : list (string * R)) (fs : files) : result const_report :=
  let x := const_variables pb i nt ip (const_model e lhs1 lhs2 lhs o file template pb i sensors fs) in
  run_const e lhs1 lhs2 lhs o file template vtk fmt times pb i sensors (fun t => with_weights nt (x t)) (fun t => params_at nt ip (x t)) fs.

Definition domain_model (e : numpy R) (lhs1 : nat -> nat -> list R) (lhs2 : nat -> nat -> list (R * R)) (ch : chance) (o : quad_oracle R)
    (file : string -> result (mesh_file R)) (csv : result (list (R * R * R))) (template : string) (vtk : result (list (list R))) (ds : domain_script) (i : settings)
    (sensors : nat) (fs : files) : result (model R) :=
  do mesh <- make_mesh e lhs1 lhs2 file template i fs;
  let '(cells, bd, mesh_points, g, fs') := mesh in
  build_inverse o (ds_problem ds) Domain pde_loss_cd2d_inverse_domain i cells bd (domain_sensors ds i mesh_points g vtk csv ch sensors).
Definition domain_weights (ds : domain_script) (i : settings) (nt : net) (m : result (model R)) : nat -> net :=
  from_model m (fun m t => with_weights nt
    (variables_at (learning_rate Domain (i_rates i)) (domain_at m nt (i_beta i) (params_of (ds_problem ds))) (weights_of nt) t)) (fun _ => nt).
Definition train_domain (e : numpy R) (lhs1 : nat -> nat -> list R) (lhs2 : nat -> nat -> list (R * R)) (ch : chance) (o : quad_oracle R)
    (file : string -> result (mesh_file R)) (csv : result (list (R * R * R))) (template : string) (vtk : result (list (list R))) (fmt : R -> string)
    (times : result unit) (ds : domain_script) (i : settings) (sensors : nat) (nt : net) (fs : files) : result domain_report :=
  run_domain e lhs1 lhs2 ch o file csv template vtk fmt times ds i sensors
    (domain_weights ds i nt (domain_model e lhs1 lhs2 ch o file csv template vtk ds i sensors fs)) fs.
