(* Model of hyperparameter_tuning/objective.py and optuna_tuner.py. *)
From Coq Require Import String ZArith List Arith Bool Reals.
From Verif Require Import Num Py Jacobi Quadrature Basis Transform Cell Space Tensor Data Physics Train Geometry Nets Metrics.
Import ListNotations.
Local Open Scope R_scope.

(* ---------- the search space ---------- *)
(* What the trial suggested, objective.py:36-66 *)
Record suggestion := {
  s_nx : Z; s_ny : Z; s_nb : Z;
  s_fe_order : Z; s_fe_type : string; s_quad_order : Z; s_quad_type : string;
  s_layers : list Z; s_lr : R; s_steps : Z; s_rate : R
}.
(* objective.py:36-62; optuna returns a value of the requested range *)
Record in_search_space (s : suggestion) : Prop := {
  ss_nx : (2 <= s_nx s <= 10)%Z; ss_ny : (2 <= s_ny s <= 10)%Z; ss_nb : (100 <= s_nb s <= 1000)%Z;
  ss_fe_order : (2 <= s_fe_order s <= 8)%Z; ss_fe_type : In (s_fe_type s) ["legendre"; "jacobi"]%string;
  ss_quad_order : (3 <= s_quad_order s <= 15)%Z; ss_quad_type : In (s_quad_type s) ["gauss-legendre"; "gauss-jacobi"]%string;
  ss_n_layers : (1 <= length (s_layers s) <= 5)%nat; ss_layers : forall w, In w (s_layers s) -> (10 <= w <= 100)%Z;
  ss_lr : / 100000 <= s_lr s <= / 100; ss_steps : (1000 <= s_steps s <= 10000)%Z; ss_rate : 9 / 10 <= s_rate s <= 99 / 100
}.
(* objective.py:48-55 *)
Definition architecture (s : suggestion) : list Z := ([2] ++ s_layers s ++ [1])%Z%list.
(* objective.py:57-64: there is no key "staircase" *)
Definition tuner_rates (s : suggestion) : lrdict :=
  [("initial_learning_rate", LNum (s_lr s)); ("use_lr_scheduler", LBool true);
   ("decay_steps", LNum (IZR (s_steps s))); ("decay_rate", LNum (s_rate s))]%string.
(* objective.py:92-100 *)
Definition tuner_config (s : suggestion) : config :=
  {| cf_cell_type := "quadrilateral"; cf_fe_order := s_fe_order s; cf_fe_type := s_fe_type s;
     cf_quad_order := s_quad_order s; cf_quad_type := s_quad_type s; cf_trafo := "bilinear" |}.

(* The functions of the user's problem file sin_cos.py *)
Record problem := {
  pb_bound : bfun R;                    (* get_boundary_function_dict() *)
  pb_rhs : R -> R -> R;
  pb_exact : R -> R -> R;               (* exact_solution *)
  pb_params : list (string * R)         (* get_bilinear_params_dict() *)
}.

(* objective.py:33-145 after the suggestions.  [weights t] are the network's weights after
   t training steps (initial weights and optimizer are not computed).  Creation of the
   output directory and GPU memory settings are not modelled; [lhs1], [e], [o] are pyDOE,
   numpy and the quadrature functions. *)
Definition objective (e : numpy R) (lhs1 : nat -> nat -> list R) (o : quad_oracle R) (pb : problem)
    (weights : nat -> net) (s : suggestion) (num_epochs : nat) : result npfloat :=
  do g <- make_geometry "quadrilateral" "internal" 100 100 "output_temp" true;       (* 83 *)
  let '(made, g', _) := call_internal e lhs1 "" g [] (0, 1) (0, 1) (s_nx s) (s_ny s) (s_nb s) in  (* 84-90 *)
  do mesh <- made;
  let '(cells, _, bd) := mesh in
  do sp <- make_space o (tuner_config s) cells bd (pb_bound pb) false;               (* 92-107 *)
  do h <- make_handler sp (pb_rhs pb) true;                                          (* 109 *)
  do dir <- get_dirichlet_input bd (pb_bound pb);                                    (* 112 *)
  let params := params_as_tensors (fun r => r) (pb_params pb) in                     (* 113 *)
  do _ <- construct Standard true (Some (length cells)) (tuner_rates s) (architecture s) false;  (* 115-131 *)
  let m := model_of h dir ([], []) pde_loss_poisson (length cells) in
  do _ <- mapM (fun t => train_standard m (network_of (weights t)) 10 (Some params)) (seq 0 num_epochs);  (* 134-137 *)
  do pts <- get_test_points g' (Err FileNotFoundError);                              (* 139 *)
  let exact := map (fun p => pb_exact pb (fst p) (snd p)) pts in                     (* 140 *)
  do pred <- nn_out (network_of (weights num_epochs)) pts;                           (* 141 *)
  let pred := concat pred in
  do errs <- compute_errors_combined {| a_shape := [length exact]; a_data := exact |}
                                     {| a_shape := [length pred]; a_data := pred |}; (* 143 *)
  let '(_, _, l2_rel, _, _, _) := errs in
  Ok l2_rel.

(* ---------- devices ---------- *)
(* optuna_tuner.py:43: trial.number % len(self.gpus) *)
Definition gpu_id (number : nat) (gpus : nat) : result nat :=
  match gpus with O => Err ZeroDivisionError | _ => Ok (number mod gpus)%nat end.
(* optuna_tuner.py:39-46 *)
Definition objective_wrapper {T} (gpus : nat) (run : nat -> result T) (number : nat) : result T :=
  do id <- gpu_id number gpus; run id.
(* optuna_tuner.py:54-56: study.optimize with n_jobs=min(len(self.gpus), self.n_jobs).
   optuna's Study.optimize: one job runs in the calling thread, -1 stands for the number
   of processors, otherwise a ThreadPoolExecutor with n_jobs workers, which refuses
   n_jobs <= 0. Result: the number of trials that may run at the same time. *)
Definition requested_jobs (gpus : nat) (n_jobs : Z) : Z := Z.min (Z.of_nat gpus) n_jobs.
Definition optimize_jobs (cpus : nat) (n_jobs : Z) : result nat :=
  if Z.eqb n_jobs (-1) then Ok cpus
  else if (n_jobs <=? 0)%Z then Err ValueError
  else Ok (Z.to_nat n_jobs).
Definition tuner_jobs (cpus gpus : nat) (n_jobs : Z) : result nat := optimize_jobs cpus (requested_jobs gpus n_jobs).
(* Trials run by [jobs] workers: numbers are given out in order, a trial may end at any
   time. A state holds the next number and the numbers of the running trials. *)
Inductive tuner_step (jobs : nat) : nat * list nat -> nat * list nat -> Prop :=
| Start : forall n l, (length l < jobs)%nat -> tuner_step jobs (n, l) (S n, n :: l)
| Finish : forall n l1 k l2, tuner_step jobs (n, l1 ++ k :: l2) (n, l1 ++ l2).
Inductive tuner_run (jobs : nat) (s : nat * list nat) : nat * list nat -> Prop :=
| Here : tuner_run jobs s s
| Later : forall s' s'', tuner_run jobs s s' -> tuner_step jobs s' s'' -> tuner_run jobs s s''.
