(* Model of hyperparameter_tuning/optuna_tuner.py around Tuner.v: the training of a trial with the
   optimizer of Optim.v, the study and what OptunaTuner.run returns.
   Optuna is modelled by its documentation: a trial whose objective returns nan is FAIL, any other number
   makes it COMPLETE, an exception of the objective ends optimize (catch=()), best_trial is a COMPLETE
   trial of the least value (the first one here) and a ValueError if there is none, trials that a
   stored study already has keep their numbers.  The suggestions of the sampler and the initial networks
   are arbitrary ([draws]).  Printing is not modelled. *)
From Coq Require Import String ZArith List Arith Bool Reals DecimalString.
From Verif Require Import Num Py Jacobi Quadrature Basis Transform Cell Space Tensor Data Physics Train Geometry Nets Metrics Tuner Optim.
From Verif Require Import Loop.
From Verif Require Driver.
Import ListNotations.
Local Open Scope R_scope.
Local Open Scope string_scope.

(* ---------- a trial ---------- *)
(* The set-up of objective.py:83-131 as in [objective] *)
Definition trial_model (e : numpy R) (lhs1 : nat -> nat -> list R) (o : quad_oracle R) (pb : Tuner.problem) (s : suggestion) : result (model R) :=
  do mesh <- generate_quad_mesh_internal e lhs1 (0, 1) (0, 1) (s_nx s) (s_ny s) (s_nb s);
  let '(cells, _, bd) := mesh in
  do sp <- make_space o (tuner_config s) cells bd (Tuner.pb_bound pb) false;
  do h <- make_handler sp (Tuner.pb_rhs pb) true;
  do dir <- get_dirichlet_input bd (Tuner.pb_bound pb);
  Ok (model_of h dir ([], []) pde_loss_poisson (length cells)).
(* objective.py:134-137 with the optimizer of model/model.py *)
Definition trial_weights (pb : Tuner.problem) (s : suggestion) (nt : net) (m : result (model R)) : nat -> net :=
  from_model m (fun m t => with_weights nt (variables_at (learning_rate Standard (tuner_rates s))
    (standard_at m nt 10 (Some (params_as_tensors (fun r => r) (Tuner.pb_params pb)))) (weights_of nt) t)) (fun _ => nt).
Record draw := { d_suggestion : suggestion; d_net : net }.
Definition train_trial (e : numpy R) (lhs1 : nat -> nat -> list R) (o : quad_oracle R) (pb : Tuner.problem) (num_epochs : nat) (d : draw) : result npfloat :=
  let s := d_suggestion d in
  objective e lhs1 o pb (trial_weights pb s (d_net d) (trial_model e lhs1 o pb s)) s num_epochs.

(* ---------- the study ---------- *)
Inductive pval := PInt (z : Z) | PStr (s : string) | PNum (r : R).
(* trial.params, in the order of the suggest_... calls, objective.py:33-63; n_layers comes before the
   layers because it is the argument of range *)
Definition layer_name (k : nat) : string := "layer_" ++ Driver.decimal k.
Definition params (s : suggestion) : list (string * pval) :=
  ([("n_cells_x", PInt (s_nx s)); ("n_cells_y", PInt (s_ny s)); ("n_boundary_points", PInt (s_nb s)); ("fe_order", PInt (s_fe_order s));
    ("fe_type", PStr (s_fe_type s)); ("quad_order", PInt (s_quad_order s)); ("quad_type", PStr (s_quad_type s));
    ("n_layers", PInt (Z.of_nat (length (s_layers s))))] ++
   combine (map layer_name (seq 0 (length (s_layers s)))) (map PInt (s_layers s)) ++
   [("initial_learning_rate", PNum (s_lr s)); ("decay_steps", PInt (s_steps s)); ("decay_rate", PNum (s_rate s))])%list.
(* A finished trial in the storage *)
Inductive frozen := Complete (value : npfloat) (ps : list (string * pval)) | Failed.
Definition tell (v : npfloat) (ps : list (string * pval)) : frozen := match v with NaN => Failed | _ => Complete v ps end.
(* value < best; infinity is allowed *)
Definition less (a b : npfloat) : bool :=
  match a, b with Fin x, Fin y => if Rlt_dec x y then true else false | Fin _, PosInf => true | _, _ => false end.
Fixpoint best_of (l : list frozen) (best : option (npfloat * list (string * pval))) : option (npfloat * list (string * pval)) :=
  match l with
  | [] => best
  | Failed :: r => best_of r best
  | Complete v ps :: r => best_of r (match best with Some b => if less v (fst b) then Some (v, ps) else best | None => Some (v, ps) end)
  end.
Definition best_trial (l : list frozen) : result (npfloat * list (string * pval)) :=
  match best_of l None with Some b => Ok b | None => Err ValueError end.
(* optuna_tuner.py:47-65; [stored] are the trials that fastvpinns_optuna.db already holds under the study's
   name (load_if_exists=True), n_trials is the number of draws *)
Definition tune (cpus gpus : nat) (n_jobs : Z) (e : numpy R) (lhs1 : nat -> nat -> list R) (o : quad_oracle R) (pb : Tuner.problem) (num_epochs : nat)
    (stored : list frozen) (draws : list draw) : result (list (string * pval)) :=
  do _ <- tuner_jobs cpus gpus n_jobs;
  do news <- mapM (fun kd => do v <- objective_wrapper gpus (fun _ => train_trial e lhs1 o pb num_epochs (snd kd)) (fst kd); Ok (tell v (params (d_suggestion (snd kd)))))
                  (combine (seq (length stored) (length draws)) draws);
  do best <- best_trial (stored ++ news)%list;
  Ok (snd best).
