(* What the numbers in loss_function.txt should be. *)
From Coq Require Import String ZArith List Reals.
From Verif Require Import Num Py Basis Transform Cell Space Tensor Data Physics Train Problems Driver DriverInverse Spec SpecGeom SpecTrain SpecWeak.
Import ListNotations.
Local Open Scope R_scope.

(* The discrete variational loss: for every cell the mean over the k * k test functions of the squared
   weak residual of - div (a grad u) + b . grad u + g u = f, where [rule] stands for the integral over the reference square *)
Definition discrete_loss (rule : (R -> R -> R) -> R) f U G a bx bn g (fam : family) (k : nat) (cells : list (cell R)) : R :=
  fold_right (fun c acc =>
    Sum (fun i => Sum (fun j => rule (weak_integrand f U G a bx bn g (RefMap "bilinear" c) (Phi fam i j)) ^ 2) k) k / INR (k * k) + acc) 0 cells.
(* points and prescribed values *)
Definition mean_gap (data : list (point * R)) (U : point -> R) : R :=
  fold_right (fun d acc => (U (fst d) - snd d) ^ 2 + acc) 0 data / INR (length data).
Definition boundary_data (bp : bdict R) (bf : bfun R) (data : list (point * R)) : Prop :=
  map fst data = concat (map snd bp) /\
  Forall2 (fun tag d => exists b, dget Z.eqb bf tag = Ok b /\ snd d = b (fst (fst d)) (snd (fst d))) (concat (map (fun tp => map (fun _ => fst tp) (snd tp)) bp)) data.

(* The equation - al laplace u + b . grad u + g u = f that a script is named after, and whether the boundary values
   are built into its network *)
Inductive script_pde : script -> list (string * R) -> R -> R -> R -> R -> bool -> Prop :=
| spde_uniform_poisson : forall d eps, has d "eps" eps -> script_pde main_uniform_poisson d eps 0 0 0 false
| spde_hard_poisson : forall d eps, has d "eps" eps -> script_pde main_hard_poisson d eps 0 0 0 true
| spde_complex_poisson : forall d eps, has d "eps" eps -> script_pde main_complex_poisson d eps 0 0 0 false
| spde_complex_cd : forall d eps b_x b_y c, has d "eps" eps -> has d "b_x" b_x -> has d "b_y" b_y -> has d "c" c ->
    script_pde main_complex_cd d eps b_x b_y c false
| spde_uniform_helmholtz : forall d eps k, has d "eps" eps -> has d "k" k -> script_pde main_uniform_helmholtz d (- eps) 0 0 (k ^ 2) false
| spde_complex_helmholtz : forall d eps k, has d "eps" eps -> has d "k" k -> script_pde main_complex_helmholtz d (- eps) 0 0 (k ^ 2) false.
