(* Model of the weights that the constructors give to a network.
   Keras initializers by their documentation: glorot_uniform draws from [-limit, limit] with
   limit = sqrt(6 / (fan_in + fan_out)), the rows of the kernel being the inputs; zeros gives zeros.
   The random numbers [rnd layer row column], uniform in [0, 1], are arbitrary. *)
From Coq Require Import ZArith List Reals.
From Verif Require Import Num Py Basis Tensor Physics Train Nets.
Import ListNotations.
Local Open Scope R_scope.

Definition glorot_limit (fan_in fan_out : nat) : R := sqrt (6 / (INR fan_in + INR fan_out)).
Definition glorot_uniform (rnd : nat -> nat -> R) (n u : nat) : mat R :=
  map (fun i => map (fun j => - glorot_limit n u + 2 * glorot_limit n u * rnd i j) (seq 0 u)) (seq 0 n).
(* model/model.py:151-171, model_hard.py:172-192, model_inverse.py:163-183, model_inverse_domain.py:157-177;
   the kernels are made by build, layer after layer *)
Fixpoint init_layers (rnd : nat -> nat -> nat -> R) (l n : nat) (plan : list (nat * bool)) : list (bool * (mat R * list R)) :=
  match plan with
  | [] => []
  | (u, act) :: r => (act, (glorot_uniform (rnd l) n u, repeat 0 u)) :: init_layers rnd (S l) u r
  end.
(* model/model.py:151-179 *)
Definition initial (act : R -> R) (use_attention : bool) (rnd : nat -> nat -> nat -> R) (dims : list Z) : result net :=
  do plan <- layer_plan dims;
  do n <- input_width dims;
  Ok {| n_act := act; n_attention := use_attention; n_layers := init_layers rnd 0 n plan |}.
