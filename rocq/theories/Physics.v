(* Model of the files in physics/: the six loss functions, and their Python signatures. *)
From Coq Require Import String ZArith List Arith Bool.
From Verif Require Import Num Py Basis Tensor.
Import ListNotations.

Section Physics.
Context {A : Type} `{Num A}.
Local Open Scope num_scope.

(* A parameter dictionary; None is Python's None (the default of train_step), whose
   subscription is a TypeError. Simplification: values are scalars (rank 0). *)
Definition pdict := option (list (string * A)).
Definition pget (d : pdict) (k : string) : result A :=
  match d with None => Err TypeError | Some l => dget String.eqb l k end.

(* tf.transpose(tf.linalg.matvec(t, v)) *)
Definition tmv (t : list (mat A)) (v : mat A) : result (mat A) :=
  do m <- matvec t v; Ok (transpose m).

Definition mean_square (m : mat A) : list A := reduce_mean0 (msquare m).

(* physics/poisson2d.py:18-44 *)
Definition loss_poisson (V Gx Gy : list (mat A)) (u ux uy F : mat A) (bp : pdict) : result (list A) :=
  do dx <- tmv Gx ux;
  do dy <- tmv Gy uy;
  do eps <- pget bp "eps"%string;
  do d <- bc2 nadd dx dy;
  do r <- bc2 nsub (mscale eps d) F;
  Ok (mean_square r).

(* physics/poisson2d_inverse.py:18-67 *)
Definition loss_poisson_inverse (V Gx Gy : list (mat A)) (u ux uy F : mat A) (bp ip : pdict)
  : result (list A) :=
  do dx <- tmv Gx ux;
  do dy <- tmv Gy uy;
  do eps <- pget ip "eps"%string;
  do d <- bc2 nadd dx dy;
  do r <- bc2 nsub (mscale eps d) F;
  Ok (mean_square r).

(* The common tail of the convection-diffusion losses, e.g. physics/cd2d.py:62-82 *)
Definition cd_tail (V : list (mat A)) (u ux uy F diffusion : mat A) (bp : pdict) : result (list A) :=
  do cx <- tmv V ux;
  do cy <- tmv V uy;
  do b_x <- pget bp "b_x"%string;
  do b_y <- pget bp "b_y"%string;
  do conv <- bc2 nadd (mscale b_x cx) (mscale b_y cy);
  do c <- pget bp "c"%string;
  do vu <- tmv V u;
  do s <- bc2 nadd diffusion conv;
  do s2 <- bc2 nadd s (mscale c vu);
  do r <- bc2 nsub s2 F;
  Ok (mean_square r).

(* physics/cd2d.py:18-82 *)
Definition loss_cd2d (V Gx Gy : list (mat A)) (u ux uy F : mat A) (bp : pdict) : result (list A) :=
  do dx <- tmv Gx ux;
  do dy <- tmv Gy uy;
  do eps <- pget bp "eps"%string;
  do d <- bc2 nadd dx dy;
  cd_tail V u ux uy F (mscale eps d) bp.

(* physics/cd2d_inverse.py:18-86 *)
Definition loss_cd2d_inverse (V Gx Gy : list (mat A)) (u ux uy F : mat A) (bp ip : pdict)
  : result (list A) :=
  do dx <- tmv Gx ux;
  do dy <- tmv Gy uy;
  do eps <- pget ip "eps"%string;
  do d <- bc2 nadd dx dy;
  cd_tail V u ux uy F (mscale eps d) bp.

(* physics/cd2d_inverse_domain.py:18-90 *)
Definition loss_cd2d_inverse_domain (V Gx Gy : list (mat A)) (u ux uy F : mat A) (bp : pdict)
  (ipl : list (mat A)) : result (list A) :=
  match ipl with
  | [] => Err IndexError
  | eps :: _ =>
      do ex <- bc2 nmul ux eps;
      do dx <- tmv Gx ex;
      do ey <- bc2 nmul uy eps;
      do dy <- tmv Gy ey;
      do d <- bc2 nadd dx dy;
      cd_tail V u ux uy F d bp
  end.

(* physics/helmholtz2d.py:18-70 *)
Definition loss_helmholtz (V Gx Gy : list (mat A)) (u ux uy F : mat A) (bp : pdict) : result (list A) :=
  do dx <- tmv Gx ux;
  do dy <- tmv Gy uy;
  do eps <- pget bp "eps"%string;
  do d <- bc2 nadd dx dy;
  do k <- pget bp "k"%string;
  do vu <- tmv V u;
  do s <- bc2 nadd (mscale (nofZ (-1)) (mscale eps d)) (mscale (k * k) vu);
  do r <- bc2 nsub s F;
  Ok (mean_square r).

(* ---------- Python functions called with keyword arguments ---------- *)
Inductive pyval :=
| VT3 (t : list (mat A))        (* rank-3 tensor *)
| VMat (m : mat A)              (* rank-2 tensor *)
| VDict (d : pdict)             (* dictionary or None *)
| VList (l : list (mat A)).     (* Python list of rank-2 tensors *)

(* All parameters positional-or-keyword without defaults. *)
Record pyfun := { pf_params : list string; pf_body : (string -> result pyval) -> result (list A) }.

Definition mem_str (k : string) (l : list string) : bool := existsb (String.eqb k) l.
(* Call with keyword arguments only: an unexpected keyword or a missing argument is a TypeError *)
Definition call_kw (f : pyfun) (kw : list (string * pyval)) : result (list A) :=
  if andb (forallb (fun k => mem_str k (pf_params f)) (map fst kw))
          (forallb (fun p => mem_str p (map fst kw)) (pf_params f))
  then pf_body f (dget String.eqb kw)
  else Err TypeError.

Definition arg_t3 (r : result pyval) : result (list (mat A)) :=
  do v <- r; match v with VT3 t => Ok t | _ => Err TypeError end.
Definition arg_mat (r : result pyval) : result (mat A) :=
  do v <- r; match v with VMat t => Ok t | _ => Err TypeError end.
Definition arg_dict (r : result pyval) : result pdict :=
  do v <- r; match v with VDict t => Ok t | _ => Err TypeError end.
Definition arg_list (r : result pyval) : result (list (mat A)) :=
  do v <- r; match v with VList t => Ok t | _ => Err TypeError end.

Open Scope string_scope.
Definition base_params : list string :=
  ["test_shape_val_mat"; "test_grad_x_mat"; "test_grad_y_mat"; "pred_nn"; "pred_grad_x_nn";
   "pred_grad_y_nn"; "forcing_function"].
Definition with_base (body : list (mat A) -> list (mat A) -> list (mat A) -> mat A -> mat A -> mat A ->
    mat A -> (string -> result pyval) -> result (list A)) (env : string -> result pyval) : result (list A) :=
  do V <- arg_t3 (env "test_shape_val_mat");
  do Gx <- arg_t3 (env "test_grad_x_mat");
  do Gy <- arg_t3 (env "test_grad_y_mat");
  do u <- arg_mat (env "pred_nn");
  do ux <- arg_mat (env "pred_grad_x_nn");
  do uy <- arg_mat (env "pred_grad_y_nn");
  do F <- arg_mat (env "forcing_function");
  body V Gx Gy u ux uy F env.

(* Signatures: physics/poisson2d.py:18-27, cd2d.py:18-27, helmholtz2d.py:18-27,
   poisson2d_inverse.py:18-28, cd2d_inverse.py:18-28, cd2d_inverse_domain.py:18-28 *)
Definition forward_fun (loss : list (mat A) -> list (mat A) -> list (mat A) -> mat A -> mat A -> mat A ->
    mat A -> pdict -> result (list A)) : pyfun :=
  {| pf_params := base_params ++ ["bilinear_params"];
     pf_body := with_base (fun V Gx Gy u ux uy F env =>
       do bp <- arg_dict (env "bilinear_params"); loss V Gx Gy u ux uy F bp) |}.
Definition pde_loss_poisson : pyfun := forward_fun loss_poisson.
Definition pde_loss_cd2d : pyfun := forward_fun loss_cd2d.
Definition pde_loss_helmholtz : pyfun := forward_fun loss_helmholtz.
Definition pde_loss_poisson_inverse : pyfun :=
  {| pf_params := base_params ++ ["bilinear_params"; "inverse_params_dict"];
     pf_body := with_base (fun V Gx Gy u ux uy F env =>
       do bp <- arg_dict (env "bilinear_params");
       do ip <- arg_dict (env "inverse_params_dict"); loss_poisson_inverse V Gx Gy u ux uy F bp ip) |}.
(* cd2d_inverse.py names its last two parameters differently *)
Definition pde_loss_cd2d_inverse : pyfun :=
  {| pf_params := base_params ++ ["bilinear_params_dict"; "inverse_param_dict"];
     pf_body := with_base (fun V Gx Gy u ux uy F env =>
       do bp <- arg_dict (env "bilinear_params_dict");
       do ip <- arg_dict (env "inverse_param_dict"); loss_cd2d_inverse V Gx Gy u ux uy F bp ip) |}.
Definition pde_loss_cd2d_inverse_domain : pyfun :=
  {| pf_params := base_params ++ ["bilinear_params"; "inverse_params_list"];
     pf_body := with_base (fun V Gx Gy u ux uy F env =>
       do bp <- arg_dict (env "bilinear_params");
       do ipl <- arg_list (env "inverse_params_list");
       loss_cd2d_inverse_domain V Gx Gy u ux uy F bp ipl) |}.

End Physics.
Arguments pdict : clear implicits.
Arguments pyval : clear implicits.
Arguments pyfun : clear implicits.
