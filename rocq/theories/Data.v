(* Model of data/datahandler2d.py. *)
From Coq Require Import String ZArith List Arith Bool.
From Verif Require Import Num Py Jacobi Quadrature Basis Transform Cell Space Tensor.
Import ListNotations.

Section Data.
Context {A : Type} `{Num A}.

Record handler := {
  h_val : list (mat A);        (* shape_val_mat_list, (n_cells, n_test, n_quad) *)
  h_gx : list (mat A);
  h_gy : list (mat A);
  h_x : list (A * A);          (* x_pde_list, (n_cells * n_quad, 2) *)
  h_force : mat A              (* forcing_function_list, (n_test, n_cells) *)
}.

(* Body of the loop datahandler2d.py:79-99 for one cell *)
Definition cell_tensors (s : space A) (f : A -> A -> A) (i : nat)
  : result (mat A * mat A * mat A * list (A * A) * mat A) :=
  let c := Z.of_nat i in
  do v <- get_shape_function_val s c;
  do gx <- get_shape_function_grad_x s c;
  do gy <- get_shape_function_grad_y s c;
  do x <- get_quadrature_actual_coordinates s c;
  do b <- get_forcing_function_values s f c;
  Ok (v, gx, gy, x, b).

(* datahandler2d.py:45-112.  [dtype_ok] is isinstance(dtype, tf.DType); [f] the forcing
   function stored in the space. Simplification: conversion to a narrower dtype does not
   round (Num.v). *)
Definition make_handler (s : space A) (f : A -> A -> A) (dtype_ok : bool) : result handler :=
  if negb dtype_ok then Err TypeError                                     (* 76-77 *)
  else
    do l <- mapM (cell_tensors s f) (seq 0 (length (sp_cells s)));        (* 79-99 *)
    do x <- pack_points (map (fun t => snd (fst t)) l);                   (* 103 *)
    do b <- concat1 (map snd l);                                          (* 105 *)
    do v <- stack0 (map (fun t => fst (fst (fst (fst t)))) l);            (* 107 *)
    do gx <- stack0 (map (fun t => snd (fst (fst (fst t)))) l);           (* 108 *)
    do gy <- stack0 (map (fun t => snd (fst (fst t))) l);                 (* 109 *)
    Ok {| h_val := v; h_gx := gx; h_gy := gy; h_x := x; h_force := b |}.

(* datahandler2d.py:114-129; the space recomputes its Dirichlet data *)
Definition get_dirichlet_input (bp : bdict A) (bf : bfun A) : result (list (A * A) * mat A) :=
  do xy <- dirichlet_data bp bf;
  Ok (fst xy, as_column (snd xy)).

(* datahandler2d.py:167-198: an unknown mesh type leaves [points] unbound *)
Definition handler_sensor_data (mesh_type : string) (internal external : result (list (A * A) * list A))
  : result (list (A * A) * mat A) :=
  do pv <- (if String.eqb mesh_type "internal" then internal
            else if String.eqb mesh_type "external" then external
            else Err UnboundLocalError);
  Ok (fst pv, as_column (snd pv)).

(* datahandler2d.py:142-164 and 201-217: the values of the returned dictionary are
   replaced in place, keys and order unchanged. [conv] is tf.constant(_, dtype). *)
Definition params_as_tensors {V W} (conv : V -> W) (d : list (string * V)) : list (string * W) :=
  map (fun kv => (fst kv, conv (snd kv))) d.

End Data.
Arguments handler : clear implicits.
