(* Model of the training step of model/model.py, model_hard.py, model_inverse.py and
   model_inverse_domain.py: everything up to the three losses.  The update of the
   weights by the optimizer is in Optim.v. *)
From Coq Require Import String ZArith List Arith Bool.
From Verif Require Import Num Py Basis Tensor Data Physics.
Import ListNotations.

Section Train.
Context {A : Type} `{Num A}.
Local Open Scope num_scope.

(* The network with its current weights. [nn_out] is self(batch), one row of outputs per
   input row; [nn_grad None] is tape.gradient(self(batch), batch), the gradient of the
   sum of all outputs, [nn_grad (Some j)] that of output column j. *)
Record network := {
  nn_out : list (A * A) -> result (mat A);
  nn_grad : option nat -> list (A * A) -> list (A * A)
}.

(* The tensors stored by the constructors, e.g. model/model.py:77-96, 123 *)
Record model := {
  m_val : list (mat A); m_gx : list (mat A); m_gy : list (mat A);   (* pre_multiplier_* *)
  m_x : list (A * A);                                               (* input_tensor *)
  m_dir_in : list (A * A); m_dir_act : mat A;                       (* dirichlet_* *)
  m_force : mat A;                                                  (* force_matrix *)
  m_cells : nat;                                                    (* params_dict["n_cells"] *)
  m_loss : pyfun A;                                                 (* loss_function *)
  m_sensor_in : list (A * A); m_sensor_act : mat A                  (* inverse models only *)
}.

(* t.shape[-1] of a rank-3 tensor *)
Definition last_dim (t : list (mat A)) : nat := match t with [] => 0 | m :: _ => width m end.

(* The keyword arguments common to all calls, e.g. model/model.py:279-288 *)
Definition base_kwargs (m : model) (u ux uy : mat A) (bp : pdict A) : list (string * pyval A) :=
  [("test_shape_val_mat", VT3 (m_val m)); ("test_grad_x_mat", VT3 (m_gx m));
   ("test_grad_y_mat", VT3 (m_gy m)); ("pred_nn", VMat u); ("pred_grad_x_nn", VMat ux);
   ("pred_grad_y_nn", VMat uy); ("forcing_function", VMat (m_force m));
   ("bilinear_params", VDict bp)]%string.

(* Reshaped predictions, e.g. model/model.py:265-277 *)
Definition predictions (m : model) (vals : list A) (grads : list (A * A))
  : result (mat A * mat A * mat A) :=
  do ux <- reshape (m_cells m) (last_dim (m_gx m)) (map fst grads);
  do uy <- reshape (m_cells m) (last_dim (m_gy m)) (map snd grads);
  do u <- reshape (m_cells m) (last_dim (m_val m)) vals;
  Ok (u, ux, uy).

(* tf.reduce_mean(tf.square(pred - actual), axis=0) *)
Definition data_loss (pred actual : mat A) : result (list A) :=
  do d <- bc2 nsub pred actual; Ok (reduce_mean0 (msquare d)).

Record losses := { l_pde : A; l_dirichlet : list A; l_sensor : list A; l_total : list A }.

(* model/model.py:238-307 *)
Definition train_standard (m : model) (nn : network) (beta : A) (bp : pdict A) : result losses :=
  do pd <- nn_out nn (m_dir_in m);
  do out <- nn_out nn (m_x m);
  do p <- predictions m (concat out) (nn_grad nn None (m_x m));
  let '(u, ux, uy) := p in
  do cells <- call_kw (m_loss m) (base_kwargs m u ux uy bp);
  let pde := n0 + vsum cells in
  do bl <- data_loss pd (m_dir_act m);
  Ok {| l_pde := pde; l_dirichlet := bl; l_sensor := [];
        l_total := map (fun b => pde + beta * b) bl |}.

(* model/model_hard.py:259-330 *)
Definition train_hard (m : model) (nn : network) (beta : A) (bp : pdict A) : result losses :=
  do out <- nn_out nn (m_x m);
  do p <- predictions m (concat out) (nn_grad nn None (m_x m));
  let '(u, ux, uy) := p in
  do cells <- call_kw (m_loss m) (base_kwargs m u ux uy bp);
  let pde := n0 + vsum cells in
  Ok {| l_pde := pde; l_dirichlet := [n0]; l_sensor := []; l_total := [pde] |}.

(* pde + beta * bl + 10 * sl, model/model_inverse.py:326 *)
Definition inverse_total (pde beta : A) (bl sl : list A) : result (list A) :=
  bc1 nadd (map (fun b => pde + beta * b) bl) (map (fun s => nofZ 10 * s) sl).

(* model/model_inverse.py:253-338; [ip] is self.inverse_params_dict *)
Definition train_inverse (m : model) (nn : network) (beta : A) (bp ip : pdict A) : result losses :=
  do pd <- nn_out nn (m_dir_in m);
  do ps <- nn_out nn (m_sensor_in m);
  do out <- nn_out nn (m_x m);
  do p <- predictions m (concat out) (nn_grad nn None (m_x m));
  let '(u, ux, uy) := p in
  do cells <- call_kw (m_loss m) (base_kwargs m u ux uy bp ++ [("inverse_params_dict"%string, VDict ip)]);
  let pde := n0 + vsum cells in
  do bl <- data_loss pd (m_dir_act m);
  do sl <- data_loss ps (m_sensor_act m);
  do tot <- inverse_total pde beta bl sl;
  Ok {| l_pde := pde; l_dirichlet := bl; l_sensor := sl; l_total := tot |}.

(* model/model_inverse_domain.py:242-342: output column 0 is u, column 1 the parameter *)
Definition train_inverse_domain (m : model) (nn : network) (beta : A) (bp : pdict A) : result losses :=
  do pd <- nn_out nn (m_dir_in m);
  do pd0 <- column pd 0;
  do ps <- nn_out nn (m_sensor_in m);
  do ps0 <- column ps 0;
  do out <- nn_out nn (m_x m);
  do vals <- column out 0;
  do inv <- column out 1;
  do p <- predictions m vals (nn_grad nn (Some 0) (m_x m));
  let '(u, ux, uy) := p in
  do ipv <- reshape (m_cells m) (last_dim (m_val m)) inv;
  do cells <- call_kw (m_loss m) (base_kwargs m u ux uy bp ++ [("inverse_params_list"%string, VList [ipv])]);
  let pde := n0 + vsum cells in
  do bl <- data_loss (as_column pd0) (m_dir_act m);
  do sl <- data_loss (as_column ps0) (m_sensor_act m);
  do tot <- inverse_total pde beta bl sl;
  Ok {| l_pde := pde; l_dirichlet := bl; l_sensor := sl; l_total := tot |}.

(* A model built from a data handler as in the examples, e.g.
   examples/forward_problems_2d/.../main_poisson2d.py: orig_factor_matrices =
   [shape_val, grad_x, grad_y], input_tensors_list = [x_pde, dirichlet_input,
   dirichlet_actual], force_function_list = forcing. [n] is params_dict["n_cells"]. *)
Definition model_of (h : handler A) (dir sensor : list (A * A) * mat A) (loss : pyfun A) (n : nat) : model :=
  {| m_val := h_val h; m_gx := h_gx h; m_gy := h_gy h; m_x := h_x h;
     m_dir_in := fst dir; m_dir_act := snd dir; m_force := h_force h; m_cells := n;
     m_loss := loss; m_sensor_in := fst sensor; m_sensor_act := snd sensor |}.

End Train.
Arguments network : clear implicits.
Arguments model : clear implicits.
Arguments losses : clear implicits.
