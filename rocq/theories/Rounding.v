(* The training step in floating-point arithmetic: the same functions of Tensor.v, Physics.v and
   Train.v, run with every operation rounded.
   Simplifications: exponents are unbounded (no overflow, underflow or nan); sums run in the order of
   [vsum], TensorFlow's order is not specified; the network's outputs and gradients are taken as they
   are (RoundNet.v rounds them too). *)
From Coq Require Import String ZArith List Reals.
From Flocq Require Import Core.
From Verif Require Import Num Py Basis Tensor Physics Train.
Import ListNotations.
Local Open Scope R_scope.

(* Every operation is the real one, rounded *)
Definition Num_rnd (rnd : R -> R) : Num R := {|
  nofZ := fun z => rnd (IZR z);
  nadd := fun x y => rnd (x + y);
  nsub := fun x y => rnd (x - y);
  nmul := fun x y => rnd (x * y);
  ndiv := fun x y => rnd (x / y);
  nopp := Ropp;
  nabs := Rabs;
  nleb := Rleb |}.
(* Rounding to nearest, ties to even, with [prec] bits *)
Definition nearest (prec : Z) (x : R) : R := round radix2 (FLX_exp prec) ZnearestE x.

(* tf.constant(..., dtype) of the tables, forcing, boundary and sensor values, data/datahandler2d.py:80-94,
   125-126, 192-193; the loss function is the one given *)
Definition cast_tables (rnd : R -> R) (m : model R) (loss : pyfun R) : model R :=
  let t3 := map (map (map rnd)) in let t2 := map (map rnd) in
  {| m_val := t3 (m_val m); m_gx := t3 (m_gx m); m_gy := t3 (m_gy m); m_x := m_x m;
     m_dir_in := m_dir_in m; m_dir_act := t2 (m_dir_act m); m_force := t2 (m_force m); m_cells := m_cells m;
     m_loss := loss; m_sensor_in := m_sensor_in m; m_sensor_act := t2 (m_sensor_act m) |}.
(* get_bilinear_params_dict_as_tensors, get_inverse_params, data/datahandler2d.py:145-165, 200-218 *)
Definition cast_params (rnd : R -> R) (d : list (string * R)) : list (string * R) := map (fun kv => (fst kv, rnd (snd kv))) d.

(* The four training steps with rounded operations on cast data; [loss] selects the loss function for
   given operations *)
Definition rounded_standard (rnd : R -> R) (m : model R) (loss : Num R -> pyfun R) (nn : network R) (beta : R) (d : list (string * R)) :=
  @train_standard R (Num_rnd rnd) (cast_tables rnd m (loss (Num_rnd rnd))) nn (rnd beta) (Some (cast_params rnd d)).
Definition rounded_hard (rnd : R -> R) (m : model R) (loss : Num R -> pyfun R) (nn : network R) (beta : R) (d : list (string * R)) :=
  @train_hard R (Num_rnd rnd) (cast_tables rnd m (loss (Num_rnd rnd))) nn (rnd beta) (Some (cast_params rnd d)).
Definition rounded_inverse (rnd : R -> R) (m : model R) (loss : Num R -> pyfun R) (nn : network R) (beta : R) (bp : pdict R) (ip : list (string * R)) :=
  @train_inverse R (Num_rnd rnd) (cast_tables rnd m (loss (Num_rnd rnd))) nn (rnd beta) (option_map (cast_params rnd) bp) (Some (cast_params rnd ip)).
Definition rounded_domain (rnd : R -> R) (m : model R) (loss : Num R -> pyfun R) (nn : network R) (beta : R) (d : list (string * R)) :=
  @train_inverse_domain R (Num_rnd rnd) (cast_tables rnd m (loss (Num_rnd rnd))) nn (rnd beta) (Some (cast_params rnd d)).
