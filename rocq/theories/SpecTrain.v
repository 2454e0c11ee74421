(* Specification vocabulary for the training layer. *)
From Coq Require Import String ZArith List Reals.
From Verif Require Import Num Py Basis Tensor Physics Spec TensorFacts.
Import ListNotations.
Local Open Scope R_scope.

(* All tensors of a training step fit together: C cells, T test functions, Q points *)
Record fits (V Gx Gy : list (mat R)) (u ux uy F : mat R) (C T Q : nat) : Prop := {
  ft_V : shape3 V C T Q; ft_Gx : shape3 Gx C T Q; ft_Gy : shape3 Gy C T Q;
  ft_u : has_shape u C Q; ft_ux : has_shape ux C Q; ft_uy : has_shape uy C Q;
  ft_F : has_shape F T C; ft_C : (0 < C)%nat; ft_T : (0 < T)%nat
}.
(* Discrete integral over cell c of test table r against the values v *)
Definition weak (t : list (mat R)) (v : mat R) (Q c r : nat) : R :=
  Sum (fun q => entry3 t c r q * entry v c q) Q.
(* Mean over T test functions of the squared residual *)
Definition mean_sq (T : nat) (res : nat -> R) : R := Sum (fun r => res r ^ 2) T / INR T.

(* The keyword arguments a loss function is called with *)
Definition args (V Gx Gy : list (mat R)) (u ux uy F : mat R) : list (string * pyval R) :=
  [("test_shape_val_mat", VT3 V); ("test_grad_x_mat", VT3 Gx); ("test_grad_y_mat", VT3 Gy);
   ("pred_nn", VMat u); ("pred_grad_x_nn", VMat ux); ("pred_grad_y_nn", VMat uy);
   ("forcing_function", VMat F)]%string.
Definition has (d : list (string * R)) (k : string) (v : R) : Prop := dget String.eqb d k = Ok v.
Definition lacks (d : list (string * R)) (k : string) : Prop := ~ In k (map fst d).

From Verif Require Import Train.
(* A network whose output row r is U at the point of row r, with gradient G *)
Definition pointwise (nn : network R) (U : R * R -> R) (G : R * R -> R * R) : Prop :=
  forall b, nn_out nn b = Ok (map (fun p => [U p]) b) /\ nn_grad nn None b = map G b.
(* ... with two outputs, the second the parameter field; gradient of the first *)
Definition pointwise2 (nn : network R) (U E : R * R -> R) (G : R * R -> R * R) : Prop :=
  forall b, nn_out nn b = Ok (map (fun p => [U p; E p]) b) /\ nn_grad nn (Some 0%nat) b = map G b.
(* Table (c, q) -> value at row c*Q+q of the input *)
Definition at_points (U : R * R -> R) (x : list (R * R)) (C Q : nat) : mat R :=
  mk C Q (fun c q => U (nth (c * Q + q) x (0, 0))).
(* Mean squared deviation of U from the given values *)
Definition misfit (U : R * R -> R) (pts : list (R * R)) (vals : mat R) : R :=
  Sum (fun i => (U (nth i pts (0, 0)) - entry vals i 0) ^ 2) (length pts) / INR (length pts).
(* The tensors of a model fit together: C cells, T test functions, Q points per cell *)
Record model_fits (m : model R) (C T Q : nat) : Prop := {
  mf_V : shape3 (m_val m) C T Q; mf_Gx : shape3 (m_gx m) C T Q; mf_Gy : shape3 (m_gy m) C T Q;
  mf_x : length (m_x m) = (C * Q)%nat; mf_F : has_shape (m_force m) T C;
  mf_C : (0 < C)%nat; mf_T : (0 < T)%nat; mf_Q : (0 < Q)%nat;
  mf_dir : m_dir_in m <> []; mf_dirv : has_shape (m_dir_act m) (length (m_dir_in m)) 1
}.
Definition sensors_fit (m : model R) : Prop :=
  m_sensor_in m <> [] /\ has_shape (m_sensor_act m) (length (m_sensor_in m)) 1.
