(* What the scripts of examples/inverse_problems_2d should report. *)
From Coq Require Import String ZArith Reals List Sorted.
From Verif Require Import Num Py Basis Tensor Data Train Geometry Nets Metrics Problems Driver DriverInverse Spec SpecTrain SpecDriver.
Import ListNotations.
Local Open Scope R_scope.

(* The network with the weights after t steps: its answers at the points, and for a network with two
   outputs the solution and the parameter *)
Definition answers1 (weights : nat -> net) (pts : list (R * R)) (t : nat) (pred : list R) : Prop :=
  length pred = length pts /\ exists y, nn_out (network_of (weights t)) pts = Ok y /\ pred = concat y.
Definition answers2 (weights : nat -> net) (pts : list (R * R)) (t : nat) (pred inv : list R) : Prop :=
  length pred = length pts /\ length inv = length pts /\ exists y, nn_out (network_of (weights t)) pts = Ok y /\ length y = length pts /\
    forall k, (k < length pts)%nat -> nth_error (nth k y []) 0 = Some (nth k pred 0) /\ nth_error (nth k y []) 1 = Some (nth k inv 0).
(* A text file of values at the test points: row by row on the grid of an internal mesh, else one per line *)
Definition stored (i : settings) (m : mat R) (l : list R) : Prop :=
  (i_method i = "internal"%string -> let nx := Z.to_nat (i_ntx i) in let ny := Z.to_nat (i_nty i) in
     has_shape m nx ny /\ length l = (nx * ny)%nat /\ forall a b, (a < nx)%nat -> (b < ny)%nat -> entry m a b = nth (a * ny + b) l 0) /\
  (i_method i = "external"%string -> m = map (fun v => [v]) l).
(* Pointwise distance *)
Definition gap (u v : list R) : list R := map2 (fun a b => Rabs (a - b)) u v.
(* One value for every epoch after which a report is due, in order *)
Definition curve (i : settings) (vals : list npfloat) (P : nat -> npfloat -> Prop) : Prop :=
  exists ts, StronglySorted lt ts /\ (forall t, In t ts <-> (t < Z.to_nat (i_epochs i))%nat /\ due (i_epochs i) (i_update i) t) /\
    length vals = length ts /\ forall k, (k < length ts)%nat -> P (nth k ts 0%nat) (nth k vals NaN).

Record const_reports (pb : problem) (i : settings) (weights : nat -> net) (params : nat -> list (string * R)) (m : model R) (r : const_report) : Prop := {
  cr_period : (1 <= i_epochs i)%Z -> i_update i <> 0%Z;
  cr_losses : length (c_loss r) = Z.to_nat (i_epochs i);
  (* entry t of loss_function.txt: the loss of the weights and parameters that step t started from *)
  cr_loss : forall t, (t < Z.to_nat (i_epochs i))%nat -> exists L,
    train_inverse m (network_of (weights t)) (i_beta i) (Some (pb_params pb)) (Some (params t)) = Ok L /\ nth t (c_loss r) [] = l_total L;
  (* entry t of inverse_params.txt: the parameter after step t *)
  cr_params : length (c_params r) = Z.to_nat (i_epochs i) /\
    forall t, (t < Z.to_nat (i_epochs i))%nat -> has (params (S t)) "eps" (nth t (c_params r) 0);
  cr_saved : c_saved r = Z.to_nat (i_epochs i);
  cr_exact : c_exact r = map (fun p => pb_exact pb (fst p) (snd p)) (c_points r);
  (* the saved weights are those of the printed errors and of the stored prediction *)
  cr_pred : exists pred, answers1 weights (c_points r) (c_saved r) pred /\ stored i (c_pred r) pred /\ stored i (c_error r) (gap (c_exact r) pred) /\
    compute_errors_combined (arr (c_exact r)) (arr pred) = Ok (c_errors r);
  cr_test : curve i (c_test r) (fun t v => exists pred, answers1 weights (c_points r) (S t) pred /\
    compute_l1_error (arr (c_exact r)) (arr pred) = Ok v)
}.

Record domain_reports (ds : domain_script) (i : settings) (weights : nat -> net) (m : model R) (eps : list R) (r : domain_report) : Prop := {
  do_epochs : (1 <= i_epochs i)%Z;
  do_period : i_update i <> 0%Z;
  do_losses : length (d_loss r) = Z.to_nat (i_epochs i) /\ length (d_sensor r) = Z.to_nat (i_epochs i);
  do_loss : forall t, (t < Z.to_nat (i_epochs i))%nat -> exists L,
    train_inverse_domain m (network_of (weights t)) (i_beta i) (Some (pb_params (ds_problem ds))) = Ok L /\
    nth t (d_loss r) [] = l_total L /\ nth t (d_sensor r) [] = l_sensor L;
  do_saved : d_saved r = Z.to_nat (i_epochs i);
  (* the actual parameter at the test points *)
  do_eps : length eps = length (d_points r) /\ forall k, (k < length (d_points r))%nat ->
    has (ds_actual ds (fst (nth k (d_points r) (0, 0))) (snd (nth k (d_points r) (0, 0)))) "eps" (nth k eps 0);
  do_exact : length (d_exact r) = length (d_points r);
  do_pred : exists pred inv, answers2 weights (d_points r) (d_saved r) pred inv /\ stored i (d_pred r) pred /\ stored i (d_error r) (gap (d_exact r) pred) /\
    stored i (d_inv r) inv /\ stored i (d_inverror r) (gap eps inv) /\
    compute_errors_combined (arr (d_exact r)) (arr pred) = Ok (d_errors r);
  do_test : curve i (d_test r) (fun t v => exists pred inv, answers2 weights (d_points r) (S t) pred inv /\
    compute_l1_error (arr (d_exact r)) (arr pred) = Ok v);
  do_itest : curve i (d_itest r) (fun t v => exists pred inv, answers2 weights (d_points r) (S t) pred inv /\
    compute_l1_error (arr eps) (arr inv) = Ok v)
}.

(* prediction_<n>.vtk of the domain scripts *)
Definition domain_text (fmt : R -> string) (head : string) (exact eps pred inv : list R) : string :=
  (head ++ data_array fmt "Sol" pred ++ data_array fmt "Exact" exact ++ data_array fmt "Error" (gap exact pred) ++
   data_array fmt "Inv" inv ++ data_array fmt "ExactInv" eps ++ data_array fmt "InvError" (gap eps inv))%string.
(* the head of a written file: the template up to and including its first line with POINT_DATA *)
Definition head_of (template head : string) : Prop :=
  (exists pre l post, lines template = (pre ++ l :: post)%list /\ (forall x, In x pre -> ~ exists a b, x = (a ++ "POINT_DATA" ++ b)%string) /\
     (exists a b, l = (a ++ "POINT_DATA" ++ b)%string) /\ head = catl (pre ++ [l])%list) \/
  ((forall x, In x (lines template) -> ~ exists a b, x = (a ++ "POINT_DATA" ++ b)%string) /\ head = template).

(* The settings an inverse script accepts *)
Record good_inverse (k : kind) (i : settings) : Prop := {
  gi_dtype : In (i_dtype i) ["float32"; "float64"]%string;
  gi_type : i_mesh_type i = "quadrilateral"%string;
  gi_fe : (1 < i_fe_order i < 1000)%Z;
  gi_fe_type : In (i_fe_type i) ["legendre"; "jacobi"; "legendre_special"; "chebyshev_2"; "jacobi_plain"]%string;
  gi_quad : (3 <= i_quad_order i <= 9999)%Z;
  gi_quad_type : In (i_quad_type i) ["gauss-legendre"; "gauss-jacobi"]%string;
  gi_dims : (2 <= length (i_architecture i))%nat;
  gi_width : forall w, In w (i_architecture i) -> (1 <= w)%Z;
  gi_rates : exists f, learning_rate k (i_rates i) = Ok f;
  gi_attention : k = Domain -> i_attention i = false
}.
