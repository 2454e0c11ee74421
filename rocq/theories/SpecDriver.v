(* What the reports, plots and files of the example scripts should be. *)
From Coq Require Import String ZArith Reals List Sorted DecimalString.
From Verif Require Import Num Py Basis Tensor Data Train Geometry Nets Metrics Problems Driver Spec SpecTrain.
Import ListNotations.
Local Open Scope R_scope.

(* X depends on the column only, Y on the row only: the matrices describe a rectangular grid *)
Definition columns_and_rows (X Y : mat R) (r c : nat) : Prop :=
  (forall i i' j, (i < r)%nat -> (i' < r)%nat -> (j < c)%nat -> entry X i j = entry X i' j) /\
  (forall i j j', (i < r)%nat -> (j < c)%nat -> (j' < c)%nat -> entry Y i j = entry Y i j').

(* A report is due after epoch t (counted from 0): its number t + 1 is a multiple of the period, or it is the last *)
Definition due (epochs period : Z) (t : nat) : Prop := (period | Z.of_nat t + 1)%Z \/ (Z.of_nat t + 1 = epochs)%Z.
(* What the network answers at the points with the weights after t steps *)
Definition answers (sc : script) (weights : nat -> net) (pts : list (R * R)) (t : nat) (pred : list R) : Prop :=
  exists y, nn_out (the_network sc (weights t)) pts = Ok y /\ pred = concat y.

Record reports (pb : problem) (sc : script) (i : settings) (weights : nat -> net) (m : model R) (r : report) : Prop := {
  rp_epochs : (1 <= i_epochs i)%Z;
  rp_period : i_update i <> 0%Z;
  (* loss_function.txt: entry t is the loss of the weights that step t started from *)
  rp_losses : length (r_loss r) = Z.to_nat (i_epochs i);
  rp_loss : forall t, (t < Z.to_nat (i_epochs i))%nat -> exists L,
    train_step sc m (the_network sc (weights t)) (i_beta i) (Some (pb_params pb)) = Ok L /\ nth t (r_loss r) [] = l_total L;
  (* the saved weights are those of the printed errors and of the stored prediction *)
  rp_saved : r_saved r = Z.to_nat (i_epochs i);
  rp_exact : r_exact r = map (fun p => pb_exact pb (fst p) (snd p)) (r_points r);
  rp_pred : answers sc weights (r_points r) (r_saved r) (r_pred r);
  rp_lengths : length (r_pred r) = length (r_points r) /\ length (r_error r) = length (r_points r);
  rp_error : forall k, (k < length (r_points r))%nat -> nth k (r_error r) 0 = Rabs (nth k (r_exact r) 0 - nth k (r_pred r) 0);
  rp_errors : compute_errors_combined (arr (r_exact r)) (arr (r_pred r)) = Ok (r_errors r);
  (* the test curve has one value for every report, in order *)
  rp_test : exists ts, StronglySorted lt ts /\
    (forall t, In t ts <-> (t < Z.to_nat (i_epochs i))%nat /\ due (i_epochs i) (i_update i) t) /\ length (r_test r) = length ts /\
    forall k, (k < length ts)%nat -> exists pred, answers sc weights (r_points r) (S (nth k ts 0%nat)) pred /\
      compute_l1_error (arr (r_exact r)) (arr pred) = Ok (nth k (r_test r) NaN)
}.

(* The same for a script that compares with given values [exact] instead of the exact solution of its problem *)
Record reports_against (exact : list R) (pb : problem) (sc : script) (i : settings) (weights : nat -> net) (m : model R) (r : report) : Prop := {
  ra_epochs : (1 <= i_epochs i)%Z;
  ra_period : i_update i <> 0%Z;
  ra_losses : length (r_loss r) = Z.to_nat (i_epochs i);
  ra_loss : forall t, (t < Z.to_nat (i_epochs i))%nat -> exists L,
    train_step sc m (the_network sc (weights t)) (i_beta i) (Some (pb_params pb)) = Ok L /\ nth t (r_loss r) [] = l_total L;
  ra_saved : r_saved r = Z.to_nat (i_epochs i);
  ra_exact : r_exact r = exact;
  ra_pred : answers sc weights (r_points r) (r_saved r) (r_pred r);
  ra_lengths : length (r_pred r) = length exact /\ length (r_error r) = length exact;
  ra_error : forall k, (k < length exact)%nat -> nth k (r_error r) 0 = Rabs (nth k exact 0 - nth k (r_pred r) 0);
  ra_errors : compute_errors_combined (arr exact) (arr (r_pred r)) = Ok (r_errors r);
  ra_test : exists ts, StronglySorted lt ts /\
    (forall t, In t ts <-> (t < Z.to_nat (i_epochs i))%nat /\ due (i_epochs i) (i_update i) t) /\ length (r_test r) = length ts /\
    forall k, (k < length ts)%nat -> exists pred, answers sc weights (r_points r) (S (nth k ts 0%nat)) pred /\
      compute_l1_error (arr exact) (arr pred) = Ok (nth k (r_test r) NaN)
}.

(* The settings a forward script accepts *)
Record good_settings (sc : script) (i : settings) : Prop := {
  gs_dtype : In (i_dtype i) ["float32"; "float64"]%string;
  gs_type : i_mesh_type i = "quadrilateral"%string;
  gs_fe : (1 < i_fe_order i < 1000)%Z;
  gs_fe_type : In (i_fe_type i) ["legendre"; "jacobi"; "legendre_special"; "chebyshev_2"; "jacobi_plain"]%string;
  gs_quad : (3 <= i_quad_order i <= 9999)%Z;
  gs_quad_type : In (i_quad_type i) ["gauss-legendre"; "gauss-jacobi"]%string;
  gs_dims : (2 <= length (layer_dims sc i))%nat;
  gs_width : forall w, In w (layer_dims sc i) -> (1 <= w)%Z;
  gs_rates : exists f, learning_rate (sc_kind sc) (i_rates i) = Ok f;
  gs_kind : sc_kind sc <> Domain
}.

(* The file of the report of epoch t: prediction_<t+1>.vtk, in decimal, in the output folder *)
Definition prediction_file (i : settings) (t : nat) : string :=
  (i_output_path i ++ "/prediction_" ++ NilZero.string_of_uint (Nat.to_uint (t + 1)) ++ ".vtk")%string.
(* The files prediction_<n>.vtk: the head of the template and three columns *)
Definition data_array (fmt : R -> string) (name : string) (vals : list R) : string :=
  ("SCALARS " ++ name ++ " float" ++ newline ++ "LOOKUP_TABLE default" ++ newline ++ catl (map fmt vals) ++ newline)%string.
Definition prediction_text (fmt : R -> string) (head : string) (pred exact : list R) : string :=
  (head ++ data_array fmt "Sol" pred ++ data_array fmt "Exact" exact ++ data_array fmt "Error" (map2 (fun a b => Rabs (a - b)) exact pred))%string.

(* The values of the rows of a table with the given label *)
Definition row_of {V} (label : string) (t : list (string * V)) : list V := map snd (filter (fun r => String.eqb (fst r) label) t).

(* The kernel shapes of the network that a script builds *)
Definition built_kernels (sc : script) (i : settings) : result (list (nat * nat)) :=
  do x <- construct (sc_kind sc) true (Some 1%nat) (i_rates i) (layer_dims sc i) (i_attention i); Ok (snd x).
