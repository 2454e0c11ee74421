(* Properties C62-C66: the example scripts - contour plots, reports, tables, .vtk files, layers. *)
From Coq Require Import String ZArith List Arith Lia Reals Lra Sorted.
From Verif Require Import Num Py Jacobi Quadrature Basis Transform Cell Space Tensor Data Physics Train Geometry Nets Metrics Problems Driver
  Spec SpecGeom SpecTrain SpecMesh SpecWeak SpecDriver NetFacts MeshFacts ExternalFacts AngleFacts TunerFacts DriverFacts.
From Verif Require Properties_Mesh.
Import ListNotations.
Local Open Scope R_scope.

(* C62: every entry of the plotted matrix stands at a test point and holds the value there ... *)
Theorem C62_values : forall ntx nty (pts : list (R * R)) (f : R -> R -> R) X Y Zm,
  contour_args ntx nty pts (map (fun p => f (fst p) (snd p)) pts) = Ok (X, Y, Zm) ->
  forall i j, (i < Z.to_nat ntx)%nat -> (j < Z.to_nat nty)%nat ->
    entry Zm i j = f (entry X i j) (entry Y i j) /\ In (entry X i j, entry Y i j) pts.
Proof. exact contour_values. Qed.
(* ... and the matrices form the grid of the test points when there are as many in x as in y *)
Theorem C62_square : forall (g : geom R) vtk xl yl pts z X Y Zm, g_method g = "internal"%string -> g_limits g = Some (xl, yl) ->
  (2 <= g_ntx g)%Z -> fst xl < snd xl -> fst yl < snd yl -> g_ntx g = g_nty g ->
  get_test_points g vtk = Ok pts -> contour_args (g_ntx g) (g_nty g) pts z = Ok (X, Y, Zm) ->
  let n := Z.to_nat (g_ntx g) in columns_and_rows X Y n n /\
  forall i j, (i < n)%nat -> (j < n)%nat -> entry X i j = grid_coord (fst xl) (snd xl) n j /\ entry Y i j = grid_coord (fst yl) (snd yl) n i.
Proof. exact contour_square. Qed.
(* With different numbers they do not form a grid at all, neither as they are nor transposed *)
Theorem C62_rectangular_refuted : forall (g : geom R) vtk xl yl pts z X Y Zm, g_method g = "internal"%string -> g_limits g = Some (xl, yl) ->
  (2 <= g_ntx g)%Z -> (2 <= g_nty g)%Z -> fst xl < snd xl -> fst yl < snd yl -> g_ntx g <> g_nty g ->
  get_test_points g vtk = Ok pts -> contour_args (g_ntx g) (g_nty g) pts z = Ok (X, Y, Zm) ->
  let nx := Z.to_nat (g_ntx g) in let ny := Z.to_nat (g_nty g) in
  ~ columns_and_rows X Y nx ny /\ ~ columns_and_rows Y X nx ny.
Proof. exact contour_rectangular. Qed.

(* C63: what a forward script on an internal mesh reports *)
Theorem C63_report : forall e lhs1 o template vtk pb sc i weights fs r,
  run_internal e lhs1 o template vtk pb sc i weights fs = Ok r ->
  exists cells mo bd m, generate_quad_mesh_internal e lhs1 (i_xlim i) (i_ylim i) (i_ncx i) (i_ncy i) (i_nb i) = Ok (cells, mo, bd) /\
    build o pb sc i cells bd = Ok m /\ reports pb sc i weights m r /\
    length (r_points r) = (Z.to_nat (i_ntx i) * Z.to_nat (i_nty i))%nat /\
    (i_method i = "internal"%string -> forall j k, (j < Z.to_nat (i_ntx i))%nat -> (k < Z.to_nat (i_nty i))%nat ->
       nth (k * Z.to_nat (i_ntx i) + j) (r_points r) (0, 0) =
       (grid_coord (fst (i_xlim i)) (snd (i_xlim i)) (Z.to_nat (i_ntx i)) j, grid_coord (fst (i_ylim i)) (snd (i_ylim i)) (Z.to_nat (i_nty i)) k)).
Proof. exact internal_reports. Qed.
Theorem C63_runs : forall e lhs1 o template vtk pb sc i weights fs al bx bn g, numpy_ok e -> sampler_ok lhs1 -> oracle_ok o (Z.to_nat (i_quad_order i)) ->
  good_settings sc i -> i_method i = "internal"%string -> fst (i_xlim i) < snd (i_xlim i) -> fst (i_ylim i) < snd (i_ylim i) ->
  (1 <= i_ncx i)%Z /\ (1 <= i_ncy i)%Z -> (4 <= i_nb i)%Z -> (2 <= i_ntx i)%Z /\ (2 <= i_nty i)%Z ->
  (forall t, In t [1000; 1001; 1002; 1003]%Z -> In t (map fst (pb_bound pb))) -> equation (sc_loss sc) (pb_params pb) al bx bn g ->
  (forall t, exists U G, pointwise (the_network sc (weights t)) U G) ->
  ((1 <= i_epochs i)%Z -> i_update i <> 0%Z -> exists r, run_internal e lhs1 o template vtk pb sc i weights fs = Ok r) /\
  ((i_epochs i <= 0)%Z -> run_internal e lhs1 o template vtk pb sc i weights fs = Err NameError) /\
  ((1 <= i_epochs i)%Z -> i_update i = 0%Z -> run_internal e lhs1 o template vtk pb sc i weights fs = Err ZeroDivisionError).
Proof. exact internal_outcome. Qed.
(* weights of the script's own layers make such networks *)
Theorem C63_networks : forall sc i w, In sc [main_uniform_poisson; main_uniform_helmholtz; main_hard_poisson; main_complex_poisson; main_complex_cd; main_complex_helmholtz] ->
  (2 <= length (layer_dims sc i))%nat -> nth 0 (layer_dims sc i) 0%Z = 2%Z -> nth (length (layer_dims sc i) - 1) (layer_dims sc i) 0%Z = 1%Z ->
  widths (layer_dims sc i) w -> n_attention w = false -> exists U G, pointwise (the_network sc w) U G.
Proof. exact scripts_pointwise. Qed.

(* C64: tables *)
Theorem C64_rows : forall V (col1 : list string) (col2 : list V), length (print_table col1 col2) = Nat.min (length col1) (length col2) /\
  forall k d1 d2, (k < length col1)%nat -> (k < length col2)%nat -> nth k (print_table col1 col2) (d1, d2) = (nth k col1 d1, nth k col2 d2).
Proof. exact table_rows. Qed.
Theorem C64_errors : forall u v errs, compute_errors_combined u v = Ok errs -> exists l2 linf l2r linfr l1 l1r,
  compute_l2_error (flatten u) (flatten v) = Ok l2 /\ compute_linf_error (flatten u) (flatten v) = Ok linf /\ compute_l2_error_relative (flatten u) (flatten v) = Ok l2r /\
  compute_linf_error_relative (flatten u) (flatten v) = Ok linfr /\ compute_l1_error (flatten u) (flatten v) = Ok l1 /\ compute_l1_error_relative (flatten u) (flatten v) = Ok l1r /\
  error_table errs = [("L2 Error", l2); ("Linf Error", linf); ("Relative L2 Error", l2r); ("Relative Linf Error", linfr); ("L1 Error", l1); ("Relative L1 Error", l1r)]%string.
Proof. exact error_rows. Qed.
Theorem C64_forward : forall st epochs ts t, (0 <= epochs)%Z -> (forall x, In x ts -> 0 <= x) -> time_table_forward st epochs ts = Ok t ->
  row_of "Total Train Time" t = [VReal (fold_right Rplus 0 ts)] /\ row_of "Mean (s)" t = [VReal (fold_right Rplus 0 ts / INR (length ts))] /\
  exists k, row_of "Epochs per second" t = [VInt k] /\ IZR k <= IZR epochs / fold_right Rplus 0 ts < IZR k + 1.
Proof. exact forward_table. Qed.
(* the inverse script leaves the first epoch out of the total *)
Theorem C64_inverse_refuted : forall st epochs t0 ts t, t0 <> 0 -> time_table_inverse st epochs (t0 :: ts) = Ok t ->
  row_of "Total Train Time" t = [VReal (fold_right Rplus 0 ts)] /\ row_of "Total Train Time" t <> [VReal (fold_right Rplus 0 (t0 :: ts))].
Proof. exact inverse_table. Qed.
(* the domain scripts print the epochs per second as the total time *)
Theorem C64_domain_refuted : forall st epochs ts t, (0 <= epochs)%Z -> (forall x, In x ts -> 0 <= x) -> time_table_domain st epochs ts = Ok t ->
  exists k, row_of "Total Train Time" t = [VInt k] /\ IZR k <= IZR epochs / fold_right Rplus 0 ts < IZR k + 1 /\ row_of "Epochs per second" t = [].
Proof. exact domain_table. Qed.

(* the means in both tables, with and without the first epoch; the domain scripts lose the label of the second *)
Theorem C64_means : forall st epochs ts t, let mean l := fold_right Rplus 0 l / INR (length l) in
  (time_table_inverse st epochs ts = Ok t -> row_of "Mean without first(s)" t = [VReal (mean (tl ts))] /\ row_of "Mean with first(s)" t = [VReal (mean ts)]) /\
  (time_table_domain st epochs ts = Ok t -> row_of "Mean without first(s)" t = [VReal (mean (tl ts))] /\ row_of "Mean with first(s)" t = []).
Proof. exact mean_rows. Qed.

(* the quartiles: the first epoch counts in the forward scripts only *)
Theorem C64_quartiles : forall st epochs ts t, let quartiles l t :=
    row_of "Time per Epoch(s) - Median" t = [VReal (st_median st l)] /\ row_of "Time per Epoch(s) IQR-25% " t = [VReal (st_percentile st l 25)] /\
    row_of "Time per Epoch(s) IQR-75% " t = [VReal (st_percentile st l 75)] in
  (time_table_forward st epochs ts = Ok t -> quartiles ts t) /\ (time_table_inverse st epochs ts = Ok t -> quartiles (tl ts) t) /\ (time_table_domain st epochs ts = Ok t -> quartiles (tl ts) t).
Proof.
  intros st epochs ts t quartiles. refine (conj _ (conj _ _)); intros H; unfold time_table_forward, time_table_inverse, time_table_domain, per_second in H; destruct (Req_EM_T (vsum ts) 0); try discriminate; injection H as <-;
    repeat split; reflexivity.
Qed.

(* C65: the .vtk files of the scripts on a mesh file *)
Theorem C65_files : forall e lhs2 o file template vtk fmt pb sc i weights fs r,
  run_external e lhs2 o file template vtk fmt pb sc i weights fs = Ok r ->
  let n := Z.to_nat (i_epochs i) in
  exists cells raw m rows head,
    read_mesh e lhs2 file (i_mesh_file i) (i_level i) (i_sampling i) (sc_refinement sc i) = Ok (cells, raw) /\
    build o pb sc i cells (plane_points raw) = Ok m /\ reports pb sc i weights m r /\
    i_method i = "external"%string /\ vtk = Ok rows /\ r_points r = map point_of rows /\
    (forall t, (t < n)%nat -> due (i_epochs i) (i_update i) t -> exists pred, answers sc weights (r_points r) (S t) pred /\
       dget String.eqb (r_files r) (prediction_file i t) = Ok (prediction_text fmt head pred (r_exact r))) /\
    dget String.eqb (r_files r) (i_output_path i ++ "/external.vtk")%string = Ok template /\
    ((exists pre l post, lines template = (pre ++ l :: post)%list /\ (forall x, In x pre -> ~ exists a b, x = (a ++ "POINT_DATA" ++ b)%string) /\
        (exists a b, l = (a ++ "POINT_DATA" ++ b)%string) /\ head = catl (pre ++ [l])%list) \/
     ((forall x, In x (lines template) -> ~ exists a b, x = (a ++ "POINT_DATA" ++ b)%string) /\ head = template)) /\
    (forall q, q <> (i_output_path i ++ "/external.vtk")%string -> (forall t, (t < n)%nat -> due (i_epochs i) (i_update i) t -> q <> prediction_file i t) ->
       dget String.eqb (r_files r) q = dget String.eqb fs q).
Proof. exact external_files. Qed.
Theorem C65_names : forall i t t', prediction_file i t = prediction_file i t' -> t = t'.
Proof. exact path_inj. Qed.
Theorem C65_runs : forall e lhs2 o file template rows fmt pb sc i weights fs al bx bn g mf edges quads tags,
  oracle_ok o (Z.to_nat (i_quad_order i)) -> good_settings sc i -> i_method i = "external"%string ->
  (* the mesh file *)
  (forall l, sorts l (np_argsort e l)) -> suffix (i_mesh_file i) = ".mesh"%string -> file (i_mesh_file i) = Ok mf ->
  edges_of mf edges -> quads_of mf quads -> first_refs mf tags -> (length edges <= length tags)%nat -> spatial mf ->
  i_sampling i = "uniform"%string -> (0 <= i_level i)%Z -> edges <> [] -> quads <> [] ->
  (exists ts, (length ts <= 15)%nat /\ forall j, (j < length edges)%nat -> In (nth j tags 0%Z) ts /\ In (nth j tags 0%Z) (map fst (pb_bound pb))) ->
  rows <> [] -> equation (sc_loss sc) (pb_params pb) al bx bn g ->
  (forall t, exists U G, pointwise (the_network sc (weights t)) U G) -> (1 <= i_epochs i)%Z -> i_update i <> 0%Z ->
  exists r, run_external e lhs2 o file template (Ok rows) fmt pb sc i weights fs = Ok r.
Proof. exact external_file_runs. Qed.

(* C66: the layers of the input file *)
Theorem C66_used : forall sc i f, In sc [main_complex_cd; main_complex_helmholtz] -> learning_rate (sc_kind sc) (i_rates i) = Ok f ->
  (2 <= length (i_architecture i))%nat -> (forall w, In w (i_architecture i) -> (1 <= w)%Z) ->
  exists ks, built_kernels sc i = Ok ks /\ length ks = (length (i_architecture i) - 1)%nat /\
    forall k, (k < length (i_architecture i) - 1)%nat -> nth k ks (0, 0)%nat = (Z.to_nat (nth k (i_architecture i) 0%Z), Z.to_nat (nth (k + 1) (i_architecture i) 0%Z)).
Proof. exact kernels_used. Qed.
Theorem C66_ignored_refuted : forall sc i f, In sc [main_uniform_poisson; main_uniform_helmholtz; main_hard_poisson; main_complex_poisson] -> learning_rate (sc_kind sc) (i_rates i) = Ok f ->
  built_kernels sc i = Ok [(2, 30); (30, 30); (30, 30); (30, 1)]%nat.
Proof. exact kernels_fixed. Qed.

(* ---------- the hypotheses can be met ---------- *)
Definition ex_settings (method : string) : settings :=
  {| i_output_path := "output"; i_method := method; i_mesh_type := "quadrilateral"; i_mesh_plot := true;
     i_xlim := (0, 1); i_ylim := (0, 1); i_ncx := 4; i_ncy := 3; i_nb := 400; i_ntx := 3; i_nty := 2;
     i_mesh_file := "square.mesh"; i_level := 2; i_sampling := "uniform"; i_fe_order := 3; i_fe_type := "legendre"; i_quad_order := 5; i_quad_type := "gauss-jacobi";
     i_architecture := [2; 10; 1]%Z; i_attention := false; i_epochs := 5; i_dtype := "float32";
     i_rates := [("initial_learning_rate", LNum (/ 1000)); ("use_lr_scheduler", LBool true); ("decay_steps", LNum 1000); ("decay_rate", LNum (99 / 100)); ("staircase", LBool false)]%string;
     i_beta := 10; i_update := 2 |}.
Definition ex_layers (dims : list Z) : net :=
  {| n_act := fun v => v; n_attention := false;
     n_layers := map (fun i => ((i <? length dims - 2)%nat,
                   (TensorFacts.mk (Z.to_nat (nth i dims 0%Z)) (Z.to_nat (nth (i + 1) dims 0%Z)) (fun _ _ => 1),
                    repeat 0 (Z.to_nat (nth (i + 1) dims 0%Z))))) (seq 0 (length dims - 1)) |}.
Lemma ex_layers_ok : forall dims, widths dims (ex_layers dims).
Proof.
  intros dims. split; cbn [ex_layers n_layers]; [now rewrite map_length, seq_length|]. intros i d Hi. rewrite ListFacts.nth_seq_map by exact Hi. rewrite Nat.add_0_l.
  refine (conj eq_refl (conj (TensorFacts.mk_shape _ _ _) _)). apply repeat_length.
Qed.
Lemma ex_good : forall m, good_settings main_uniform_poisson (ex_settings m) /\ good_settings main_complex_cd (ex_settings m).
Proof.
  intros m. split; constructor; cbn; auto 6; try lia; try discriminate; try (eexists; reflexivity);
    intros w Hw; repeat destruct Hw as [<- | Hw]; try lia; destruct Hw.
Qed.
Example C62_example : exists pts X Y Zm, get_test_points Properties_Mesh.ex_geom (Ok []) = Ok pts /\ contour_args 3 2 pts (map fst pts) = Ok (X, Y, Zm) /\
  ~ columns_and_rows X Y 3 2.
Proof.
  destruct Properties_Mesh.C23_example as (pts & E & L & _).
  destruct (contour_ok 3 2 pts (map fst pts)) as (X & Y & Zm & Ec & _); [exact L | now rewrite map_length|].
  exists pts, X, Y, Zm. refine (conj E (conj Ec _)).
  apply (C62_rectangular_refuted Properties_Mesh.ex_geom (Ok []) (0, 1) (0, 2) pts (map fst pts) X Y Zm); auto; cbn; try lia; try lra.
Qed.
Example C62_square_example : exists pts X Y Zm, let g := set_limits {| g_method := "internal"; g_ntx := 2; g_nty := 2; g_folder := "out"; g_optimized := false; g_limits := None; g_file := None |} ((0, 1), (0, 2)) in
  get_test_points g (Ok []) = Ok pts /\ contour_args 2 2 pts (map fst pts) = Ok (X, Y, Zm).
Proof.
  destruct (test_points_internal (set_limits {| g_method := "internal"; g_ntx := 2; g_nty := 2; g_folder := "out"; g_optimized := false; g_limits := None; g_file := None |} ((0, 1), (0, 2))) (Ok []) (0, 1) (0, 2) eq_refl eq_refl)
    as (pts & E & L & _); try (cbn; lia).
  destruct (contour_ok 2 2 pts (map fst pts)) as (X & Y & Zm & Ec & _); [exact L | rewrite map_length; exact L|]. exists pts, X, Y, Zm. exact (conj E Ec).
Qed.
Example C63_example : exists o r, oracle_ok o 5 /\
  run_internal numpy_R mid_sampler o "template" (Err FileNotFoundError) uniform_poisson main_uniform_poisson (ex_settings "internal") (fun _ => ex_layers fixed_layers) [] = Ok r /\
  length (r_loss r) = 5%nat /\ length (r_points r) = 6%nat.
Proof.
  destruct (TransformFacts2.any_oracle_ok 5) as [o Ho]. exists o.
  assert (N : exists U G, pointwise (the_network main_uniform_poisson (ex_layers fixed_layers)) U G).
  { apply (C63_networks main_uniform_poisson (ex_settings "internal")); cbn; auto; try lia. apply ex_layers_ok. }
  destruct (C63_runs numpy_R mid_sampler o "template" (Err FileNotFoundError) uniform_poisson main_uniform_poisson (ex_settings "internal") (fun _ => ex_layers fixed_layers) [] 1 0 0 0
    numpy_R_ok mid_sampler_ok Ho (proj1 (ex_good _)) eq_refl) as (H & _); cbn; try lra; try lia; auto; [constructor; reflexivity|].
  destruct H as [r E]; [cbn; lia | discriminate|]. exists r. refine (conj Ho (conj E _)).
  destruct (C63_report _ _ _ _ _ _ _ _ _ _ _ E) as (cells & mo & bd & m & _ & _ & Hr & L & _). split; [exact (rp_losses _ _ _ _ _ _ Hr) | exact L].
Qed.
Example C64_example : exists t, let st := {| st_median := fun _ => 0; st_percentile := fun _ _ => 0 |} in
  time_table_domain st 10 [1; 2; 2] = Ok t /\ row_of "Total Train Time" t = [VInt 2].
Proof.
  cbv zeta. assert (S : @vsum R _ [1; 2; 2] = 5) by (rewrite vsum_fold; cbn; lra).
  unfold time_table_domain, per_second. rewrite S. destruct (Req_EM_T 5 0); [lra|]. cbn [bind]. eexists. split; [reflexivity|]. cbn. unfold trunc.
  destruct (Rle_dec 0 (10 / 5)) as [_|K]; [|exfalso; apply K; lra]. do 2 f_equal.
  destruct (base_Int_part (10 / 5)) as [A B]. assert (A' : IZR (Int_part (10 / 5)) < IZR 3) by lra. assert (B' : IZR 1 < IZR (Int_part (10 / 5))) by lra.
  apply lt_IZR in A', B'. lia.
Qed.
Example C64_inverse_example : exists t, let st := {| st_median := fun _ => 0; st_percentile := fun _ _ => 0 |} in time_table_inverse st 10 [3; 1; 1] = Ok t.
Proof.
  cbv zeta. unfold time_table_inverse, per_second. destruct (Req_EM_T _ 0) as [K|]; [|eexists; reflexivity]. rewrite vsum_fold in K. cbn in K. lra.
Qed.
Definition square_problem : problem :=
  {| pb_exact := fun x y => x; pb_rhs := fun _ _ => 0; pb_bound := [(1, fun x y => x); (2, fun x y => x); (3, fun x y => x); (4, fun x y => x)]%Z;
     pb_params := [("eps", 1); ("b_x", 0); ("b_y", 0); ("c", 0)]%string |}.
Example C65_example : exists o r, oracle_ok o 5 /\
  run_external numpy_R (fun _ _ => []) o (fun _ => Ok (square_file [square_lines [1; 2; 3; 4]%Z; square_quads])) "template" (Ok [[1; 0; 0]; [0; 1; 0]])
    (fun _ => "x"%string) square_problem main_complex_cd (ex_settings "external") (fun _ => ex_layers [2; 10; 1]%Z) [] = Ok r /\
  prediction_file (ex_settings "external") 9 = "output/prediction_10.vtk"%string /\ due 5 2 1 /\ due 5 2 4 /\ ~ due 5 2 2.
Proof.
  destruct (TransformFacts2.any_oracle_ok 5) as [o Ho]. exists o.
  assert (N : exists U G, pointwise (the_network main_complex_cd (ex_layers [2; 10; 1]%Z)) U G).
  { apply (C63_networks main_complex_cd (ex_settings "external")); cbn; auto; try lia; try tauto. apply (ex_layers_ok [2; 10; 1]%Z). }
  destruct Properties_Mesh.C19_example as (He & Hn & H1 & H2 & H3 & H4 & _).
  destruct (C65_runs numpy_R (fun _ _ => []) o (fun _ => Ok (square_file [square_lines [1; 2; 3; 4]%Z; square_quads])) "template" [[1; 0; 0]; [0; 1; 0]]
    (fun _ => "x"%string) square_problem main_complex_cd (ex_settings "external") (fun _ => ex_layers [2; 10; 1]%Z) [] 1 0 0 0 _ _ _ _
    Ho (proj2 (ex_good _)) eq_refl He Hn eq_refl H1 H2 H3) as [r E]; try (cbn; lia); auto; try discriminate.
  { exists [1; 2; 3; 4]%Z. split; [simpl; lia|]. intros j Hj. cbn in Hj. destruct j as [|[|[|[|j]]]]; cbn; auto 6. lia. }
  { constructor; reflexivity. }
  exists r. refine (conj Ho (conj E (conj eq_refl _))). split; [left; exists 1%Z; reflexivity|]. split; [right; reflexivity|].
  intros [[k K] | K]; cbn in K; lia.
Qed.
Example C66_example : i_architecture (ex_settings "internal") <> fixed_layers /\ built_kernels main_uniform_poisson (ex_settings "internal") = Ok [(2, 30); (30, 30); (30, 30); (30, 1)]%nat /\
  built_kernels main_complex_cd (ex_settings "internal") = Ok [(2, 10); (10, 1)]%nat.
Proof. repeat split. discriminate. Qed.

Print Assumptions C62_values.
Print Assumptions C62_square.
Print Assumptions C62_rectangular_refuted.
Print Assumptions C63_report.
Print Assumptions C63_runs.
Print Assumptions C63_networks.
Print Assumptions C64_rows.
Print Assumptions C64_errors.
Print Assumptions C64_forward.
Print Assumptions C64_inverse_refuted.
Print Assumptions C64_domain_refuted.
Print Assumptions C64_means.
Print Assumptions C64_quartiles.
Print Assumptions C65_files.
Print Assumptions C65_names.
Print Assumptions C65_runs.
Print Assumptions C66_used.
Print Assumptions C66_ignored_refuted.
