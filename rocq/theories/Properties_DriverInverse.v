(* Properties C71-C72: the scripts of examples/inverse_problems_2d. *)
From Coq Require Import String ZArith List Arith Lia Reals Lra Sorted Permutation.
From Verif Require Import Num Py Jacobi Quadrature Basis Transform Cell Space Tensor Data Physics Train Geometry Nets Metrics Problems Driver DriverInverse
  Spec SpecGeom SpecTrain SpecMesh SpecWeak SpecDriver SpecDriverInverse NetFacts MeshFacts ExternalFacts AngleFacts TunerFacts DriverFacts DriverInverseFacts.
From Verif Require SpecProblem Properties_Mesh Properties_Driver Properties_Problems.
Import ListNotations.
Local Open Scope R_scope.

(* C71: const_inverse_poisson2d/main_inverse.py *)
Theorem C71_report : forall e lhs1 lhs2 lhs o file template vtk fmt times pb i sensors weights params fs r,
  run_const e lhs1 lhs2 lhs o file template vtk fmt times pb i sensors weights params fs = Ok r ->
  i_method i = "internal"%string /\ exists cells mo bd m V, generate_quad_mesh_internal e lhs1 (i_xlim i) (i_ylim i) (i_ncx i) (i_ncy i) (i_nb i) = Ok (cells, mo, bd) /\
    get_sensor_data (mo_points mo) lhs (pb_exact pb) sensors = Ok (m_sensor_in m, V) /\ m_sensor_act m = map (fun v => [v]) V /\
    build_inverse o pb Inverse pde_loss_poisson_inverse i cells bd (Ok (m_sensor_in m, m_sensor_act m)) = Ok m /\ const_reports pb i weights params m r /\
    length (c_points r) = (Z.to_nat (i_ntx i) * Z.to_nat (i_nty i))%nat /\
    (forall j k, (j < Z.to_nat (i_ntx i))%nat -> (k < Z.to_nat (i_nty i))%nat ->
       nth (k * Z.to_nat (i_ntx i) + j) (c_points r) (0, 0) =
       (grid_coord (fst (i_xlim i)) (snd (i_xlim i)) (Z.to_nat (i_ntx i)) j, grid_coord (fst (i_ylim i)) (snd (i_ylim i)) (Z.to_nat (i_nty i)) k)) /\
    c_files r = dset String.eqb fs (i_output_path i ++ "/internal.vtk")%string template.
Proof. exact const_reports_ok. Qed.
(* with any number of epochs *)
Theorem C71_runs : forall e lhs1 lhs2 o file template fmt i fs lhs vtk pb sensors weights params,
  numpy_ok e -> sampler_ok lhs1 -> (forall m, length (lhs m) = m) -> oracle_ok o (Z.to_nat (i_quad_order i)) ->
  good_inverse Inverse i -> i_method i = "internal"%string -> fst (i_xlim i) < snd (i_xlim i) -> fst (i_ylim i) < snd (i_ylim i) ->
  (1 <= i_ncx i)%Z /\ (1 <= i_ncy i)%Z -> (4 <= i_nb i)%Z -> (2 <= i_ntx i)%Z /\ (2 <= i_nty i)%Z -> (2 <= sensors)%nat ->
  (forall t, In t [1000; 1001; 1002; 1003]%Z -> In t (map fst (pb_bound pb))) -> (forall t, exists v, has (params t) "eps" v) ->
  (forall t, exists U G, pointwise (network_of (weights t)) U G) -> i_update i <> 0%Z ->
  exists r, run_const e lhs1 lhs2 lhs o file template vtk fmt (Ok tt) pb i sensors weights params fs = Ok r.
Proof. exact const_runs. Qed.
(* The script has a branch for mesh files, with .vtk output, but never comes to its end in it *)
Theorem C71_external_refuted : forall e lhs1 lhs2 lhs o file template vtk fmt times pb i sensors weights params fs, i_method i = "external"%string ->
  forall r, run_const e lhs1 lhs2 lhs o file template vtk fmt times pb i sensors weights params fs <> Ok r.
Proof. exact const_external. Qed.

(* C72: main_inverse_domain_circle.py and main_inverse_domain_usa.py *)
Theorem C72_report : forall e lhs1 lhs2 ch o file csv template vtk fmt times ds i sensors weights fs r,
  run_domain e lhs1 lhs2 ch o file csv template vtk fmt times ds i sensors weights fs = Ok r ->
  exists cells bd mp g m eps,
    build_inverse o (ds_problem ds) Domain pde_loss_cd2d_inverse_domain i cells bd (Ok (m_sensor_in m, m_sensor_act m)) = Ok m /\
    domain_sensors ds i mp g vtk csv ch sensors = Ok (m_sensor_in m, m_sensor_act m) /\ get_test_points g vtk = Ok (d_points r) /\ domain_exact ds csv (d_points r) = Ok (d_exact r) /\
    ((i_method i = "internal"%string /\ g_limits g = Some (i_xlim i, i_ylim i) /\ exists mo, mp = mo_points mo /\ generate_quad_mesh_internal e lhs1 (i_xlim i) (i_ylim i) (i_ncx i) (i_ncy i) (i_nb i) = Ok (cells, mo, bd)) \/
     (i_method i = "external"%string /\ exists raw, bd = plane_points raw /\ read_mesh e lhs2 file (i_mesh_file i) (i_level i) (i_sampling i) 0 = Ok (cells, raw))) /\
    g_method g = i_method i /\ g_ntx g = i_ntx i /\ g_nty g = i_nty i /\
    domain_reports ds i weights m eps r /\
    (i_method i = "internal"%string -> d_files r = dset String.eqb fs (i_output_path i ++ "/internal.vtk")%string template) /\
    (i_method i = "external"%string -> exists head, head_of template head /\ dget String.eqb (d_files r) (i_output_path i ++ "/external.vtk")%string = Ok template /\
       (forall t, (t < Z.to_nat (i_epochs i))%nat -> due (i_epochs i) (i_update i) t -> exists pred inv, answers2 weights (d_points r) (S t) pred inv /\
          dget String.eqb (d_files r) (prediction_file i t) = Ok (domain_text fmt head (d_exact r) eps pred inv)) /\
       (forall q, q <> (i_output_path i ++ "/external.vtk")%string -> (forall t, (t < Z.to_nat (i_epochs i))%nat -> due (i_epochs i) (i_update i) t -> q <> prediction_file i t) ->
          dget String.eqb (d_files r) q = dget String.eqb fs q)).
Proof. exact domain_reports_ok. Qed.
(* The USA script: the sensors are test points, none drawn more often than it occurs, with the exact values *)
Theorem C72_sensors_usa : forall ds i mp g vtk csv ch n P V pts, ds_file ds = false -> (forall l, Permutation (ch_shuffle ch l) l) ->
  domain_sensors ds i mp g vtk csv ch n = Ok (P, V) -> get_test_points g vtk = Ok pts ->
  length P = Nat.min n (length pts) /\ (exists rest, Permutation (P ++ rest) pts) /\ V = map (fun p => [pb_exact (ds_problem ds) (fst p) (snd p)]) P.
Proof. exact usa_sensors. Qed.
(* The circle script on a mesh file: the sensors are rows of the table *)
Theorem C72_sensors_circle : forall ds i mp g vtk csv rows ch n P V, ds_file ds = true -> i_method i = "external"%string -> csv = Ok rows -> rows <> [] ->
  (length (ch_index ch (length rows) n) = n /\ forall j, In j (ch_index ch (length rows) n) -> (j < length rows)%nat) ->
  domain_sensors ds i mp g vtk csv ch n = Ok (P, V) -> length P = n /\ has_shape V n 1 /\ forall j, (j < n)%nat -> In (nth j P (0, 0), entry V j 0) rows.
Proof. exact file_sensors. Qed.
(* exact.txt and all errors: row k of the table is taken for test point k, whatever its coordinates *)
Theorem C72_rows : forall e lhs1 lhs2 ch o file rows template vtk fmt times ds i sensors weights fs r, ds_file ds = true ->
  run_domain e lhs1 lhs2 ch o file (Ok rows) template vtk fmt times ds i sensors weights fs = Ok r -> length rows = length (d_points r) /\ d_exact r = map snd rows.
Proof. exact domain_rows. Qed.
Theorem C72_runs : forall e lhs1 lhs2 ch o file csv template rows fmt ds i sensors weights fs b_x b_y c mf edges quads tags,
  oracle_ok o (Z.to_nat (i_quad_order i)) -> good_inverse Domain i -> i_method i = "external"%string ->
  (forall l, sorts l (np_argsort e l)) -> suffix (i_mesh_file i) = ".mesh"%string -> file (i_mesh_file i) = Ok mf ->
  edges_of mf edges -> quads_of mf quads -> first_refs mf tags -> (length edges <= length tags)%nat -> spatial mf ->
  i_sampling i = "uniform"%string -> (0 <= i_level i)%Z -> edges <> [] -> quads <> [] ->
  (forall j, (j < length edges)%nat -> In (nth j tags 0%Z) (map fst (pb_bound (ds_problem ds)))) -> rows <> [] -> (1 <= sensors)%nat ->
  ((ds_file ds = false /\ forall l, Permutation (ch_shuffle ch l) l) \/
   (ds_file ds = true /\ exists srows, csv = Ok srows /\ length srows = length rows /\
      length (ch_index ch (length srows) sensors) = sensors /\ forall j, In j (ch_index ch (length srows) sensors) -> (j < length srows)%nat)) ->
  (forall x y, exists v, has (ds_actual ds x y) "eps" v) ->
  has (pb_params (ds_problem ds)) "b_x" b_x -> has (pb_params (ds_problem ds)) "b_y" b_y -> has (pb_params (ds_problem ds)) "c" c ->
  (forall t, exists U E G, pointwise2 (network_of (weights t)) U E G) ->
  ((1 <= i_epochs i)%Z -> i_update i <> 0%Z -> exists r, run_domain e lhs1 lhs2 ch o file csv template (Ok rows) fmt (Ok tt) ds i sensors weights fs = Ok r) /\
  ((i_epochs i <= 0)%Z -> run_domain e lhs1 lhs2 ch o file csv template (Ok rows) fmt (Ok tt) ds i sensors weights fs = Err NameError).
Proof. exact domain_file_runs. Qed.
(* the USA script compares its second output with the coefficient for which its exact solution solves its equation *)
Theorem C72_field : let ds := main_domain_usa in exists bx by_ c a, (forall x y, has (ds_actual ds x y) "eps" (a x y)) /\
  has (pb_params (ds_problem ds)) "b_x" bx /\ has (pb_params (ds_problem ds)) "b_y" by_ /\ has (pb_params (ds_problem ds)) "c" c /\
  SpecProblem.solves_field a bx by_ c (pb_exact (ds_problem ds)) (pb_rhs (ds_problem ds)).
Proof. exact Properties_Problems.C52_field. Qed.
(* layers from 2 inputs to 2 outputs make such networks *)
Theorem C72_networks : forall dims w, (2 <= length dims)%nat -> nth 0 dims 0%Z = 2%Z -> nth (length dims - 1) dims 0%Z = 2%Z -> widths dims w -> n_attention w = false ->
  exists U E G, pointwise2 (network_of w) U E G.
Proof. exact two_outputs. Qed.

(* ---------- the hypotheses can be met ---------- *)
Definition ex_inverse (method : string) (layers : list Z) : settings :=
  {| i_output_path := "output"; i_method := method; i_mesh_type := "quadrilateral"; i_mesh_plot := true;
     i_xlim := (-1, 1); i_ylim := (-1, 1); i_ncx := 4; i_ncy := 3; i_nb := 400; i_ntx := 3; i_nty := 2;
     i_mesh_file := "square.mesh"; i_level := 2; i_sampling := "uniform"; i_fe_order := 3; i_fe_type := "legendre"; i_quad_order := 5; i_quad_type := "gauss-jacobi";
     i_architecture := layers; i_attention := false; i_epochs := 5; i_dtype := "float32";
     i_rates := [("initial_learning_rate", LNum (/ 1000)); ("use_lr_scheduler", LBool true); ("decay_steps", LNum 1000); ("decay_rate", LNum (99 / 100)); ("staircase", LBool false)]%string;
     i_beta := 10; i_update := 2 |}.
Lemma ex_inverse_ok : good_inverse Inverse (ex_inverse "internal" [2; 10; 1]%Z) /\ good_inverse Domain (ex_inverse "external" [2; 10; 2]%Z).
Proof.
  split; constructor; cbn; auto 6; try lia; try discriminate; try (eexists; reflexivity);
    intros w Hw; repeat destruct Hw as [<- | Hw]; try lia; destruct Hw.
Qed.
Example C71_example : exists o r, oracle_ok o 5 /\
  run_const numpy_R mid_sampler (fun _ _ => []) (fun m => repeat (1 / 2, 1 / 4) m) o (fun _ => Err FileNotFoundError) "template" (Err FileNotFoundError) (fun _ => "x"%string) (Ok tt)
    inverse_poisson (ex_inverse "internal" [2; 10; 1]%Z) 50 (fun _ => Properties_Driver.ex_layers [2; 10; 1]%Z) (fun t => [("eps"%string, 2 - INR t)]) [] = Ok r /\
  length (c_loss r) = 5%nat /\ nth 0 (c_params r) 0 = 1 /\ c_saved r = 5%nat.
Proof.
  destruct (TransformFacts2.any_oracle_ok 5) as [o Ho]. exists o.
  assert (N : exists U G, pointwise (network_of (Properties_Driver.ex_layers [2; 10; 1]%Z)) U G).
  { apply (Properties_Driver.C63_networks main_complex_cd (ex_inverse "internal" [2; 10; 1]%Z)); cbn; auto; try lia; try tauto. apply (Properties_Driver.ex_layers_ok [2; 10; 1]%Z). }
  destruct (C71_runs numpy_R mid_sampler (fun _ _ => []) o (fun _ => Err FileNotFoundError) "template" (fun _ => "x"%string) (ex_inverse "internal" [2; 10; 1]%Z) []
    (fun m => repeat (1 / 2, 1 / 4) m) (Err FileNotFoundError) inverse_poisson 50 (fun _ => Properties_Driver.ex_layers [2; 10; 1]%Z) (fun t => [("eps"%string, 2 - INR t)])
    numpy_R_ok mid_sampler_ok (fun m => repeat_length _ m) Ho (proj1 ex_inverse_ok) eq_refl) as [r E]; cbn [ex_inverse i_xlim i_ylim i_ncx i_ncy i_nb i_ntx i_nty i_update fst snd]; try lra; try lia; auto.
  { intros t. exists (2 - INR t). reflexivity. }
  exists r. refine (conj Ho (conj E _)). destruct (C71_report _ _ _ _ _ _ _ _ _ _ _ _ _ _ _ _ _ E) as (_ & cells & mo & bd & m & V & _ & _ & _ & _ & R & _).
  split; [exact (cr_losses _ _ _ _ _ _ R)|]. split; [|exact (cr_saved _ _ _ _ _ _ R)].
  destruct (cr_params _ _ _ _ _ _ R) as [_ P]. specialize (P 0%nat ltac:(cbn; lia)). unfold has in P. cbn [dget String.eqb Ascii.eqb Bool.eqb] in P. injection P as P. rewrite <- P. cbn. lra.
Qed.
Example C71_external_example : i_method (ex_inverse "external" [2; 10; 1]%Z) = "external"%string /\ good_inverse Inverse (ex_inverse "external" [2; 10; 1]%Z).
Proof.
  split; [reflexivity|]. constructor; cbn; auto 6; try lia; try discriminate; try (eexists; reflexivity);
    intros w Hw; repeat destruct Hw as [<- | Hw]; try lia; destruct Hw.
Qed.
Definition ex_chance : chance := {| ch_lhs := fun m => repeat (0, 0) m; ch_index := fun size n => repeat 0%nat n; ch_shuffle := fun l => rev l |}.
(* Both scripts; the table of the circle script has the right values in another order than the test points *)
Example C72_example : exists o r r', oracle_ok o 5 /\
  let run csv ds := run_domain numpy_R mid_sampler (fun _ _ => []) ex_chance o (fun _ => Ok (square_file [square_lines [1000; 1000; 1000; 1000]%Z; square_quads])) csv "template"
    (Ok [[1; 0; 0]; [0; 1; 0]]) (fun _ => "x"%string) (Ok tt) ds (ex_inverse "external" [2; 10; 2]%Z) 1 (fun _ => Properties_Driver.ex_layers [2; 10; 2]%Z) [] in
  run (Err FileNotFoundError) main_domain_usa = Ok r /\
  run (Ok [((0, 1), 7); ((1, 0), 5)]) main_domain_circle = Ok r' /\ d_points r' = [(1, 0); (0, 1)] /\ d_exact r' = [7; 5].
Proof.
  destruct (TransformFacts2.any_oracle_ok 5) as [o Ho].
  assert (N : exists U E G, pointwise2 (network_of (Properties_Driver.ex_layers [2; 10; 2]%Z)) U E G).
  { apply (C72_networks [2; 10; 2]%Z); cbn; auto; try lia. apply (Properties_Driver.ex_layers_ok [2; 10; 2]%Z). }
  destruct Properties_Mesh.C19_example as (He & Hn & _).
  assert (Run : forall csv ds, In ds [main_domain_usa; main_domain_circle] -> csv = Ok [((0, 1), 7); ((1, 0), 5)] \/ ds_file ds = false ->
    exists r, run_domain numpy_R mid_sampler (fun _ _ => []) ex_chance o (fun _ => Ok (square_file [square_lines [1000; 1000; 1000; 1000]%Z; square_quads])) csv "template"
    (Ok [[1; 0; 0]; [0; 1; 0]]) (fun _ => "x"%string) (Ok tt) ds (ex_inverse "external" [2; 10; 2]%Z) 1 (fun _ => Properties_Driver.ex_layers [2; 10; 2]%Z) [] = Ok r).
  { intros csv ds Hds Hsrc. destruct (square_ok [1000; 1000; 1000; 1000]%Z [square_lines [1000; 1000; 1000; 1000]%Z; square_quads] (or_introl eq_refl)) as (H1 & H2 & H3).
    assert (Hb : exists b_x b_y c, has (pb_params (ds_problem ds)) "b_x" b_x /\ has (pb_params (ds_problem ds)) "b_y" b_y /\ has (pb_params (ds_problem ds)) "c" c).
    { destruct Hds as [<- | [<- | []]]; do 3 eexists; repeat split; reflexivity. }
    destruct Hb as (b_x & b_y & c & B1 & B2 & B3).
    refine (proj1 (C72_runs numpy_R mid_sampler (fun _ _ => []) ex_chance o (fun _ => Ok (square_file [square_lines [1000; 1000; 1000; 1000]%Z; square_quads])) csv "template" [[1; 0; 0]; [0; 1; 0]]
      (fun _ => "x"%string) ds (ex_inverse "external" [2; 10; 2]%Z) 1 (fun _ => Properties_Driver.ex_layers [2; 10; 2]%Z) [] b_x b_y c _ square_edges [square_cell] [1000; 1000; 1000; 1000]%Z
      Ho (proj2 ex_inverse_ok) eq_refl He Hn eq_refl H1 H2 _ _ H3 eq_refl _ _ _ _ _ _ _ _ B1 B2 B3 (fun _ => N)) _ _); try (cbn; lia); try discriminate.
    - exists (square_lines [1000; 1000; 1000; 1000]%Z), [square_quads]. auto.
    - intros j Hj. cbn in Hj. destruct Hds as [<- | [<- | []]]; destruct j as [|[|[|[|j]]]]; cbn; auto; lia.
    - destruct (ds_file ds) eqn:Ed; [right | left].
      + destruct Hsrc as [-> | K]; [|discriminate]. split; [reflexivity|]. eexists. split; [reflexivity|]. cbn. repeat split. intros j [<- | []]. lia.
      + split; [reflexivity|]. intros l. cbn. apply Permutation_sym, Permutation_rev.
    - intros x y. destruct Hds as [<- | [<- | []]]; eexists; reflexivity. }
  destruct (Run (Err FileNotFoundError) main_domain_usa) as [r E]; cbn; auto. destruct (Run (Ok [((0, 1), 7); ((1, 0), 5)]) main_domain_circle) as [r' E']; cbn; auto.
  exists o, r, r'. refine (conj Ho (conj E (conj E' _))). split; [|exact (proj2 (C72_rows _ _ _ _ _ _ _ _ _ _ _ main_domain_circle _ _ _ _ _ eq_refl E'))].
  destruct (C72_report _ _ _ _ _ _ _ _ _ _ _ _ _ _ _ _ _ E') as (? & ? & ? & g & ? & ? & _ & _ & Ep & _ & _ & G & _). unfold get_test_points in Ep. rewrite G in Ep.
  cbn in Ep. now injection Ep as <-.
Qed.
Example C72_sensors_example : ds_file main_domain_usa = false /\ (forall l, Permutation (ch_shuffle ex_chance l) l) /\
  let g := {| g_method := "external"; g_ntx := 0; g_nty := 0; g_folder := "out"; g_optimized := false; g_limits := @None ((R * R) * (R * R)); g_file := None |} in
  get_test_points g (Ok [[1; 0; 0]; [0; 1; 0]]) = Ok [(1, 0); (0, 1)] /\
  exists V, domain_sensors main_domain_usa (ex_inverse "external" [2; 10; 2]%Z) [] g (Ok [[1; 0; 0]; [0; 1; 0]]) (Err FileNotFoundError) ex_chance 1 = Ok ([(0, 1)], V).
Proof. split; [reflexivity|]. split; [intros l; apply Permutation_sym, Permutation_rev|]. split; [reflexivity|]. eexists. reflexivity. Qed.

Print Assumptions C71_report.
Print Assumptions C71_runs.
Print Assumptions C71_external_refuted.
Print Assumptions C72_report.
Print Assumptions C72_sensors_usa.
Print Assumptions C72_sensors_circle.
Print Assumptions C72_rows.
Print Assumptions C72_field.
Print Assumptions C72_runs.
Print Assumptions C72_networks.
