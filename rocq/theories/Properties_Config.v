(* C79-C81: the input files, the script that takes its exact solution from a file, and the shipped input files. *)
From Coq Require Import String ZArith List Arith Reals Lra Lia Permutation.
From Verif Require Import Num Py Quadrature Geometry Nets Problems Driver DriverInverse Optim Loop Config
  Spec SpecGeom SpecTrain SpecMesh SpecDriver SpecDriverInverse SpecScript SpecOptim SpecLoop SpecConfig
  AngleFacts MeshFacts ExternalFacts TunerFacts JetFacts ConfigFacts.
From Verif Require Properties_Mesh Properties_Driver Properties_DriverInverse Properties_Loop.
Import ListNotations.
Local Open Scope string_scope.
Local Open Scope R_scope.

(* Reading an input file *)
Theorem C79_read : forall k y x, read_input k y = Ok x <-> reads k y x.
Proof. exact read_spec. Qed.

(* The gear script compares against the third column of a csv file, row by row *)
Theorem C80_report : forall generation csv e lhs2 o file template vtk fmt pb i weights fs r,
  run_gear generation csv e lhs2 o file template vtk fmt pb i weights fs = Ok r ->
  exists cells raw m rows head exact,
    read_mesh e lhs2 file (i_mesh_file i) (i_level i) (i_sampling i) 1 = Ok (cells, raw) /\
    build o pb main_complex_cd i cells (boundary_xy raw) = Ok m /\ vtk = Ok rows /\ r_points r = map xy rows /\
    ((generation = "internal" /\ exact = map (fun p => pb_exact pb (fst p) (snd p)) (r_points r)) \/
     (generation <> "internal" /\ exists srows, csv = Ok srows /\ exact = map snd srows)) /\
    reports_against exact pb main_complex_cd i weights m r /\
    forall t, (t < Z.to_nat (i_epochs i))%nat -> due (i_epochs i) (i_update i) t -> exists pred, answers main_complex_cd weights (r_points r) (S t) pred /\
      dget String.eqb (r_files r) (vtk_path i t) = Ok (prediction_text fmt head pred exact).
Proof. exact gear_report. Qed.
Theorem C80_rows : forall generation srows e lhs2 o file template vrows fmt pb i weights fs r, generation <> "internal" ->
  (forall t, exists U G, pointwise (the_network main_complex_cd (weights t)) U G) ->
  run_gear generation (Ok srows) e lhs2 o file template (Ok vrows) fmt pb i weights fs = Ok r -> length srows = length vrows.
Proof. exact gear_rows. Qed.
Theorem C80_column : forall generation srows srows' e lhs2 o file template vtk fmt pb i weights fs, map snd srows = map snd srows' ->
  run_gear generation (Ok srows) e lhs2 o file template vtk fmt pb i weights fs = run_gear generation (Ok srows') e lhs2 o file template vtk fmt pb i weights fs.
Proof. exact gear_blind. Qed.
(* its training, as C77 for the other scripts *)
Theorem C80_learns : forall e lhs2 o file pb i nt m al bx bn g hard cells raw, oracle_ok o (Z.to_nat (i_quad_order i)) ->
  read_mesh e lhs2 file (i_mesh_file i) (i_level i) (i_sampling i) 1 = Ok (cells, raw) -> concat (map snd raw) <> [] ->
  script_pde main_complex_cd (pb_params pb) al bx bn g hard -> starts (i_architecture i) 1 nt -> twice (n_act nt) -> external_model e lhs2 o file pb main_complex_cd i = Ok m ->
  learns (forward_at main_complex_cd pb i m nt) (weights_of nt)
    (fun d l => exists generation csv template vtk fmt fs r, train_gear generation csv e lhs2 o file template vtk fmt pb (with_rates i d) nt fs = Ok r /\ r_loss r = l).
Proof. exact gear_learns. Qed.
Theorem C80_solved : forall generation csv e lhs2 o file template vtk fmt pb i nt fs r al bx bn g hard cells raw, oracle_ok o (Z.to_nat (i_quad_order i)) ->
  read_mesh e lhs2 file (i_mesh_file i) (i_level i) (i_sampling i) 1 = Ok (cells, raw) -> concat (map snd raw) <> [] ->
  script_pde main_complex_cd (pb_params pb) al bx bn g hard -> starts (i_architecture i) 1 nt -> twice (n_act nt) -> 0 <= i_beta i ->
  train_gear generation csv e lhs2 o file template vtk fmt pb i nt fs = Ok r -> nth 0 (r_loss r) [] = [0] ->
  (forall t, (t < length (r_loss r))%nat -> nth t (r_loss r) [] = [0]) /\ answers main_complex_cd (fun _ => nt) (r_points r) 0 (r_pred r).
Proof. exact gear_solved. Qed.

(* The shipped input files *)
(* where the shipped scripts write: started in one directory, four of them share one folder and two another *)
Theorem C81_outputs : forall k y path, In (k, y, path) [(Forward, input_uniform_poisson, "output/poisson2d/1"); (Forward, input_uniform_helmholtz, "output/helmholtz/1"); (HardForward, input_hard_poisson, "output/poisson2d/1");
    (Forward, input_complex_poisson, "output/poisson2d/1"); (Forward, input_complex_usa, "output/poisson2d/1"); (Forward, input_complex_cd, "output/cd2d/1"); (Forward, input_complex_gear, "output/cd2d_gear");
    (Forward, input_complex_helmholtz, "output/helmholtz/1"); (Sensors, input_inverse, "output/inv_test"); (Sensors, input_domain_usa, "output/usa_2"); (SensorFile, input_domain_circle, "output/inverse/circle_1")] ->
  exists x, read_input k y = Ok x /\ i_output_path (in_settings x) = path.
Proof. intros k y path H. repeat (destruct H as [H|H]; [injection H as <- <- <-; eexists; split; reflexivity|]). destruct H. Qed.

Theorem C81_internal : forall k sc pb y, In (k, sc, pb, y) [(Forward, main_uniform_poisson, uniform_poisson, input_uniform_poisson);
    (Forward, main_uniform_helmholtz, uniform_helmholtz, input_uniform_helmholtz); (HardForward, main_hard_poisson, hard_poisson, input_hard_poisson)] ->
  exists x, read_input k y = Ok x /\ in_activation x = "tanh" /\ forall e lhs1 o template vtk nt fs, numpy_ok e -> sampler_ok lhs1 -> oracle_ok o (Z.to_nat (i_quad_order (in_settings x))) ->
    starts (layer_dims sc (in_settings x)) 1 nt -> exists r, train_internal e lhs1 o template vtk pb sc (in_settings x) nt fs = Ok r.
Proof. exact shipped_internal. Qed.
Theorem C81_external : forall sc pb y, In (sc, pb, y) [(main_complex_poisson, circle_poisson, input_complex_poisson); (main_complex_poisson, usa_poisson, input_complex_usa);
    (main_complex_cd, circle_cd, input_complex_cd); (main_complex_helmholtz, circle_helmholtz, input_complex_helmholtz)] ->
  exists x, read_input Forward y = Ok x /\ in_activation x = "tanh" /\ forall e lhs2 o file template rows fmt nt fs mf, (forall l, sorts l (np_argsort e l)) ->
    oracle_ok o (Z.to_nat (i_quad_order (in_settings x))) -> file (i_mesh_file (in_settings x)) = Ok mf -> ready mf [1000%Z] -> rows <> [] ->
    starts (layer_dims sc (in_settings x)) 1 nt -> exists r, train_external e lhs2 o file template (Ok rows) fmt pb sc (in_settings x) nt fs = Ok r.
Proof. exact shipped_external. Qed.
Theorem C81_gear : exists x, read_input Forward input_complex_gear = Ok x /\ in_activation x = "tanh" /\ in_generation x = "external" /\
  forall srows e lhs2 o file template rows fmt nt fs mf, (forall l, sorts l (np_argsort e l)) ->
    oracle_ok o (Z.to_nat (i_quad_order (in_settings x))) -> file (i_mesh_file (in_settings x)) = Ok mf -> ready mf [1000; 1001]%Z -> rows <> [] ->
    starts (i_architecture (in_settings x)) 1 nt ->
    (length srows = length rows <-> exists r, train_gear (in_generation x) (Ok srows) e lhs2 o file template (Ok rows) fmt gear_cd (in_settings x) nt fs = Ok r).
Proof. exact shipped_gear. Qed.
Theorem C81_const : exists x, read_input Sensors input_inverse = Ok x /\ in_activation x = "tanh" /\
  forall e lhs1 lhs2 lhs o file template vtk fmt nt fs, numpy_ok e -> sampler_ok lhs1 -> (forall m, length (lhs m) = m) ->
    oracle_ok o (Z.to_nat (i_quad_order (in_settings x))) -> starts (i_architecture (in_settings x)) 1 nt ->
    exists r, train_const e lhs1 lhs2 lhs o file template vtk fmt (Ok tt) inverse_poisson (in_settings x) (Z.to_nat (in_sensors x)) nt inverse_guess fs = Ok r.
Proof. exact shipped_const. Qed.
Theorem C81_domain : forall k ds y, In (k, ds, y) [(Sensors, main_domain_usa, input_domain_usa); (SensorFile, main_domain_circle, input_domain_circle)] ->
  exists x, read_input k y = Ok x /\ in_activation x = "tanh" /\ forall e lhs1 lhs2 ch o file csv template rows fmt nt fs mf, let sensors := Z.to_nat (in_sensors x) in
    (forall l, sorts l (np_argsort e l)) -> oracle_ok o (Z.to_nat (i_quad_order (in_settings x))) -> file (i_mesh_file (in_settings x)) = Ok mf -> ready mf [1000%Z] -> rows <> [] ->
    (k = Sensors -> forall l, Permutation (ch_shuffle ch l) l) ->
    (k = SensorFile -> exists srows, csv = Ok srows /\ length srows = length rows /\ length (ch_index ch (length srows) sensors) = sensors /\
      forall j, In j (ch_index ch (length srows) sensors) -> (j < length srows)%nat) ->
    starts (i_architecture (in_settings x)) 2 nt ->
    exists r, train_domain e lhs1 lhs2 ch o file csv template (Ok rows) fmt (Ok tt) ds (in_settings x) sensors nt fs = Ok r.
Proof. exact shipped_domain. Qed.

(* ---------- concrete cases ---------- *)
Fixpoint without (path : list string) (y : yaml) : yaml :=
  match path, y with
  | [k], YMap d => YMap (filter (fun kv => negb (String.eqb (fst kv) k)) d)
  | k :: rest, YMap d => YMap (map (fun kv => if String.eqb (fst kv) k then (fst kv, without rest (snd kv)) else kv) d)
  | _, _ => y
  end.
Example C79_example :
  (exists x, reads Forward input_uniform_poisson x /\ i_fe_order (in_settings x) = 6%Z /\ i_quad_order (in_settings x) = 10%Z /\ i_architecture (in_settings x) = [2; 50; 50; 50; 50; 1]%Z /\ i_beta (in_settings x) = 10) /\
  (forall x, ~ reads Forward (without ["fe"; "quad_order"] input_uniform_poisson) x) /\
  read_input Forward (without ["fe"; "quad_order"] input_uniform_poisson) = Err KeyError /\
  (forall x, ~ reads Sensors input_uniform_poisson x).
Proof.
  split; [|split; [|split]].
  - eexists. split; [apply read_spec; reflexivity|]. repeat split.
  - intros x H. apply read_spec in H. discriminate H.
  - reflexivity.
  - intros x H. apply read_spec in H. discriminate H.
Qed.

(* a mesh file with one square cell whose edges carry the references ts *)
Definition ex_lines (ts : list Z) : string -> result (mesh_file R) := fun _ => Ok (square_file [square_lines ts; square_quads]).
Lemma ex_ready : forall a b ts, In a ts -> In b ts -> ready (square_file [square_lines [a; b; a; b]; square_quads]) ts.
Proof.
  intros a b ts Ha Hb. destruct (square_ok [a; b; a; b] [square_lines [a; b; a; b]; square_quads] (or_introl eq_refl)) as (H1 & H2 & H3). split; [exact H3|].
  exists square_edges, [square_cell], [a; b; a; b]. split; [exact H1|]. split; [exact H2|]. split; [exists (square_lines [a; b; a; b]), [square_quads]; auto|].
  split; [cbn; lia|]. split; [discriminate|]. split; [discriminate|]. intros j Hj. cbn in Hj. do 4 (destruct j as [|j]; [cbn; assumption|]). lia.
Qed.
Lemma ex_gear_settings : good_settings main_complex_cd (Properties_Loop.ex "external" [2; 10; 1]%Z).
Proof. apply Properties_Loop.ex_forward; [cbn; lia|]. intros w Hw. repeat destruct Hw as [<- | Hw]; try lia; destruct Hw. Qed.
Lemma ex_gear_runs : forall o srows, oracle_ok o 5 -> length srows = 2%nat -> exists r, run_gear "external" (Ok srows) numpy_R (fun _ _ => []) o (ex_lines [1000; 1001; 1000; 1001]%Z) "template"
  (Ok [[1; 0; 0]; [0; 1; 0]]) (fun _ => "x") gear_cd (Properties_Loop.ex "external" [2; 10; 1]%Z) (fun _ => Properties_Loop.ex_tanh [2; 10; 1]%Z) [] = Ok r.
Proof.
  intros o srows Ho L. destruct (ex_ready 1000 1001 [1000; 1001]%Z) as [Hs (edges & quads & tags & P1 & P2 & P3 & P4 & P5 & P6 & P7)]; [cbn; tauto | cbn; tauto|].
  destruct Properties_Mesh.C19_example as (He & _). assert (Hn : starts [2; 10; 1]%Z 1 (Properties_Loop.ex_tanh [2; 10; 1]%Z)) by (apply Properties_Loop.ex_starts; cbn; auto; lia).
  eapply gear_runs; [exact Ho | exact ex_gear_settings | reflexivity | exact He | reflexivity | reflexivity | exact P1 | exact P2 | exact P3 | exact P4 | exact Hs | reflexivity | cbn; lia | exact P5 | exact P6
    | exists [1000; 1001]%Z; split; [cbn; lia | intros j Hj; split; [now apply P7 | apply P7 in Hj; cbn; destruct Hj as [<- | [<- | []]]; tauto]] | discriminate | exact L
    | constructor; reflexivity | | cbn; lia | discriminate].
  intros t. rewrite <- (AdamFacts.with_own_weights (Properties_Loop.ex_tanh [2; 10; 1]%Z)). eapply LoopFacts.starts_pointwise; [exact Hn | lia | discriminate].
Qed.
Definition right_order : list (R * R * R) := [((1, 0), 5); ((0, 1), 7)].
Definition wrong_order : list (R * R * R) := [((0, 1), 7); ((1, 0), 5)].
Example C80_example : exists o r, oracle_ok o 5 /\ run_gear "external" (Ok right_order) numpy_R (fun _ _ => []) o (ex_lines [1000; 1001; 1000; 1001]%Z) "template" (Ok [[1; 0; 0]; [0; 1; 0]]) (fun _ => "x") gear_cd
    (Properties_Loop.ex "external" [2; 10; 1]%Z) (fun _ => Properties_Loop.ex_tanh [2; 10; 1]%Z) [] = Ok r /\ r_exact r = [5; 7] /\ length (r_loss r) = 5%nat.
Proof.
  destruct (TransformFacts2.any_oracle_ok 5) as [o Ho]. destruct (ex_gear_runs o right_order Ho eq_refl) as [r E]. exists o, r. split; [exact Ho|]. split; [exact E|].
  destruct (gear_report _ _ _ _ _ _ _ _ _ _ _ _ _ _ E) as (cells & raw & m & rows & head & exact & _ & _ & _ & _ & [[K _]|(_ & s & Es & Ex)] & Hr & _); [discriminate K|].
  injection Es as <-. split; [rewrite (ra_exact _ _ _ _ _ _ _ Hr), Ex; reflexivity | exact (ra_losses _ _ _ _ _ _ _ Hr)].
Qed.
(* The coordinates in the csv file are not looked at: the same rows in another order give another "exact" solution *)
Theorem C80_points_refuted : ~ (forall generation srows srows' e lhs2 o file template vtk fmt pb i weights fs r r', Permutation srows srows' ->
  run_gear generation (Ok srows) e lhs2 o file template vtk fmt pb i weights fs = Ok r -> run_gear generation (Ok srows') e lhs2 o file template vtk fmt pb i weights fs = Ok r' ->
  r_exact r = r_exact r').
Proof.
  intros H. destruct (TransformFacts2.any_oracle_ok 5) as [o Ho]. destruct (ex_gear_runs o right_order Ho eq_refl) as [r E]. destruct (ex_gear_runs o wrong_order Ho eq_refl) as [r' E'].
  specialize (H _ _ _ _ _ _ _ _ _ _ _ _ _ _ _ _ (perm_swap _ _ _) E E').
  destruct (gear_report _ _ _ _ _ _ _ _ _ _ _ _ _ _ E) as (c1 & raw & m & rows & head & exact & _ & _ & _ & _ & [[K _]|(_ & s & Es & Ex)] & Hr & _); [discriminate K|]. injection Es as <-.
  destruct (gear_report _ _ _ _ _ _ _ _ _ _ _ _ _ _ E') as (c2 & raw' & m' & rows' & head' & exact' & _ & _ & _ & _ & [[K _]|(_ & s & Es & Ex')] & Hr' & _); [discriminate K|]. injection Es as <-.
  rewrite (ra_exact _ _ _ _ _ _ _ Hr), (ra_exact _ _ _ _ _ _ _ Hr'), Ex, Ex' in H. injection H as H _. lra.
Qed.
Example C80_learns_example : exists o m r cells raw, oracle_ok o 5 /\ let i := Properties_Loop.ex "external" [2; 10; 1]%Z in let nt := Properties_Loop.ex_tanh [2; 10; 1]%Z in
  starts (i_architecture i) 1 nt /\ twice (n_act nt) /\
  read_mesh numpy_R (fun _ _ => []) Properties_Loop.ex_file (i_mesh_file i) (i_level i) (i_sampling i) 1 = Ok (cells, raw) /\ concat (map snd raw) <> [] /\
  external_model numpy_R (fun _ _ => []) o Properties_Loop.ex_file Properties_Loop.hot_problem main_complex_cd i = Ok m /\
  train_gear "internal" (Err FileNotFoundError) numpy_R (fun _ _ => []) o Properties_Loop.ex_file "template" (Ok [[1; 0; 0]; [0; 1; 0]]) (fun _ => "x") Properties_Loop.hot_problem i nt [] = Ok r /\
  length (r_loss r) = 5%nat.
Proof. exact Properties_Loop.C77_external_example. Qed.
Example C80_solved_example : exists o r cells raw, oracle_ok o 5 /\ let i := Properties_Loop.ex "external" [2; 1]%Z in let nt := Properties_Loop.zero_net 1 in
  starts (i_architecture i) 1 nt /\ twice (n_act nt) /\
  read_mesh numpy_R (fun _ _ => []) Properties_Loop.ex_file (i_mesh_file i) (i_level i) (i_sampling i) 1 = Ok (cells, raw) /\ concat (map snd raw) <> [] /\
  train_gear "internal" (Err FileNotFoundError) numpy_R (fun _ _ => []) o Properties_Loop.ex_file "template" (Ok [[1; 0; 0]; [0; 1; 0]]) (fun _ => "x") Properties_Loop.zero_problem i nt [] = Ok r /\
  length (r_loss r) = 5%nat /\ nth 0 (r_loss r) [] = [0].
Proof. exact Properties_Loop.C77_external_solved_example. Qed.

(* Initial weights of the shapes of the shipped input files, and files that they can be run on *)
Ltac shape := apply Properties_Loop.ex_starts; [cbn; lia | reflexivity | reflexivity].
Example C81_internal_example : exists x o r, read_input HardForward input_hard_poisson = Ok x /\ oracle_ok o 20 /\ train_internal numpy_R mid_sampler o "template" (Err FileNotFoundError) hard_poisson main_hard_poisson (in_settings x) (Properties_Loop.ex_tanh [2; 30; 30; 30; 1]%Z) [] = Ok r.
Proof.
  destruct (shipped_internal HardForward main_hard_poisson hard_poisson input_hard_poisson) as (x & E & _ & H); [cbn; tauto|]. pose proof E as E'. injection E' as <-.
  destruct (TransformFacts2.any_oracle_ok 20) as [o Ho]. destruct (H numpy_R mid_sampler o "template" (Err FileNotFoundError) (Properties_Loop.ex_tanh [2; 30; 30; 30; 1]%Z) []) as [r R];
    [exact numpy_R_ok | exact mid_sampler_ok | exact Ho | shape|]. eexists. exists o, r. split; [exact E|]. split; [exact Ho | exact R].
Qed.
Example C81_external_example : exists x o r, read_input Forward input_complex_usa = Ok x /\ oracle_ok o 4 /\ train_external numpy_R (fun _ _ => []) o (ex_lines [1000; 1000; 1000; 1000]%Z) "template" (Ok [[1; 0; 0]]) (fun _ => "x") usa_poisson main_complex_poisson (in_settings x)
    (Properties_Loop.ex_tanh [2; 30; 30; 30; 1]%Z) [] = Ok r.
Proof.
  destruct (shipped_external main_complex_poisson usa_poisson input_complex_usa) as (x & E & _ & H); [cbn; tauto|]. pose proof E as E'. injection E' as <-.
  destruct (TransformFacts2.any_oracle_ok 4) as [o Ho]. destruct Properties_Mesh.C19_example as (He & _).
  destruct (H numpy_R (fun _ _ => []) o (ex_lines [1000; 1000; 1000; 1000]%Z) "template" [[1; 0; 0]] (fun _ => "x") (Properties_Loop.ex_tanh [2; 30; 30; 30; 1]%Z) [] _ He Ho eq_refl) as [r R];
    [apply ex_ready; cbn; tauto | discriminate | shape|]. eexists. exists o, r. split; [exact E|]. split; [exact Ho | exact R].
Qed.
Example C81_gear_example : exists x o r, read_input Forward input_complex_gear = Ok x /\ oracle_ok o 5 /\
  train_gear (in_generation x) (Ok right_order) numpy_R (fun _ _ => []) o (ex_lines [1000; 1001; 1000; 1001]%Z) "template" (Ok [[1; 0; 0]; [0; 1; 0]]) (fun _ => "x") gear_cd (in_settings x)
    (Properties_Loop.ex_tanh [2; 50; 50; 50; 1]%Z) [] = Ok r.
Proof.
  destruct shipped_gear as (x & E & _ & _ & H). pose proof E as E'. injection E' as <-. destruct (TransformFacts2.any_oracle_ok 5) as [o Ho]. destruct Properties_Mesh.C19_example as (He & _).
  destruct (H right_order numpy_R (fun _ _ => []) o (ex_lines [1000; 1001; 1000; 1001]%Z) "template" [[1; 0; 0]; [0; 1; 0]] (fun _ => "x") (Properties_Loop.ex_tanh [2; 50; 50; 50; 1]%Z) [] _ He Ho eq_refl) as [R _];
    [apply ex_ready; cbn; tauto | discriminate | shape|]. destruct (R eq_refl) as [r R']. eexists. exists o, r. split; [exact E|]. split; [exact Ho | exact R'].
Qed.
Example C81_const_example : exists x o r, read_input Sensors input_inverse = Ok x /\ oracle_ok o 40 /\
  train_const numpy_R mid_sampler (fun _ _ => []) (fun m => repeat (1 / 2, 1 / 3) m) o (fun _ => Err FileNotFoundError) "template" (Err FileNotFoundError) (fun _ => "x") (Ok tt) inverse_poisson (in_settings x)
    (Z.to_nat (in_sensors x)) (Properties_Loop.ex_tanh [2; 30; 30; 30; 1]%Z) inverse_guess [] = Ok r.
Proof.
  destruct shipped_const as (x & E & _ & H). pose proof E as E'. injection E' as <-. destruct (TransformFacts2.any_oracle_ok 40) as [o Ho].
  destruct (H numpy_R mid_sampler (fun _ _ => []) (fun m => repeat (1 / 2, 1 / 3) m) o (fun _ => Err FileNotFoundError) "template" (Err FileNotFoundError) (fun _ => "x") (Properties_Loop.ex_tanh [2; 30; 30; 30; 1]%Z) []) as [r R];
    [exact numpy_R_ok | exact mid_sampler_ok | intros m; apply repeat_length | exact Ho | shape|]. eexists. exists o, r. split; [exact E|]. split; [exact Ho | exact R].
Qed.
(* 500 sensors drawn with replacement from the one row of the csv file *)
Definition ex_draw : chance := {| ch_lhs := fun k => repeat (0, 0) k; ch_index := fun _ k => repeat 0%nat k; ch_shuffle := fun l => l |}.
Example C81_domain_example : exists x o r, read_input SensorFile input_domain_circle = Ok x /\ oracle_ok o 5 /\
  train_domain numpy_R mid_sampler (fun _ _ => []) ex_draw o (ex_lines [1000; 1000; 1000; 1000]%Z) (Ok [((1, 0), 5)]) "template" (Ok [[1; 0; 0]]) (fun _ => "x") (Ok tt) main_domain_circle (in_settings x)
    (Z.to_nat (in_sensors x)) (Properties_Loop.ex_tanh [2; 30; 30; 30; 2]%Z) [] = Ok r.
Proof.
  destruct (shipped_domain SensorFile main_domain_circle input_domain_circle) as (x & E & _ & H); [cbn; tauto|]. pose proof E as E'. injection E' as <-.
  destruct (TransformFacts2.any_oracle_ok 5) as [o Ho]. destruct Properties_Mesh.C19_example as (He & _).
  destruct (H numpy_R mid_sampler (fun _ _ => []) ex_draw o (ex_lines [1000; 1000; 1000; 1000]%Z) (Ok [((1, 0), 5)]) "template" [[1; 0; 0]] (fun _ => "x") (Properties_Loop.ex_tanh [2; 30; 30; 30; 2]%Z) [] _ He Ho eq_refl) as [r R];
    [apply ex_ready; cbn; tauto | discriminate | discriminate | | shape|].
  - intros _. exists [((1, 0), 5)]. split; [reflexivity|]. split; [reflexivity|]. split; [apply repeat_length|]. intros j Hj. apply repeat_spec in Hj. subst. cbn. lia.
  - eexists. exists o, r. split; [exact E|]. split; [exact Ho | exact R].
Qed.

Print Assumptions C79_read.
Print Assumptions C80_report.
Print Assumptions C80_rows.
Print Assumptions C80_column.
Print Assumptions C80_learns.
Print Assumptions C80_solved.
Print Assumptions C80_points_refuted.
Print Assumptions C81_internal.
Print Assumptions C81_external.
Print Assumptions C81_gear.
Print Assumptions C81_const.
Print Assumptions C81_domain.
Print Assumptions C81_outputs.
