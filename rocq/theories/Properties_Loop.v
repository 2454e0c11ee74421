(* C77-C78: the scripts from a freshly built network to their files, with the optimizer in the loop. *)
From Coq Require Import String ZArith List Arith Reals Lra Lia Permutation.
From Coquelicot Require Import Coquelicot.
From Verif Require Import Num Py Jacobi Quadrature Basis Transform Cell Space Tensor Data Physics Train Geometry Nets Metrics Problems Driver DriverInverse Optim Loop
  Spec SpecGeom SpecTrain SpecMesh SpecWeak SpecDriver SpecDriverInverse SpecScript SpecOptim SpecLoop
  NetFacts MeshFacts ExternalFacts AngleFacts TunerFacts DriverFacts JetFacts DriverInverseFacts OptimFacts AdamFacts LoopFacts.
From Verif Require Properties_Mesh Properties_Driver Properties_DriverInverse Properties_Script.
Import ListNotations.
Local Open Scope R_scope.

(* Forward scripts on the rectangle: they come to their end *)
Theorem C77_internal_runs : forall e lhs1 o template vtk pb sc i nt fs al bx bn g hard, numpy_ok e -> sampler_ok lhs1 -> oracle_ok o (Z.to_nat (i_quad_order i)) ->
  good_settings sc i -> i_method i = "internal"%string -> fst (i_xlim i) < snd (i_xlim i) -> fst (i_ylim i) < snd (i_ylim i) ->
  (1 <= i_ncx i)%Z /\ (1 <= i_ncy i)%Z -> (4 <= i_nb i)%Z -> (2 <= i_ntx i)%Z /\ (2 <= i_nty i)%Z ->
  (forall t, In t [1000; 1001; 1002; 1003]%Z -> In t (map fst (pb_bound pb))) -> script_pde sc (pb_params pb) al bx bn g hard -> starts (layer_dims sc i) 1 nt ->
  (1 <= i_epochs i)%Z -> i_update i <> 0%Z -> exists r, train_internal e lhs1 o template vtk pb sc i nt fs = Ok r.
Proof. exact internal_own_runs. Qed.
(* the first training step lowers the loss for small learning rates, unless the gradient is zero *)
Theorem C77_internal_learns : forall e lhs1 o pb sc i nt m al bx bn g hard, numpy_ok e -> sampler_ok lhs1 -> oracle_ok o (Z.to_nat (i_quad_order i)) ->
  fst (i_xlim i) < snd (i_xlim i) -> fst (i_ylim i) < snd (i_ylim i) -> (1 <= i_ncx i)%Z /\ (1 <= i_ncy i)%Z -> (4 <= i_nb i)%Z ->
  script_pde sc (pb_params pb) al bx bn g hard -> starts (layer_dims sc i) 1 nt -> twice (n_act nt) -> internal_model e lhs1 o pb sc i = Ok m ->
  learns (forward_at sc pb i m nt) (weights_of nt) (fun d l => exists template vtk fs r, train_internal e lhs1 o template vtk pb sc (with_rates i d) nt fs = Ok r /\ r_loss r = l).
Proof. exact internal_learns. Qed.
(* a network with loss zero is kept, and is what the predictions are taken from *)
Theorem C77_internal_solved : forall e lhs1 o template vtk pb sc i nt fs r al bx bn g hard, numpy_ok e -> sampler_ok lhs1 -> oracle_ok o (Z.to_nat (i_quad_order i)) ->
  fst (i_xlim i) < snd (i_xlim i) -> fst (i_ylim i) < snd (i_ylim i) -> (1 <= i_ncx i)%Z /\ (1 <= i_ncy i)%Z -> (4 <= i_nb i)%Z ->
  script_pde sc (pb_params pb) al bx bn g hard -> starts (layer_dims sc i) 1 nt -> twice (n_act nt) -> 0 <= i_beta i ->
  train_internal e lhs1 o template vtk pb sc i nt fs = Ok r -> nth 0 (r_loss r) [] = [0] ->
  (forall t, (t < length (r_loss r))%nat -> nth t (r_loss r) [] = [0]) /\ answers sc (fun _ => nt) (r_points r) 0 (r_pred r).
Proof. exact internal_solved. Qed.
(* ... on a mesh file *)
Theorem C77_external_runs : forall e lhs2 o file template rows fmt pb sc i nt fs al bx bn g hard mf edges quads tags,
  oracle_ok o (Z.to_nat (i_quad_order i)) -> good_settings sc i -> i_method i = "external"%string ->
  (forall l, sorts l (np_argsort e l)) -> suffix (i_mesh_file i) = ".mesh"%string -> file (i_mesh_file i) = Ok mf ->
  edges_of mf edges -> quads_of mf quads -> first_refs mf tags -> (length edges <= length tags)%nat -> spatial mf ->
  i_sampling i = "uniform"%string -> (0 <= i_level i)%Z -> edges <> [] -> quads <> [] ->
  (exists ts, (length ts <= 15)%nat /\ forall j, (j < length edges)%nat -> In (nth j tags 0%Z) ts /\ In (nth j tags 0%Z) (map fst (pb_bound pb))) ->
  rows <> [] -> script_pde sc (pb_params pb) al bx bn g hard -> starts (layer_dims sc i) 1 nt ->
  (1 <= i_epochs i)%Z -> i_update i <> 0%Z -> exists r, train_external e lhs2 o file template (Ok rows) fmt pb sc i nt fs = Ok r.
Proof. exact external_own_runs. Qed.
Theorem C77_external_learns : forall e lhs2 o file pb sc i nt m al bx bn g hard cells raw, oracle_ok o (Z.to_nat (i_quad_order i)) ->
  read_mesh e lhs2 file (i_mesh_file i) (i_level i) (i_sampling i) (sc_refinement sc i) = Ok (cells, raw) -> concat (map snd raw) <> [] ->
  script_pde sc (pb_params pb) al bx bn g hard -> starts (layer_dims sc i) 1 nt -> twice (n_act nt) -> external_model e lhs2 o file pb sc i = Ok m ->
  learns (forward_at sc pb i m nt) (weights_of nt) (fun d l => exists template vtk fmt fs r, train_external e lhs2 o file template vtk fmt pb sc (with_rates i d) nt fs = Ok r /\ r_loss r = l).
Proof. exact external_learns. Qed.
Theorem C77_external_solved : forall e lhs2 o file template vtk fmt pb sc i nt fs r al bx bn g hard cells raw, oracle_ok o (Z.to_nat (i_quad_order i)) ->
  read_mesh e lhs2 file (i_mesh_file i) (i_level i) (i_sampling i) (sc_refinement sc i) = Ok (cells, raw) -> concat (map snd raw) <> [] ->
  script_pde sc (pb_params pb) al bx bn g hard -> starts (layer_dims sc i) 1 nt -> twice (n_act nt) -> 0 <= i_beta i ->
  train_external e lhs2 o file template vtk fmt pb sc i nt fs = Ok r -> nth 0 (r_loss r) [] = [0] ->
  (forall t, (t < length (r_loss r))%nat -> nth t (r_loss r) [] = [0]) /\ answers sc (fun _ => nt) (r_points r) 0 (r_pred r).
Proof. exact external_solved. Qed.
(* ... and the scripts for a coefficient on the whole domain *)
Theorem C77_domain_runs : forall e lhs1 lhs2 ch o file csv template rows fmt ds i sensors nt fs b_x b_y c mf edges quads tags,
  oracle_ok o (Z.to_nat (i_quad_order i)) -> good_inverse Domain i -> i_method i = "external"%string ->
  (forall l, sorts l (np_argsort e l)) -> suffix (i_mesh_file i) = ".mesh"%string -> file (i_mesh_file i) = Ok mf ->
  edges_of mf edges -> quads_of mf quads -> first_refs mf tags -> (length edges <= length tags)%nat -> spatial mf ->
  i_sampling i = "uniform"%string -> (0 <= i_level i)%Z -> edges <> [] -> quads <> [] ->
  (forall j, (j < length edges)%nat -> In (nth j tags 0%Z) (map fst (pb_bound (ds_problem ds)))) -> rows <> [] -> (1 <= sensors)%nat ->
  ((ds_file ds = false /\ forall l, Permutation (ch_shuffle ch l) l) \/
   (ds_file ds = true /\ exists srows, csv = Ok srows /\ length srows = length rows /\
      length (ch_index ch (length srows) sensors) = sensors /\ forall j, In j (ch_index ch (length srows) sensors) -> (j < length srows)%nat)) ->
  (forall x y, exists v, has (ds_actual ds x y) "eps" v) ->
  has (pb_params (ds_problem ds)) "b_x" b_x -> has (pb_params (ds_problem ds)) "b_y" b_y -> has (pb_params (ds_problem ds)) "c" c ->
  starts (i_architecture i) 2 nt -> (1 <= i_epochs i)%Z -> i_update i <> 0%Z ->
  exists r, train_domain e lhs1 lhs2 ch o file csv template (Ok rows) fmt (Ok tt) ds i sensors nt fs = Ok r.
Proof. intros. eapply domain_own_runs; eauto. Qed.
Theorem C77_domain_learns : forall e lhs1 lhs2 ch o file csv rows ds i sensors nt b_x b_y c cells raw template0 fs0 m,
  oracle_ok o (Z.to_nat (i_quad_order i)) -> i_method i = "external"%string -> rows <> [] -> (1 <= sensors)%nat ->
  ((ds_file ds = false /\ forall l, Permutation (ch_shuffle ch l) l) \/
   (ds_file ds = true /\ exists srows, csv = Ok srows /\ length srows = length rows /\
      length (ch_index ch (length srows) sensors) = sensors /\ forall j, In j (ch_index ch (length srows) sensors) -> (j < length srows)%nat)) ->
  read_mesh e lhs2 file (i_mesh_file i) (i_level i) (i_sampling i) 0 = Ok (cells, raw) -> concat (map snd raw) <> [] ->
  has (pb_params (ds_problem ds)) "b_x" b_x -> has (pb_params (ds_problem ds)) "b_y" b_y -> has (pb_params (ds_problem ds)) "c" c ->
  starts (i_architecture i) 2 nt -> twice (n_act nt) -> domain_model e lhs1 lhs2 ch o file csv template0 (Ok rows) ds i sensors fs0 = Ok m ->
  learns (domain_at m nt (i_beta i) (Some (pb_params (ds_problem ds)))) (weights_of nt)
    (fun d l => exists template fmt times fs r, train_domain e lhs1 lhs2 ch o file csv template (Ok rows) fmt times ds (with_rates i d) sensors nt fs = Ok r /\ d_loss r = l).
Proof. intros. eapply domain_learns; eauto. Qed.
Theorem C77_domain_solved : forall e lhs1 lhs2 ch o file csv rows ds i sensors nt b_x b_y c cells raw template fmt times fs r,
  oracle_ok o (Z.to_nat (i_quad_order i)) -> i_method i = "external"%string -> rows <> [] -> (1 <= sensors)%nat ->
  ((ds_file ds = false /\ forall l, Permutation (ch_shuffle ch l) l) \/
   (ds_file ds = true /\ exists srows, csv = Ok srows /\ length srows = length rows /\
      length (ch_index ch (length srows) sensors) = sensors /\ forall j, In j (ch_index ch (length srows) sensors) -> (j < length srows)%nat)) ->
  read_mesh e lhs2 file (i_mesh_file i) (i_level i) (i_sampling i) 0 = Ok (cells, raw) -> concat (map snd raw) <> [] ->
  has (pb_params (ds_problem ds)) "b_x" b_x -> has (pb_params (ds_problem ds)) "b_y" b_y -> has (pb_params (ds_problem ds)) "c" c ->
  starts (i_architecture i) 2 nt -> twice (n_act nt) -> 0 <= i_beta i ->
  train_domain e lhs1 lhs2 ch o file csv template (Ok rows) fmt times ds i sensors nt fs = Ok r -> nth 0 (d_loss r) [] = [0] ->
  (forall t, (t < length (d_loss r))%nat -> nth t (d_loss r) [] = [0]) /\
  exists pred inv, answers2 (fun _ => nt) (d_points r) 0 pred inv /\ stored i (d_pred r) pred /\ stored i (d_inv r) inv.
Proof. intros. eapply (domain_solved e lhs1 lhs2 ch o file csv rows); eauto. Qed.

(* C78: the inverse script for a coefficient *)
Theorem C78_runs : forall e lhs1 lhs2 lhs o file pb i sensors nt ip template vtk fmt fs, numpy_ok e -> sampler_ok lhs1 -> (forall m, length (lhs m) = m) ->
  oracle_ok o (Z.to_nat (i_quad_order i)) -> good_inverse Inverse i -> i_method i = "internal"%string -> fst (i_xlim i) < snd (i_xlim i) -> fst (i_ylim i) < snd (i_ylim i) ->
  (1 <= i_ncx i)%Z /\ (1 <= i_ncy i)%Z -> (4 <= i_nb i)%Z -> (2 <= i_ntx i)%Z /\ (2 <= i_nty i)%Z -> (2 <= sensors)%nat ->
  (forall t, In t [1000; 1001; 1002; 1003]%Z -> In t (map fst (pb_bound pb))) -> starts (i_architecture i) 1 nt -> In "eps"%string (map fst ip) -> i_update i <> 0%Z ->
  exists r, train_const e lhs1 lhs2 lhs o file template vtk fmt (Ok tt) pb i sensors nt ip fs = Ok r.
Proof. intros. apply const_own_runs; auto. Qed.
Theorem C78_learns : forall e lhs1 lhs2 lhs o file pb i sensors nt ip template0 fs0 m, numpy_ok e -> sampler_ok lhs1 -> (forall m, length (lhs m) = m) ->
  oracle_ok o (Z.to_nat (i_quad_order i)) -> i_method i = "internal"%string -> fst (i_xlim i) < snd (i_xlim i) -> fst (i_ylim i) < snd (i_ylim i) ->
  (1 <= i_ncx i)%Z /\ (1 <= i_ncy i)%Z -> (4 <= i_nb i)%Z -> (2 <= sensors)%nat -> starts (i_architecture i) 1 nt -> twice (n_act nt) -> In "eps"%string (map fst ip) ->
  const_model e lhs1 lhs2 lhs o file template0 pb i sensors fs0 = Ok m ->
  learns (const_at pb i m nt ip) (variables nt ip)
    (fun d l => exists template vtk fmt times fs r, train_const e lhs1 lhs2 lhs o file template vtk fmt times pb (with_rates i d) sensors nt ip fs = Ok r /\ c_loss r = l).
Proof. intros. eapply const_learns; eauto. Qed.
Theorem C78_solved : forall e lhs1 lhs2 lhs o file pb i sensors nt ip template vtk fmt times fs r e0, numpy_ok e -> sampler_ok lhs1 -> (forall m, length (lhs m) = m) ->
  oracle_ok o (Z.to_nat (i_quad_order i)) -> fst (i_xlim i) < snd (i_xlim i) -> fst (i_ylim i) < snd (i_ylim i) ->
  (1 <= i_ncx i)%Z /\ (1 <= i_ncy i)%Z -> (4 <= i_nb i)%Z -> (2 <= sensors)%nat -> starts (i_architecture i) 1 nt -> twice (n_act nt) -> 0 <= i_beta i -> has ip "eps" e0 ->
  train_const e lhs1 lhs2 lhs o file template vtk fmt times pb i sensors nt ip fs = Ok r -> nth 0 (c_loss r) [] = [0] ->
  (forall t, (t < length (c_loss r))%nat -> nth t (c_loss r) [] = [0]) /\ (forall t, (t < length (c_params r))%nat -> nth t (c_params r) 0 = e0) /\
  exists pred, answers1 (fun _ => nt) (c_points r) 0 pred /\ stored i (c_pred r) pred.
Proof. intros. eapply const_solved; eauto using has_key. Qed.
(* Whatever the network, the data and the losses: the written coefficient moves by at most 7.3 learning rates in an epoch *)
Theorem C78_moves : forall e lhs1 lhs2 lhs o file pb i sensors nt ip template vtk fmt times fs r rate e0, learning_rate Inverse (i_rates i) = Ok rate -> has ip "eps" e0 ->
  train_const e lhs1 lhs2 lhs o file template vtk fmt times pb i sensors nt ip fs = Ok r -> forall t, (t < length (c_params r))%nat ->
  Rabs (nth t (c_params r) 0 - match t with O => e0 | S u => nth u (c_params r) 0 end) <= 73 / 10 * Rabs (rate t).
Proof. exact const_moves. Qed.
Theorem C78_reach : forall e lhs1 lhs2 lhs o file pb i sensors nt ip template vtk fmt times fs r rate e0, learning_rate Inverse (i_rates i) = Ok rate -> has ip "eps" e0 ->
  train_const e lhs1 lhs2 lhs o file template vtk fmt times pb i sensors nt ip fs = Ok r -> forall t, (t < length (c_params r))%nat ->
  Rabs (nth t (c_params r) 0 - e0) <= 73 / 10 * Sum (fun k => Rabs (rate k)) (S t).
Proof. exact const_reach. Qed.
(* ... so with the scheduler it stays near the initial guess, however many epochs there are *)
Theorem C78_schedule : forall e lhs1 lhs2 lhs o file pb i sensors nt ip template vtk fmt times fs r lr0 n q e0,
  dget String.eqb (i_rates i) "initial_learning_rate"%string = Ok (LNum lr0) -> dget String.eqb (i_rates i) "use_lr_scheduler"%string = Ok (LBool true) ->
  dget String.eqb (i_rates i) "decay_steps"%string = Ok (LNum (INR n)) -> dget String.eqb (i_rates i) "decay_rate"%string = Ok (LNum q) -> (1 <= n)%nat -> 0 <= q < 1 -> has ip "eps" e0 ->
  train_const e lhs1 lhs2 lhs o file template vtk fmt times pb i sensors nt ip fs = Ok r -> forall t, (t < length (c_params r))%nat ->
  Rabs (nth t (c_params r) 0 - e0) <= 73 / 10 * (Rabs lr0 * (INR n / (1 - q))).
Proof. exact const_schedule. Qed.

(* ---------- the hypotheses can be met ---------- *)
(* Twice: a tanh network on the problems of the scripts, and a network that is zero on a problem with solution zero *)
Definition ex_tanh (dims : list Z) : net := {| n_act := tanh; n_attention := false; n_layers := n_layers (Properties_Driver.ex_layers dims) |}.
Definition zero_net (outs : nat) : net := {| n_act := tanh; n_attention := false; n_layers := [(false, ([repeat 0 outs; repeat 0 outs], repeat 0 outs))] |}.
Lemma ex_starts : forall dims outs, (2 <= length dims)%nat -> nth 0 dims 0%Z = 2%Z -> nth (length dims - 1) dims 0%Z = outs -> starts dims outs (ex_tanh dims).
Proof. intros dims outs H1 H2 H3. constructor; auto. exact (Properties_Driver.ex_layers_ok dims). Qed.
Lemma zero_starts : forall outs : nat, (1 <= outs)%nat -> starts [2; Z.of_nat outs]%Z (Z.of_nat outs) (zero_net outs).
Proof.
  intros outs Ho. constructor; auto. split; [reflexivity|]. intros [|i] d Hi; [|cbn in Hi; lia]. cbn. rewrite Nat2Z.id. refine (conj eq_refl (conj _ (repeat_length _ _))).
  split; [reflexivity|]. intros row [<- | [<- | []]]; apply repeat_length.
Qed.
Lemma flat_grad : forall c (U : R * R -> R), (forall p, U p = c) -> forall p, grad U p = (0, 0).
Proof.
  intros c U H p. unfold grad. rewrite (Derive_ext (fun t => U (t, snd p)) (fun _ => c)) by (intros; apply H). rewrite (Derive_ext (fun t => U (fst p, t)) (fun _ => c)) by (intros; apply H).
  now rewrite !Derive_const.
Qed.
Lemma bias_out : forall c, pointwise (network_of (with_weights (zero_net 1) [0; 0; c])) (fun _ => c) (fun _ => (0, 0)).
Proof.
  intros c. pose proof (filled_pointwise (zero_net 1) 3 (fun k => nth k [0; 0; c] 0) eq_refl (starts_chain _ _ _ (zero_starts 1 (le_n 1))) (le_n 3)) as P.
  change (listed 3 (fun k => nth k [0; 0; c] 0)) with [0; 0; c] in P.
  assert (Z : forall p, out_at (zero_net 1) 3 0 (fun k => nth k [0; 0; c] 0) p = c).
  { intros [x y]. unfold out_at. cbn. rewrite vsum_fold. cbn. ring. }
  intros b. destruct (P b) as [P1 P2]. split; [rewrite P1; f_equal; apply map_ext; intros p; now rewrite Z | rewrite P2; apply map_ext; intros p; now apply (flat_grad c)].
Qed.
Lemma zero_out1 : pointwise (network_of (zero_net 1)) (fun _ => 0) (fun _ => (0, 0)).
Proof. pose proof (bias_out 0) as P. change [0; 0; 0] with (weights_of (zero_net 1)) in P. now rewrite with_own_weights in P. Qed.
Lemma zero_out2 : pointwise2 (network_of (zero_net 2)) (fun _ => 0) (fun _ => 0) (fun _ => (0, 0)).
Proof.
  pose proof (filled_pointwise2 (zero_net 2) 6 (fun k => nth k [0; 0; 0; 0; 0; 0] 0) eq_refl (starts_chain _ _ _ (zero_starts 2 (le_S _ _ (le_n 1)))) (le_n 6)) as P.
  change (listed 6 (fun k => nth k [0; 0; 0; 0; 0; 0] 0)) with (weights_of (zero_net 2)) in P. rewrite with_own_weights in P.
  assert (Z : forall p, out_at (zero_net 2) 6 0 (fun k => nth k [0; 0; 0; 0; 0; 0] 0) p = 0 /\ out_at (zero_net 2) 6 1 (fun k => nth k [0; 0; 0; 0; 0; 0] 0) p = 0).
  { intros [x y]. unfold out_at. cbn. rewrite !vsum_fold. cbn. split; ring. }
  intros b. destruct (P b) as [P1 P2]. split; [rewrite P1; f_equal; apply map_ext; intros p; now rewrite !(proj1 (Z p)), (proj2 (Z p)) | rewrite P2; apply map_ext; intros p; apply (flat_grad 0); intros; apply Z].
Qed.
Definition ex_tags : list Z := [1000; 1001; 1002; 1003]%Z.
Definition zero_problem : problem :=
  {| pb_exact := fun _ _ => 0; pb_rhs := fun _ _ => 0; pb_bound := map (fun t => (t, fun _ _ => 0)) ex_tags; pb_params := [("eps", 1); ("b_x", 0); ("b_y", 0); ("c", 0)]%string |}.
Lemma Sum_zero : forall f n, (forall k, (k < n)%nat -> f k = 0) -> Sum f n = 0.
Proof. induction n as [|n IH]; intros H; cbn; [reflexivity|]. rewrite IH, H by auto. ring. Qed.
Lemma zero_discrete : forall w xi eta U G a bx bn g fam k cells, (forall p, U p = 0) -> (forall p, G p = (0, 0)) ->
  discrete_loss (Rule2 w xi eta) (fun _ _ => 0) U G a bx bn g fam k cells = 0.
Proof.
  intros w xi eta U G a bx bn g fam k cells HU HG. induction cells as [|c cells IH]; [reflexivity|]. unfold discrete_loss in *. cbn [fold_right]. rewrite IH.
  assert (E : Sum (fun i => Sum (fun j => Rule2 w xi eta (weak_integrand (fun _ _ => 0) U G a bx bn g (RefMap "bilinear" c) (Phi fam i j)) ^ 2) k) k = 0).
  { apply Sum_zero. intros i _. apply Sum_zero. intros j _. replace (Rule2 w xi eta _) with 0; [ring|]. symmetry. apply Sum_zero. intros q _. unfold weak_integrand. rewrite HU, HG. cbn [fst snd]. ring. }
  rewrite E. unfold Rdiv. ring.
Qed.
Lemma zero_gap : forall data U, (forall p, U p = 0) -> (forall d, In d data -> snd d = 0) -> mean_gap data U = 0.
Proof.
  intros data U HU Hd. unfold mean_gap. replace (fold_right _ 0 data) with 0; [unfold Rdiv; ring|]. induction data as [|d data IH]; [reflexivity|]. cbn [fold_right]. rewrite <- IH by (intros; apply Hd; now right).
  rewrite HU, (Hd d) by now left. ring.
Qed.
Lemma zero_data : forall bd data, boundary_data bd (pb_bound zero_problem) data -> forall d, In d data -> snd d = 0.
Proof.
  intros bd data [_ F] d Hd. induction F as [|t d' ts data (b & Eb & E) F IH]; [destruct Hd|]. destruct Hd as [K | Hd]; [subst d; etransitivity; [exact E|] | auto].
  cbn [pb_bound zero_problem ex_tags map dget] in Eb. repeat (destruct (Z.eqb _ _); [now injection Eb as <-|]). discriminate.
Qed.
Lemma zero_misfit : forall P V (f : R * R -> R), (forall p, f p = 0) -> V = map (fun p => [f p]) P -> misfit (fun _ => 0) P V = 0.
Proof.
  intros P V f Hf ->. unfold misfit. rewrite Sum_zero; [unfold Rdiv; ring|]. intros k Hk. unfold entry. rewrite (nth_indep _ [] [f (0, 0)]) by now rewrite map_length.
  rewrite map_nth with (f := fun p => [f p]). cbn [nth]. rewrite Hf. ring.
Qed.
Definition ex_file : string -> result (mesh_file R) := fun _ => Ok (square_file [square_lines ex_tags; square_quads]).
Lemma ex_file_ok : edges_of (square_file [square_lines ex_tags; square_quads]) square_edges /\ quads_of (square_file [square_lines ex_tags; square_quads]) [square_cell] /\
  first_refs (square_file [square_lines ex_tags; square_quads]) ex_tags /\ spatial (square_file [square_lines ex_tags; square_quads]).
Proof.
  destruct (square_ok ex_tags [square_lines ex_tags; square_quads] (or_introl eq_refl)) as (H1 & H2 & H3). split; [exact H1|]. split; [exact H2|]. split; [|exact H3].
  exists (square_lines ex_tags), [square_quads]. auto.
Qed.
Lemma ex_read : forall rl cells raw, read_mesh numpy_R (fun _ _ => []) ex_file "square.mesh" 2 "uniform" rl = Ok (cells, raw) -> (forall c, In c cells -> strictly_convex c) /\ concat (map snd raw) <> [].
Proof.
  intros rl cells raw E. destruct ex_file_ok as (H1 & H2 & H3 & H4).
  destruct (Properties_Script.C73_file numpy_R (fun _ _ => []) ex_file "square.mesh" 2 rl _ _ _ _ cells raw
    numpy_R_ok eq_refl eq_refl H1 H2 H3 ltac:(cbn; lia) H4 ltac:(lia) ltac:(discriminate)) as (C1 & C2 & C3); [|exact E|auto].
  intros q [<- | []]. exists (rect 0 1 0 1). split; [apply rect_convex; lra|]. unfold square_cell, rect, vertices. cbn [v0 v1 v2 v3]. apply perm_skip. apply perm_swap.
Qed.
Definition ex (method : string) (layers : list Z) : settings := Properties_DriverInverse.ex_inverse method layers.
Lemma ex_forward : forall method layers, (2 <= length layers)%nat -> (forall w, In w layers -> (1 <= w)%Z) -> good_settings main_complex_cd (ex method layers).
Proof. intros method layers H1 H2. constructor; cbn; auto 6; try lia; try discriminate. eexists; reflexivity. Qed.
Lemma ex_backward : forall k method layers, (2 <= length layers)%nat -> (forall w, In w layers -> (1 <= w)%Z) -> good_inverse k (ex method layers).
Proof. intros k method layers H1 H2. constructor; cbn; auto 6; try lia; try discriminate. destruct k; eexists; reflexivity. Qed.
Lemma ex_coefficients : forall pb, pb_params pb = pb_params zero_problem -> script_pde main_complex_cd (pb_params pb) 1 0 0 0 false /\
  has (pb_params pb) "b_x" 0 /\ has (pb_params pb) "b_y" 0 /\ has (pb_params pb) "c" 0.
Proof. intros pb ->. repeat split. constructor; reflexivity. Qed.
(* a problem that the zero network does not solve *)
Definition hot_problem : problem :=
  {| pb_exact := fun x _ => x; pb_rhs := fun _ _ => 10; pb_bound := map (fun t => (t, fun _ _ => 1)) ex_tags; pb_params := pb_params zero_problem |}.
Lemma ex_internal : forall o pb layers nt, oracle_ok o 5 -> pb_params pb = pb_params zero_problem -> map fst (pb_bound pb) = ex_tags -> (forall w, In w layers -> (1 <= w)%Z) -> starts layers 1 nt ->
  exists m r, internal_model numpy_R mid_sampler o pb main_complex_cd (ex "internal" layers) = Ok m /\
    train_internal numpy_R mid_sampler o "template" (Err FileNotFoundError) pb main_complex_cd (ex "internal" layers) nt [] = Ok r /\ length (r_loss r) = 5%nat.
Proof.
  intros o pb layers nt Ho Hp Ht Hw Hn. destruct (ex_coefficients pb Hp) as (Hs & _).
  destruct (C77_internal_runs numpy_R mid_sampler o "template" (Err FileNotFoundError) pb main_complex_cd (ex "internal" layers) nt [] 1 0 0 0 false
    numpy_R_ok mid_sampler_ok Ho (ex_forward _ _ (st_dims _ _ _ Hn) Hw) eq_refl) as [r E]; try (cbn; lra); try (cbn; lia); try exact Hs; try exact Hn; try discriminate.
  { intros t Hin. rewrite Ht. exact Hin. }
  destruct (internal_trained _ _ _ _ _ _ _ _ _ _ _ E) as (cells & mo & bd & m & E1 & E2 & R).
  exists m, r. split; [unfold internal_model; rewrite E1; exact E2|]. split; [exact E | exact (rp_losses _ _ _ _ _ _ R)].
Qed.
Lemma ex_external : forall o pb layers nt, oracle_ok o 5 -> pb_params pb = pb_params zero_problem -> map fst (pb_bound pb) = ex_tags -> (forall w, In w layers -> (1 <= w)%Z) -> starts layers 1 nt ->
  exists m r cells raw, read_mesh numpy_R (fun _ _ => []) ex_file "square.mesh" 2 "uniform" (sc_refinement main_complex_cd (ex "external" layers)) = Ok (cells, raw) /\ concat (map snd raw) <> [] /\
    external_model numpy_R (fun _ _ => []) o ex_file pb main_complex_cd (ex "external" layers) = Ok m /\
    train_external numpy_R (fun _ _ => []) o ex_file "template" (Ok [[1; 0; 0]; [0; 1; 0]]) (fun _ => "x"%string) pb main_complex_cd (ex "external" layers) nt [] = Ok r /\ length (r_loss r) = 5%nat.
Proof.
  intros o pb layers nt Ho Hp Ht Hw Hn. destruct (ex_coefficients pb Hp) as (Hs & _). destruct ex_file_ok as (H1 & H2 & H3 & H4). destruct Properties_Mesh.C19_example as (He & _).
  destruct (C77_external_runs numpy_R (fun _ _ => []) o ex_file "template" [[1; 0; 0]; [0; 1; 0]] (fun _ => "x"%string) pb main_complex_cd (ex "external" layers) nt [] 1 0 0 0 false _ _ _ _
    Ho (ex_forward _ _ (st_dims _ _ _ Hn) Hw) eq_refl He eq_refl eq_refl H1 H2 H3) as [r E]; try (cbn; lia); try exact Hs; try exact Hn; try exact H4; try discriminate; try reflexivity.
  { exists ex_tags. split; [simpl; lia|]. intros j Hj. rewrite Ht. split; apply nth_In; exact Hj. }
  destruct (external_trained _ _ _ _ _ _ _ _ _ _ _ _ _ E) as (cells & raw & m & E1 & E2 & R). exists m, r, cells, raw. split; [exact E1|]. split; [exact (proj2 (ex_read _ _ _ E1))|].
  split; [unfold external_model; rewrite E1; exact E2|]. split; [exact E | exact (rp_losses _ _ _ _ _ _ R)].
Qed.
Definition ex_domain (pb : problem) : domain_script := {| ds_problem := pb; ds_actual := fun _ _ => [("eps"%string, 1)]; ds_file := false |}.
Lemma ex_shuffle : forall l, Permutation (ch_shuffle Properties_DriverInverse.ex_chance l) l.
Proof. intros l. apply Permutation_sym, Permutation_rev. Qed.
Lemma ex_field : forall o pb layers nt, oracle_ok o 5 -> pb_params pb = pb_params zero_problem -> map fst (pb_bound pb) = ex_tags -> (forall w, In w layers -> (1 <= w)%Z) -> starts layers 2 nt ->
  exists m r cells raw, read_mesh numpy_R (fun _ _ => []) ex_file "square.mesh" 2 "uniform" 0 = Ok (cells, raw) /\ concat (map snd raw) <> [] /\
    domain_model numpy_R mid_sampler (fun _ _ => []) Properties_DriverInverse.ex_chance o ex_file (Err FileNotFoundError) "template" (Ok [[1; 0; 0]; [0; 1; 0]]) (ex_domain pb) (ex "external" layers) 1 [] = Ok m /\
    train_domain numpy_R mid_sampler (fun _ _ => []) Properties_DriverInverse.ex_chance o ex_file (Err FileNotFoundError) "template" (Ok [[1; 0; 0]; [0; 1; 0]]) (fun _ => "x"%string) (Ok tt) (ex_domain pb)
      (ex "external" layers) 1 nt [] = Ok r /\ length (d_loss r) = 5%nat.
Proof.
  intros o pb layers nt Ho Hp Ht Hw Hn. destruct (ex_coefficients pb Hp) as (_ & B1 & B2 & B3). destruct ex_file_ok as (H1 & H2 & H3 & H4). destruct Properties_Mesh.C19_example as (He & _).
  destruct (C77_domain_runs numpy_R mid_sampler (fun _ _ => []) Properties_DriverInverse.ex_chance o ex_file (Err FileNotFoundError) "template" [[1; 0; 0]; [0; 1; 0]] (fun _ => "x"%string) (ex_domain pb)
    (ex "external" layers) 1 nt [] 0 0 0 _ _ _ _ Ho (ex_backward Domain _ _ (st_dims _ _ _ Hn) Hw) eq_refl He eq_refl eq_refl H1 H2 H3) as [r E];
    try (cbn; lia); try assumption; try discriminate; try reflexivity.
  { intros j Hj. cbn [ex_domain ds_problem]. rewrite Ht. apply nth_In. exact Hj. }
  { left. split; [reflexivity | exact ex_shuffle]. }
  { intros x y. exists 1. reflexivity. }
  pose proof E as E'. unfold train_domain in E'. destruct (domain_built _ _ _ _ _ _ _ _ _ _ _ _ (ex "external" layers) _ _ _ _ eq_refl E') as (cells & raw & mp & g & m & eps & E1 & _ & _ & _ & _ & R & Em).
  exists m, r, cells, raw. split; [exact E1|]. split; [exact (proj2 (ex_read _ _ _ E1))|]. split; [exact Em|]. split; [exact E | exact (proj1 (do_losses _ _ _ _ _ _ R))].
Qed.
Definition ex_lhs (m : nat) : list (R * R) := repeat (1 / 2, 1 / 4) m.
Lemma ex_const : forall o pb layers nt, oracle_ok o 5 -> map fst (pb_bound pb) = ex_tags -> (forall w, In w layers -> (1 <= w)%Z) -> starts layers 1 nt ->
  exists m r, const_model numpy_R mid_sampler (fun _ _ => []) ex_lhs o (fun _ => Err FileNotFoundError) "template" pb (ex "internal" layers) 50 [] = Ok m /\
    train_const numpy_R mid_sampler (fun _ _ => []) ex_lhs o (fun _ => Err FileNotFoundError) "template" (Err FileNotFoundError) (fun _ => "x"%string) (Ok tt) pb
      (ex "internal" layers) 50 nt [("eps"%string, 2)] [] = Ok r /\ length (c_loss r) = 5%nat /\ length (c_params r) = 5%nat.
Proof.
  intros o pb layers nt Ho Ht Hw Hn.
  destruct (C78_runs numpy_R mid_sampler (fun _ _ => []) ex_lhs o (fun _ => Err FileNotFoundError) pb (ex "internal" layers) 50 nt [("eps"%string, 2)] "template" (Err FileNotFoundError) (fun _ => "x"%string) []
    numpy_R_ok mid_sampler_ok (fun m => repeat_length _ m) Ho (ex_backward Inverse _ _ (st_dims _ _ _ Hn) Hw) eq_refl) as [r E]; try (cbn; lra); try (cbn; lia); try exact Hn; try discriminate.
  { intros t Hin. rewrite Ht. exact Hin. }
  { left. reflexivity. }
  pose proof E as E'. unfold train_const in E'. destruct (const_built _ _ _ _ _ _ _ _ _ _ _ _ _ _ _ _ _ E') as (cells & mo & bd & m & V & _ & _ & _ & _ & R & Em).
  exists m, r. split; [exact Em|]. split; [exact E|]. split; [exact (cr_losses _ _ _ _ _ _ R) | exact (proj1 (cr_params _ _ _ _ _ _ R))].
Qed.

Example C77_internal_example : exists o m r, oracle_ok o 5 /\ let i := ex "internal" [2; 10; 1]%Z in let nt := ex_tanh [2; 10; 1]%Z in
  starts (layer_dims main_complex_cd i) 1 nt /\ twice (n_act nt) /\ internal_model numpy_R mid_sampler o hot_problem main_complex_cd i = Ok m /\
  train_internal numpy_R mid_sampler o "template" (Err FileNotFoundError) hot_problem main_complex_cd i nt [] = Ok r /\ length (r_loss r) = 5%nat.
Proof.
  destruct (TransformFacts2.any_oracle_ok 5) as [o Ho]. assert (Hn : starts [2; 10; 1]%Z 1 (ex_tanh [2; 10; 1]%Z)) by (apply ex_starts; cbn; auto; lia).
  destruct (ex_internal o hot_problem [2; 10; 1]%Z (ex_tanh [2; 10; 1]%Z) Ho eq_refl eq_refl ltac:(intros w Hw; repeat destruct Hw as [<- | Hw]; try lia; destruct Hw) Hn) as (m & r & E1 & E2 & E3).
  exists o, m, r. cbv zeta. refine (conj Ho (conj Hn (conj twice_tanh (conj E1 (conj E2 E3))))).
Qed.
Example C77_external_example : exists o m r cells raw, oracle_ok o 5 /\ let i := ex "external" [2; 10; 1]%Z in let nt := ex_tanh [2; 10; 1]%Z in
  starts (layer_dims main_complex_cd i) 1 nt /\ twice (n_act nt) /\
  read_mesh numpy_R (fun _ _ => []) ex_file (i_mesh_file i) (i_level i) (i_sampling i) (sc_refinement main_complex_cd i) = Ok (cells, raw) /\ concat (map snd raw) <> [] /\
  external_model numpy_R (fun _ _ => []) o ex_file hot_problem main_complex_cd i = Ok m /\
  train_external numpy_R (fun _ _ => []) o ex_file "template" (Ok [[1; 0; 0]; [0; 1; 0]]) (fun _ => "x"%string) hot_problem main_complex_cd i nt [] = Ok r /\ length (r_loss r) = 5%nat.
Proof.
  destruct (TransformFacts2.any_oracle_ok 5) as [o Ho]. assert (Hn : starts [2; 10; 1]%Z 1 (ex_tanh [2; 10; 1]%Z)) by (apply ex_starts; cbn; auto; lia).
  destruct (ex_external o hot_problem [2; 10; 1]%Z (ex_tanh [2; 10; 1]%Z) Ho eq_refl eq_refl ltac:(intros w Hw; repeat destruct Hw as [<- | Hw]; try lia; destruct Hw) Hn) as (m & r & cells & raw & E0 & Ec & E1 & E2 & E3).
  exists o, m, r, cells, raw. cbv zeta. exact (conj Ho (conj Hn (conj twice_tanh (conj E0 (conj Ec (conj E1 (conj E2 E3))))))).
Qed.
Example C77_domain_example : exists o m r cells raw, oracle_ok o 5 /\ let i := ex "external" [2; 10; 2]%Z in let nt := ex_tanh [2; 10; 2]%Z in
  starts (i_architecture i) 2 nt /\ twice (n_act nt) /\ read_mesh numpy_R (fun _ _ => []) ex_file (i_mesh_file i) (i_level i) (i_sampling i) 0 = Ok (cells, raw) /\ concat (map snd raw) <> [] /\
  (forall l, Permutation (ch_shuffle Properties_DriverInverse.ex_chance l) l) /\
  domain_model numpy_R mid_sampler (fun _ _ => []) Properties_DriverInverse.ex_chance o ex_file (Err FileNotFoundError) "template" (Ok [[1; 0; 0]; [0; 1; 0]]) (ex_domain hot_problem) i 1 [] = Ok m /\
  train_domain numpy_R mid_sampler (fun _ _ => []) Properties_DriverInverse.ex_chance o ex_file (Err FileNotFoundError) "template" (Ok [[1; 0; 0]; [0; 1; 0]]) (fun _ => "x"%string) (Ok tt)
    (ex_domain hot_problem) i 1 nt [] = Ok r /\ length (d_loss r) = 5%nat.
Proof.
  destruct (TransformFacts2.any_oracle_ok 5) as [o Ho]. assert (Hn : starts [2; 10; 2]%Z 2 (ex_tanh [2; 10; 2]%Z)) by (apply ex_starts; cbn; auto; lia).
  destruct (ex_field o hot_problem [2; 10; 2]%Z (ex_tanh [2; 10; 2]%Z) Ho eq_refl eq_refl ltac:(intros w Hw; repeat destruct Hw as [<- | Hw]; try lia; destruct Hw) Hn) as (m & r & cells & raw & E0 & Ec & E1 & E2 & E3).
  exists o, m, r, cells, raw. cbv zeta. exact (conj Ho (conj Hn (conj twice_tanh (conj E0 (conj Ec (conj ex_shuffle (conj E1 (conj E2 E3)))))))).
Qed.
Example C78_example : exists o m r, oracle_ok o 5 /\ let i := ex "internal" [2; 10; 1]%Z in let nt := ex_tanh [2; 10; 1]%Z in
  starts (i_architecture i) 1 nt /\ twice (n_act nt) /\ const_model numpy_R mid_sampler (fun _ _ => []) ex_lhs o (fun _ => Err FileNotFoundError) "template" hot_problem i 50 [] = Ok m /\
  train_const numpy_R mid_sampler (fun _ _ => []) ex_lhs o (fun _ => Err FileNotFoundError) "template" (Err FileNotFoundError) (fun _ => "x"%string) (Ok tt) hot_problem i 50 nt [("eps"%string, 2)] [] = Ok r /\
  length (c_loss r) = 5%nat /\ forall t, (t < 5)%nat -> Rabs (nth t (c_params r) 0 - 2) <= 730.
Proof.
  destruct (TransformFacts2.any_oracle_ok 5) as [o Ho]. assert (Hn : starts [2; 10; 1]%Z 1 (ex_tanh [2; 10; 1]%Z)) by (apply ex_starts; cbn; auto; lia).
  destruct (ex_const o hot_problem [2; 10; 1]%Z (ex_tanh [2; 10; 1]%Z) Ho eq_refl ltac:(intros w Hw; repeat destruct Hw as [<- | Hw]; try lia; destruct Hw) Hn) as (m & r & E1 & E2 & E3 & E4).
  exists o, m, r. cbv zeta. do 6 (split; [first [assumption | exact twice_tanh]|]). intros t Ht.
  assert (N : INR (Z.to_nat 1000) = 1000) by (rewrite INR_IZR_INZ, Z2Nat.id by lia; reflexivity).
  pose proof (C78_schedule numpy_R mid_sampler (fun _ _ => []) ex_lhs o (fun _ => Err FileNotFoundError) hot_problem (ex "internal" [2; 10; 1]%Z) 50 _ [("eps"%string, 2)] _ _ _ _ _ r (/ 1000) (Z.to_nat 1000) (99 / 100) 2 eq_refl eq_refl ltac:(rewrite N; reflexivity) eq_refl ltac:(lia) ltac:(lra) eq_refl E2 t ltac:(lia)) as B.
  rewrite N in B. rewrite (Rabs_pos_eq (/ 1000)) in B by lra. lra.
Qed.
(* the zero network on the problem with solution zero *)
Example C77_solved_example : exists o r, oracle_ok o 5 /\ let i := ex "internal" [2; 1]%Z in starts (layer_dims main_complex_cd i) 1 (zero_net 1) /\ twice (n_act (zero_net 1)) /\
  train_internal numpy_R mid_sampler o "template" (Err FileNotFoundError) zero_problem main_complex_cd i (zero_net 1) [] = Ok r /\ length (r_loss r) = 5%nat /\ nth 0 (r_loss r) [] = [0].
Proof.
  destruct (TransformFacts2.any_oracle_ok 5) as [o Ho]. pose proof (zero_starts 1 (le_n 1)) as Hn.
  destruct (ex_internal o zero_problem [2; 1]%Z (zero_net 1) Ho eq_refl eq_refl ltac:(intros w Hw; repeat destruct Hw as [<- | Hw]; try lia; destruct Hw) Hn) as (m & r & E1 & E2 & E3).
  exists o, r. cbv zeta. do 5 (split; [first [assumption | exact twice_tanh]|]).
  pose proof E2 as E. unfold train_internal in E. rewrite E1 in E.
  destruct (Properties_Script.C73_internal _ _ o _ _ zero_problem main_complex_cd (ex "internal" [2; 1]%Z) _ _ r 1 0 0 0 false numpy_R_ok mid_sampler_ok Ho ltac:(cbn; lra) ltac:(cbn; lra) ltac:(cbn; lia) ltac:(cbn; lia)
    (proj1 (ex_coefficients zero_problem eq_refl)) E) as (cells & mo & bd & fam & w & xi & eta & data & _ & _ & _ & D & _ & V).
  rewrite (V 0%nat (fun _ => 0) (fun _ => (0, 0))); [|cbn; lia|].
  - rewrite (zero_discrete w xi eta) by reflexivity. rewrite (zero_gap data) by (auto; apply (zero_data _ _ D)). f_equal. ring.
  - unfold forward_weights, from_model. rewrite x_start, with_own_weights. exact zero_out1.
Qed.
Example C77_external_solved_example : exists o r cells raw, oracle_ok o 5 /\ let i := ex "external" [2; 1]%Z in starts (layer_dims main_complex_cd i) 1 (zero_net 1) /\ twice (n_act (zero_net 1)) /\
  read_mesh numpy_R (fun _ _ => []) ex_file (i_mesh_file i) (i_level i) (i_sampling i) (sc_refinement main_complex_cd i) = Ok (cells, raw) /\ concat (map snd raw) <> [] /\
  train_external numpy_R (fun _ _ => []) o ex_file "template" (Ok [[1; 0; 0]; [0; 1; 0]]) (fun _ => "x"%string) zero_problem main_complex_cd i (zero_net 1) [] = Ok r /\ length (r_loss r) = 5%nat /\
  nth 0 (r_loss r) [] = [0].
Proof.
  destruct (TransformFacts2.any_oracle_ok 5) as [o Ho]. pose proof (zero_starts 1 (le_n 1)) as Hn.
  destruct (ex_external o zero_problem [2; 1]%Z (zero_net 1) Ho eq_refl eq_refl ltac:(intros w Hw; repeat destruct Hw as [<- | Hw]; try lia; destruct Hw) Hn) as (m & r & cells & raw & E0 & Ec & E1 & E2 & E3).
  exists o, r, cells, raw. cbv zeta. do 7 (split; [first [assumption | exact twice_tanh]|]).
  pose proof E2 as E. unfold train_external in E. rewrite E1 in E.
  destruct (Properties_Script.C73_external _ _ o _ _ _ _ zero_problem main_complex_cd (ex "external" [2; 1]%Z) _ _ r 1 0 0 0 false cells raw Ho
    (proj1 (ex_coefficients zero_problem eq_refl)) E E0 (proj1 (ex_read _ _ _ E0)) Ec) as (fam & w & xi & eta & data & _ & _ & D & _ & V).
  rewrite (V 0%nat (fun _ => 0) (fun _ => (0, 0))); [|cbn; lia|].
  - rewrite (zero_discrete w xi eta) by reflexivity. rewrite (zero_gap data) by (auto; apply (zero_data _ _ D)). f_equal. ring.
  - unfold forward_weights, from_model. rewrite x_start, with_own_weights. exact zero_out1.
Qed.
Example C77_domain_solved_example : exists o r, oracle_ok o 5 /\ let i := ex "external" [2; 2]%Z in starts (i_architecture i) 2 (zero_net 2) /\ twice (n_act (zero_net 2)) /\
  train_domain numpy_R mid_sampler (fun _ _ => []) Properties_DriverInverse.ex_chance o ex_file (Err FileNotFoundError) "template" (Ok [[1; 0; 0]; [0; 1; 0]]) (fun _ => "x"%string) (Ok tt)
    (ex_domain zero_problem) i 1 (zero_net 2) [] = Ok r /\ length (d_loss r) = 5%nat /\ nth 0 (d_loss r) [] = [0].
Proof.
  destruct (TransformFacts2.any_oracle_ok 5) as [o Ho]. pose proof (zero_starts 2 ltac:(lia)) as Hn.
  destruct (ex_field o zero_problem [2; 2]%Z (zero_net 2) Ho eq_refl eq_refl ltac:(intros w Hw; repeat destruct Hw as [<- | Hw]; try lia; destruct Hw) Hn) as (m & r & cells & raw & E0 & Ec & E1 & E2 & E3).
  exists o, r. cbv zeta. do 5 (split; [first [assumption | exact twice_tanh]|]).
  pose proof E2 as E. unfold train_domain in E. rewrite E1 in E.
  destruct (Properties_Script.C73_domain _ _ _ _ o _ _ _ _ _ _ (ex_domain zero_problem) (ex "external" [2; 2]%Z) _ _ _ r 0 0 0 Ho eq_refl eq_refl eq_refl E) as (cells' & bd & mp & g & P & V & [(K & _) | (_ & raw' & -> & E0')] & Es & Ep & _ & F); [discriminate|].
  change (read_mesh numpy_R (fun _ _ => []) ex_file "square.mesh" 2 "uniform" 0 = Ok (cells', raw')) in E0'. rewrite E0 in E0'. injection E0' as <- <-.
  destruct (usa_sensors (ex_domain zero_problem) (ex "external" [2; 2]%Z) mp g (Ok [[1; 0; 0]; [0; 1; 0]]) (Err FileNotFoundError) Properties_DriverInverse.ex_chance 1 P V (d_points r) eq_refl ex_shuffle Es Ep) as (L & _ & EV).
  destruct (domain_built _ _ _ _ _ _ _ _ _ _ _ _ (ex "external" [2; 2]%Z) _ _ _ _ eq_refl E) as (_ & _ & _ & g' & _ & _ & _ & G & _ & Ep' & _).
  unfold get_test_points in Ep'. rewrite G in Ep'. cbn in Ep'. injection Ep' as Ep'. rewrite <- Ep' in L.
  assert (Hp : P <> [] /\ has_shape V (length P) 1).
  { split; [intros ->; discriminate|]. rewrite EV. split; [apply map_length|]. intros row Hr. apply in_map_iff in Hr. destruct Hr as (p & <- & _). reflexivity. }
  destruct F as (fam & w & xi & eta & data & _ & _ & D & H); [exact (proj1 (ex_read _ _ _ E0)) | exact (raw_points raw Ec) | apply Hp | apply Hp |].
  rewrite (H 0%nat (fun _ => 0) (fun _ => 0) (fun _ => (0, 0))); [|cbn; lia|].
  - rewrite (zero_discrete w xi eta) by reflexivity. rewrite (zero_gap data) by (auto; apply (zero_data _ _ D)). rewrite (zero_misfit P V (fun p => pb_exact zero_problem (fst p) (snd p)) (fun _ => eq_refl) EV). f_equal. ring.
  - unfold domain_weights, from_model. rewrite x_start, with_own_weights. exact zero_out2.
Qed.
Example C78_solved_example : exists o r, oracle_ok o 5 /\ let i := ex "internal" [2; 1]%Z in starts (i_architecture i) 1 (zero_net 1) /\ twice (n_act (zero_net 1)) /\
  train_const numpy_R mid_sampler (fun _ _ => []) ex_lhs o (fun _ => Err FileNotFoundError) "template" (Err FileNotFoundError) (fun _ => "x"%string) (Ok tt) zero_problem i 50 (zero_net 1) [("eps"%string, 2)] [] = Ok r /\
  length (c_loss r) = 5%nat /\ nth 0 (c_loss r) [] = [0].
Proof.
  destruct (TransformFacts2.any_oracle_ok 5) as [o Ho]. pose proof (zero_starts 1 (le_n 1)) as Hn.
  destruct (ex_const o zero_problem [2; 1]%Z (zero_net 1) Ho eq_refl ltac:(intros w Hw; repeat destruct Hw as [<- | Hw]; try lia; destruct Hw) Hn) as (m & r & E1 & E2 & E3 & E4).
  exists o, r. cbv zeta. do 5 (split; [first [assumption | exact twice_tanh]|]).
  pose proof E2 as E. unfold train_const in E. rewrite E1 in E.
  destruct (Properties_Script.C73_const _ _ _ _ o _ _ _ _ _ zero_problem (ex "internal" [2; 1]%Z) 50 _ _ _ r numpy_R_ok mid_sampler_ok (fun m => repeat_length _ m) Ho ltac:(cbn; lra) ltac:(cbn; lra) ltac:(cbn; lia) ltac:(cbn; lia)
    ltac:(lia) E) as (cells & mo & bd & fam & w & xi & eta & data & P & _ & _ & _ & D & _ & _ & V).
  rewrite (V 0%nat 2 (fun _ => 0) (fun _ => (0, 0))); [|cbn; lia| |].
  - rewrite (zero_discrete w xi eta) by reflexivity. rewrite (zero_gap data) by (auto; apply (zero_data _ _ D)). rewrite zero_gap; [f_equal; ring | reflexivity|].
    intros d Hd. apply in_map_iff in Hd. destruct Hd as (p & <- & _). reflexivity.
  - reflexivity.
  - unfold const_variables, from_model. rewrite x_start. unfold variables. rewrite with_extra. exact zero_out1.
Qed.
(* training on the other problem, from the zero network: the loss drops *)
Definition steady (lr : R) : lrdict := [("initial_learning_rate", LNum lr); ("use_lr_scheduler", LBool false); ("decay_steps", LNum 1); ("decay_rate", LNum 1)]%string.
Lemma one_sum : forall x : R, vsum [x] = x.
Proof. intros x. rewrite vsum_fold. cbn. ring. Qed.
Lemma hot_loss : forall o m, oracle_ok o 5 -> let i := ex "internal" [2; 1]%Z in internal_model numpy_R mid_sampler o hot_problem main_complex_cd i = Ok m ->
  exists K, forall c, loss_sum (forward_at main_complex_cd hot_problem i m (zero_net 1) [0; 0; c]) = K + 10 * (c - 1) ^ 2.
Proof.
  intros o m Ho i Hm. pose proof Hm as Hm'. unfold internal_model in Hm'. destruct (generate_quad_mesh_internal _ _ _ _ _ _ _) as [[[cells mo] bd]|] eqn:Em; [|discriminate]. cbn [bind] in Hm'.
  destruct (ScriptFacts.internal_cells numpy_R mid_sampler i cells mo bd numpy_R_ok mid_sampler_ok ltac:(cbn; lra) ltac:(cbn; lra) ltac:(cbn; lia) ltac:(cbn; lia) Em) as [_ Hp].
  destruct (ex_coefficients hot_problem eq_refl) as (Hs & _).
  assert (A : forall c, exists w xi eta data fam, quad2d o 5 "gauss-jacobi" = Ok (w, xi, eta) /\ boundary_data bd (pb_bound hot_problem) data /\ family_of "legendre" = Some fam /\
    loss_sum (forward_at main_complex_cd hot_problem i m (zero_net 1) [0; 0; c]) =
      discrete_loss (Rule2 w xi eta) (fun _ _ => 10) (fun _ => c) (fun _ => (0, 0)) (fun _ => 1) 0 0 0 fam 3 cells + 10 * mean_gap data (fun _ => c)).
  { intros c. destruct (Properties_Driver.C63_runs numpy_R mid_sampler o "template" (Err FileNotFoundError) hot_problem main_complex_cd i (fun _ => with_weights (zero_net 1) [0; 0; c]) [] 1 0 0 0
      numpy_R_ok mid_sampler_ok Ho (ex_forward "internal" [2; 1]%Z (le_n 2) ltac:(intros w Hw; repeat destruct Hw as [<- | Hw]; try lia; destruct Hw)) eq_refl) as (H & _); try (cbn; lra); try (cbn; lia).
    { constructor; reflexivity. } { intros t. do 2 eexists. apply bias_out. }
    destruct H as [r E]; [cbn; lia | discriminate|].
    destruct (Properties_Driver.C63_report _ _ _ _ _ _ _ _ _ _ _ E) as (cells1 & mo1 & bd1 & m1 & Em1 & Eb1 & R & _). rewrite Em in Em1. injection Em1 as <- <- <-. rewrite Hm' in Eb1. injection Eb1 as <-.
    destruct (Properties_Script.C73_internal _ _ o _ _ hot_problem main_complex_cd i _ _ r 1 0 0 0 false numpy_R_ok mid_sampler_ok Ho ltac:(cbn; lra) ltac:(cbn; lra) ltac:(cbn; lia) ltac:(cbn; lia) Hs E)
      as (cells2 & mo2 & bd2 & fam & w & xi & eta & data & Em2 & Ef & Eq & D & _ & V). rewrite Em in Em2. injection Em2 as <- <- <-.
    exists w, xi, eta, data, fam. split; [exact Eq|]. split; [exact D|]. split; [exact Ef|]. specialize (V 0%nat _ _ ltac:(cbn; lia) (bias_out c)).
    destruct (rp_loss _ _ _ _ _ _ R 0%nat ltac:(cbn; lia)) as (L & EL & E0). rewrite E0 in V. unfold forward_at. rewrite params_id. unfold i in EL |- *. cbn [ex Properties_DriverInverse.ex_inverse i_beta] in EL |- *. rewrite EL. cbn [loss_sum]. rewrite V. rewrite one_sum. reflexivity. }
  destruct (A 0) as (w & xi & eta & data & fam & Eq & _ & Ef & _).
  exists (discrete_loss (Rule2 w xi eta) (fun _ _ => 10) (fun _ => 0) (fun _ => (0, 0)) (fun _ => 1) 0 0 0 fam 3 cells). intros c. destruct (A c) as (w' & xi' & eta' & data' & fam' & Eq' & D' & Ef' & ->).
  rewrite Eq in Eq'. injection Eq' as <- <- <-. rewrite Ef in Ef'. injection Ef' as <-. f_equal; [|f_equal].
  - unfold discrete_loss. apply (f_equal (fun h => fold_right h 0 cells)). do 2 (apply FunctionalExtensionality.functional_extensionality; intros ?). f_equal. f_equal. apply RoundFacts.Sum_same. intros a _. apply RoundFacts.Sum_same. intros b _.
    f_equal. unfold Rule2. apply RoundFacts.Sum_same. intros q _. f_equal. unfold weak_integrand. cbn [fst snd]. ring.
  - destruct D' as [D1 D2]. assert (Ne : data' <> []) by (intros ->; apply Hp; rewrite <- D1; reflexivity).
    assert (One : forall d, In d data' -> snd d = 1).
    { clear D1 Ne. intros d Hd. induction D2 as [|t d' ts data1 (b & Eb & E) F IH]; [destruct Hd|]. destruct Hd as [K | Hd]; [subst d; etransitivity; [exact E|] | auto].
      cbn [pb_bound hot_problem ex_tags map dget] in Eb. repeat (destruct (Z.eqb _ _); [now injection Eb as <-|]). discriminate. }
    unfold mean_gap. replace (fold_right _ 0 data') with (INR (length data') * (c - 1) ^ 2).
    + field. destruct data'; [now destruct Ne|]. apply not_0_INR. discriminate.
    + clear D1 D2 Ne. induction data' as [|d l IH]; [cbn; ring|]. cbn [length fold_right]. rewrite <- IH by (intros; apply One; now right). rewrite (One d) by now left. rewrite S_INR. ring.
Qed.
Example C77_drops_example : exists o eta, oracle_ok o 5 /\ 0 < eta /\ forall lr, 0 < lr < eta -> exists r,
  train_internal numpy_R mid_sampler o "template" (Err FileNotFoundError) hot_problem main_complex_cd (with_rates (ex "internal" [2; 1]%Z) (steady lr)) (zero_net 1) [] = Ok r /\ drops (r_loss r).
Proof.
  destruct (TransformFacts2.any_oracle_ok 5) as [o Ho]. pose proof (zero_starts 1 (le_n 1)) as Hn.
  destruct (ex_internal o hot_problem [2; 1]%Z (zero_net 1) Ho eq_refl eq_refl ltac:(intros w Hw; repeat destruct Hw as [<- | Hw]; try lia; destruct Hw) Hn) as (m & _ & E1 & _).
  destruct (ex_coefficients hot_problem eq_refl) as (Hs & _). destruct (hot_loss o m Ho E1) as (K & HK).
  destruct (C77_internal_learns numpy_R mid_sampler o hot_problem main_complex_cd (ex "internal" [2; 1]%Z) (zero_net 1) m 1 0 0 0 false numpy_R_ok mid_sampler_ok Ho ltac:(cbn; lra) ltac:(cbn; lra) ltac:(cbn; lia) ltac:(cbn; lia)
    Hs Hn twice_tanh E1) as [_ H].
  destruct H as (eta & He & H).
  { exists 2%nat. split; [cbn; lia|]. unfold gradients. cbn [weights_of zero_net]. change (weights_of (zero_net 1)) with [0; 0; 0]. cbn [length seq map nth upd].
    rewrite (Derive_ext _ (fun c => K + 10 * (c - 1) ^ 2)) by exact HK. rewrite (is_derive_unique _ 0 (-20)); [lra|]. auto_derive; [auto | ring]. }
  exists o, eta. split; [exact Ho|]. split; [exact He|]. intros lr Hlr.
  destruct (C77_internal_runs numpy_R mid_sampler o "template" (Err FileNotFoundError) hot_problem main_complex_cd (with_rates (ex "internal" [2; 1]%Z) (steady lr)) (zero_net 1) [] 1 0 0 0 false
    numpy_R_ok mid_sampler_ok Ho) as [r E]; try (cbn; lra); try (cbn; lia); try exact Hs; try exact Hn; try discriminate; try reflexivity.
  { constructor; cbn; auto 6; try lia; try discriminate. eexists; reflexivity. }
  exists r. split; [exact E|]. apply (H (steady lr) lr); [split; [reflexivity | exists 1; split; [reflexivity | lra]] | exact Hlr | do 4 eexists; split; [exact E | reflexivity] |].
  destruct (internal_trained _ _ _ _ _ _ _ _ _ _ _ E) as (? & ? & ? & ? & _ & _ & R). rewrite (rp_losses _ _ _ _ _ _ R). cbn. lia.
Qed.

Print Assumptions C77_internal_runs.
Print Assumptions C77_internal_learns.
Print Assumptions C77_internal_solved.
Print Assumptions C77_external_runs.
Print Assumptions C77_external_learns.
Print Assumptions C77_external_solved.
Print Assumptions C77_domain_runs.
Print Assumptions C77_domain_learns.
Print Assumptions C77_domain_solved.
Print Assumptions C78_runs.
Print Assumptions C78_learns.
Print Assumptions C78_solved.
Print Assumptions C78_moves.
Print Assumptions C78_reach.
Print Assumptions C78_schedule.
