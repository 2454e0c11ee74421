(* C83: the networks that the constructors build.  C84: between the test points. *)
From Coq Require Import String ZArith List Arith Reals Lra Lia.
From Coquelicot Require Import Coquelicot.
From Verif Require Import Num Py Jacobi Quadrature Basis Transform Cell Space Tensor Data Physics Train Geometry Nets Metrics Tuner Problems Driver Optim Loop Init
  Spec SpecGeom SpecTrain SpecMesh SpecWeak SpecDriver SpecScript SpecOptim SpecLoop SpecStudy SpecInit
  NetFacts MeshFacts AngleFacts TunerFacts DriverFacts JetFacts OptimFacts AdamFacts InitFacts.
From Verif Require Properties_Mesh Properties_Tuning Properties_Driver Properties_DriverInverse Properties_Loop.
Import ListNotations.
Local Open Scope R_scope.

(* The constructors give a network as C77, C78 and C82 start from: widths as listed, biases zero, kernels within
   the limits of glorot_uniform *)
Theorem C83_network : forall act att rnd dims outs, layer_sizes dims outs -> (forall l i j, 0 <= rnd l i j <= 1) ->
  exists nt, initial act att rnd dims = Ok nt /\ n_act nt = act /\ n_attention nt = att /\ (att = false -> starts dims outs nt) /\ widths dims nt /\
    forall l d, (l < length dims - 1)%nat -> let n := Z.to_nat (nth l dims 0%Z) in let u := Z.to_nat (nth (l + 1) dims 0%Z) in
      snd (snd (nth l (n_layers nt) d)) = repeat 0 u /\
      forall i j, (i < n)%nat -> (j < u)%nat -> Rabs (entry (fst (snd (nth l (n_layers nt) d))) i j) <= sqrt (6 / (INR n + INR u)).
Proof. exact initial_network. Qed.
Theorem C83_study : forall s rnd, in_search_space s -> (forall l i j, 0 <= rnd l i j <= 1) -> exists nt, initial tanh false rnd (architecture s) = Ok nt /\ fresh s nt.
Proof. exact initial_fresh. Qed.
(* Whatever is drawn, the initial network is an odd function for an odd activation *)
Theorem C83_odd : forall act rnd dims outs nt, layer_sizes dims outs -> odd act -> initial act false rnd dims = Ok nt -> forall p y,
  nn_out (network_of nt) [p] = Ok [y] -> nn_out (network_of nt) [(- fst p, - snd p)] = Ok [map Ropp y].
Proof. exact initial_odd. Qed.
Theorem C83_origin : forall act rnd dims outs nt, layer_sizes dims outs -> odd act -> initial act false rnd dims = Ok nt -> exists y,
  nn_out (network_of nt) [(0, 0)] = Ok [y] /\ length y = Z.to_nat outs /\ forall j, nth j y 0 = 0.
Proof. exact initial_origin. Qed.
(* ... so the initial diffusion coefficient of the model for a coefficient field is nowhere positive together with
   its mirror image *)
Theorem C83_coefficient : forall rnd dims nt, layer_sizes dims 2 -> initial tanh false rnd dims = Ok nt ->
  exists U E, (forall p, nn_out (network_of nt) [p] = Ok [[U p; E p]]) /\ forall p, E (- fst p, - snd p) = - E p.
Proof. exact initial_field. Qed.

(* Steepness of a network, in the maximum norm *)
Theorem C84_steep : forall dims outs nt g, starts dims outs nt -> nonexpansive (n_act nt) -> gains dims nt g -> forall p q yp yq,
  nn_out (network_of nt) [p] = Ok [yp] -> nn_out (network_of nt) [q] = Ok [yq] -> forall j, (j < Z.to_nat outs)%nat ->
  Rabs (nth j yp 0 - nth j yq 0) <= product g (length dims - 1) * far p q.
Proof. exact steep. Qed.
(* ... after t training steps from a freshly built one *)
Theorem C84_trained : forall rnd act dims outs nt extra rate f t st x, layer_sizes dims outs -> (forall l i j, 0 <= rnd l i j <= 1) -> nonexpansive act -> initial act false rnd dims = Ok nt ->
  trained rate f (weights_of nt ++ extra) t = Ok (st, x) -> forall p q yp yq,
  nn_out (network_of (with_weights nt x)) [p] = Ok [yp] -> nn_out (network_of (with_weights nt x)) [q] = Ok [yq] -> forall j, (j < Z.to_nat outs)%nat ->
  Rabs (nth j yp 0 - nth j yq 0) <= drift_steepness dims (73 / 10 * Sum (fun k => Rabs (rate k)) t) * far p q.
Proof. exact trained_steep. Qed.
(* The printed maximum error over the grid of test points bounds the error on the whole rectangle *)
Theorem C84_between : forall e lhs1 o template vtk pb sc i weights fs r U G K L l2 a l2r linfr l1 l1r,
  run_internal e lhs1 o template vtk pb sc i weights fs = Ok r -> i_method i = "internal"%string -> (2 <= i_ntx i)%Z /\ (2 <= i_nty i)%Z ->
  pointwise (the_network sc (weights (r_saved r))) U G ->
  steepness_on (in_box (i_xlim i) (i_ylim i)) U K -> steepness_on (in_box (i_xlim i) (i_ylim i)) (fun p => pb_exact pb (fst p) (snd p)) L ->
  r_errors r = (l2, Fin a, l2r, linfr, l1, l1r) -> 0 <= K + L -> forall p, in_box (i_xlim i) (i_ylim i) p ->
  Rabs (U p - pb_exact pb (fst p) (snd p)) <=
  a + (K + L) * (Rmax ((snd (i_xlim i) - fst (i_xlim i)) / (IZR (i_ntx i) - 1)) ((snd (i_ylim i) - fst (i_ylim i)) / (IZR (i_nty i) - 1)) / 2).
Proof. exact everywhere. Qed.
(* ... with nothing assumed of the weights, from the layer sizes and the learning rates alone *)
Theorem C84_script : forall e lhs1 o template vtk pb sc i rnd nt fs r rate L,
  layer_sizes (layer_dims sc i) 1 -> (forall l i j, 0 <= rnd l i j <= 1) -> initial tanh false rnd (layer_dims sc i) = Ok nt ->
  train_internal e lhs1 o template vtk pb sc i nt fs = Ok r -> sc_kind sc <> Hard -> learning_rate (sc_kind sc) (i_rates i) = Ok rate ->
  i_method i = "internal"%string -> (2 <= i_ntx i)%Z /\ (2 <= i_nty i)%Z ->
  steepness_on (in_box (i_xlim i) (i_ylim i)) (fun p => pb_exact pb (fst p) (snd p)) L -> 0 <= L ->
  exists weights U l2 a l2r linfr l1 l1r, r_errors r = (l2, Fin a, l2r, linfr, l1, l1r) /\ (forall p, nn_out (network_of (with_weights nt weights)) [p] = Ok [[U p]]) /\ r_pred r = map U (r_points r) /\
  forall p, in_box (i_xlim i) (i_ylim i) p -> Rabs (U p - pb_exact pb (fst p) (snd p)) <=
  a + (drift_steepness (layer_dims sc i) (73 / 10 * Sum (fun k => Rabs (rate k)) (Z.to_nat (i_epochs i))) + L) *
      (Rmax ((snd (i_xlim i) - fst (i_xlim i)) / (IZR (i_ntx i) - 1)) ((snd (i_ylim i) - fst (i_ylim i)) / (IZR (i_nty i) - 1)) / 2).
Proof. exact everywhere_trained. Qed.

(* ---------- examples ---------- *)
Lemma ex_sizes : layer_sizes [2; 30; 30; 30; 1]%Z 1 /\ layer_sizes [2; 10; 1]%Z 1 /\ layer_sizes [2; 20; 2]%Z 2.
Proof. repeat split; cbn; try lia; intros w Hw; repeat destruct Hw as [<- | Hw]; try lia; destruct Hw. Qed.
Definition three_quarters : nat -> nat -> nat -> R := fun _ _ _ => 3 / 4.
Lemma three_quarters_ok : forall l i j, 0 <= three_quarters l i j <= 1.
Proof. intros. unfold three_quarters. lra. Qed.
(* a network that is not zero: two inputs, one output, both weights sqrt 2 / 2 *)
Example C83_example : odd tanh /\ nonexpansive tanh /\ layer_sizes [2; 1]%Z 1 /\ exists nt, initial tanh false three_quarters [2; 1]%Z = Ok nt /\ starts [2; 1]%Z 1 nt /\
  nn_out (network_of nt) [(1, 0)] = Ok [[sqrt 2 / 2]] /\ nn_out (network_of nt) [(-1, 0)] = Ok [[- (sqrt 2 / 2)]].
Proof.
  assert (D : layer_sizes [2; 1]%Z 1) by (repeat split; cbn; try lia; intros w Hw; repeat destruct Hw as [<- | Hw]; try lia; destruct Hw).
  split; [exact tanh_odd|]. split; [exact tanh_nonexpansive|]. split; [exact D|].
  destruct (initial_network tanh false three_quarters [2; 1]%Z 1 D three_quarters_ok) as (nt & E & _ & _ & S & _). exists nt. split; [exact E|]. split; [now apply S|]. clear S.
  assert (E2 : glorot_limit 2 1 = sqrt 2) by (unfold glorot_limit; f_equal; cbn; field). unfold initial, glorot_uniform, three_quarters in E. cbn in E. change (Pos.to_nat 2) with 2%nat in E.
  change (Pos.to_nat 1) with 1%nat in E. cbn in E. rewrite E2 in E. injection E as <-. split; cbn; unfold vsum; cbn; do 3 f_equal; field.
Qed.
Example C83_study_example : exists s, in_search_space s.
Proof. exists ex_suggestion. exact ex_in_space. Qed.
(* layer sizes 2, 1, 1 without training: 2 sqrt 2 * sqrt 3 *)
Example C84_number : drift_steepness [2; 1; 1]%Z 0 = 2 * (sqrt 2 + 0) * (sqrt 3 + 0).
Proof.
  unfold drift_steepness. cbn. change (Pos.to_nat 2) with 2%nat. change (Pos.to_nat 1) with 1%nat. cbn. replace (6 / (1 + 1 + 1)) with 2 by field. replace (6 / (1 + 1)) with 3 by field. ring.
Qed.
Example C84_gains_example : exists nt, starts [2; 1]%Z 1 nt /\ nonexpansive (n_act nt) /\ gains [2; 1]%Z nt (fun _ => 7).
Proof.
  exists {| n_act := tanh; n_attention := false; n_layers := [(false, ([[3]; [-4]], [5]))] |}. split; [|split].
  - constructor; auto. split; [reflexivity|]. intros [|l] d Hl; [|cbn in Hl; lia]. cbn. repeat split. intros row [<- | [<- | []]]; reflexivity.
  - exact tanh_nonexpansive.
  - intros [|l] d Hl; [|cbn in Hl; lia]. split; [lra|]. intros j Hj. cbn in Hj. assert (j = 0)%nat by lia. subst j. change (Z.to_nat (nth 0 [2; 1]%Z 0%Z)) with 2%nat. cbn. rewrite Rplus_0_l, (Rabs_pos_eq 3) by lra. rewrite Rabs_left by lra. lra.
Qed.
Lemma hot_steep : forall xl yl, steepness_on (in_box xl yl) (fun p => pb_exact Properties_Loop.hot_problem (fst p) (snd p)) 1.
Proof. intros xl yl p q _ _. cbn. rewrite Rmult_1_l. apply Rmax_l. Qed.
(* five training steps of a network with ten hidden units for a solution that is not zero *)
Example C84_example : exists o nt r rate, oracle_ok o 5 /\ let i := Properties_Loop.ex "internal" [2; 10; 1]%Z in
  layer_sizes (layer_dims main_complex_cd i) 1 /\ initial tanh false three_quarters (layer_dims main_complex_cd i) = Ok nt /\
  train_internal numpy_R mid_sampler o "template" (Err FileNotFoundError) Properties_Loop.hot_problem main_complex_cd i nt [] = Ok r /\ sc_kind main_complex_cd <> Hard /\
  learning_rate (sc_kind main_complex_cd) (i_rates i) = Ok rate /\ i_method i = "internal"%string /\ (2 <= i_ntx i)%Z /\ (2 <= i_nty i)%Z.
Proof.
  destruct (TransformFacts2.any_oracle_ok 5) as [o Ho]. destruct ex_sizes as (_ & D & _).
  destruct (initial_network tanh false three_quarters [2; 10; 1]%Z 1 D three_quarters_ok) as (nt & E & _ & _ & S & _). specialize (S eq_refl).
  destruct (Properties_Loop.ex_internal o Properties_Loop.hot_problem [2; 10; 1]%Z nt Ho eq_refl eq_refl ltac:(intros w Hw; repeat destruct Hw as [<- | Hw]; try lia; destruct Hw) S) as (m & r & _ & E2 & _).
  exists o, nt, r. eexists. cbv zeta. split; [exact Ho|]. split; [exact D|]. split; [exact E|]. split; [exact E2|]. split; [discriminate|]. split; [reflexivity|]. split; [reflexivity|]. cbn. lia.
Qed.
Print Assumptions C83_network.
Print Assumptions C83_study.
Print Assumptions C83_odd.
Print Assumptions C83_origin.
Print Assumptions C83_coefficient.
Print Assumptions C84_steep.
Print Assumptions C84_trained.
Print Assumptions C84_between.
Print Assumptions C84_script.
