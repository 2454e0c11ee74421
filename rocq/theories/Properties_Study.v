(* C82: the hyperparameter search as a whole. *)
From Coq Require Import String ZArith List Arith Lia Reals Lra.
From Verif Require Import Num Py Quadrature Basis Transform Cell Space Tensor Data Physics Train Geometry Nets Metrics Tuner Optim Study
  Spec SpecGeom SpecTrain SpecMesh SpecOptim TensorFacts QuadFacts TransformFacts2 AngleFacts MeshFacts NetFacts MetricFacts TunerFacts AdamFacts SpecStudy StudyFacts.
Import ListNotations.
Local Open Scope R_scope.

(* the value of a trial is the relative L2 error, on the 100 x 100 grid of the unit square, of the network after
   n steps of Adam with rate lr * rate^(t / steps) on the Poisson loss with weight 10 *)
Theorem C82_value : forall e lhs1 o pb d n, can_run e lhs1 o pb d -> let s := d_suggestion d in let nt := d_net d in
  exists m rate st x pts U,
    (exists cells mo bd sp h dir,
       generate_quad_mesh_internal e lhs1 (0, 1) (0, 1) (s_nx s) (s_ny s) (s_nb s) = Ok (cells, mo, bd) /\
       make_space o {| cf_cell_type := "quadrilateral"; cf_fe_order := s_fe_order s; cf_fe_type := s_fe_type s; cf_quad_order := s_quad_order s; cf_quad_type := s_quad_type s; cf_trafo := "bilinear" |}
         cells bd (pb_bound pb) false = Ok sp /\
       make_handler sp (pb_rhs pb) true = Ok h /\ get_dirichlet_input bd (pb_bound pb) = Ok dir /\ m = model_of h dir ([], []) pde_loss_poisson (length cells)) /\
    (forall t, rate t = s_lr s * s_rate s ^ (t / Z.to_nat (s_steps s))) /\
    (let f := standard_at m nt 10 (Some (pb_params pb)) in
     trains m (Z.to_nat (s_nx s) * Z.to_nat (s_ny s)) (Z.to_nat (s_fe_order s) * Z.to_nat (s_fe_order s)) (Z.to_nat (s_quad_order s) * Z.to_nat (s_quad_order s)) nt 10 f (length (weights_of nt)) /\
     trained rate f (weights_of nt) n = Ok (st, x)) /\
    nn_out (network_of (with_weights nt x)) pts = Ok (map (fun p => [U p]) pts) /\
    length pts = (Z.to_nat 100 * Z.to_nat 100)%nat /\
    (forall i j, (i < Z.to_nat 100)%nat -> (j < Z.to_nat 100)%nat -> nth (j * Z.to_nat 100 + i) pts (0, 0) = (INR i / 99, INR j / 99)) /\
    train_trial e lhs1 o pb n d =
    compute_l2_error_relative {| a_shape := [length pts]; a_data := map (fun p => pb_exact pb (fst p) (snd p)) pts |}
                              {| a_shape := [length pts]; a_data := map U pts |}.
Proof. exact value. Qed.
(* run returns the parameters of a trial of the least value, among the stored ones and the new ones *)
Theorem C82_best : forall cpus gpus n_jobs e lhs1 o pb n stored draws ps, stored_ok stored -> tune cpus gpus n_jobs e lhs1 o pb n stored draws = Ok ps ->
  exists v, v <> NaN /\
    (In (Complete v ps) stored \/ exists d, In d draws /\ train_trial e lhs1 o pb n d = Ok v /\ describes ps (d_suggestion d)) /\
    (forall v' ps', In (Complete v' ps') stored -> not_above v v') /\
    (forall d, In d draws -> exists v', train_trial e lhs1 o pb n d = Ok v' /\ (v' = NaN \/ not_above v v')).
Proof. exact best. Qed.
(* the dictionary determines mesh, space, network and optimizer of the trial *)
Theorem C82_params : forall ps s s', describes ps s -> describes ps s' -> s = s'.
Proof. exact describes_inj. Qed.
Theorem C82_runs : forall cpus gpus n_jobs e lhs1 o pb n stored draws, (1 <= gpus)%nat -> (1 <= n_jobs \/ n_jobs = -1)%Z -> stored_ok stored ->
  (forall d, In d draws -> can_run e lhs1 o pb d) -> nonzero_on_grid (pb_exact pb) -> draws <> [] ->
  exists ps, tune cpus gpus n_jobs e lhs1 o pb n stored draws = Ok ps /\
    (In ps (flat_map (fun t => match t with Complete _ ps => [ps] | Failed => [] end) stored) \/ exists s, in_search_space s /\ describes ps s).
Proof. exact runs. Qed.
(* a stored trial of another problem with value 0 is returned whatever the new trials give *)
Theorem C82_stale_refuted : forall cpus gpus n_jobs e lhs1 o pb n ps stored draws, (1 <= gpus)%nat -> (1 <= n_jobs \/ n_jobs = -1)%Z ->
  (forall d, In d draws -> can_run e lhs1 o pb d) -> nonzero_on_grid (pb_exact pb) -> (forall v' ps', In (Complete v' ps') stored -> not_above (Fin 0) v') ->
  tune cpus gpus n_jobs e lhs1 o pb n (Complete (Fin 0) ps :: stored) draws = Ok ps.
Proof. exact stale. Qed.
(* an exact solution that vanishes on the grid: the first trial wins, however far its prediction is from zero *)
Theorem C82_zero_refuted : forall cpus gpus n_jobs e lhs1 o pb n d draws, (1 <= gpus)%nat -> (1 <= n_jobs \/ n_jobs = -1)%Z ->
  (forall d', In d' (d :: draws) -> can_run e lhs1 o pb d') -> zero_on_grid (pb_exact pb) -> train_trial e lhs1 o pb n d <> Ok NaN ->
  exists ps, tune cpus gpus n_jobs e lhs1 o pb n [] (d :: draws) = Ok ps /\ describes ps (d_suggestion d).
Proof. exact blind. Qed.
Theorem C82_no_gpu : forall cpus n_jobs e lhs1 o pb n stored draws,
  ((0 <= n_jobs)%Z -> tune cpus 0 n_jobs e lhs1 o pb n stored draws = Err ValueError) /\
  (draws <> [] -> tune cpus 0 (-1) e lhs1 o pb n stored draws = Err ZeroDivisionError).
Proof. exact no_gpu. Qed.
Theorem C82_nothing : forall cpus gpus n_jobs e lhs1 o pb n stored draws, (1 <= gpus)%nat -> (1 <= n_jobs \/ n_jobs = -1)%Z -> (forall v ps, ~ In (Complete v ps) stored) ->
  (forall d, In d draws -> train_trial e lhs1 o pb n d = Ok NaN) -> tune cpus gpus n_jobs e lhs1 o pb n stored draws = Err ValueError.
Proof. exact nothing. Qed.

(* ---------- the hypotheses can be met ---------- *)
Definition ex_fresh : net := {| n_act := tanh; n_attention := false; n_layers := n_layers (ex_weights ex_suggestion) |}.
Definition ex_trial : draw := {| d_suggestion := ex_suggestion; d_net := ex_fresh |}.
Definition ex_problem (u : R -> R -> R) : problem :=
  {| pb_bound := [(1000%Z, fun _ _ => 0); (1001%Z, fun _ _ => 0); (1002%Z, fun _ _ => 0); (1003%Z, fun _ _ => 0)]; pb_rhs := fun _ _ => 1; pb_exact := u; pb_params := [("eps"%string, 1)] |}.
Lemma ex_can_run : forall u, exists o, can_run numpy_R mid_sampler o (ex_problem u) ex_trial.
Proof.
  intros u. destruct (any_oracle_ok (Z.to_nat (s_quad_order ex_suggestion))) as [o Ho]. exists o.
  refine (conj numpy_R_ok (conj mid_sampler_ok (conj Ho (conj ex_in_space (conj _ (conj _ _)))))).
  - intros t Ht. exact Ht.
  - exists 1. reflexivity.
  - constructor; [exact (ex_weights_ok ex_suggestion) | reflexivity | reflexivity].
Qed.
Lemma ex_nonzero : nonzero_on_grid (fun x y => x + y).
Proof. exists 1%nat, 0%nat. split; [lia|]. split; [lia|]. cbn. lra. Qed.
Lemma ex_failed : stored_ok [Failed; Complete (Fin 3) []].
Proof. intros v ps [H | [H | []]]; [discriminate|]. injection H as <- <-. discriminate. Qed.
Example C82_value_example : exists o, can_run numpy_R mid_sampler o (ex_problem (fun x y => x + y)) ex_trial /\
  s_lr ex_suggestion * s_rate ex_suggestion ^ (2 * Z.to_nat 1000 / Z.to_nat (s_steps ex_suggestion)) = 9025 / 10000000.
Proof.
  destruct (ex_can_run (fun x y => x + y)) as [o H]. exists o. split; [exact H|].
  cbn [ex_suggestion s_lr s_rate s_steps]. rewrite Nat.div_mul by lia. field.
Qed.
Example C82_best_example : exists o ps, stored_ok [Failed; Complete (Fin 3) []] /\
  tune 16 2 1 numpy_R mid_sampler o (ex_problem (fun x y => x + y)) 5 [Failed; Complete (Fin 3) []] [ex_trial; ex_trial] = Ok ps.
Proof.
  destruct (ex_can_run (fun x y => x + y)) as [o H]. exists o.
  destruct (C82_runs 16 2 1 numpy_R mid_sampler o (ex_problem (fun x y => x + y)) 5 [Failed; Complete (Fin 3) []] [ex_trial; ex_trial]) as (ps & E & _);
    [lia | lia | exact ex_failed | intros d [<- | [<- | []]]; exact H | exact ex_nonzero | discriminate|]. exists ps. split; [exact ex_failed | exact E].
Qed.
Example C82_params_example : describes (params ex_suggestion) ex_suggestion /\ nth_error (params ex_suggestion) 9 = Some ("layer_1"%string, PInt 20).
Proof. split; [apply params_describe | reflexivity]. Qed.
Example C82_runs_example : exists o, (forall d, In d [ex_trial] -> can_run numpy_R mid_sampler o (ex_problem (fun x y => x + y)) d) /\
  nonzero_on_grid (pb_exact (ex_problem (fun x y => x + y))) /\ exists ps, tune 16 2 (-1) numpy_R mid_sampler o (ex_problem (fun x y => x + y)) 5 [] [ex_trial] = Ok ps /\ describes ps ex_suggestion.
Proof.
  destruct (ex_can_run (fun x y => x + y)) as [o H]. exists o. assert (A : forall d, In d [ex_trial] -> can_run numpy_R mid_sampler o (ex_problem (fun x y => x + y)) d) by (intros d [<- | []]; exact H).
  split; [exact A|]. split; [exact ex_nonzero|].
  destruct (C82_runs 16 2 (-1) numpy_R mid_sampler o (ex_problem (fun x y => x + y)) 5 [] [ex_trial]) as (ps & E & _); [lia | lia | intros ? ? [] | exact A | exact ex_nonzero | discriminate|].
  exists ps. split; [exact E|]. destruct (C82_best _ _ _ _ _ _ _ _ _ _ _ (fun v ps => fun K : In (Complete v ps) [] => match K with end) E) as (v & _ & [[] | (d & [<- | []] & _ & D)] & _). exact D.
Qed.
Example C82_stale_example : exists o, tune 16 2 1 numpy_R mid_sampler o (ex_problem (fun x y => x + y)) 5 [Complete (Fin 0) []; Failed] [ex_trial] = Ok [] /\ ~ describes [] ex_suggestion.
Proof.
  destruct (ex_can_run (fun x y => x + y)) as [o H]. exists o. split.
  - apply C82_stale_refuted; [lia | lia | intros d [<- | []]; exact H | exact ex_nonzero | intros v ps [K | []]; discriminate].
  - intros [D _]. discriminate D.
Qed.
(* the network that is 1 everywhere *)
Definition ex_one : net :=
  {| n_act := tanh; n_attention := false;
     n_layers := [(true, (mk 2 10 (fun _ _ => 0), repeat 0 10)); (true, (mk 10 20 (fun _ _ => 0), repeat 0 20)); (false, (mk 20 1 (fun _ _ => 0), [1]))] |}.
Definition ex_trial_one : draw := {| d_suggestion := ex_suggestion; d_net := ex_one |}.
Example C82_zero_example : exists o, can_run numpy_R mid_sampler o (ex_problem (fun _ _ => 0)) ex_trial_one /\ zero_on_grid (pb_exact (ex_problem (fun _ _ => 0))) /\
  train_trial numpy_R mid_sampler o (ex_problem (fun _ _ => 0)) 0 ex_trial_one <> Ok NaN.
Proof.
  destruct (ex_can_run (fun _ _ => 0)) as [o (A1 & A2 & A3 & A4 & A5 & A6 & _)]. exists o.
  assert (F : fresh ex_suggestion ex_one).
  { constructor; [|reflexivity|reflexivity]. split; [reflexivity|]. intros i d Hi. cbn in Hi. destruct i as [|[|[|i]]]; [| | |lia]; (split; [reflexivity|]); (split; [|reflexivity]); apply mk_shape. }
  assert (H : can_run numpy_R mid_sampler o (ex_problem (fun _ _ => 0)) ex_trial_one) by exact (conj A1 (conj A2 (conj A3 (conj A4 (conj A5 (conj A6 F)))))).
  split; [exact H|]. split; [intros i j _ _; reflexivity|].
  destruct (C82_value _ _ _ _ _ 0 H) as (m & rate & st & x & pts & U & _ & _ & [_ Ex] & Eo & Lp & P & ->).
  cbn [trained] in Ex. injection Ex as _ <-. rewrite with_own_weights in Eo.
  destruct (plain_pointwise ex_one eq_refl) as (U' & S1 & P1 & _).
  { exact (widths_chain (architecture ex_suggestion) ex_one ltac:(cbn; lia) eq_refl (fr_widths _ _ F)). }
  assert (Z0 : U' (0, 0) = 1) by (specialize (S1 (0, 0)); cbn in S1; injection S1 as <-; rewrite !Rmult_0_r; unfold vsum; cbn; ring).
  pose proof grid_size as G. assert (Hin : In (0, 0) pts).
  { pose proof (P 0%nat 0%nat G G) as K. cbn [INR] in K. replace (0 / 99) with 0 in K by field. rewrite <- K. apply nth_In. nia. }
  assert (EU : U (0, 0) = 1).
  { rewrite <- Z0. destruct (P1 pts) as [Q _]. cbn [ex_trial_one d_net] in Eo. rewrite Q in Eo. injection Eo as Eo. clear - Eo Hin. induction pts as [|p l IH]; [destruct Hin|]. cbn in Eo. injection Eo as E1 E2. destruct Hin as [-> | Hin]; auto. }
  set (u := {| a_shape := _; a_data := map (fun p => pb_exact _ (fst p) (snd p)) pts |}). set (v := {| a_shape := _; a_data := map U pts |}).
  assert (C : comparable u v). { split; cbn; [now rewrite !map_length|]. intros E. apply map_eq_nil in E. rewrite E in Hin. destruct Hin. }
  destruct (relative_zero_exact u v C) as (-> & _).
  - intros y Hy. cbn in Hy. apply in_map_iff in Hy. now destruct Hy as (p & <- & _).
  - destruct (list_eq_dec _ _ _) as [E|]; [|discriminate]. exfalso. cbn in E. clear - E Hin EU. induction pts as [|p l IH]; [destruct Hin|]. cbn in E. injection E as E1 E2. destruct Hin as [-> | Hin]; [lra | auto].
Qed.
Example C82_nothing_example : forall o, (forall v ps, ~ In (Complete v ps) [Failed; Failed]) /\
  tune 16 2 1 numpy_R mid_sampler o (ex_problem (fun x y => x + y)) 5 [Failed; Failed] [] = Err ValueError.
Proof. intros o. split; [intros v ps [K | [K | []]]; discriminate | reflexivity]. Qed.

Print Assumptions C82_value.
Print Assumptions C82_best.
Print Assumptions C82_params.
Print Assumptions C82_runs.
Print Assumptions C82_stale_refuted.
Print Assumptions C82_zero_refuted.
Print Assumptions C82_no_gpu.
Print Assumptions C82_nothing.
