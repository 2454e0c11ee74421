(* Every trial of the tuner runs; devices. *)
From Coq Require Import String ZArith List Arith Lia Bool Reals Lra.
From Verif Require Import Num Py PyFacts Jacobi Quadrature Basis Transform Cell Space Tensor Data Physics Train Geometry Nets Metrics Tuner
  RCalc PolyFacts ListFacts Spec SpecGeom SpecTrain SpecMesh QuadFacts CellFacts2 SpaceFacts TensorFacts PhysicsFacts DataFacts TrainFacts PipelineFacts MeshFacts NetFacts MetricFacts.
Import ListNotations.
Local Open Scope R_scope.

Section Trial.
Variables (e : numpy R) (lhs1 : nat -> nat -> list R) (o : quad_oracle R) (pb : problem) (weights : nat -> net) (s : suggestion).
Hypothesis He : numpy_ok e.
Hypothesis Hl : sampler_ok lhs1.
Hypothesis Ho : oracle_ok o (Z.to_nat (s_quad_order s)).
Hypothesis Hs : in_search_space s.
Hypothesis Hb : forall t, In t [1000; 1001; 1002; 1003]%Z -> In t (map fst (pb_bound pb)).
Variable eps : R.
Hypothesis Hp : has (pb_params pb) "eps" eps.
Hypothesis Hw : forall t, widths (architecture s) (weights t) /\ n_attention (weights t) = false.

Lemma arch_len : (2 <= length (architecture s))%nat.
Proof. unfold architecture. rewrite !app_length. simpl. lia. Qed.
Lemma arch_pos : forall w, In w (architecture s) -> (1 <= w)%Z.
Proof.
  intros w H. unfold architecture in H. apply in_app_or in H. destruct H as [[<- | []] | H]; [lia|].
  apply in_app_or in H. destruct H as [H | [<- | []]]; [|lia]. pose proof (ss_layers s Hs w H). lia.
Qed.
Lemma arch_last : nth (length (architecture s) - 1) (architecture s) 0%Z = 1%Z.
Proof.
  unfold architecture. rewrite app_assoc, app_length. cbn [length]. rewrite Nat.add_sub, app_nth2 by lia. now rewrite Nat.sub_diag.
Qed.
Lemma weights_pointwise : forall t, exists U G, pointwise (network_of (weights t)) U G.
Proof.
  intros t. destruct (Hw t) as [W A]. pose proof (widths_chain (architecture s) (weights t) arch_len eq_refl W) as C.
  unfold chain in *. cbv beta zeta in C. rewrite arch_last in C. destruct (plain_pointwise (weights t) A C) as (U & _ & P & _). eauto.
Qed.

Lemma trial_setup : exists cells mo bd sp h dir,
  generate_quad_mesh_internal e lhs1 (0, 1) (0, 1) (s_nx s) (s_ny s) (s_nb s) = Ok (cells, mo, bd) /\
  make_space o (tuner_config s) cells bd (pb_bound pb) false = Ok sp /\
  make_handler sp (pb_rhs pb) true = Ok h /\ get_dirichlet_input bd (pb_bound pb) = Ok dir /\
  model_fits (model_of h dir ([], []) pde_loss_poisson (length cells)) (length cells)
    (Z.to_nat (s_fe_order s) * Z.to_nat (s_fe_order s)) (Z.to_nat (s_quad_order s) * Z.to_nat (s_quad_order s)).
Proof.
  destruct Hs as [H1 H2 H3 H4 H5 H6 H7 _ _ _ _ _].
  destruct (generate_quad_mesh_internal e lhs1 (0, 1) (0, 1) (s_nx s) (s_ny s) (s_nb s)) as [[[cells mo] bd]|] eqn:E.
  2:{ rewrite internal_ok in E; auto; try lia; try (intro; lra). discriminate. }
  exists cells, mo, bd.
  assert (Q0 : (0 < 1)) by lra.
  pose proof (tile_area e lhs1 0 1 0 1 (s_nx s) (s_ny s) (s_nb s) cells mo bd He Hl ltac:(lia) ltac:(lia) ltac:(lia) E Q0 Q0) as TA.
  pose proof (tile_count e lhs1 0 1 0 1 (s_nx s) (s_ny s) (s_nb s) cells mo bd He Hl ltac:(lia) ltac:(lia) ltac:(lia) E Q0 Q0) as TC.
  pose proof (boundary_returned _ _ _ _ _ _ _ _ _ _ _ _ E) as B.
  destruct (boundary_sides lhs1 0 1 0 1 (s_nb s) Hl ltac:(lia)) as (b & r & t & l & B' & L1 & _). rewrite B in B'. injection B' as ->.
  assert (Hlen : lengths_ok o (Z.to_nat (cf_quad_order (tuner_config s)))) by exact (oracle_lengths _ _ Ho).
  assert (S : exists sp, make_space o (tuner_config s) cells [(1000%Z, b); (1001%Z, r); (1002%Z, t); (1003%Z, l)] (pb_bound pb) false = Ok sp).
  { apply (space_iff o (tuner_config s) cells _ (pb_bound pb) false Hlen). refine (conj _ (conj _ (conj _ _))).
    - intros ->. cbn [length] in TC. assert (1 <= Z.to_nat (s_nx s) * Z.to_nat (s_ny s))%nat by nia. lia.
    - intros c Hc. constructor; cbn [tuner_config cf_cell_type cf_fe_order cf_quad_order cf_fe_type cf_quad_type cf_trafo]; auto; try lia.
      destruct H5 as [<- | [<- | []]]; simpl; auto.
    - intros tag pts Hin _. apply Hb. repeat destruct Hin as [Hin | Hin]; try (injection Hin as <- _; simpl; tauto). destruct Hin.
    - discriminate. }
  destruct S as [sp S]. destruct (handler_spec o (tuner_config s) cells _ _ false sp Hlen S (pb_rhs pb)) as (h & Eh & _).
  assert (D : exists dir, get_dirichlet_input [(1000%Z, b); (1001%Z, r); (1002%Z, t); (1003%Z, l)] (pb_bound pb) = Ok dir).
  { unfold get_dirichlet_input. pose proof S as S'. apply make_space_inv in S'. destruct S' as (_ & _ & Ed & _). rewrite Ed. cbn [bind]. eauto. }
  destruct D as [dir D]. exists sp, h, dir. refine (conj eq_refl (conj S (conj Eh (conj D _)))).
  apply (pipeline_fits o (tuner_config s) cells _ _ false sp (pb_rhs pb) h dir ([], []) pde_loss_poisson _ Hlen S Eh D).
  destruct (dirichlet_input_shape _ _ _ D) as [_ Dd]. destruct (dirichlet_rows _ _ _ _ Dd) as (Ex & _).
  rewrite Ex. assert (b <> []).
  { intros ->. cbn in L1. assert (1 <= s_nb s / 4)%Z by (apply Z.div_le_lower_bound; lia). lia. }
  cbn. destruct b; [congruence | discriminate].
Qed.
Lemma params_same : forall d : list (string * R), params_as_tensors (fun r => r) d = d.
Proof. intros d. unfold params_as_tensors. rewrite <- (map_id d) at 2. apply map_ext. now intros []. Qed.
Lemma step_runs : forall m C T Q nn U G, model_fits m C T Q -> m_cells m = C -> pointwise nn U G -> m_loss m = pde_loss_poisson ->
  exists L, train_standard m nn 10 (Some (pb_params pb)) = Ok L.
Proof.
  intros m C T Q nn U G Hm Hc Hn Hlo. erewrite standard_ok by eauto. rewrite Hlo.
  set (u := at_points U (m_x m) C Q). set (ux := at_points (fun p => fst (G p)) (m_x m) C Q). set (uy := at_points (fun p => snd (G p)) (m_x m) C Q).
  assert (Hf : fits (m_val m) (m_gx m) (m_gy m) u ux uy (m_force m) C T Q) by now apply at_points_fits.
  destruct (poisson_spec _ _ _ _ _ _ _ _ _ _ Hf _ eps Hp) as (l & El & _). unfold bparams in El. rewrite El. eauto.
Qed.
Definition tuner_geom : geom R :=
  {| g_method := "internal"; g_ntx := 100; g_nty := 100; g_folder := "output_temp"; g_optimized := true;
     g_limits := Some ((0, 1), (0, 1)); g_file := None |}.
Lemma trial_value : forall n, exists pts U, nn_out (network_of (weights n)) pts = Ok (map (fun p => [U p]) pts) /\
  get_test_points tuner_geom (Err FileNotFoundError) = Ok pts /\ length pts = (Z.to_nat 100 * Z.to_nat 100)%nat /\
  objective e lhs1 o pb weights s n =
  compute_l2_error_relative {| a_shape := [length pts]; a_data := map (fun p => pb_exact pb (fst p) (snd p)) pts |}
                            {| a_shape := [length pts]; a_data := map U pts |}.
Proof.
  intros n. destruct trial_setup as (cells & mo & bd & sp & h & dir & E1 & E2 & E3 & E4 & F).
  destruct (test_points_internal tuner_geom (Err FileNotFoundError) (0, 1) (0, 1) eq_refl eq_refl ltac:(discriminate) ltac:(discriminate)) as (pts & Ep & Lp & _).
  cbn [tuner_geom g_ntx g_nty] in Lp.
  destruct (weights_pointwise n) as (U & G & P). exists pts, U. destruct (P pts) as [Po _]. split; [exact Po|]. split; [exact Ep|]. split; [exact Lp|].
  assert (T : exists r, mapM (fun t => train_standard (model_of h dir ([], []) pde_loss_poisson (length cells)) (network_of (weights t)) 10 (Some (pb_params pb))) (seq 0 n) = Ok r).
  { apply mapM_ok. intros t _. destruct (weights_pointwise t) as (U' & G' & P'). eapply step_runs; eauto. }
  destruct T as [r T].
  destruct (learning_rate Standard (tuner_rates s)) as [f|] eqn:Ef; [|discriminate].
  pose proof (construct_ok (architecture s) arch_len arch_pos Standard (length cells) (tuner_rates s) f false Ef ltac:(discriminate)) as Ec.
  unfold objective.
  change (make_geometry "quadrilateral" "internal" 100 100 "output_temp" true) with
    (Ok {| g_method := "internal"; g_ntx := 100; g_nty := 100; g_folder := "output_temp"; g_optimized := true; g_limits := @None ((R * R) * (R * R)); g_file := None |}).
  cbn [bind]. unfold call_internal. rewrite E1. cbn [g_optimized bind]. rewrite E2. cbn [bind]. rewrite E3. cbn [bind]. rewrite E4. cbn [bind].
  rewrite Ec. cbn [bind]. rewrite params_same, T. cbn [bind].
  change (set_limits _ _) with tuner_geom. rewrite Ep. cbn [bind]. rewrite Po. cbn [bind].
  assert (Ecc : concat (map (fun p => [U p]) pts) = map U pts) by (clear; induction pts as [|p l IH]; cbn; congruence).
  rewrite Ecc, !map_length.
  set (ue := {| a_shape := _; a_data := map _ pts |}). set (ua := {| a_shape := _; a_data := map U pts |}).
  assert (Cm : comparable ue ua).
  { split; cbn; [now rewrite !map_length|]. intros E. apply map_eq_nil in E. rewrite E in Lp. cbn [length] in Lp.
    assert (0 < Z.to_nat 100)%nat by lia. nia. }
  rewrite combined_eq, (l2_eq _ _ Cm), (linf_eq _ _ Cm), (l1_eq _ _ Cm). destruct (relative_eq _ _ Cm) as (R1 & R2 & R3). rewrite R1, R2, R3. reflexivity.
Qed.
End Trial.

(* ---------- devices ---------- *)
Lemma gpu_ok : forall t g, (1 <= g)%nat -> exists d, gpu_id t g = Ok d /\ (d < g)%nat.
Proof. intros t [|g] H; [lia|]. eexists. split; [reflexivity|]. apply Nat.mod_upper_bound. lia. Qed.
Lemma mod_apart : forall n t t', (n <> 0)%nat -> (t < t' < t + n)%nat -> (t mod n <> t' mod n)%nat.
Proof.
  intros n t t' Hn H E. pose proof (Nat.div_mod t n Hn) as A. pose proof (Nat.div_mod t' n Hn) as B. rewrite <- E in B.
  clear E. remember (t mod n)%nat as r eqn:Er. remember (t / n)%nat as q eqn:Eq. remember (t' / n)%nat as q' eqn:Eq'. clear Er Eq Eq'.
  assert (Q : (q = q' \/ S q <= q' \/ S q' <= q)%nat) by lia. destruct Q as [-> | [Q | Q]]; [lia | |].
  - apply (Nat.mul_le_mono_l _ _ n) in Q. rewrite Nat.mul_succ_r in Q. lia.
  - apply (Nat.mul_le_mono_l _ _ n) in Q. rewrite Nat.mul_succ_r in Q. lia.
Qed.
Lemma gpu_distinct : forall t t' g d, (t < t' < t + g)%nat -> gpu_id t g = Ok d -> gpu_id t' g <> Ok d.
Proof.
  intros t t' g d H E K. destruct g as [|g]; [discriminate|]. unfold gpu_id in *. injection E as <-. injection K as K.
  exact (mod_apart (S g) t t' (Nat.neq_succ_0 g) H (eq_sym K)).
Qed.
Lemma gpu_shared : forall t g, (1 <= g)%nat -> gpu_id (t + g) g = gpu_id t g.
Proof. intros t [|g] H; [lia|]. unfold gpu_id. f_equal. replace (t + S g)%nat with (t + 1 * S g)%nat by lia. apply Nat.mod_add. lia. Qed.
Lemma gpu_none : forall T (run : nat -> result T) t, objective_wrapper 0 run t = Err ZeroDivisionError.
Proof. reflexivity. Qed.
Lemma jobs_bounded : forall cpus gpus n_jobs k, (1 <= n_jobs)%Z -> tuner_jobs cpus gpus n_jobs = Ok k -> (1 <= k <= gpus)%nat.
Proof.
  intros cpus gpus n_jobs k H E. unfold tuner_jobs, optimize_jobs, requested_jobs in E.
  destruct (Z.eqb_spec (Z.min (Z.of_nat gpus) n_jobs) (-1)); [lia|]. destruct (Z.leb_spec (Z.min (Z.of_nat gpus) n_jobs) 0); [discriminate|].
  injection E as <-. lia.
Qed.
Lemma jobs_default : forall cpus gpus, tuner_jobs cpus gpus (-1) = Ok cpus.
Proof. intros. unfold tuner_jobs, optimize_jobs, requested_jobs. replace (Z.min (Z.of_nat gpus) (-1)) with (-1)%Z by lia. reflexivity. Qed.
Lemma jobs_none : forall cpus n_jobs, (0 <= n_jobs)%Z -> tuner_jobs cpus 0 n_jobs = Err ValueError.
Proof. intros cpus n_jobs H. unfold tuner_jobs, optimize_jobs, requested_jobs. replace (Z.min (Z.of_nat 0) n_jobs) with 0%Z by lia. reflexivity. Qed.
(* reachable states of the runner *)
Lemma run_inv : forall jobs n l, tuner_run jobs (0%nat, []) (n, l) -> (length l <= jobs)%nat /\ NoDup l /\ forall k, In k l -> (k < n)%nat.
Proof.
  intros jobs n l H. remember (n, l) as s eqn:E. revert n l E. induction H as [|s' s'' H IH S]; intros n l E.
  - injection E as <- <-. split; [simpl; lia|]. split; [constructor | intros k []].
  - subst s''. inversion S; subst; destruct (IH _ _ eq_refl) as (A & B & C).
    + split; [simpl; lia|]. split; [constructor; auto; intros K; apply C in K; lia|]. intros k [<- | K]; [lia | apply C in K; lia].
    + rewrite !app_length in *. cbn [length] in A. split; [lia|]. split; [now apply NoDup_remove_1 in B|].
      intros k' K. apply C. apply in_app_or in K. apply in_or_app. destruct K; simpl; auto.
Qed.
Lemma sequential_alone : forall n l, tuner_run 1 (0%nat, []) (n, l) -> forall k k', In k l -> In k' l -> k = k'.
Proof.
  intros n l H k k' Hk Hk'. destruct (run_inv _ _ _ H) as (L & _). destruct l as [|a [|b l]]; simpl in L; try lia; [destruct Hk|].
  destruct Hk as [<- | []], Hk' as [<- | []]. reflexivity.
Qed.
Lemma start_finish : forall m jobs s n l, (1 <= jobs)%nat -> (length l < jobs)%nat -> tuner_run jobs s (n, l) -> tuner_run jobs s ((m + n)%nat, l).
Proof.
  induction m as [|m IH]; intros jobs s n l Hj Hl H; auto. replace (S m + n)%nat with (m + S n)%nat by lia.
  apply IH; auto. eapply Later; [eapply Later; [exact H | now apply Start]|]. exact (Finish jobs (S n) [] n l).
Qed.
(* with two or more workers a long trial meets a later trial on its device *)
Lemma device_shared : forall jobs gpus, (2 <= jobs)%nat -> (1 <= gpus)%nat ->
  exists n l k k', tuner_run jobs (0%nat, []) (n, l) /\ In k l /\ In k' l /\ k <> k' /\ gpu_id k gpus = gpu_id k' gpus.
Proof.
  intros jobs gpus Hj Hg. exists (S gpus), [gpus; 0%nat], gpus, 0%nat. split.
  - eapply Later; [|apply Start; simpl; lia]. replace gpus with ((gpus - 1) + 1)%nat at 1 by lia. apply start_finish; [lia | simpl; lia|].
    eapply Later; [apply Here | apply Start; simpl; lia].
  - split; [simpl; auto|]. split; [simpl; auto|]. split; [lia|]. exact (gpu_shared 0 gpus Hg).
Qed.

(* ---------- an example suggestion ---------- *)
Definition ex_suggestion : suggestion :=
  {| s_nx := 2; s_ny := 3; s_nb := 100; s_fe_order := 4; s_fe_type := "legendre"; s_quad_order := 6; s_quad_type := "gauss-jacobi";
     s_layers := [10; 20]%Z; s_lr := / 1000; s_steps := 1000; s_rate := 95 / 100 |}.
Lemma ex_in_space : in_search_space ex_suggestion.
Proof.
  constructor; cbn; try lia; try lra; auto.
Qed.
Definition ex_weights (s : suggestion) : net :=
  {| n_act := fun v => v; n_attention := false;
     n_layers := map (fun i => ((i <? length (architecture s) - 2)%nat,
                   (mk (Z.to_nat (nth i (architecture s) 0%Z)) (Z.to_nat (nth (i + 1) (architecture s) 0%Z)) (fun _ _ => 1),
                    repeat 0 (Z.to_nat (nth (i + 1) (architecture s) 0%Z))))) (seq 0 (length (architecture s) - 1)) |}.
Lemma ex_weights_ok : forall s, widths (architecture s) (ex_weights s).
Proof.
  intros s. split; cbn [ex_weights n_layers]; [now rewrite map_length, seq_length|]. intros i d Hi. rewrite nth_seq_map by exact Hi. rewrite Nat.add_0_l.
  refine (conj eq_refl (conj (mk_shape _ _ _) _)). apply repeat_length.
Qed.

(* ---------- as stated ---------- *)
Lemma trial : forall e lhs1 o pb weights s eps n, numpy_ok e -> sampler_ok lhs1 -> oracle_ok o (Z.to_nat (s_quad_order s)) ->
  in_search_space s -> (forall t, In t [1000; 1001; 1002; 1003]%Z -> In t (map fst (pb_bound pb))) -> has (pb_params pb) "eps" eps ->
  (forall t, widths (architecture s) (weights t) /\ n_attention (weights t) = false) ->
  exists pts U,
    nn_out (network_of (weights n)) pts = Ok (map (fun p => [U p]) pts) /\
    length pts = (Z.to_nat 100 * Z.to_nat 100)%nat /\
    (forall i j, (i < Z.to_nat 100)%nat -> (j < Z.to_nat 100)%nat -> nth (j * Z.to_nat 100 + i) pts (0, 0) = (INR i / 99, INR j / 99)) /\
    objective e lhs1 o pb weights s n =
    compute_l2_error_relative {| a_shape := [length pts]; a_data := map (fun p => pb_exact pb (fst p) (snd p)) pts |}
                              {| a_shape := [length pts]; a_data := map U pts |}.
Proof.
  intros e lhs1 o pb weights s eps n He Hl Ho Hs Hb Hp Hw.
  destruct (trial_value e lhs1 o pb weights s He Hl Ho Hs Hb eps Hp Hw n) as (pts & U & A & B & C & D).
  exists pts, U. refine (conj A (conj C (conj _ D))). intros i j Hi Hj.
  destruct (test_points_internal tuner_geom (Err FileNotFoundError) (0, 1) (0, 1) eq_refl eq_refl ltac:(discriminate) ltac:(discriminate)) as (pts' & E & _ & P).
  rewrite B in E. injection E as <-. cbn [tuner_geom g_ntx g_nty] in P. rewrite (P i j Hi Hj). cbn [fst snd]. unfold grid_coord.
  destruct (Nat.eqb_spec (Z.to_nat 100) 1) as [K|K]; [lia|].
  replace (INR (Z.to_nat 100)) with 100 by (rewrite INR_IZR_INZ, Z2Nat.id by lia; reflexivity).
  f_equal; field.
Qed.
Lemma bounded_jobs : forall cpus gpus n_jobs k, (1 <= n_jobs)%Z -> tuner_jobs cpus gpus n_jobs = Ok k ->
  (1 <= k <= gpus)%nat /\ forall n l, tuner_run k (0%nat, []) (n, l) -> (length l <= gpus)%nat /\ NoDup l.
Proof.
  intros cpus gpus n_jobs k H E. pose proof (jobs_bounded cpus gpus n_jobs k H E) as B. split; [exact B|]. intros n l R.
  destruct (run_inv _ _ _ R) as (A & N & _). split; [lia | exact N].
Qed.
Lemma fill : forall k jobs, (k <= jobs)%nat -> exists l, tuner_run jobs (0%nat, []) (k, l) /\ length l = k.
Proof.
  induction k as [|k IH]; intros jobs H; [exists []; split; [apply Here | reflexivity]|].
  destruct (IH jobs ltac:(lia)) as (l & R & L). exists (k :: l). split; [|simpl; lia]. eapply Later; [exact R | apply Start; lia].
Qed.
Lemma default_jobs : forall cpus gpus, (gpus < cpus)%nat ->
  exists k n l, tuner_jobs cpus gpus (-1) = Ok k /\ tuner_run k (0%nat, []) (n, l) /\ (gpus < length l)%nat.
Proof.
  intros cpus gpus H. destruct (fill cpus cpus (le_n _)) as (l & R & L). exists cpus, cpus, l. split; [apply jobs_default|]. split; [exact R | lia].
Qed.
