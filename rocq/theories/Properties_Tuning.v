(* Error measures and the hyperparameter tuner: C40, C41, C50, C51. *)
From Coq Require Import String ZArith List Arith Lia Bool Reals Lra.
From Verif Require Import Num Py Jacobi Quadrature Basis Transform Cell Space Tensor Data Physics Train Geometry Nets Metrics Tuner
  Spec SpecGeom SpecTrain SpecMesh QuadFacts TransformFacts2 AngleFacts MeshFacts NetFacts MetricFacts TunerFacts.
Import ListNotations.
Local Open Scope R_scope.

(* C40; comparable: the same positive number of entries, any shapes *)
Theorem C40_values : forall u v, comparable u v ->
  compute_l2_error u v = Ok (Fin (sqrt (Sum (fun i => (nth i (a_data u) 0 - nth i (a_data v) 0) ^ 2) (length (a_data u)) / INR (length (a_data u))))) /\
  compute_l1_error u v = Ok (Fin (Sum (fun i => Rabs (nth i (a_data u) 0 - nth i (a_data v) 0)) (length (a_data u)) / INR (length (a_data u)))) /\
  exists m, compute_linf_error u v = Ok (Fin m) /\
    (forall i, (i < length (a_data u))%nat -> Rabs (nth i (a_data u) 0 - nth i (a_data v) 0) <= m) /\
    (exists i, (i < length (a_data u))%nat /\ m = Rabs (nth i (a_data u) 0 - nth i (a_data v) 0)).
Proof. exact values. Qed.
Theorem C40_distance : forall err, In err [compute_l2_error; compute_l1_error; compute_linf_error] -> forall u v w, comparable u v -> comparable v w ->
  exists a b c, err u v = Ok (Fin a) /\ err v w = Ok (Fin b) /\ err u w = Ok (Fin c) /\
    0 <= a /\ (a = 0 <-> a_data u = a_data v) /\ err v u = err u v /\ c <= a + b.
Proof. exact distance. Qed.
Theorem C40_order : forall u v, comparable u v -> exists a b c,
  compute_l1_error u v = Ok (Fin a) /\ compute_l2_error u v = Ok (Fin b) /\ compute_linf_error u v = Ok (Fin c) /\ a <= b <= c.
Proof. exact order. Qed.
Theorem C40_relative : forall u v, comparable u v -> (exists x, In x (a_data u) /\ x <> 0) ->
  let zero := {| a_shape := a_shape u; a_data := map (fun _ => 0) (a_data u) |} in
  forall err rel, In (err, rel) [(compute_l2_error, compute_l2_error_relative); (compute_l1_error, compute_l1_error_relative);
                                 (compute_linf_error, compute_linf_error_relative)] ->
  exists a b, err u v = Ok (Fin a) /\ err u zero = Ok (Fin b) /\ 0 < b /\ rel u v = Ok (Fin (a / b)).
Proof. exact relative. Qed.
Theorem C40_scaling : forall c u v, c <> 0 -> comparable u v ->
  let times w := {| a_shape := a_shape w; a_data := map (fun x => c * x) (a_data w) |} in
  compute_l2_error_relative (times u) (times v) = compute_l2_error_relative u v /\
  compute_l1_error_relative (times u) (times v) = compute_l1_error_relative u v /\
  compute_linf_error_relative (times u) (times v) = compute_linf_error_relative u v.
Proof. exact relative_scaled. Qed.
Theorem C40_combined : forall u v, comparable u v -> exists a b c d e f,
  compute_errors_combined u v = Ok (a, b, c, d, e, f) /\
  compute_l2_error u v = Ok a /\ compute_linf_error u v = Ok b /\ compute_l2_error_relative u v = Ok c /\
  compute_linf_error_relative u v = Ok d /\ compute_l1_error u v = Ok e /\ compute_l1_error_relative u v = Ok f.
Proof. exact combined. Qed.
(* only the entries in row-major order count *)
Theorem C40_shapes : forall u v u' v', a_data u = a_data u' -> a_data v = a_data v' ->
  compute_errors_combined u v = compute_errors_combined u' v'.
Proof. exact shapes_ignored. Qed.

(* C50: sizes and degenerate arrays *)
Theorem C50_refused : forall u v, length (a_data u) <> length (a_data v) -> length (a_data u) <> 1%nat -> length (a_data v) <> 1%nat ->
  compute_l2_error u v = Err ValueError /\ compute_l1_error u v = Err ValueError /\ compute_linf_error u v = Err ValueError /\
  compute_l2_error_relative u v = Err ValueError /\ compute_l1_error_relative u v = Err ValueError /\ compute_linf_error_relative u v = Err ValueError /\
  compute_errors_combined u v = Err ValueError.
Proof. exact sizes_refused. Qed.
Theorem C50_single_refuted : forall u v c, a_data v = [c] -> a_data u <> [] -> exists a,
  compute_l2_error u v = Ok (Fin a) /\
  compute_l2_error u {| a_shape := a_shape u; a_data := map (fun _ => c) (a_data u) |} = Ok (Fin a).
Proof. exact single_accepted. Qed.
Theorem C50_zero_solution : forall u v, comparable u v -> (forall x, In x (a_data u) -> x = 0) ->
  let r := if list_eq_dec Req_EM_T (a_data u) (a_data v) then NaN else PosInf in
  compute_l2_error_relative u v = Ok r /\ compute_l1_error_relative u v = Ok r /\ compute_linf_error_relative u v = Ok r.
Proof. exact relative_zero_exact. Qed.
Theorem C50_empty : forall u v, a_data u = [] -> a_data v = [] ->
  compute_l2_error u v = Ok NaN /\ compute_l1_error u v = Ok NaN /\ compute_linf_error u v = Err ValueError /\ compute_errors_combined u v = Err ValueError.
Proof. exact empty_arrays. Qed.

(* C41 *)
Theorem C41_device : forall t g, (1 <= g)%nat -> exists d, gpu_id t g = Ok d /\ (d < g)%nat.
Proof. exact gpu_ok. Qed.
Theorem C41_distinct : forall t t' g d, (t < t' < t + g)%nat -> gpu_id t g = Ok d -> gpu_id t' g <> Ok d.
Proof. exact gpu_distinct. Qed.
Theorem C41_no_gpu : forall T (run : nat -> result T) t, objective_wrapper 0 run t = Err ZeroDivisionError.
Proof. exact gpu_none. Qed.
(* every suggestion runs through and the value reported to the study is the relative L2
   error of the final network at the 100 x 100 grid of the unit square *)
Theorem C41_suggestions : forall e lhs1 o pb weights s eps n, numpy_ok e -> sampler_ok lhs1 -> oracle_ok o (Z.to_nat (s_quad_order s)) ->
  in_search_space s -> (forall t, In t [1000; 1001; 1002; 1003]%Z -> In t (map fst (pb_bound pb))) -> has (pb_params pb) "eps" eps ->
  (forall t, widths (architecture s) (weights t) /\ n_attention (weights t) = false) ->
  exists pts U,
    nn_out (network_of (weights n)) pts = Ok (map (fun p => [U p]) pts) /\
    length pts = (Z.to_nat 100 * Z.to_nat 100)%nat /\
    (forall i j, (i < Z.to_nat 100)%nat -> (j < Z.to_nat 100)%nat -> nth (j * Z.to_nat 100 + i) pts (0, 0) = (INR i / 99, INR j / 99)) /\
    objective e lhs1 o pb weights s n =
    compute_l2_error_relative {| a_shape := [length pts]; a_data := map (fun p => pb_exact pb (fst p) (snd p)) pts |}
                              {| a_shape := [length pts]; a_data := map U pts |}.
Proof. exact trial. Qed.

(* C51: parallel trials and devices *)
Theorem C51_bounded : forall cpus gpus n_jobs k, (1 <= n_jobs)%Z -> tuner_jobs cpus gpus n_jobs = Ok k ->
  (1 <= k <= gpus)%nat /\ forall n l, tuner_run k (0%nat, []) (n, l) -> (length l <= gpus)%nat /\ NoDup l.
Proof. exact bounded_jobs. Qed.
Theorem C51_default_refuted : forall cpus gpus, (gpus < cpus)%nat ->
  exists k n l, tuner_jobs cpus gpus (-1) = Ok k /\ tuner_run k (0%nat, []) (n, l) /\ (gpus < length l)%nat.
Proof. exact default_jobs. Qed.
Theorem C51_sequential : forall n l, tuner_run 1 (0%nat, []) (n, l) -> forall k k', In k l -> In k' l -> k = k'.
Proof. exact sequential_alone. Qed.
Theorem C51_shared_refuted : forall jobs gpus, (2 <= jobs)%nat -> (1 <= gpus)%nat ->
  exists n l k k', tuner_run jobs (0%nat, []) (n, l) /\ In k l /\ In k' l /\ k <> k' /\ gpu_id k gpus = gpu_id k' gpus.
Proof. exact device_shared. Qed.
Theorem C51_no_gpu : forall cpus n_jobs, (0 <= n_jobs)%Z -> tuner_jobs cpus 0 n_jobs = Err ValueError.
Proof. exact jobs_none. Qed.

(* ---------- the hypotheses can be met ---------- *)
Definition ex_u : ndarray := {| a_shape := [2; 2]%nat; a_data := [1; 2; -3; 0] |}.
Definition ex_v : ndarray := {| a_shape := [4]%nat; a_data := [1; 0; -3; 2] |}.
Example C40_example : comparable ex_u ex_v /\ (exists x, In x (a_data ex_u) /\ x <> 0) /\ a_shape ex_u <> a_shape ex_v /\
  compute_linf_error ex_u ex_v = Ok (Fin 2) /\ compute_l1_error ex_u ex_v = Ok (Fin 1).
Proof.
  assert (C : comparable ex_u ex_v) by (split; [reflexivity | discriminate]). split; [exact C|].
  split; [exists 1; split; [simpl; auto | lra]|]. split; [discriminate|].
  destruct (C40_values _ _ C) as (_ & E1 & m & Em & U & i & Hi & Ei). rewrite E1, Em. cbn [ex_u ex_v a_data length] in *. split.
  - do 2 f_equal. apply Rle_antisym.
    + rewrite Ei. destruct i as [|[|[|[|i]]]]; [| | | |lia]; cbn [nth]; unfold Rabs; destruct (Rcase_abs _); lra.
    + eapply Rle_trans; [|apply (U 1%nat); lia]. cbn [nth]. unfold Rabs; destruct (Rcase_abs _); lra.
  - do 2 f_equal. cbn [Sum nth INR]. unfold Rabs. repeat destruct (Rcase_abs _); lra.
Qed.
Example C50_example : let v := {| a_shape := [1; 1]%nat; a_data := [5] |} in let w := {| a_shape := [3]%nat; a_data := [5; 5; 5] |} in
  a_data v = [5] /\ length (a_data ex_u) <> length (a_data w) /\ length (a_data ex_u) <> 1%nat /\ length (a_data w) <> 1%nat /\
  comparable {| a_shape := [2]%nat; a_data := [0; 0] |} {| a_shape := [2]%nat; a_data := [0; 1] |}.
Proof. cbn. repeat split; discriminate. Qed.
Example C41_example : exists o, oracle_ok o (Z.to_nat (s_quad_order ex_suggestion)) /\ numpy_ok numpy_R /\ sampler_ok mid_sampler /\
  in_search_space ex_suggestion /\ widths (architecture ex_suggestion) (ex_weights ex_suggestion) /\ n_attention (ex_weights ex_suggestion) = false /\
  exists d d', gpu_id 7 3 = Ok d /\ gpu_id 8 3 = Ok d' /\ d <> d'.
Proof.
  destruct (any_oracle_ok (Z.to_nat (s_quad_order ex_suggestion))) as [o Ho].
  exists o. refine (conj Ho (conj numpy_R_ok (conj mid_sampler_ok (conj ex_in_space (conj (ex_weights_ok _) (conj eq_refl _)))))).
  exists 1%nat, 2%nat. repeat split; discriminate.
Qed.
Example C51_example : tuner_jobs 16 4 2 = Ok 2%nat /\ tuner_jobs 16 4 8 = Ok 4%nat /\ tuner_jobs 16 4 (-1) = Ok 16%nat /\
  tuner_run 2 (0%nat, []) (2%nat, [1; 0]%nat) /\ tuner_run 2 (0%nat, []) (2%nat, [1%nat]).
Proof.
  do 3 (split; [reflexivity|]).
  assert (R : tuner_run 2 (0%nat, []) (2%nat, [1; 0]%nat)) by (eapply Later; [eapply Later; [apply Here | apply Start; simpl; lia] | apply Start; simpl; lia]).
  split; [exact R|]. eapply Later; [exact R|]. exact (Finish 2 2 [1%nat] 0 []).
Qed.

Print Assumptions C40_values.
Print Assumptions C40_distance.
Print Assumptions C40_order.
Print Assumptions C40_relative.
Print Assumptions C40_scaling.
Print Assumptions C40_combined.
Print Assumptions C40_shapes.
Print Assumptions C50_refused.
Print Assumptions C50_single_refuted.
Print Assumptions C50_zero_solution.
Print Assumptions C50_empty.
Print Assumptions C41_device.
Print Assumptions C41_distinct.
Print Assumptions C41_no_gpu.
Print Assumptions C41_suggestions.
Print Assumptions C51_bounded.
Print Assumptions C51_default_refuted.
Print Assumptions C51_sequential.
Print Assumptions C51_shared_refuted.
Print Assumptions C51_no_gpu.
