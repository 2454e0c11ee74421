(* C67: rounding errors of the training step. *)
From Coq Require Import String ZArith List Permutation Reals Lra Lia.
From Flocq Require Import Core.
From Verif Require Import Num Py Basis Tensor Physics Train Spec SpecTrain TensorFacts PipelineFacts Rounding SpecRound RoundFacts.
From Verif Require Properties_Training.
Import ListNotations.
Local Open Scope R_scope.

(* Standard model: the reported losses, computed with rounded operations on rounded data, against the exact ones *)
Theorem C67_standard : forall rnd u N m C T Q nn beta loss d al bx bn g U G,
  rounding rnd u N -> model_fits m C T Q -> m_cells m = C -> (Z.of_nat T <= N)%Z -> (Z.of_nat (length (m_dir_in m)) <= N)%Z ->
  m_loss m = loss Num_R -> forward_loss loss d al bx bn g -> pointwise nn U G ->
  exists p b t p' b' t',
    train_standard m nn beta (Some d) = Ok {| l_pde := p; l_dirichlet := [b]; l_sensor := []; l_total := [t] |} /\
    rounded_standard rnd m loss nn beta d = Ok {| l_pde := p'; l_dirichlet := [b']; l_sensor := []; l_total := [t'] |} /\
    within u (2 * Q + T + C + 19) (size_pde m C T Q U G (fun _ => al) bx bn g) p p' /\
    within u (length (m_dir_in m) + 6) (size_data U (m_dir_in m) (m_dir_act m)) b b' /\
    within u (2 * Q + T + C + length (m_dir_in m) + 20)
      (size_pde m C T Q U G (fun _ => al) bx bn g + Rabs beta * size_data U (m_dir_in m) (m_dir_act m)) t t'.
Proof. exact (fun rnd u N m C T Q nn beta loss d al bx bn g U G Hr Hm Hc HT HD Hl Hf Hn => r_standard rnd u N Hr m C T Q nn beta Hm Hc HT loss d al bx bn g U G Hl Hf Hn HD). Qed.
Theorem C67_hard : forall rnd u N m C T Q nn beta loss d al bx bn g U G,
  rounding rnd u N -> model_fits m C T Q -> m_cells m = C -> (Z.of_nat T <= N)%Z ->
  m_loss m = loss Num_R -> forward_loss loss d al bx bn g -> pointwise nn U G ->
  exists t t',
    train_hard m nn beta (Some d) = Ok {| l_pde := t; l_dirichlet := [0]; l_sensor := []; l_total := [t] |} /\
    rounded_hard rnd m loss nn beta d = Ok {| l_pde := t'; l_dirichlet := [0]; l_sensor := []; l_total := [t'] |} /\
    within u (2 * Q + T + C + 19) (size_pde m C T Q U G (fun _ => al) bx bn g) t t'.
Proof. exact (fun rnd u N m C T Q nn beta loss d al bx bn g U G Hr Hm Hc HT Hl Hf Hn => r_hard rnd u N Hr m C T Q nn beta Hm Hc HT loss d al bx bn g U G Hl Hf Hn). Qed.
Theorem C67_inverse : forall rnd u N m C T Q nn beta bp ip eps U G,
  rounding rnd u N -> model_fits m C T Q -> m_cells m = C -> sensors_fit m ->
  (Z.of_nat T <= N)%Z -> (Z.of_nat (length (m_dir_in m)) <= N)%Z -> (Z.of_nat (length (m_sensor_in m)) <= N)%Z -> (10 <= N)%Z ->
  m_loss m = pde_loss_poisson_inverse -> has ip "eps" eps -> pointwise nn U G ->
  exists L L' t t',
    train_inverse m nn beta bp (Some ip) = Ok L /\ rounded_inverse rnd m (@pde_loss_poisson_inverse R) nn beta bp ip = Ok L' /\
    l_total L = [t] /\ l_total L' = [t'] /\
    within u (2 * Q + T + C + length (m_dir_in m) + length (m_sensor_in m) + 21)
      (size_pde m C T Q U G (fun _ => eps) 0 0 0 + Rabs beta * size_data U (m_dir_in m) (m_dir_act m) +
       10 * size_data U (m_sensor_in m) (m_sensor_act m)) t t'.
Proof. exact (fun rnd u N m C T Q nn beta bp ip eps U G Hr Hm Hc Hs HT HD HS H10 => r_inverse rnd u N Hr m C T Q nn beta Hm Hc HT Hs HD HS H10 bp ip eps U G). Qed.
Theorem C67_domain : forall rnd u N m C T Q nn beta d b_x b_y k U E G,
  rounding rnd u N -> model_fits m C T Q -> m_cells m = C -> sensors_fit m ->
  (Z.of_nat T <= N)%Z -> (Z.of_nat (length (m_dir_in m)) <= N)%Z -> (Z.of_nat (length (m_sensor_in m)) <= N)%Z -> (10 <= N)%Z ->
  m_loss m = pde_loss_cd2d_inverse_domain -> has d "b_x" b_x -> has d "b_y" b_y -> has d "c" k -> pointwise2 nn U E G ->
  exists L L' t t',
    train_inverse_domain m nn beta (Some d) = Ok L /\ rounded_domain rnd m (@pde_loss_cd2d_inverse_domain R) nn beta d = Ok L' /\
    l_total L = [t] /\ l_total L' = [t'] /\
    within u (2 * Q + T + C + length (m_dir_in m) + length (m_sensor_in m) + 21)
      (size_pde m C T Q U G E b_x b_y k + Rabs beta * size_data U (m_dir_in m) (m_dir_act m) +
       10 * size_data U (m_sensor_in m) (m_sensor_act m)) t t'.
Proof. exact (fun rnd u N m C T Q nn beta d b_x b_y k U E G Hr Hm Hc Hs HT HD HS H10 => r_domain rnd u N Hr m C T Q nn beta Hm Hc HT Hs HD HS H10 d b_x b_y k U E G). Qed.
(* The order and bracketing of a sum do not matter for the bound *)
Theorem C67_order : forall rnd u N l s, rounding rnd u N -> rounded_sum rnd l s ->
  Rabs (s - vsum l) <= ((1 + u) ^ (length l - 1) - 1) * vsum (map Rabs l).
Proof. exact any_order. Qed.
(* Rounding to nearest with prec bits: prec = 24 is float32, prec = 53 is float64 *)
Theorem C67_nearest : forall prec, (1 < prec)%Z -> rounding (nearest prec) (bpow radix2 (- prec)) (2 ^ prec).
Proof. exact nearest_rounding. Qed.
Theorem C67_precision : forall prec m C T Q nn beta loss d al bx bn g U G, (1 < prec)%Z ->
  model_fits m C T Q -> m_cells m = C -> m_loss m = loss Num_R -> forward_loss loss d al bx bn g -> pointwise nn U G ->
  (2 * Z.of_nat (2 * Q + T + C + length (m_dir_in m) + 20) <= 2 ^ prec)%Z ->
  exists L L' t t', train_standard m nn beta (Some d) = Ok L /\ rounded_standard (nearest prec) m loss nn beta d = Ok L' /\
    l_total L = [t] /\ l_total L' = [t'] /\
    Rabs (t' - t) <= 2 * INR (2 * Q + T + C + length (m_dir_in m) + 20) * bpow radix2 (- prec) *
      (size_pde m C T Q U G (fun _ => al) bx bn g + Rabs beta * size_data U (m_dir_in m) (m_dir_act m)).
Proof. exact nearest_standard. Qed.
Theorem C67_nonneg : forall rnd u N m C T Q nn beta loss d al bx bn g U G L, rounding rnd u N -> u <= 1 ->
  model_fits m C T Q -> m_cells m = C -> (Z.of_nat T <= N)%Z -> forward_loss loss d al bx bn g -> pointwise nn U G -> 0 <= beta ->
  rounded_standard rnd m loss nn beta d = Ok L \/ rounded_hard rnd m loss nn beta d = Ok L ->
  0 <= l_pde L /\ Forall (fun x => 0 <= x) (l_dirichlet L) /\ Forall (fun x => 0 <= x) (l_total L).
Proof. exact (fun rnd u N m C T Q nn beta loss d al bx bn g U G L Hr Hu => r_nonneg rnd u N Hr Hu m C T Q nn beta loss d al bx bn g U G L). Qed.

(* Two cells, 25 quadrature points, 16 test functions and two boundary points in single precision *)
Example C67_example : exists m, model_fits m 2 16 25 /\ sensors_fit m /\
  forall eps beta, exists L L' t t',
    train_standard m (ex_net 1 2 3) beta (Some [("eps"%string, eps)]) = Ok L /\
    rounded_standard (nearest 24) m (@pde_loss_poisson R) (ex_net 1 2 3) beta [("eps"%string, eps)] = Ok L' /\
    l_total L = [t] /\ l_total L' = [t'] /\
    Rabs (t' - t) <= 2 * INR 90 * bpow radix2 (- 24) *
      (size_pde m 2 16 25 (fun p => 1 * fst p + 2 * snd p + 3) (fun _ => (1, 2)) (fun _ => eps) 0 0 0 +
       Rabs beta * size_data (fun p => 1 * fst p + 2 * snd p + 3) (m_dir_in m) (m_dir_act m)).
Proof.
  destruct (Properties_Training.C30_example pde_loss_poisson) as [o [s [h [dir [_ [_ [_ [_ [Hd [Hm Hs]]]]]]]]]].
  exists (model_of h dir dir pde_loss_poisson 2). split; [exact Hm|]. split; [exact Hs|]. intros eps beta.
  assert (E : length (m_dir_in (model_of h dir dir pde_loss_poisson 2)) = 2%nat) by (cbn [model_of m_dir_in]; rewrite Hd; reflexivity).
  pose proof (C67_precision 24 _ 2 16 25 (ex_net 1 2 3) beta _ _ _ _ _ _ _ _ ltac:(lia) Hm eq_refl eq_refl
    (fl_poisson [("eps"%string, eps)] eps eq_refl) (ex_net_pointwise 1 2 3)) as P.
  rewrite E in P. apply P. vm_compute. discriminate.
Qed.
Example C67_order_example : rounded_sum (nearest 24) [1; 2; 3] (nearest 24 (2 + nearest 24 (3 + 1))).
Proof.
  apply rs_split with [2] [3; 1]; [|apply rs_one|].
  - apply (Permutation_trans (l' := [2; 1; 3])); [apply perm_swap | apply perm_skip, perm_swap].
  - apply rs_split with [3] [1]; [apply Permutation_refl | apply rs_one | apply rs_one].
Qed.

Print Assumptions C67_standard.
Print Assumptions C67_hard.
Print Assumptions C67_inverse.
Print Assumptions C67_domain.
Print Assumptions C67_order.
Print Assumptions C67_nearest.
Print Assumptions C67_precision.
Print Assumptions C67_nonneg.
