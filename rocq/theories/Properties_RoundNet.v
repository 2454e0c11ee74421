(* C86: rounding errors inside the network, and of the whole training step. *)
From Coq Require Import String ZArith List Reals Lra Lia.
From Flocq Require Import Core.
From Verif Require Import Num Py Basis Tensor Physics Train Nets Problems Spec SpecTrain SpecDriver SpecLoop TensorFacts PipelineFacts Rounding SpecRound RoundNet SpecRoundNet LoopFacts RoundNetFacts RoundHard.
From Verif Require Driver Properties_Training Properties_Driver Properties_Loop.
Import ListNotations.
Local Open Scope R_scope.

(* With exact operations the tape gives back the values of the network and its true partial derivatives *)
Theorem C86_backprop : forall dims outs nt, starts dims outs nt -> n_act nt = tanh -> forall sel b,
  nn_out (rounded_network exact_arith nt) b = nn_out (network_of nt) b /\ nn_grad (rounded_network exact_arith nt) sel b = nn_grad (network_of nt) sel b.
Proof. exact backprop. Qed.
(* Every output of the network, at every point *)
Theorem C86_values : forall a u N mt dims outs nt, arith_ok a u N mt -> starts dims outs nt -> n_act nt = tanh -> forall p,
  exists Y Y', nn_out (network_of nt) [p] = Ok [Y] /\ nn_out (rounded_network a nt) [p] = Ok [Y'] /\ length Y = Z.to_nat outs /\ length Y' = Z.to_nat outs /\
    forall j, (j < Z.to_nat outs)%nat -> within u (value_rounds mt (n_layers nt) 1) (value_size nt j p) (nth j Y 0) (nth j Y' 0).
Proof. exact (fun a u N mt dims outs nt Ha Hs Ht => net_values a u N mt nt _ Ha Ht (st_attention _ _ _ Hs) (starts_chain _ _ _ Hs)). Qed.
(* The gradient by the tape, of the sum of the outputs or of one output *)
Theorem C86_gradient : forall a u N mt dims outs nt, arith_ok a u N mt -> starts dims outs nt -> n_act nt = tanh -> forall sel p,
  exists g g', nn_grad (network_of nt) sel [p] = [g] /\ nn_grad (rounded_network a nt) sel [p] = [g'] /\
    within u (slope_rounds mt (n_layers nt) 1) (fst (gradient_size sel nt p)) (fst g) (fst g') /\
    within u (slope_rounds mt (n_layers nt) 1) (snd (gradient_size sel nt p)) (snd g) (snd g').
Proof. exact (fun a u N mt dims outs nt Ha Hs Ht => net_slopes a u N mt nt _ Ha Ht (st_attention _ _ _ Hs) (starts_chain _ _ _ Hs)). Qed.
(* The whole step: network, gradients and losses with rounded operations *)
Theorem C86_standard : forall a u N mt dims nt m C T Q beta loss d al bx bn g, arith_ok a u N mt -> starts dims 1 nt -> n_act nt = tanh ->
  model_fits m C T Q -> m_cells m = C -> (Z.of_nat T <= N)%Z -> (Z.of_nat (length (m_dir_in m)) <= N)%Z -> m_loss m = loss Num_R -> forward_loss loss d al bx bn g ->
  let sp := size_pde m C T Q (value_size nt 0) (gradient_size None nt) (fun _ => al) bx bn g in let sd := size_data (value_size nt 0) (m_dir_in m) (m_dir_act m) in
  exists p b t p' b' t',
    train_standard m (network_of nt) beta (Some d) = Ok {| l_pde := p; l_dirichlet := [b]; l_sensor := []; l_total := [t] |} /\
    rounded_standard (a_rnd a) m loss (rounded_network a nt) beta d = Ok {| l_pde := p'; l_dirichlet := [b']; l_sensor := []; l_total := [t'] |} /\
    within u (2 * Q + 2 * net_rounds mt nt + T + C + 19) sp p p' /\ within u (length (m_dir_in m) + 2 * net_rounds mt nt + 6) sd b b' /\
    within u (2 * Q + 4 * net_rounds mt nt + T + C + length (m_dir_in m) + 20) (sp + Rabs beta * sd) t t'.
Proof. exact step_standard. Qed.
Theorem C86_inverse : forall a u N mt dims nt m C T Q beta bp ip eps, arith_ok a u N mt -> starts dims 1 nt -> n_act nt = tanh ->
  model_fits m C T Q -> m_cells m = C -> sensors_fit m -> (Z.of_nat T <= N)%Z -> (Z.of_nat (length (m_dir_in m)) <= N)%Z -> (Z.of_nat (length (m_sensor_in m)) <= N)%Z -> (10 <= N)%Z ->
  m_loss m = pde_loss_poisson_inverse -> has ip "eps" eps ->
  exists L L' t t', train_inverse m (network_of nt) beta bp (Some ip) = Ok L /\ rounded_inverse (a_rnd a) m (@pde_loss_poisson_inverse R) (rounded_network a nt) beta bp ip = Ok L' /\
    l_total L = [t] /\ l_total L' = [t'] /\
    within u (2 * Q + 4 * net_rounds mt nt + T + C + length (m_dir_in m) + length (m_sensor_in m) + 21)
      (size_pde m C T Q (value_size nt 0) (gradient_size None nt) (fun _ => eps) 0 0 0 + Rabs beta * size_data (value_size nt 0) (m_dir_in m) (m_dir_act m) +
       10 * size_data (value_size nt 0) (m_sensor_in m) (m_sensor_act m)) t t'.
Proof. exact step_inverse. Qed.
Theorem C86_domain : forall a u N mt dims nt m C T Q beta d b_x b_y c, arith_ok a u N mt -> starts dims 2 nt -> n_act nt = tanh ->
  model_fits m C T Q -> m_cells m = C -> sensors_fit m -> (Z.of_nat T <= N)%Z -> (Z.of_nat (length (m_dir_in m)) <= N)%Z -> (Z.of_nat (length (m_sensor_in m)) <= N)%Z -> (10 <= N)%Z ->
  m_loss m = pde_loss_cd2d_inverse_domain -> has d "b_x" b_x -> has d "b_y" b_y -> has d "c" c ->
  exists L L' t t', train_inverse_domain m (network_of nt) beta (Some d) = Ok L /\ rounded_domain (a_rnd a) m (@pde_loss_cd2d_inverse_domain R) (rounded_network a nt) beta d = Ok L' /\
    l_total L = [t] /\ l_total L' = [t'] /\
    within u (2 * Q + 4 * net_rounds mt nt + T + C + length (m_dir_in m) + length (m_sensor_in m) + 21)
      (size_pde m C T Q (value_size nt 0) (gradient_size (Some 0%nat) nt) (value_size nt 1) b_x b_y c + Rabs beta * size_data (value_size nt 0) (m_dir_in m) (m_dir_act m) +
       10 * size_data (value_size nt 0) (m_sensor_in m) (m_sensor_act m)) t t'.
Proof. exact step_domain. Qed.
(* The script with hard constraints: the network times the ansatz, [c] being 4.0 * np.pi in the working precision *)
Theorem C86_hard_network : forall a u N mt dims nt c, arith_ok a u N mt -> starts dims 1 nt -> n_act nt = tanh -> Rabs (c - 4 * PI) <= ((1 + u) ^ 2 - 1) * (4 * PI) ->
  exists V G V' G', pointwise (hard_network (Some ansatz_constraint) nt) V G /\ pointwise (rounded_hard_network a c nt) V' G' /\
    forall p, within u (hard_rounds mt nt) (hard_size nt p) (V p) (V' p) /\ within u (hard_rounds mt nt) (fst (hard_gradient_size nt p)) (fst (G p)) (fst (G' p)) /\
      within u (hard_rounds mt nt) (snd (hard_gradient_size nt p)) (snd (G p)) (snd (G' p)).
Proof. exact (fun a u N mt dims nt c Ha Hs Ht Hc => hard_networks a u N mt nt c Ha Ht (st_attention _ _ _ Hs) (starts_chain _ _ _ Hs) Hc). Qed.
Theorem C86_hard : forall a u N mt dims nt c m C T Q beta loss d al bx bn g, arith_ok a u N mt -> starts dims 1 nt -> n_act nt = tanh ->
  Rabs (c - 4 * PI) <= ((1 + u) ^ 2 - 1) * (4 * PI) -> model_fits m C T Q -> m_cells m = C -> (Z.of_nat T <= N)%Z -> m_loss m = loss Num_R -> forward_loss loss d al bx bn g ->
  exists t t', train_hard m (hard_network (Some ansatz_constraint) nt) beta (Some d) = Ok {| l_pde := t; l_dirichlet := [0]; l_sensor := []; l_total := [t] |} /\
    rounded_hard (a_rnd a) m loss (rounded_hard_network a c nt) beta d = Ok {| l_pde := t'; l_dirichlet := [0]; l_sensor := []; l_total := [t'] |} /\
    within u (2 * Q + 2 * hard_rounds mt nt + T + C + 19) (size_pde m C T Q (hard_size nt) (hard_gradient_size nt) (fun _ => al) bx bn g) t t'.
Proof. exact (fun a u N mt dims nt c m C T Q beta loss d al bx bn g Ha Hs Ht Hc => hard_step a u N mt nt c Ha Ht (st_attention _ _ _ Hs) (starts_chain _ _ _ Hs) Hc m C T Q beta loss d al bx bn g). Qed.
Theorem C86_hard_backprop : forall dims nt, starts dims 1 nt -> n_act nt = tanh -> forall b,
  nn_out (rounded_hard_network exact_arith (4 * PI) nt) b = nn_out (hard_network (Some ansatz_constraint) nt) b /\
  nn_grad (rounded_hard_network exact_arith (4 * PI) nt) None b = nn_grad (hard_network (Some ansatz_constraint) nt) None b.
Proof. exact backprop_hard. Qed.
(* The reported loss with prec bits: the relative error grows with the number of operations *)
Theorem C86_precision : forall prec a N mt dims nt m C T Q beta loss d al bx bn g, (1 < prec)%Z -> arith_ok a (bpow radix2 (- prec)) N mt -> starts dims 1 nt -> n_act nt = tanh ->
  model_fits m C T Q -> m_cells m = C -> (Z.of_nat T <= N)%Z -> (Z.of_nat (length (m_dir_in m)) <= N)%Z -> m_loss m = loss Num_R -> forward_loss loss d al bx bn g ->
  let K := (2 * Q + 4 * net_rounds mt nt + T + C + length (m_dir_in m) + 20)%nat in (2 * Z.of_nat K <= 2 ^ prec)%Z ->
  exists L L' t t', train_standard m (network_of nt) beta (Some d) = Ok L /\ rounded_standard (a_rnd a) m loss (rounded_network a nt) beta d = Ok L' /\
    l_total L = [t] /\ l_total L' = [t'] /\
    Rabs (t' - t) <= 2 * INR K * bpow radix2 (- prec) *
      (size_pde m C T Q (value_size nt 0) (gradient_size None nt) (fun _ => al) bx bn g + Rabs beta * size_data (value_size nt 0) (m_dir_in m) (m_dir_act m)).
Proof. exact step_precision. Qed.
(* The scripts with fixed layers 2-30-30-30-1: 97 + 3mt roundings for the value and 310 + 12mt for the gradient *)
Theorem C86_shipped : forall prec a N mt nt, (1 < prec)%Z -> arith_ok a (bpow radix2 (- prec)) N mt -> starts Driver.fixed_layers 1 nt -> n_act nt = tanh ->
  (2 * Z.of_nat (310 + 12 * mt) <= 2 ^ prec)%Z ->
  exists U G U' G', pointwise (network_of nt) U G /\ pointwise (rounded_network a nt) U' G' /\ forall p,
    Rabs (U' p - U p) <= 2 * INR (97 + 3 * mt) * bpow radix2 (- prec) * value_size nt 0 p /\
    Rabs (fst (G' p) - fst (G p)) <= 2 * INR (310 + 12 * mt) * bpow radix2 (- prec) * fst (gradient_size None nt p) /\
    Rabs (snd (G' p) - snd (G p)) <= 2 * INR (310 + 12 * mt) * bpow radix2 (- prec) * snd (gradient_size None nt p).
Proof. exact net_precision. Qed.
(* Rounding to nearest with prec bits is such an arithmetic *)
Theorem C86_arith : forall prec, (1 < prec)%Z -> arith_ok (ieee prec) (bpow radix2 (- prec)) (2 ^ prec) 1.
Proof. exact ieee_ok. Qed.

(* the layers of main_poisson2d.py, their weights all one, and a 24 bit arithmetic *)
Example C86_example : exists m, model_fits m 2 16 25 /\ sensors_fit m /\ let nt := Properties_Loop.ex_tanh Driver.fixed_layers in
  starts Driver.fixed_layers 1 nt /\ n_act nt = tanh /\ arith_ok (ieee 24) (bpow radix2 (- 24)) (2 ^ 24) 1 /\ forall eps beta, exists L L' t t',
    train_standard m (network_of nt) beta (Some [("eps"%string, eps)]) = Ok L /\
    rounded_standard (nearest 24) m (@pde_loss_poisson R) (rounded_network (ieee 24) nt) beta [("eps"%string, eps)] = Ok L' /\
    l_total L = [t] /\ l_total L' = [t'] /\
    Rabs (t' - t) <= 2 * INR 1378 * bpow radix2 (- 24) *
      (size_pde m 2 16 25 (value_size nt 0) (gradient_size None nt) (fun _ => eps) 0 0 0 + Rabs beta * size_data (value_size nt 0) (m_dir_in m) (m_dir_act m)).
Proof.
  destruct (Properties_Training.C30_example pde_loss_poisson) as [o [s [h [dir [_ [_ [_ [_ [Hd [Hm Hs]]]]]]]]]].
  exists (model_of h dir dir pde_loss_poisson 2). split; [exact Hm|]. split; [exact Hs|]. cbv zeta.
  assert (S : starts Driver.fixed_layers 1 (Properties_Loop.ex_tanh Driver.fixed_layers)) by (apply Properties_Loop.ex_starts; cbn; auto; lia).
  split; [exact S|]. split; [reflexivity|]. split; [apply C86_arith; lia|]. intros eps beta.
  assert (E : length (m_dir_in (model_of h dir dir pde_loss_poisson 2)) = 2%nat) by (cbn [model_of m_dir_in]; rewrite Hd; reflexivity).
  pose proof (C86_precision 24 (ieee 24) _ 1 _ _ _ 2 16 25 beta (@pde_loss_poisson R) _ eps 0 0 0 ltac:(lia) (C86_arith 24 ltac:(lia)) S eq_refl Hm eq_refl ltac:(cbn; lia)
    ltac:(rewrite E; cbn; lia) eq_refl (fl_poisson [("eps"%string, eps)] eps eq_refl)) as P.
  cbv zeta in P. rewrite E, (shipped_net_rounds 1 _ S) in P. apply P. vm_compute. discriminate.
Qed.
(* the same layers with the ansatz: 97 + 310 + 15 + 5 + 37 roundings in the network *)
Example C86_hard_example : exists m, model_fits m 2 16 25 /\ let nt := Properties_Loop.ex_tanh Driver.fixed_layers in
  starts Driver.fixed_layers 1 nt /\ hard_rounds 1 nt = 464%nat /\ forall eps beta, exists t t',
    train_hard m (hard_network (Some ansatz_constraint) nt) beta (Some [("eps"%string, eps)]) = Ok {| l_pde := t; l_dirichlet := [0]; l_sensor := []; l_total := [t] |} /\
    rounded_hard (nearest 24) m (@pde_loss_poisson R) (rounded_hard_network (ieee 24) (nearest 24 (4 * PI)) nt) beta [("eps"%string, eps)] =
      Ok {| l_pde := t'; l_dirichlet := [0]; l_sensor := []; l_total := [t'] |} /\
    within (bpow radix2 (- 24)) 1015 (size_pde m 2 16 25 (hard_size nt) (hard_gradient_size nt) (fun _ => eps) 0 0 0) t t'.
Proof.
  destruct (Properties_Training.C30_example pde_loss_poisson) as [o [s [h [dir [_ [_ [_ [_ [Hd [Hm Hs]]]]]]]]]].
  exists (model_of h dir dir pde_loss_poisson 2). split; [exact Hm|]. cbv zeta.
  assert (S : starts Driver.fixed_layers 1 (Properties_Loop.ex_tanh Driver.fixed_layers)) by (apply Properties_Loop.ex_starts; cbn; auto; lia).
  assert (K : hard_rounds 1 (Properties_Loop.ex_tanh Driver.fixed_layers) = 464%nat) by (destruct (shipped_rounds 1 _ S) as [A B]; unfold hard_rounds; rewrite A, B; reflexivity).
  split; [exact S|]. split; [exact K|]. intros eps beta.
  pose proof (C86_hard (ieee 24) _ _ 1 _ _ _ _ 2 16 25 beta (@pde_loss_poisson R) _ eps 0 0 0 (C86_arith 24 ltac:(lia)) S eq_refl (four_pi_ok _ _ _ _ (C86_arith 24 ltac:(lia))) Hm eq_refl ltac:(cbn; lia) eq_refl
    (fl_poisson [("eps"%string, eps)] eps eq_refl)) as P.
  rewrite K in P. exact P.
Qed.
(* one layer of weights 1 and -2, bias 3: at (1, 2) the value is 0 by cancellation, while the size is 8 *)
Example C86_size_example : let nt := {| n_act := tanh; n_attention := false; n_layers := [(false, ([[1]; [-2]], [3]))] |} in
  starts [2; 1]%Z 1 nt /\ nn_out (network_of nt) [(1, 2)] = Ok [[0]] /\ value_size nt 0 (1, 2) = 8 /\ gradient_size None nt (1, 2) = (1, 2) /\
  value_rounds 1 (n_layers nt) 1 = 4%nat /\ slope_rounds 1 (n_layers nt) 1 = 1%nat.
Proof.
  cbv zeta. assert (S : starts [2; 1]%Z 1 {| n_act := tanh; n_attention := false; n_layers := [(false, ([[1]; [-2]], [3]))] |}).
  { constructor; cbn; auto. split; [reflexivity|]. intros [|i] d Hi; [|cbn in Hi; lia]. cbn. repeat split; auto. intros row [<- | [<- | []]]; reflexivity. }
  split; [exact S|]. split; [|split; [|split; [|split; reflexivity]]].
  - rewrite <- (proj1 (C86_backprop _ _ _ S eq_refl None [(1, 2)])). cbn. do 3 f_equal. rewrite !ListFacts.vsum_cons. change (@vsum R _ []) with 0. lra.
  - unfold value_size. cbn. rewrite ?ListFacts.vsum_cons. change (@vsum R _ []) with 0. rewrite !Rabs_pos_eq by lra. rewrite (Rabs_left (-2)) by lra. rewrite (Rabs_pos_eq 3) by lra. lra.
  - unfold gradient_size. cbn. rewrite ?ListFacts.vsum_cons. change (@vsum R _ []) with 0. rewrite (Rabs_pos_eq 1) by lra. rewrite (Rabs_left (-2)) by lra. f_equal; lra.
Qed.

Print Assumptions C86_backprop.
Print Assumptions C86_values.
Print Assumptions C86_gradient.
Print Assumptions C86_standard.
Print Assumptions C86_inverse.
Print Assumptions C86_domain.
Print Assumptions C86_hard_network.
Print Assumptions C86_hard.
Print Assumptions C86_hard_backprop.
Print Assumptions C86_precision.
Print Assumptions C86_shipped.
Print Assumptions C86_arith.
