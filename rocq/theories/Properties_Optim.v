(* C74-C76: the gradient of the training losses, and what Adam does with it. *)
From Coq Require Import String ZArith List Arith Reals Lra Lia.
From Coquelicot Require Import Coquelicot.
From Verif Require Import Num Py Basis Tensor Physics Train Spec SpecTrain SpecRound Nets NetFacts Optim JetFacts SpecShape ShapeFacts SpecOptim AdamFacts.
Import ListNotations.
Local Open Scope R_scope.

(* The losses of the four models are differentiable in all trainable variables, and the step computes their gradient *)
Theorem C74_differentiable : forall m C T Q nt beta f n w, trains m C T Q nt beta f n -> length w = n -> differentiable_at f w.
Proof. exact trains_differentiable. Qed.
(* Hence training never fails, whatever values the variables take *)
Theorem C74_runs : forall m C T Q nt beta f n w rate t, trains m C T Q nt beta f n -> length w = n ->
  exists st x, trained rate f w t = Ok (st, x) /\ length x = n.
Proof. exact trains_runs. Qed.

(* The variables are the entries of kernels and biases and the inverse parameters; at its own variables a model has its own losses *)
Theorem C74_variables : forall nt w, length w = length (weights_of nt) ->
  weights_of (with_weights nt w) = w /\ with_weights nt (weights_of nt) = nt /\ forall ip, params_at nt ip (variables nt ip) = ip.
Proof. exact (fun nt w H => conj (weights_filled nt w H) (conj (with_own_weights nt) (own_params nt))). Qed.
Theorem C74_start : forall m nt beta bp ip hc,
  standard_at m nt beta bp (weights_of nt) = train_standard m (network_of nt) beta bp /\
  hard_at m hc nt beta bp (weights_of nt) = train_hard m (hard_network hc nt) beta bp /\
  inverse_at m nt beta bp ip (variables nt ip) = train_inverse m (network_of nt) beta bp (Some ip) /\
  domain_at m nt beta bp (weights_of nt) = train_inverse_domain m (network_of nt) beta bp.
Proof. exact own_losses. Qed.

(* The first training step lowers the loss for small learning rates, unless the gradient is zero *)
Theorem C75_descent : forall m C T Q nt beta f n w, trains m C T Q nt beta f n -> length w = n ->
  (exists k, (k < length w)%nat /\ nth k (gradients f w) 0 <> 0) -> first_step_decreases f w.
Proof. exact (fun m C T Q nt beta f n w H Hw => first_step f w (trains_differentiable m C T Q nt beta f n w H Hw)). Qed.
(* Variables with zero gradient stay: all of them, or one *)
Theorem C75_stationary : forall rate f w L, f w = Ok L -> (forall k, (k < length w)%nat -> nth k (gradients f w) 0 = 0) ->
  forall t, exists st, trained rate f w t = Ok (st, w).
Proof. exact stationary_run. Qed.
Theorem C75_idle : forall rate f w t st x i, trained rate f w t = Ok (st, x) -> (i < length w)%nat ->
  (forall u su y, (u < t)%nat -> trained rate f w u = Ok (su, y) -> nth i (gradients f y) 0 = 0) -> nth i x 0 = nth i w 0.
Proof. exact idle. Qed.
(* Zero loss is never left *)
Theorem C75_solved : forall m C T Q nt beta f n w, trains m C T Q nt beta f n -> length w = n -> 0 <= beta -> total_is (f w) 0 ->
  (forall k, (k < n)%nat -> nth k (gradients f w) 0 = 0) /\ forall rate t, exists st, trained rate f w t = Ok (st, w).
Proof. exact solved. Qed.

(* No step moves a variable by more than 7.3 times its learning rate, whatever the gradients *)
Theorem C76_step : forall rate f w t st x st' x' i, trained rate f w t = Ok (st, x) -> trained rate f w (S t) = Ok (st', x') -> (i < length w)%nat ->
  Rabs (nth i x' 0 - nth i x 0) <= 73 / 10 * Rabs (rate t).
Proof. exact run_step. Qed.
(* ... in particular no inverse parameter *)
Theorem C76_coefficient : forall rate m nt beta bp ip w t st x st' x' k e e', let f := inverse_at m nt beta bp ip in length w = length (variables nt ip) ->
  trained rate f w t = Ok (st, x) -> trained rate f w (S t) = Ok (st', x') -> has (params_at nt ip x) k e -> has (params_at nt ip x') k e' ->
  Rabs (e' - e) <= 73 / 10 * Rabs (rate t).
Proof. exact coefficient_step. Qed.
(* While its gradient is constant a variable moves by nearly the learning rate, against the sign of the gradient *)
Theorem C76_constant : forall rate f w t st x st' x' i g, trained rate f w t = Ok (st, x) -> trained rate f w (S t) = Ok (st', x') -> (i < length w)%nat ->
  (forall u su y, (u <= t)%nat -> trained rate f w u = Ok (su, y) -> nth i (gradients f y) 0 = g) ->
  let s := sqrt (1 - (999 / 1000) ^ S t) in nth i x' 0 - nth i x 0 = - (rate t * (g * s) / (Rabs g * s + 1 / 10000000)).
Proof. exact constant_gradient. Qed.
(* With the scheduler the total travel is bounded and the variables converge *)
Theorem C76_travel : forall k d lr0 n r rate f w t u st x st' x' i,
  dget String.eqb d "initial_learning_rate"%string = Ok (LNum lr0) -> dget String.eqb d "use_lr_scheduler"%string = Ok (LBool true) ->
  dget String.eqb d "decay_steps"%string = Ok (LNum (INR n)) -> dget String.eqb d "decay_rate"%string = Ok (LNum r) ->
  learning_rate k d = Ok rate -> (1 <= n)%nat -> 0 <= r < 1 ->
  trained rate f w t = Ok (st, x) -> trained rate f w u = Ok (st', x') -> (i < length w)%nat ->
  Rabs (nth i x' 0 - nth i x 0) <= 73 / 10 * (Rabs lr0 * (INR n / (1 - r))).
Proof.
  exact (fun k d lr0 n r rate f w t u st x st' x' i H0 H1 H2 H3 Hf Hn Hr =>
    travel_below rate f w _ (schedule_below k d lr0 n r rate H0 H1 H2 H3 Hf Hn Hr) t u st x st' x' i).
Qed.
Theorem C76_settles : forall k d lr0 n r rate f w (st : nat -> adam) (x : nat -> list R),
  dget String.eqb d "initial_learning_rate"%string = Ok (LNum lr0) -> dget String.eqb d "use_lr_scheduler"%string = Ok (LBool true) ->
  dget String.eqb d "decay_steps"%string = Ok (LNum (INR n)) -> dget String.eqb d "decay_rate"%string = Ok (LNum r) ->
  learning_rate k d = Ok rate -> (1 <= n)%nat -> 0 <= r < 1 -> (forall t, trained rate f w t = Ok (st t, x t)) ->
  exists l, length l = length w /\ forall i, (i < length w)%nat -> is_lim_seq (fun t => nth i (x t) 0) (nth i l 0).
Proof.
  exact (fun k d lr0 n r rate f w st x H0 H1 H2 H3 Hf Hn Hr => run_settles rate f w _ st x (schedule_below k d lr0 n r rate H0 H1 H2 H3 Hf Hn Hr)).
Qed.

(* ---------- the hypotheses can be met ---------- *)
Notation linear_f := (standard_at (tiny pde_loss_poisson) (linear_net 0 0 0) 5 (Some eps_1)).
Example C74_example : let f := inverse_at (tiny pde_loss_poisson_inverse) tanh_net 5 (Some []) eps_1 in
  trains (tiny pde_loss_poisson_inverse) 1 1 1 tanh_net 5 f 6 /\ length (variables tanh_net eps_1) = 6%nat.
Proof. split; [apply tanh_trains | reflexivity]. Qed.
Example C75_example : trains (tiny pde_loss_poisson) 1 1 1 (linear_net 0 0 0) 5 linear_f 3 /\
  nth 0 (gradients linear_f [0; 0; 0]) 0 = -24 /\ nth 1 (gradients linear_f [0; 0; 0]) 0 = 0 /\ total_is (linear_f [2; 7; 0]) 0.
Proof.
  split; [apply linear_trains|]. rewrite linear_gradient. cbn [nth]. split; [ring|]. split; [reflexivity|].
  apply (total_eq _ _ _ (linear_total 0 0 0 5 2 7 0)). ring.
Qed.
Example C76_example : exists rate, learning_rate Standard
  [("initial_learning_rate", LNum (1 / 100)); ("use_lr_scheduler", LBool true); ("decay_steps", LNum (INR 1000)); ("decay_rate", LNum (98 / 100))]%string = Ok rate /\
  forall t, exists st x, trained rate linear_f [0; 0; 0] t = Ok (st, x) /\ length x = 3%nat.
Proof. eexists. split; [reflexivity|]. intros t. apply (C74_runs _ 1 1 1 _ 5 _ 3 [0; 0; 0] _ t (linear_trains 0 0 0 5) eq_refl). Qed.

Print Assumptions C74_differentiable.
Print Assumptions C74_runs.
Print Assumptions C74_variables.
Print Assumptions C74_start.
Print Assumptions C75_descent.
Print Assumptions C75_stationary.
Print Assumptions C75_idle.
Print Assumptions C75_solved.
Print Assumptions C76_step.
Print Assumptions C76_coefficient.
Print Assumptions C76_constant.
Print Assumptions C76_travel.
Print Assumptions C76_settles.
