(* C68-C70: the losses as functions of the network and of the unknown coefficients. *)
From Coq Require Import String ZArith List Reals Lra Lia.
From Coquelicot Require Import Coquelicot.
From Verif Require Import Num Py Basis Tensor Physics Train Spec SpecTrain TensorFacts PipelineFacts SpecRound SpecShape ShapeFacts.
Import ListNotations.
Local Open Scope R_scope.

(* Affine combinations of two networks: the loss against the chord, for each model *)
Theorem C68_standard : forall m C T Q nn1 nn2 nn beta t U V G H loss d al bx bn g, model_fits m C T Q -> m_cells m = C ->
  m_loss m = loss Num_R -> forward_loss loss d al bx bn g ->
  pointwise nn1 U G -> pointwise nn2 V H -> pointwise nn (mixU t U V) (mixG t G H) ->
  exists s1 s2 s, total_is (train_standard m nn1 beta (Some d)) s1 /\ total_is (train_standard m nn2 beta (Some d)) s2 /\
    total_is (train_standard m nn beta (Some d)) s /\
    s = (1 - t) * s1 + t * s2 - t * (1 - t) * (norm2 C T (lhs m Q (fun _ => al) bx bn g (subU U V) (subG G H)) + beta * mean_sq_at (subU U V) (m_dir_in m)).
Proof. exact (fun m C T Q nn1 nn2 nn beta t U V G H loss d al bx bn g Hm Hc => mix_standard m C T Q nn1 nn2 nn beta t U V G H Hm Hc loss d al bx bn g). Qed.
Theorem C68_hard : forall m C T Q nn1 nn2 nn beta t U V G H loss d al bx bn g, model_fits m C T Q -> m_cells m = C ->
  m_loss m = loss Num_R -> forward_loss loss d al bx bn g ->
  pointwise nn1 U G -> pointwise nn2 V H -> pointwise nn (mixU t U V) (mixG t G H) ->
  exists s1 s2 s, total_is (train_hard m nn1 beta (Some d)) s1 /\ total_is (train_hard m nn2 beta (Some d)) s2 /\
    total_is (train_hard m nn beta (Some d)) s /\
    s = (1 - t) * s1 + t * s2 - t * (1 - t) * norm2 C T (lhs m Q (fun _ => al) bx bn g (subU U V) (subG G H)).
Proof. exact (fun m C T Q nn1 nn2 nn beta t U V G H loss d al bx bn g Hm Hc => mix_hard m C T Q nn1 nn2 nn beta t U V G H Hm Hc loss d al bx bn g). Qed.
Theorem C68_inverse : forall m C T Q nn1 nn2 nn beta t U V G H bp ip eps, model_fits m C T Q -> m_cells m = C ->
  m_loss m = pde_loss_poisson_inverse -> has ip "eps" eps -> sensors_fit m ->
  pointwise nn1 U G -> pointwise nn2 V H -> pointwise nn (mixU t U V) (mixG t G H) ->
  exists s1 s2 s, total_is (train_inverse m nn1 beta bp (Some ip)) s1 /\ total_is (train_inverse m nn2 beta bp (Some ip)) s2 /\
    total_is (train_inverse m nn beta bp (Some ip)) s /\
    s = (1 - t) * s1 + t * s2 - t * (1 - t) * (norm2 C T (lhs m Q (fun _ => eps) 0 0 0 (subU U V) (subG G H)) +
      beta * mean_sq_at (subU U V) (m_dir_in m) + 10 * mean_sq_at (subU U V) (m_sensor_in m)).
Proof. exact (fun m C T Q nn1 nn2 nn beta t U V G H bp ip eps Hm Hc => mix_inverse m C T Q nn1 nn2 nn beta t U V G H Hm Hc bp ip eps). Qed.
Theorem C68_domain : forall m C T Q nn1 nn2 nn beta t U V G H d b_x b_y k E, model_fits m C T Q -> m_cells m = C ->
  m_loss m = pde_loss_cd2d_inverse_domain -> has d "b_x" b_x -> has d "b_y" b_y -> has d "c" k -> sensors_fit m ->
  pointwise2 nn1 U E G -> pointwise2 nn2 V E H -> pointwise2 nn (mixU t U V) E (mixG t G H) ->
  exists s1 s2 s, total_is (train_inverse_domain m nn1 beta (Some d)) s1 /\ total_is (train_inverse_domain m nn2 beta (Some d)) s2 /\
    total_is (train_inverse_domain m nn beta (Some d)) s /\
    s = (1 - t) * s1 + t * s2 - t * (1 - t) * (norm2 C T (lhs m Q E b_x b_y k (subU U V) (subG G H)) +
      beta * mean_sq_at (subU U V) (m_dir_in m) + 10 * mean_sq_at (subU U V) (m_sensor_in m)).
Proof. exact (fun m C T Q nn1 nn2 nn beta t U V G H d b_x b_y k E Hm Hc => mix_domain m C T Q nn1 nn2 nn beta t U V G H Hm Hc d b_x b_y k E). Qed.
(* The same in the diffusion field of the space-dependent inverse model *)
Theorem C68_field : forall m C T Q nn1 nn2 nn beta t U G d b_x b_y k E F, model_fits m C T Q -> m_cells m = C ->
  m_loss m = pde_loss_cd2d_inverse_domain -> has d "b_x" b_x -> has d "b_y" b_y -> has d "c" k -> sensors_fit m ->
  pointwise2 nn1 U E G -> pointwise2 nn2 U F G -> pointwise2 nn U (mixU t E F) G ->
  exists s1 s2 s, total_is (train_inverse_domain m nn1 beta (Some d)) s1 /\ total_is (train_inverse_domain m nn2 beta (Some d)) s2 /\
    total_is (train_inverse_domain m nn beta (Some d)) s /\
    s = (1 - t) * s1 + t * s2 - t * (1 - t) * norm2 C T (lhs m Q (subU E F) 0 0 0 U G).
Proof. exact (fun m C T Q nn1 nn2 nn beta t U G d b_x b_y k E F Hm Hc => mix_field m C T Q nn1 nn2 nn beta t U G Hm Hc d b_x b_y k E F). Qed.
(* Convexity *)
Theorem C68_convex_standard : forall m C T Q nn1 nn2 nn beta t U V G H loss d al bx bn g s1 s2 s, model_fits m C T Q -> m_cells m = C ->
  m_loss m = loss Num_R -> forward_loss loss d al bx bn g -> pointwise nn1 U G -> pointwise nn2 V H -> pointwise nn (mixU t U V) (mixG t G H) ->
  0 <= t <= 1 -> 0 <= beta ->
  total_is (train_standard m nn1 beta (Some d)) s1 -> total_is (train_standard m nn2 beta (Some d)) s2 -> total_is (train_standard m nn beta (Some d)) s ->
  s <= (1 - t) * s1 + t * s2.
Proof. exact convex_standard. Qed.
Theorem C68_convex_hard : forall m C T Q nn1 nn2 nn beta t U V G H loss d al bx bn g s1 s2 s, model_fits m C T Q -> m_cells m = C ->
  m_loss m = loss Num_R -> forward_loss loss d al bx bn g -> pointwise nn1 U G -> pointwise nn2 V H -> pointwise nn (mixU t U V) (mixG t G H) ->
  0 <= t <= 1 ->
  total_is (train_hard m nn1 beta (Some d)) s1 -> total_is (train_hard m nn2 beta (Some d)) s2 -> total_is (train_hard m nn beta (Some d)) s ->
  s <= (1 - t) * s1 + t * s2.
Proof. exact convex_hard. Qed.
Theorem C68_convex_inverse : forall m C T Q nn1 nn2 nn beta t U V G H bp ip eps s1 s2 s, model_fits m C T Q -> m_cells m = C -> sensors_fit m ->
  m_loss m = pde_loss_poisson_inverse -> has ip "eps" eps -> pointwise nn1 U G -> pointwise nn2 V H -> pointwise nn (mixU t U V) (mixG t G H) ->
  0 <= t <= 1 -> 0 <= beta ->
  total_is (train_inverse m nn1 beta bp (Some ip)) s1 -> total_is (train_inverse m nn2 beta bp (Some ip)) s2 -> total_is (train_inverse m nn beta bp (Some ip)) s ->
  s <= (1 - t) * s1 + t * s2.
Proof. exact convex_inverse. Qed.
Theorem C68_convex_domain : forall m C T Q nn1 nn2 nn beta t U V G H d b_x b_y k E s1 s2 s, model_fits m C T Q -> m_cells m = C -> sensors_fit m ->
  m_loss m = pde_loss_cd2d_inverse_domain -> has d "b_x" b_x -> has d "b_y" b_y -> has d "c" k ->
  pointwise2 nn1 U E G -> pointwise2 nn2 V E H -> pointwise2 nn (mixU t U V) E (mixG t G H) -> 0 <= t <= 1 -> 0 <= beta ->
  total_is (train_inverse_domain m nn1 beta (Some d)) s1 -> total_is (train_inverse_domain m nn2 beta (Some d)) s2 -> total_is (train_inverse_domain m nn beta (Some d)) s ->
  s <= (1 - t) * s1 + t * s2.
Proof. exact convex_domain. Qed.
Theorem C68_convex_field : forall m C T Q nn1 nn2 nn beta t U G d b_x b_y k E F s1 s2 s, model_fits m C T Q -> m_cells m = C -> sensors_fit m ->
  m_loss m = pde_loss_cd2d_inverse_domain -> has d "b_x" b_x -> has d "b_y" b_y -> has d "c" k ->
  pointwise2 nn1 U E G -> pointwise2 nn2 U F G -> pointwise2 nn U (mixU t E F) G -> 0 <= t <= 1 ->
  total_is (train_inverse_domain m nn1 beta (Some d)) s1 -> total_is (train_inverse_domain m nn2 beta (Some d)) s2 -> total_is (train_inverse_domain m nn beta (Some d)) s ->
  s <= (1 - t) * s1 + t * s2.
Proof. exact convex_field. Qed.
(* Networks without loss form an affine set *)
Theorem C68_solutions : forall m C T Q nn1 nn2 nn beta t U V G H loss d al bx bn g, model_fits m C T Q -> m_cells m = C ->
  m_loss m = loss Num_R -> forward_loss loss d al bx bn g -> pointwise nn1 U G -> pointwise nn2 V H -> pointwise nn (mixU t U V) (mixG t G H) ->
  0 <= beta -> total_is (train_standard m nn1 beta (Some d)) 0 -> total_is (train_standard m nn2 beta (Some d)) 0 ->
  total_is (train_standard m nn beta (Some d)) 0.
Proof. exact solutions_standard. Qed.

(* The PDE loss of the inverse model as a function of the trainable coefficient *)
Theorem C69_parabola : forall m C T Q beta U G nn bp ip eps, model_fits m C T Q -> m_cells m = C -> sensors_fit m ->
  m_loss m = pde_loss_poisson_inverse -> has ip "eps" eps -> pointwise nn U G ->
  pde_is (train_inverse m nn beta bp (Some ip)) (diffusion_sq m C T Q U G * eps ^ 2 - 2 * diffusion_force m C T Q U G * eps + norm2 C T (fun c r => entry (m_force m) r c)).
Proof. exact (fun m C T Q beta U G nn bp ip eps Hm Hc Hs => parabola m C T Q beta U G Hm Hc Hs nn bp ip eps). Qed.
(* Its only minimiser, for a network with nonzero diffusion integrals *)
Theorem C69_minimiser : forall m C T Q beta U G nn bp ip1 ip2 eps s1 s2, model_fits m C T Q -> m_cells m = C -> sensors_fit m ->
  m_loss m = pde_loss_poisson_inverse -> 0 < diffusion_sq m C T Q U G -> has ip1 "eps" (diffusion_force m C T Q U G / diffusion_sq m C T Q U G) -> has ip2 "eps" eps -> pointwise nn U G ->
  total_is (train_inverse m nn beta bp (Some ip1)) s1 -> total_is (train_inverse m nn beta bp (Some ip2)) s2 ->
  s2 - s1 = diffusion_sq m C T Q U G * (eps - diffusion_force m C T Q U G / diffusion_sq m C T Q U G) ^ 2.
Proof. exact (fun m C T Q beta U G nn bp ip1 ip2 eps s1 s2 Hm Hc Hs => minimiser m C T Q beta U G Hm Hc Hs nn bp ip1 ip2 eps s1 s2). Qed.
(* A network that solves the equation with eps0 solves it with no other coefficient *)
Theorem C69_recovered : forall m C T Q beta U G nn bp ip1 ip2 eps0 eps v, model_fits m C T Q -> m_cells m = C -> sensors_fit m ->
  m_loss m = pde_loss_poisson_inverse -> has ip1 "eps" eps0 -> has ip2 "eps" eps -> pointwise nn U G ->
  pde_is (train_inverse m nn beta bp (Some ip1)) 0 -> pde_is (train_inverse m nn beta bp (Some ip2)) v ->
  v = diffusion_sq m C T Q U G * (eps - eps0) ^ 2 /\
  (v = 0 <-> eps = eps0 \/ forall c r, (c < C)%nat -> (r < T)%nat -> lhs m Q (fun _ => 1) 0 0 0 U G c r = 0).
Proof. exact (fun m C T Q beta U G nn bp ip1 ip2 eps0 eps v Hm Hc Hs => recovered m C T Q beta U G Hm Hc Hs nn bp ip1 ip2 eps0 eps v). Qed.
(* The space-dependent coefficient: determined up to fields whose weak diffusion term vanishes *)
Theorem C69_field : forall m C T Q beta U G nn1 nn2 d b_x b_y k E0 E v, model_fits m C T Q -> m_cells m = C -> sensors_fit m ->
  m_loss m = pde_loss_cd2d_inverse_domain -> has d "b_x" b_x -> has d "b_y" b_y -> has d "c" k ->
  pointwise2 nn1 U E0 G -> pointwise2 nn2 U E G ->
  pde_is (train_inverse_domain m nn1 beta (Some d)) 0 -> pde_is (train_inverse_domain m nn2 beta (Some d)) v ->
  v = norm2 C T (lhs m Q (subU E E0) 0 0 0 U G) /\
  (v = 0 <-> forall c r, (c < C)%nat -> (r < T)%nat -> lhs m Q (subU E E0) 0 0 0 U G c r = 0).
Proof. exact (fun m C T Q beta U G nn1 nn2 d b_x b_y k E0 E v Hm Hc Hs => field_recovered m C T Q beta U G Hm Hc Hs nn1 nn2 d b_x b_y k E0 E v). Qed.

(* The derivative of the total loss along any family of networks, for each model *)
Theorem C70_standard : forall m C T Q beta s nn U G U' G' loss d al bx bn g t, model_fits m C T Q -> m_cells m = C -> family U s U' -> family2 G s G' ->
  m_loss m = loss Num_R -> forward_loss loss d al bx bn g -> (forall x, pointwise (nn x) (U x) (G x)) ->
  (forall x, total_is (train_standard m (nn x) beta (Some d)) (t x)) ->
  is_derive t s (2 * inner C T (residual m Q (fun _ => al) bx bn g (U s) (G s)) (lhs m Q (fun _ => al) bx bn g U' G') +
    beta * (2 * inner_at (data_error (U s) (m_dir_in m) (m_dir_act m)) U' (m_dir_in m))).
Proof. exact (fun m C T Q beta s nn U G U' G' loss d al bx bn g t Hm Hc HU HG => grad_standard m C T Q beta s nn U G U' G' Hm Hc HU HG loss d al bx bn g t). Qed.
Theorem C70_hard : forall m C T Q beta s nn U G U' G' loss d al bx bn g t, model_fits m C T Q -> m_cells m = C -> family U s U' -> family2 G s G' ->
  m_loss m = loss Num_R -> forward_loss loss d al bx bn g -> (forall x, pointwise (nn x) (U x) (G x)) ->
  (forall x, total_is (train_hard m (nn x) beta (Some d)) (t x)) ->
  is_derive t s (2 * inner C T (residual m Q (fun _ => al) bx bn g (U s) (G s)) (lhs m Q (fun _ => al) bx bn g U' G')).
Proof. exact (fun m C T Q beta s nn U G U' G' loss d al bx bn g t Hm Hc HU HG => grad_hard m C T Q beta s nn U G U' G' Hm Hc HU HG loss d al bx bn g t). Qed.
Theorem C70_inverse : forall m C T Q beta s nn U G U' G' bp ip eps eps' t, model_fits m C T Q -> m_cells m = C -> family U s U' -> family2 G s G' ->
  m_loss m = pde_loss_poisson_inverse -> sensors_fit m -> (forall x, has (ip x) "eps" (eps x)) ->
  is_derive eps s eps' -> (forall x, pointwise (nn x) (U x) (G x)) ->
  (forall x, total_is (train_inverse m (nn x) beta bp (Some (ip x))) (t x)) ->
  is_derive t s (2 * inner C T (residual m Q (fun _ => eps s) 0 0 0 (U s) (G s))
      (fun c r => lhs m Q (fun _ => eps') 0 0 0 (U s) (G s) c r + lhs m Q (fun _ => eps s) 0 0 0 U' G' c r) +
    beta * (2 * inner_at (data_error (U s) (m_dir_in m) (m_dir_act m)) U' (m_dir_in m)) +
    10 * (2 * inner_at (data_error (U s) (m_sensor_in m) (m_sensor_act m)) U' (m_sensor_in m))).
Proof. exact (fun m C T Q beta s nn U G U' G' bp ip eps eps' t Hm Hc HU HG => grad_inverse m C T Q beta s nn U G U' G' Hm Hc HU HG bp ip eps eps' t). Qed.
Theorem C70_domain : forall m C T Q beta s nn U G U' G' d b_x b_y k E E' t, model_fits m C T Q -> m_cells m = C -> family U s U' -> family2 G s G' ->
  m_loss m = pde_loss_cd2d_inverse_domain -> sensors_fit m -> has d "b_x" b_x -> has d "b_y" b_y -> has d "c" k ->
  family E s E' -> (forall x, pointwise2 (nn x) (U x) (E x) (G x)) ->
  (forall x, total_is (train_inverse_domain m (nn x) beta (Some d)) (t x)) ->
  is_derive t s (2 * inner C T (residual m Q (E s) b_x b_y k (U s) (G s))
      (fun c r => lhs m Q E' 0 0 0 (U s) (G s) c r + lhs m Q (E s) b_x b_y k U' G' c r) +
    beta * (2 * inner_at (data_error (U s) (m_dir_in m) (m_dir_act m)) U' (m_dir_in m)) +
    10 * (2 * inner_at (data_error (U s) (m_sensor_in m) (m_sensor_act m)) U' (m_sensor_in m))).
Proof. exact (fun m C T Q beta s nn U G U' G' d b_x b_y k E E' t Hm Hc HU HG => grad_domain m C T Q beta s nn U G U' G' Hm Hc HU HG d b_x b_y k E E' t). Qed.
(* A network without loss is stationary *)
Theorem C70_stationary : forall m C T Q beta s nn U G U' G' loss d al bx bn g t, model_fits m C T Q -> m_cells m = C ->
  m_loss m = loss Num_R -> forward_loss loss d al bx bn g -> (forall x, pointwise (nn x) (U x) (G x)) -> family U s U' -> family2 G s G' -> 0 <= beta ->
  (forall x, total_is (train_standard m (nn x) beta (Some d)) (t x)) -> t s = 0 -> is_derive t s 0.
Proof. exact stationary_standard. Qed.

(* One cell with one test function and one point; networks a x + b y + c *)
Example C68_example : forall t beta, exists s,
  model_fits (tiny pde_loss_poisson) 1 1 1 /\ sensors_fit (tiny pde_loss_poisson) /\
  total_is (train_standard (tiny pde_loss_poisson) (ex_net 2 0 0) beta (Some [("eps"%string, 1)])) 0 /\
  total_is (train_standard (tiny pde_loss_poisson) (ex_net 4 0 0) beta (Some [("eps"%string, 1)])) (4 + beta * 4) /\
  total_is (train_standard (tiny pde_loss_poisson) (ex_net (2 + 2 * t) 0 0) beta (Some [("eps"%string, 1)])) s /\
  s = t * (4 + beta * 4) - t * (1 - t) * (4 + beta * 4) /\
  pointwise (ex_net ((1 - t) * 2 + t * 4) ((1 - t) * 0 + t * 0) ((1 - t) * 0 + t * 0))
    (mixU t (fun p => 2 * fst p + 0 * snd p + 0) (fun p => 4 * fst p + 0 * snd p + 0)) (mixG t (fun _ => (2, 0)) (fun _ => (4, 0))).
Proof.
  intros t beta. eexists. split; [apply tiny_fits|]. split; [apply tiny_fits|].
  split; [apply (total_eq _ _ _ (tiny_total 2 0 0 1 beta)); ring|].
  split; [apply (total_eq _ _ _ (tiny_total 4 0 0 1 beta)); ring|].
  split; [apply tiny_total|]. split; [ring | apply ex_net_mix].
Qed.
(* u = x: the diffusion integral is 1, the minimiser and the recovered coefficient are 2 *)
Example C69_example : forall beta, let U := fun p => 1 * fst p + 0 * snd p + 0 in let G := fun _ : R * R => (1, 0) in
  model_fits (tiny pde_loss_poisson_inverse) 1 1 1 /\ sensors_fit (tiny pde_loss_poisson_inverse) /\ pointwise (ex_net 1 0 0) U G /\
  diffusion_sq (tiny pde_loss_poisson_inverse) 1 1 1 U G = 1 /\
  diffusion_force (tiny pde_loss_poisson_inverse) 1 1 1 U G = 2 /\
  pde_is (train_inverse (tiny pde_loss_poisson_inverse) (ex_net 1 0 0) beta (Some []) (Some [("eps"%string, 2)])) 0 /\
  pde_is (train_inverse (tiny pde_loss_poisson_inverse) (ex_net 1 0 0) beta (Some []) (Some [("eps"%string, 5)])) 9.
Proof.
  intros beta U G. split; [apply tiny_fits|]. split; [apply tiny_fits|]. split; [apply ex_net_pointwise|].
  split; [unfold U, G, diffusion_sq, diffusion_force; rewrite tiny_A; ring|]. split; [unfold U, G, diffusion_sq, diffusion_force; rewrite tiny_B; ring|].
  split; [apply (pde_eq _ _ _ (tiny_inverse 1 0 0 2 beta)) | apply (pde_eq _ _ _ (tiny_inverse 1 0 0 5 beta))]; ring.
Qed.
(* the family u = s x: loss (1 + beta) (s - 2)^2, stationary at s = 2 *)
Example C70_example : forall s,
  (forall x, pointwise (ex_net x 0 0) (fun p => x * fst p + 0 * snd p + 0) (fun _ => (x, 0))) /\
  family (fun x p => x * fst p + 0 * snd p + 0) s fst /\ family2 (fun x _ => (x, 0)) s (fun _ => (1, 0)) /\
  forall beta x, total_is (train_standard (tiny pde_loss_poisson) (ex_net x 0 0) beta (Some [("eps"%string, 1)])) ((1 * x - 2) ^ 2 + beta * (x + 0 - 2) ^ 2).
Proof.
  intros s. split; [intros x; apply ex_net_pointwise|]. split; [intros p; auto_derive; [exact I | ring]|].
  split; [split; intros p; cbn [fst snd]; [exact (is_derive_id s) | exact (is_derive_const 0 s)]|]. intros. apply tiny_total.
Qed.

Print Assumptions C68_standard.
Print Assumptions C68_hard.
Print Assumptions C68_inverse.
Print Assumptions C68_domain.
Print Assumptions C68_field.
Print Assumptions C68_convex_standard.
Print Assumptions C68_convex_hard.
Print Assumptions C68_convex_inverse.
Print Assumptions C68_convex_domain.
Print Assumptions C68_convex_field.
Print Assumptions C68_solutions.
Print Assumptions C69_parabola.
Print Assumptions C69_minimiser.
Print Assumptions C69_recovered.
Print Assumptions C69_field.
Print Assumptions C70_standard.
Print Assumptions C70_hard.
Print Assumptions C70_inverse.
Print Assumptions C70_domain.
Print Assumptions C70_stationary.
