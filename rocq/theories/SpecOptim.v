(* Specification vocabulary for C74-C76: directions, descent, Adam's step size. *)
From Coq Require Import String ZArith List Reals.
From Coquelicot Require Import Coquelicot.
From Verif Require Import Num Py Basis Tensor Physics Train Spec SpecTrain SpecRound Nets NetFacts Optim JetFacts SpecShape.
Import ListNotations.
Local Open Scope R_scope.

(* The point w + s v of the line through w with direction v *)
Definition along (w v : list R) (s : R) : list R := map2 (fun a b => a + s * b) w v.
Definition pairing (g v : list R) : R := Sum (fun k => nth k g 0 * nth k v 0) (length v).
(* On every line through w the training step succeeds, its total loss is differentiable at w, and the
   derivative is the pairing of the direction with the gradient the step computes *)
Definition differentiable_at (f : list R -> result (losses R)) (w : list R) : Prop :=
  length (gradients f w) = length w /\
  forall v, length v = length w -> exists l, (forall s, total_is (f (along w v s)) (l s)) /\ is_derive l 0 (pairing (gradients f w) v).
(* The first training step lowers the total loss for every small enough learning rate *)
Definition first_step_decreases (f : list R -> result (losses R)) (w : list R) : Prop :=
  exists eta, 0 < eta /\ forall rate L st w', 0 < rate 0%nat < eta ->
    train_once rate f (adam_init (length w), w) = Ok (L, (st, w')) -> exists a b, l_total L = [a] /\ total_is (f w') b /\ b < a.

(* f maps the n trainable variables of one of the four models, with a shipped loss, to its losses.  The
   network nt has a twice differentiable activation (tanh, sigmoid, sin, ...) and no attention *)
Inductive training (m : model R) (nt : net) (beta : R) : (list R -> result (losses R)) -> nat -> Prop :=
| tr_standard : forall loss d al bx bn g, m_loss m = loss Num_R -> forward_loss loss d al bx bn g -> chain nt 1 ->
    training m nt beta (standard_at m nt beta (Some d)) (length (weights_of nt))
| tr_hard : forall loss d al bx bn g (h1 h0 : R * R -> R), m_loss m = loss Num_R -> forward_loss loss d al bx bn g -> chain nt 1 -> partials h1 -> partials h0 ->
    training m nt beta (hard_at m (Some (fun b y => map2 (fun p row => map (fun v => h1 p * v + h0 p) row) b y)) nt beta (Some d)) (length (weights_of nt))
| tr_plain : forall loss d al bx bn g, m_loss m = loss Num_R -> forward_loss loss d al bx bn g -> chain nt 1 ->
    training m nt beta (hard_at m None nt beta (Some d)) (length (weights_of nt))
| tr_inverse : forall bp ip, m_loss m = pde_loss_poisson_inverse -> sensors_fit m -> In "eps"%string (map fst ip) -> chain nt 1 ->
    training m nt beta (inverse_at m nt beta bp ip) (length (variables nt ip))
| tr_domain : forall d b_x b_y k, m_loss m = pde_loss_cd2d_inverse_domain -> sensors_fit m -> has d "b_x" b_x -> has d "b_y" b_y -> has d "c" k -> chain nt 2 ->
    training m nt beta (domain_at m nt beta (Some d)) (length (weights_of nt)).
(* ... of a set-up with C cells, T test functions and Q points *)
Definition trains (m : model R) (C T Q : nat) (nt : net) (beta : R) (f : list R -> result (losses R)) (n : nat) : Prop :=
  model_fits m C T Q /\ m_cells m = C /\ n_attention nt = false /\ twice (n_act nt) /\ training m nt beta f n.
(* Numbers a_0, a_1, ... are summable with sum at most b *)
Definition sum_below (a : nat -> R) (b : R) : Prop := forall n, Sum a n <= b.
