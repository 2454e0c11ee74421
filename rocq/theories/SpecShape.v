(* Specification vocabulary for C68-C70: the losses as functions of the network and of the coefficients. *)
From Coq Require Import String ZArith List Reals.
From Coquelicot Require Import Coquelicot.
From Verif Require Import Num Py Basis Tensor Physics Train Spec SpecTrain TensorFacts.
Import ListNotations.
Local Open Scope R_scope.

(* Left-hand side of the weak equation of cell c and test function r: diffusion a (a function of the
   point), convection (bx, bn), reaction g, for a function with values U and gradient G *)
Definition lhs (m : model R) (Q : nat) (a : R * R -> R) (bx bn g : R) (U : R * R -> R) (G : R * R -> R * R) (c r : nat) : R :=
  let p q := nth (c * Q + q) (m_x m) (0, 0) in
  Sum (fun q => entry3 (m_gx m) c r q * (a (p q) * fst (G (p q)))) Q +
  Sum (fun q => entry3 (m_gy m) c r q * (a (p q) * snd (G (p q)))) Q +
  bx * Sum (fun q => entry3 (m_val m) c r q * fst (G (p q))) Q +
  bn * Sum (fun q => entry3 (m_val m) c r q * snd (G (p q))) Q +
  g * Sum (fun q => entry3 (m_val m) c r q * U (p q)) Q.
(* Sum over the cells of the mean of squares *)
Definition norm2 (C T : nat) (w : nat -> nat -> R) : R := Sum (fun c => mean_sq T (w c)) C.
(* The value of the PDE loss: squares of left-hand side minus forcing *)
Definition pde_value (m : model R) (C T Q : nat) a bx bn g U G : R :=
  norm2 C T (fun c r => lhs m Q a bx bn g U G c r - entry (m_force m) r c).
(* Mean square of a function at points *)
Definition mean_sq_at (U : R * R -> R) (pts : list (R * R)) : R :=
  Sum (fun i => U (nth i pts (0, 0)) ^ 2) (length pts) / INR (length pts).
(* Affine combination of two functions, and difference *)
Definition mixU (t : R) (U V : R * R -> R) (p : R * R) : R := (1 - t) * U p + t * V p.
Definition mixG (t : R) (G H : R * R -> R * R) (p : R * R) : R * R :=
  ((1 - t) * fst (G p) + t * fst (H p), (1 - t) * snd (G p) + t * snd (H p)).
Definition subU (U V : R * R -> R) (p : R * R) : R := U p - V p.
Definition subG (G H : R * R -> R * R) (p : R * R) : R * R := (fst (G p) - fst (H p), snd (G p) - snd (H p)).
(* Mean over the test functions, summed over the cells, of a product; the same at points *)
Definition inner (C T : nat) (w z : nat -> nat -> R) : R := Sum (fun c => Sum (fun r => w c r * z c r) T / INR T) C.
Definition inner_at (e : nat -> R) (U : R * R -> R) (pts : list (R * R)) : R :=
  Sum (fun i => e i * U (nth i pts (0, 0))) (length pts) / INR (length pts).
(* A training step succeeds with this PDE loss; with this total loss *)
Definition pde_is (r : result (losses R)) (v : R) : Prop := exists L, r = Ok L /\ l_pde L = v.
Definition total_is (r : result (losses R)) (v : R) : Prop := exists L, r = Ok L /\ l_total L = [v].
(* A family of functions, parametrised by s, with derivative U' in s at every point *)
Definition family (U : R -> R * R -> R) (s : R) (U' : R * R -> R) : Prop := forall p, is_derive (fun x => U x p) s (U' p).
Definition family2 (G : R -> R * R -> R * R) (s : R) (G' : R * R -> R * R) : Prop :=
  family (fun x p => fst (G x p)) s (fun p => fst (G' p)) /\ family (fun x p => snd (G x p)) s (fun p => snd (G' p)).
(* Residual of the weak equations and of the data *)
Definition residual (m : model R) (Q : nat) a bx bn g U G (c r : nat) : R := lhs m Q a bx bn g U G c r - entry (m_force m) r c.
Definition data_error (U : R * R -> R) (pts : list (R * R)) (vals : mat R) (i : nat) : R := U (nth i pts (0, 0)) - entry vals i 0.
(* Mean squares of the diffusion integrals of a network with gradient G, and their mean product with the forcing *)
Definition diffusion_sq (m : model R) (C T Q : nat) (U : R * R -> R) G : R := norm2 C T (lhs m Q (fun _ => 1) 0 0 0 U G).
Definition diffusion_force (m : model R) (C T Q : nat) (U : R * R -> R) G : R :=
  inner C T (lhs m Q (fun _ => 1) 0 0 0 U G) (fun c r => entry (m_force m) r c).
