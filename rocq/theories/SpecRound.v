(* Specification vocabulary for C67: rounding, and the size of the numbers that are added up. *)
From Coq Require Import String ZArith List Permutation Reals.
From Verif Require Import Num Py Basis Tensor Physics Train Spec SpecTrain TensorFacts.
Import ListNotations.
Local Open Scope R_scope.

(* Relative error at most u; integers up to N are exact *)
Record rounding (rnd : R -> R) (u : R) (N : Z) : Prop := {
  rd_u : 0 <= u;
  rd_rel : forall x, Rabs (rnd x - x) <= u * Rabs x;
  rd_int : forall z, (Z.abs z <= N)%Z -> rnd (IZR z) = IZR z
}.
(* A rounded sum of the numbers of a list, in any order and with any bracketing *)
Inductive rounded_sum (rnd : R -> R) : list R -> R -> Prop :=
| rs_one : forall x, rounded_sum rnd [x] x
| rs_split : forall l l1 l2 s1 s2, Permutation l (l1 ++ l2) -> rounded_sum rnd l1 s1 -> rounded_sum rnd l2 s2 -> rounded_sum rnd l (rnd (s1 + s2)).

(* t' is t up to a relative error of K roundings of relative error u, relative to the size b *)
Definition within (u : R) (K : nat) (b t t' : R) : Prop := Rabs (t' - t) <= ((1 + u) ^ K - 1) * b.

(* A forward loss function and the coefficients of its equation - div (a grad u) + b . grad u + g u *)
Inductive forward_loss : (Num R -> pyfun R) -> list (string * R) -> R -> R -> R -> R -> Prop :=
| fl_poisson : forall d eps, has d "eps" eps -> forward_loss (@pde_loss_poisson R) d eps 0 0 0
| fl_cd2d : forall d eps b_x b_y c, has d "eps" eps -> has d "b_x" b_x -> has d "b_y" b_y -> has d "c" c ->
    forward_loss (@pde_loss_cd2d R) d eps b_x b_y c
| fl_helmholtz : forall d eps k, has d "eps" eps -> has d "k" k -> forward_loss (@pde_loss_helmholtz R) d (- eps) 0 0 (k ^ 2).

(* The residual of cell c and test function r with every term replaced by its absolute value; [e] is the
   diffusion at a point *)
Definition size_res (m : model R) (Q : nat) (U : R * R -> R) (G : R * R -> R * R) (e : R * R -> R) (bx bn g : R) (c r : nat) : R :=
  let p q := nth (c * Q + q) (m_x m) (0, 0) in
  Sum (fun q => Rabs (entry3 (m_gx m) c r q) * (Rabs (e (p q)) * Rabs (fst (G (p q))))) Q +
  Sum (fun q => Rabs (entry3 (m_gy m) c r q) * (Rabs (e (p q)) * Rabs (snd (G (p q))))) Q +
  Rabs bx * Sum (fun q => Rabs (entry3 (m_val m) c r q) * Rabs (fst (G (p q)))) Q +
  Rabs bn * Sum (fun q => Rabs (entry3 (m_val m) c r q) * Rabs (snd (G (p q)))) Q +
  Rabs g * Sum (fun q => Rabs (entry3 (m_val m) c r q) * Rabs (U (p q))) Q + Rabs (entry (m_force m) r c).
Definition size_pde (m : model R) (C T Q : nat) U G e bx bn g : R :=
  Sum (fun c => mean_sq T (size_res m Q U G e bx bn g c)) C.
Definition size_data (U : R * R -> R) (pts : list (R * R)) (vals : mat R) : R :=
  Sum (fun i => (Rabs (U (nth i pts (0, 0))) + Rabs (entry vals i 0)) ^ 2) (length pts) / INR (length pts).
