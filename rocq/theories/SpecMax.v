(* Notions for comparing a network with the exact solution *)
From Coq Require Import ZArith List Reals.
From Coquelicot Require Import Coquelicot.
From Verif Require Import Py SpecProblem SpecInit.
Import ListNotations.
Local Open Scope R_scope.

(* - al Lap u + b . grad u + g u at a point *)
Definition applied (al bx bn g : R) (u ux uy uxx uyy : R -> R -> R) (x y : R) : R :=
  - al * (uxx x y + uyy x y) + (bx * ux x y + bn * uy x y) + g * u x y.
(* A function that is at least 1 on the rectangle, at most [top], and on which the operator, up to its sign sg, is at
   least rho > 0; the order of the operator does not degenerate *)
Record barrier (sg al bx bn g : R) (xl yl : R * R) (phi : R -> R -> R) (top rho : R) : Prop := {
  br_sign : sg = 1 \/ sg = -1;
  br_order : 0 < sg * al;
  br_rho : 0 < rho;
  br_steep : exists C, 0 <= C /\ steepness_on (in_box xl yl) (fun p => phi (fst p) (snd p)) C;
  br_range : forall x y, in_box xl yl (x, y) -> 1 <= phi x y <= top;
  br_operator : exists px py pxx pyy, second_partials phi px py pxx pyy /\
    forall x y, in_box xl yl (x, y) -> rho <= sg * applied al bx bn g phi px py pxx pyy x y
}.
(* the four sides *)
Definition on_rim (xl yl : R * R) (p : R * R) : Prop :=
  in_box xl yl p /\ (fst p = fst xl \/ fst p = snd xl \/ snd p = fst yl \/ snd p = snd yl).
(* the side with a given tag: bottom, right, top, left *)
Definition side_point (xl yl : R * R) (tag : Z) (p : R * R) : Prop := in_box xl yl p /\ on_side (xl, yl) tag p.
(* u satisfies the equation with right-hand side f at every point of the rectangle, up to r *)
Definition residual_below (al bx bn g : R) (xl yl : R * R) (u f : R -> R -> R) (r : R) : Prop :=
  exists ux uy uxx uyy, second_partials u ux uy uxx uyy /\
  forall x y, in_box xl yl (x, y) -> Rabs (applied al bx bn g u ux uy uxx uyy x y - f x y) <= r.
(* partial derivatives everywhere, and continuous *)
Definition smooth1 (u ux uy : R -> R -> R) : Prop := forall x y,
  is_derive (fun t => u t y) x (ux x y) /\ is_derive (fun t => u x t) y (uy x y) /\ continuity_2d_pt ux x y /\ continuity_2d_pt uy x y.
(* ... of the first and the second order *)
Definition twice_smooth (u : R -> R -> R) : Prop := exists ux uy uxx uxy uyx uyy, smooth1 u ux uy /\ smooth1 ux uxx uxy /\ smooth1 uy uyx uyy.
Definition smooth_activation (f : R -> R) : Prop := exists d1 d2, forall x, is_derive f x (d1 x) /\ is_derive d1 x (d2 x) /\ continuity_pt d2 x.
