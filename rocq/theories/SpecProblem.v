(* What it means for a function of the plane to solve one of the equations, with derivatives that exist. *)
From Coq Require Import String ZArith List Reals.
From Coquelicot Require Import Coquelicot.
From Verif Require Import Py Problems.
Local Open Scope R_scope.

(* First and second partial derivatives exist everywhere and are the given functions *)
Definition second_partials (u ux uy uxx uyy : R -> R -> R) : Prop := forall x y,
  is_derive (fun t => u t y) x (ux x y) /\ is_derive (fun t => u x t) y (uy x y) /\
  is_derive (fun t => ux t y) x (uxx x y) /\ is_derive (fun t => uy x t) y (uyy x y).
(* - eps Lap u + b . grad u + c u = f *)
Definition solves_cd (eps bx by_ c : R) (u f : R -> R -> R) : Prop := exists ux uy uxx uyy,
  second_partials u ux uy uxx uyy /\
  forall x y, - eps * (uxx x y + uyy x y) + (bx * ux x y + by_ * uy x y) + c * u x y = f x y.
(* - eps Lap u = f *)
Definition solves_poisson (eps : R) (u f : R -> R -> R) : Prop := solves_cd eps 0 0 0 u f.
(* eps Lap u + k^2 u = f *)
Definition solves_helmholtz (eps k : R) (u f : R -> R -> R) : Prop := exists ux uy uxx uyy,
  second_partials u ux uy uxx uyy /\ forall x y, eps * (uxx x y + uyy x y) + k ^ 2 * u x y = f x y.
(* - div (a grad u) + b . grad u + c u = f with a coefficient field a *)
Definition solves_field (a : R -> R -> R) (bx by_ c : R) (u f : R -> R -> R) : Prop := exists ux uy px qy,
  (forall x y, is_derive (fun t => u t y) x (ux x y) /\ is_derive (fun t => u x t) y (uy x y) /\
     is_derive (fun t => a t y * ux t y) x (px x y) /\ is_derive (fun t => a x t * uy x t) y (qy x y)) /\
  forall x y, - (px x y + qy x y) + (bx * ux x y + by_ * uy x y) + c * u x y = f x y.
(* The entry of a parameter dictionary *)
Definition entry (d : list (string * R)) (k : string) (v : R) : Prop := dget String.eqb d k = Ok v.
(* The part of the boundary of the rectangle to which the internal mesh gives a tag *)
Definition on_side (limits : (R * R) * (R * R)) (t : Z) (p : R * R) : Prop :=
  let '((x0, x1), (y0, y1)) := limits in
  (t = 1000%Z /\ snd p = y0) \/ (t = 1001%Z /\ fst p = x1) \/ (t = 1002%Z /\ snd p = y1) \/ (t = 1003%Z /\ fst p = x0).
