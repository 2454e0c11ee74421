(* Specification vocabulary for C89: what the arithmetic of the optimizer has to satisfy. *)
From Coq Require Import ZArith List Reals.
From Verif Require Import RoundOptim.
Import ListNotations.
Local Open Scope R_scope.

(* Operations with relative error u, constants and powers close to those of Adam (0.9, 0.999, a positive epsilon) *)
Record update_ok (o : update_arith) (u : R) : Prop := {
  ou_u : 0 <= u <= 1 / 1000000;
  ou_rel : forall x, Rabs (o_rnd o x - x) <= u * Rabs x;
  ou_c1 : Rabs (o_c1 o - 1 / 10) <= 1 / 1000000;
  ou_c2 : Rabs (o_c2 o - 1 / 1000) <= 1 / 100000000;
  ou_eps : 0 < o_eps o;
  ou_p1 : forall t, Rabs (o_p1 o t - (9 / 10) ^ t) <= 1 / 10000;
  ou_p2 : forall t, Rabs (o_p2 o t - (999 / 1000) ^ t) <= 1 / 10000
}.
