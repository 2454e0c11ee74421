(* The update of Optim.v in floating-point arithmetic: tf.keras.optimizers.Adam (model/model.py:144,
   model_hard.py:165, model_inverse.py:156, model_inverse_domain.py:141; applied in model.py:303-305,
   model_hard.py:326-328, model_inverse.py:328-330, model_inverse_domain.py:333-335) with every
   operation of update_step rounded.  Written from the Keras source:
     lr = cast(learning_rate); local_step = cast(iterations + 1)
     beta_1_power = pow(cast(beta_1), local_step); beta_2_power = pow(cast(beta_2), local_step)
     alpha = lr * sqrt(1 - beta_2_power) / (1 - beta_1_power)
     m.assign_add((gradient - m) * (1 - beta_1)); v.assign_add((square(gradient) - v) * (1 - beta_2))
     variable.assign_sub((m * alpha) / (sqrt(v) + epsilon))
   Simplification: exponents are unbounded (no overflow, underflow or nan). *)
From Coq Require Import ZArith List Reals.
From Verif Require Import Num Py Rounding Optim.
Import ListNotations.
Local Open Scope R_scope.

(* rounding of one operation; the constants 1 - beta_1, 1 - beta_2 (Python floats, then cast) and epsilon as
   stored; the two powers as a function of local_step *)
Record update_arith := { o_rnd : R -> R; o_c1 : R; o_c2 : R; o_eps : R; o_p1 : nat -> R; o_p2 : nat -> R }.

Section Update.
Variable o : update_arith.
Local Notation rnd := (o_rnd o).
Definition fl_alpha (lr : R) (t : nat) : R :=
  rnd (rnd (rnd lr * rnd (sqrt (rnd (1 - o_p2 o (t + 1))))) / rnd (1 - o_p1 o (t + 1))).
Definition fl_m (m g : R) : R := rnd (m + rnd (rnd (g - m) * o_c1 o)).
Definition fl_v (v g : R) : R := rnd (v + rnd (rnd (rnd (g * g) - v) * o_c2 o)).
Definition fl_new (alpha x m v : R) : R := rnd (x - rnd (rnd (m * alpha) / rnd (rnd (sqrt v) + o_eps o))).
(* apply_gradients *)
Definition fl_apply (rate : nat -> R) (st : adam) (g w : list R) : adam * list R :=
  let alpha := fl_alpha (rate (ad_iterations st)) (ad_iterations st) in
  let ms := map2 fl_m (ad_m st) g in
  let vs := map2 fl_v (ad_v st) g in
  ({| ad_iterations := S (ad_iterations st); ad_m := ms; ad_v := vs |},
   map2 (fun x mv => fl_new alpha x (fst mv) (snd mv)) w (combine ms vs)).
(* The state before step t of a run in which step s finds the gradient [gs s], however that was computed *)
Fixpoint fl_run (rate : nat -> R) (gs : nat -> list R) (w : list R) (t : nat) : adam * list R :=
  match t with
  | O => (adam_init (length w), w)
  | S t' => let s := fl_run rate gs w t' in fl_apply rate (fst s) (gs t') (snd s)
  end.
End Update.

(* IEEE arithmetic with [prec] bits: Python computes 1 - beta in double precision, the powers are those of
   the stored betas, rounded *)
Definition ieee_update (prec : Z) : update_arith := {|
  o_rnd := nearest prec;
  o_c1 := nearest prec (nearest 53 (1 - nearest 53 beta_1));
  o_c2 := nearest prec (nearest 53 (1 - nearest 53 beta_2));
  o_eps := nearest prec epsilon;
  o_p1 := fun t => nearest prec (nearest prec beta_1 ^ t);
  o_p2 := fun t => nearest prec (nearest prec beta_2 ^ t) |}.
