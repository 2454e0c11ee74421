(* The dense network and its gradient in floating-point arithmetic: what Keras and the gradient
   tape compute, with every operation rounded.
   Simplifications: exponents are unbounded (no overflow, underflow or nan); a product and a sum
   are two roundings (a fused operation has one); the order of a sum is any fixed one; no
   attention layer; of the hard constraints the one of the shipped script. *)
From Coq Require Import ZArith List Bool Reals.
From Verif Require Import Num Py Basis Tensor Train Nets.
Import ListNotations.
Local Open Scope R_scope.

(* rounding of one operation, the sum of a list as tf.matmul adds it up, and the computed tanh *)
Record arith := { a_rnd : R -> R; a_sum : list R -> R; a_tanh : R -> R }.
(* exact arithmetic *)
Definition exact_arith : arith := {| a_rnd := fun x => x; a_sum := vsum; a_tanh := tanh |}.

Section Net.
Variable a : arith.
(* inner product *)
Definition fl_dot (x w : list R) : R := a_sum a (map2 (fun v k => a_rnd a (v * k)) x w).
Definition fl_act (flag : bool) (v : R) : R := if flag then a_tanh a v else v.
(* keras Dense, model/model.py:151-171, 198-204: activation(x @ kernel + bias), one row *)
Definition fl_row (flag : bool) (kernel : mat R) (bias x : list R) : list R :=
  map (fun j => fl_act flag (a_rnd a (fl_dot x (map (fun row => nth j row 0) kernel) + nth j bias 0))) (seq 0 (length bias)).
(* model/model.py:187-206, one row *)
Fixpoint fl_net (ls : list (bool * (mat R * list R))) (x : list R) : list R :=
  match ls with [] => x | (flag, (kernel, bias)) :: r => fl_net r (fl_row flag kernel bias x) end.
(* A Dense layer refuses an input of the wrong width *)
Fixpoint widths_fit (ls : list (bool * (mat R * list R))) (w : nat) : bool :=
  match ls with [] => true | (_, (kernel, bias)) :: r => andb (w =? length kernel)%nat (widths_fit r (length bias)) end.
(* tape.gradient, model/model.py:257-264, model_inverse_domain.py:268-279: backwards through the
   layers, starting from ones (or the unit vector of the selected output).
   tanh: dy * (1 - y * y) with the stored output y; Dense: dz @ kernel^T. *)
Definition seed (sel : option nat) (j : nat) : R := match sel with None => 1 | Some i => if (j =? i)%nat then 1 else 0 end.
Fixpoint fl_back (sd : nat -> R) (ls : list (bool * (mat R * list R))) (x : list R) : list R :=
  match ls with
  | [] => map sd (seq 0 (length x))
  | (flag, (kernel, bias)) :: r =>
      let y := fl_row flag kernel bias x in
      let dy := fl_back sd r y in
      let dz := if flag then map2 (fun d v => a_rnd a (d * a_rnd a (1 - a_rnd a (v * v)))) dy y else dy in
      map (fun row => fl_dot dz row) kernel
  end.
(* the points are cast like every tensor, data/datahandler2d.py:89-91, 125, 192 *)
Definition cast_point (p : R * R) : list R := [a_rnd a (fst p); a_rnd a (snd p)].
Definition rounded_network (nt : net) : network R := {|
  nn_out := fun b => if widths_fit (n_layers nt) 2 then Ok (map (fun p => fl_net (n_layers nt) (cast_point p)) b) else Err ValueError;
  nn_grad := fun sel b => map (fun p => let g := fl_back (seed sel) (n_layers nt) (cast_point p) in (nth 0 g 0, nth 1 g 0)) b |}.

(* examples/forward_problems_2d/hard_boundary_constraints/poisson_2d/main_poisson2d_hard.py:153-170:
   the four factors of the ansatz; [c] is the Python number 4.0 * np.pi as a tensor *)
Definition fl_factors (c : R) (x : list R) : (R * R) * (R * R) :=
  let t z := a_tanh a (a_rnd a (c * z)) in let s z := a_tanh a (a_rnd a (c * a_rnd a (z - 1))) in
  let x0 := nth 0 x 0 in let x1 := nth 1 x 0 in ((t x0, t x1), (s x0, s x1)).
Definition fl_ansatz (t : (R * R) * (R * R)) : R :=
  let '((t1, t2), (t3, t4)) := t in a_rnd a (a_rnd a (a_rnd a (t1 * t2) * t3) * t4).
(* the tape through the product ansatz * x, then through the factors and through the layers;
   the derivatives with respect to one input are added up *)
Definition fl_hard_grad (c : R) (sd : nat -> R) (ls : list (bool * (mat R * list R))) (x : list R) : R * R :=
  let '((t1, t2), (t3, t4)) := fl_factors c x in let f := fl_ansatz ((t1, t2), (t3, t4)) in
  let y := fl_net ls x in
  let df := a_sum a (map2 (fun j v => a_rnd a (sd j * v)) (seq 0 (length y)) y) in
  let h := a_rnd a (t1 * t2) in let g := a_rnd a (h * t3) in
  let dg := a_rnd a (df * t4) in let dh := a_rnd a (dg * t3) in
  let through d t := a_rnd a (a_rnd a (d * a_rnd a (1 - a_rnd a (t * t))) * c) in
  let n := fl_back (fun j => a_rnd a (sd j * f)) ls x in
  (a_sum a [nth 0 n 0; through (a_rnd a (dh * t2)) t1; through (a_rnd a (dg * h)) t3],
   a_sum a [nth 1 n 0; through (a_rnd a (dh * t1)) t2; through (a_rnd a (df * g)) t4]).
Definition rounded_hard_network (c : R) (nt : net) : network R := {|
  nn_out := fun b => if widths_fit (n_layers nt) 2
    then Ok (map (fun p => let x := cast_point p in let f := fl_ansatz (fl_factors c x) in map (fun v => a_rnd a (f * v)) (fl_net (n_layers nt) x)) b) else Err ValueError;
  nn_grad := fun sel b => map (fun p => fl_hard_grad c (seed sel) (n_layers nt) (cast_point p)) b |}.
End Net.
