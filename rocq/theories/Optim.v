(* Model of the update at the end of train_step, model/model.py:303-305, model_hard.py:326-328,
   model_inverse.py:328-330, model_inverse_domain.py:333-335: trainable variables, their gradient and
   tf.keras.optimizers.Adam (model.py:144, model_hard.py:165, model_inverse.py:156,
   model_inverse_domain.py:141) with the rate of Nets.v.
   The trainable variables are one flat list: kernel and bias of every layer, then the inverse
   parameters.  Keras updates every entry on its own, so their order has no effect.
   Trusted: automatic differentiation computes derivatives; Adam is written from the Keras
   documentation and source (default beta_1, beta_2, epsilon, no amsgrad, no weight decay). *)
From Coq Require Import String ZArith List Arith Bool Reals.
From Coquelicot Require Import Coquelicot.
From Verif Require Import Num Py Basis Tensor Physics Train Nets.
Import ListNotations.
Local Open Scope R_scope.

(* ---------- trainable variables ---------- *)
(* self.trainable_variables of the dense layers, flattened *)
Definition layer_weights (l : bool * (mat R * list R)) : list R := concat (fst (snd l)) ++ snd (snd l).
Definition weights_of (nt : net) : list R := concat (map layer_weights (n_layers nt)).
(* The layers with the variables replaced, shape by shape *)
Fixpoint fill_rows {T} (k : mat R) (w : list T) : list (list T) :=
  match k with [] => [] | row :: r => firstn (length row) w :: fill_rows r (skipn (length row) w) end.
Fixpoint fill_layers {T} (ls : list (bool * (mat R * list R))) (w : list T) : list (bool * (list (list T) * list T)) :=
  match ls with
  | [] => []
  | (a, (k, b)) :: r =>
      let w' := skipn (length (concat k)) w in
      (a, (fill_rows k w, firstn (length b) w')) :: fill_layers r (skipn (length b) w')
  end.
Definition with_weights (nt : net) (w : list R) : net :=
  {| n_act := n_act nt; n_attention := n_attention nt; n_layers := fill_layers (n_layers nt) w |}.

(* The losses of a training step as a function of the trainable variables *)
Definition standard_at (m : model R) (nt : net) (beta : R) (bp : pdict R) (w : list R) : result (losses R) :=
  train_standard m (network_of (with_weights nt w)) beta bp.
Definition hard_at (m : model R) (hc : option constraint) (nt : net) (beta : R) (bp : pdict R) (w : list R) : result (losses R) :=
  train_hard m (hard_network hc (with_weights nt w)) beta bp.
(* [ip] gives the names of the inverse parameters *)
Definition params_at (nt : net) (ip : list (string * R)) (w : list R) : list (string * R) :=
  combine (map fst ip) (skipn (length (weights_of nt)) w).
Definition inverse_at (m : model R) (nt : net) (beta : R) (bp : pdict R) (ip : list (string * R)) (w : list R) : result (losses R) :=
  train_inverse m (network_of (with_weights nt w)) beta bp (Some (params_at nt ip w)).
Definition domain_at (m : model R) (nt : net) (beta : R) (bp : pdict R) (w : list R) : result (losses R) :=
  train_inverse_domain m (network_of (with_weights nt w)) beta bp.
(* The variables of a model, in the order used here *)
Definition variables (nt : net) (ip : list (string * R)) : list R := weights_of nt ++ map snd ip.

(* ---------- gradient ---------- *)
(* tape.gradient(total_loss, trainable_vars): partial derivatives of the sum of the entries of total_loss *)
Definition loss_sum (r : result (losses R)) : R := match r with Ok L => vsum (l_total L) | Err _ => 0 end.
Definition gradients (f : list R -> result (losses R)) (w : list R) : list R :=
  map (fun k => Derive (fun x => loss_sum (f (upd w k x))) (nth k w 0)) (seq 0 (length w)).

(* ---------- Adam ---------- *)
Definition beta_1 : R := 9 / 10.
Definition beta_2 : R := 999 / 1000.
Definition epsilon : R := 1 / 10000000.
Record adam := { ad_iterations : nat; ad_m : list R; ad_v : list R }.
(* build: the moments start at zero *)
Definition adam_init (n : nat) : adam := {| ad_iterations := 0; ad_m := repeat 0 n; ad_v := repeat 0 n |}.
(* update_step of one entry: alpha, both moments and the new value *)
Definition adam_alpha (lr : R) (t : nat) : R := lr * sqrt (1 - beta_2 ^ (t + 1)) / (1 - beta_1 ^ (t + 1)).
Definition adam_m (m g : R) : R := m + (g - m) * (1 - beta_1).
Definition adam_v (v g : R) : R := v + (g ^ 2 - v) * (1 - beta_2).
(* apply_gradients: the rate is that of [iterations] before it is increased *)
Definition apply_gradients (rate : nat -> R) (st : adam) (g w : list R) : adam * list R :=
  let alpha := adam_alpha (rate (ad_iterations st)) (ad_iterations st) in
  let ms := map2 adam_m (ad_m st) g in
  let vs := map2 adam_v (ad_v st) g in
  ({| ad_iterations := S (ad_iterations st); ad_m := ms; ad_v := vs |},
   map2 (fun x mv => x - fst mv * alpha / (sqrt (snd mv) + epsilon)) w (combine ms vs)).

(* ---------- training ---------- *)
(* One train_step: the losses are those before the update *)
Definition train_once (rate : nat -> R) (f : list R -> result (losses R)) (s : adam * list R) : result (losses R * (adam * list R)) :=
  do L <- f (snd s);
  Ok (L, apply_gradients rate (fst s) (gradients f (snd s)) (snd s)).
(* The state before step t of a run that starts with variables w *)
Fixpoint trained (rate : nat -> R) (f : list R -> result (losses R)) (w : list R) (t : nat) : result (adam * list R) :=
  match t with
  | O => Ok (adam_init (length w), w)
  | S t' => do s <- trained rate f w t'; do x <- train_once rate f s; Ok (snd x)
  end.
