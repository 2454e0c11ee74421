(* C89: Adam in the working precision. *)
From Coq Require Import String ZArith List Reals Lra Lia.
From Flocq Require Import Core.
From Verif Require SpecRound RoundFacts.
From Verif Require Import Num Py Nets Rounding Optim RoundOptim SpecRoundOptim RoundOptimFacts.
Import ListNotations.
Local Open Scope R_scope.

(* IEEE arithmetic of single or higher precision meets the contract *)
Theorem C89_ieee : forall prec, (24 <= prec)%Z -> update_ok (ieee_update prec) (bpow radix2 (- prec)).
Proof. exact ieee_update_ok. Qed.
(* The second moment is never negative, and the first one is small compared with its root, whatever the gradients *)
Theorem C89_moments : forall o u rate gs w t i, update_ok o u -> (forall s, length (gs s) = length w) -> (i < length w)%nat -> let st := fst (fl_run o rate gs w t) in
  0 <= nth i (ad_v st) 0 /\ nth i (ad_m st) 0 * nth i (ad_m st) 0 <= 54 * nth i (ad_v st) 0.
Proof. exact (fun o u rate gs w t i H Lg => run_moments o u H rate gs w Lg t i). Qed.
(* No step moves a variable by more than 7.5 times the learning rate and one rounding of the variable *)
Theorem C89_step : forall o u rate gs w t i, update_ok o u -> (forall s, length (gs s) = length w) -> (i < length w)%nat -> let x t := nth i (snd (fl_run o rate gs w t)) 0 in
  Rabs (x (S t) - x t) <= 15 / 2 * Rabs (rate t) + u * Rabs (x t).
Proof. exact (fun o u rate gs w t i H Lg => run_bound o u H rate gs w Lg t i). Qed.
Theorem C89_travel : forall o u rate gs w t i, update_ok o u -> (forall s, length (gs s) = length w) -> (i < length w)%nat ->
  Rabs (nth i (snd (fl_run o rate gs w t)) 0 - nth i w 0) <= ((1 + u) ^ t - 1) * Rabs (nth i w 0) + (1 + u) ^ t * (15 / 2 * vsum (map (fun s => Rabs (rate s)) (seq 0 t))).
Proof. exact (fun o u rate gs w t i H Lg => run_travel o u H rate gs w Lg t i). Qed.
(* A variable without gradient keeps its value exactly *)
Theorem C89_idle : forall o u rate gs w t i, update_ok o u -> (forall s, length (gs s) = length w) -> (i < length w)%nat ->
  o_rnd o (nth i w 0) = nth i w 0 -> (forall s, (s < t)%nat -> nth i (gs s) 0 = 0) -> nth i (snd (fl_run o rate gs w t)) 0 = nth i w 0.
Proof. exact (fun o u rate gs w t i H Lg => run_idle o u H rate gs w Lg t i). Qed.
(* A variable that is large compared with the remaining learning rates never changes again *)
Theorem C89_frozen : forall prec rate gs w t i, (24 <= prec)%Z -> (forall s, length (gs s) = length w) -> (i < length w)%nat ->
  nearest prec (nth i w 0) = nth i w 0 -> let run := fl_run (ieee_update prec) rate gs w in let x := nth i (snd (run t)) 0 in
  (forall s, (t <= s)%nat -> 8 * Rabs (rate s) <= bpow radix2 (- (prec + 2)) * Rabs x) -> forall s, (t <= s)%nat -> nth i (snd (run s)) 0 = x.
Proof. exact ieee_frozen. Qed.
(* With the scheduler there is an epoch from which on all variables of size a or more stand still *)
Theorem C89_stops : forall prec k d lr0 n r rate a, (24 <= prec)%Z -> dget String.eqb d "initial_learning_rate"%string = Ok (LNum lr0) -> dget String.eqb d "use_lr_scheduler"%string = Ok (LBool true) ->
  dget String.eqb d "decay_steps"%string = Ok (LNum (INR n)) -> dget String.eqb d "decay_rate"%string = Ok (LNum r) -> learning_rate k d = Ok rate ->
  (1 <= n)%nat -> 0 <= r < 1 -> 0 < a -> exists T, forall gs w i, (forall s, length (gs s) = length w) -> (i < length w)%nat -> nearest prec (nth i w 0) = nth i w 0 ->
  let run := fl_run (ieee_update prec) rate gs w in a <= Rabs (nth i (snd (run T)) 0) -> forall s, (T <= s)%nat -> nth i (snd (run s)) 0 = nth i (snd (run T)) 0.
Proof. exact ieee_stops. Qed.

(* learning rate 2^-40, variable 1, gradient 1: single precision never moves the variable, exact arithmetic does at once *)
Example C89_example : let rate := fun _ : nat => bpow radix2 (-40) in let gs := fun _ : nat => [1] in
  (forall s, length (gs s) = length [1]) /\ nearest 24 1 = 1 /\ (forall t, snd (fl_run (ieee_update 24) rate gs [1] t) = [1]) /\
  nth 0 (snd (apply_gradients rate (adam_init 1) [1] [1])) 0 < 1.
Proof.
  cbv zeta. assert (N : nearest 24 1 = 1) by (exact (SpecRound.rd_int _ _ _ (RoundFacts.nearest_rounding 24 ltac:(lia)) 1%Z ltac:(lia))).
  split; [reflexivity|]. split; [exact N|]. split.
  - intros t. assert (E : nth 0 (snd (fl_run (ieee_update 24) (fun _ => bpow radix2 (-40)) (fun _ => [1]) [1] t)) 0 = 1).
    { apply (C89_frozen 24 (fun _ => bpow radix2 (-40)) (fun _ => [1]) [1] 0 0); [lia | reflexivity | cbn; lia | exact N | | lia]. intros s _. change (nth 0 (snd (fl_run (ieee_update 24) (fun _ => bpow radix2 (-40)) (fun _ => [1]) [1] 0)) 0) with (IZR 1).
      rewrite Rabs_right by (apply Rle_ge, bpow_ge_0). rewrite Rabs_R1. cbn. lra. }
    pose proof (run_shape (ieee_update 24) (fun _ => bpow radix2 (-40)) (fun _ => [1]) [1] (fun _ => eq_refl) t) as (_ & _ & _ & L).
    destruct (snd (fl_run (ieee_update 24) (fun _ => bpow radix2 (-40)) (fun _ => [1]) [1] t)) as [|x [|y l]]; try discriminate L. cbn in E. rewrite E. reflexivity.
  - cbn [apply_gradients snd adam_init ad_iterations ad_m ad_v repeat map2 combine nth fst]. unfold adam_alpha, adam_m, adam_v, beta_1, beta_2, epsilon. cbn [Nat.add pow].
    assert (S : 0 < sqrt (1 - 999 / 1000 * 1)) by (apply sqrt_lt_R0; lra). set (q := sqrt (1 - 999 / 1000 * 1)) in *.
    pose proof (sqrt_pos (0 + (1 * (1 * 1) - 0) * (1 - 999 / 1000))) as V. set (v := sqrt (0 + (1 * (1 * 1) - 0) * (1 - 999 / 1000))) in *. pose proof (bpow_gt_0 radix2 (-40)) as B.
    assert (0 < (0 + (1 - 0) * (1 - 9 / 10)) * (bpow radix2 (-40) * q / (1 - 9 / 10 * 1)) / (v + 1 / 10000000)); [|lra].
    apply Rdiv_lt_0_compat; [|lra]. apply Rmult_lt_0_compat; [lra|]. apply Rdiv_lt_0_compat; [|lra]. apply Rmult_lt_0_compat; assumption.
Qed.
(* the scheduler with the numbers of poisson_2d/input.yaml: 0.001, times 0.99 every 1000 steps *)
Example C89_stops_example : exists rate, let d := [("initial_learning_rate", LNum (1 / 1000)); ("use_lr_scheduler", LBool true); ("decay_steps", LNum (INR 1000)); ("decay_rate", LNum (99 / 100)); ("staircase", LBool false)]%string in
  learning_rate Standard d = Ok rate /\ exists T, forall gs, (forall s, length (gs s) = 1%nat) -> let run := fl_run (ieee_update 24) rate gs [1] in
  1 / 2 <= Rabs (nth 0 (snd (run T)) 0) -> forall s, (T <= s)%nat -> nth 0 (snd (run s)) 0 = nth 0 (snd (run T)) 0.
Proof.
  eexists. cbv zeta. split; [reflexivity|].
  destruct (C89_stops 24 Standard [("initial_learning_rate", LNum (1 / 1000)); ("use_lr_scheduler", LBool true); ("decay_steps", LNum (INR 1000)); ("decay_rate", LNum (99 / 100)); ("staircase", LBool false)]%string
    (1 / 1000) 1000 (99 / 100) _ (1 / 2) ltac:(lia) eq_refl eq_refl eq_refl eq_refl eq_refl ltac:(lia) ltac:(lra) ltac:(lra)) as [T H].
  exists T. intros gs Lg. apply (H gs [1] 0%nat Lg); [cbn; lia|]. exact (SpecRound.rd_int _ _ _ (RoundFacts.nearest_rounding 24 ltac:(lia)) 1%Z ltac:(lia)).
Qed.

Print Assumptions C89_ieee.
Print Assumptions C89_moments.
Print Assumptions C89_step.
Print Assumptions C89_travel.
Print Assumptions C89_idle.
Print Assumptions C89_frozen.
Print Assumptions C89_stops.
