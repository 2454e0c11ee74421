(* Specification vocabulary for C86: the arithmetic, and the size of the numbers inside a network. *)
From Coq Require Import ZArith List Reals.
From Verif Require Import Num Py Basis Train Nets SpecRound RoundNet.
Import ListNotations.
Local Open Scope R_scope.

(* operations of relative error u, sums in some order, tanh to within mt roundings *)
Record arith_ok (a : arith) (u : R) (N : Z) (mt : nat) : Prop := {
  ar_rnd : rounding (a_rnd a) u N;
  ar_one : (1 <= N)%Z;
  ar_sum : forall l, l <> [] -> rounded_sum (a_rnd a) l (a_sum a l);
  ar_nil : a_sum a [] = 0;
  ar_tanh : forall v, Rabs (a_tanh a v - tanh v) <= ((1 + u) ^ mt - 1) * Rabs (tanh v)
}.

Definition layers := list (bool * (mat R * list R)).
(* the layers with every weight replaced by its absolute value and without the activation *)
Definition row_size (kernel : mat R) (bias s : list R) : list R :=
  map (fun j => vsum (map2 Rmult s (map (fun row => Rabs (nth j row 0)) kernel)) + Rabs (nth j bias 0)) (seq 0 (length bias)).
Fixpoint net_size (ls : layers) (s : list R) : list R :=
  match ls with [] => s | (_, (kernel, bias)) :: r => net_size r (row_size kernel bias s) end.
(* the same for the derivatives; 1 + v^2 stands for the derivative of tanh *)
Fixpoint slope_size (sd : nat -> R) (ls : layers) (s : list R) : list R :=
  match ls with
  | [] => map sd (seq 0 (length s))
  | (flag, (kernel, bias)) :: r =>
      let v := row_size kernel bias s in
      let d := slope_size sd r v in
      let dz := if flag : bool then map2 (fun d v => d * (1 + v * v)) d v else d in
      map (fun row => vsum (map2 Rmult dz (map Rabs row))) kernel
  end.
Definition value_size (nt : net) (j : nat) (p : R * R) : R := nth j (net_size (n_layers nt) [Rabs (fst p); Rabs (snd p)]) 0.
Definition gradient_size (sel : option nat) (nt : net) (p : R * R) : R * R :=
  let g := slope_size (fun j => match sel with None => 1 | Some i => if (j =? i)%nat then 1 else 0 end) (n_layers nt) [Rabs (fst p); Rabs (snd p)] in (nth 0 g 0, nth 1 g 0).

(* roundings on the way through the layers, after k of them *)
Definition row_rounds (mt : nat) (flag : bool) (kernel : mat R) (k : nat) : nat := k + length kernel + 1 + (if flag then mt else 0).
Fixpoint value_rounds (mt : nat) (ls : layers) (k : nat) : nat :=
  match ls with [] => k | (flag, (kernel, _)) :: r => value_rounds mt r (row_rounds mt flag kernel k) end.
Fixpoint slope_rounds (mt : nat) (ls : layers) (k : nat) : nat :=
  match ls with
  | [] => 0
  | (flag, (kernel, bias)) :: r =>
      let ky := row_rounds mt flag kernel k in
      slope_rounds mt r ky + (if flag : bool then 2 * ky + 3 else 0) + length bias
  end.
Definition net_rounds (mt : nat) (nt : net) : nat := Nat.max (value_rounds mt (n_layers nt) 1) (slope_rounds mt (n_layers nt) 1).

(* the network times the ansatz of the script with hard constraints: every factor tanh(4 pi z) counts as 4 pi |z| *)
Definition factor_size (z : R) : R := 4 * PI * Rabs z.
Definition shifted_size (z : R) : R := 4 * PI * (Rabs z + 1).
Definition ansatz_size (p : R * R) : R := factor_size (fst p) * factor_size (snd p) * shifted_size (fst p) * shifted_size (snd p).
Definition hard_size (nt : net) (p : R * R) : R := ansatz_size p * value_size nt 0 p.
Definition hard_gradient_size (nt : net) (p : R * R) : R * R :=
  let g := slope_size (fun _ => ansatz_size p) (n_layers nt) [Rabs (fst p); Rabs (snd p)] in let v := value_size nt 0 p in
  let x := fst p in let y := snd p in
  (nth 0 g 0 + v * factor_size y * shifted_size y * (shifted_size x * (1 + factor_size x ^ 2) + factor_size x * (1 + shifted_size x ^ 2)) * (4 * PI),
   nth 1 g 0 + v * factor_size x * shifted_size x * (shifted_size y * (1 + factor_size y ^ 2) + factor_size y * (1 + shifted_size y ^ 2)) * (4 * PI)).
Definition hard_rounds (mt : nat) (nt : net) : nat := value_rounds mt (n_layers nt) 1 + slope_rounds mt (n_layers nt) 1 + 5 * mt + 37.
