(* Notions for initial networks and for values between the test points *)
From Coq Require Import ZArith List Reals.
From Verif Require Import Num Py Basis Tensor Physics Train Nets Spec SpecTrain NetFacts.
Import ListNotations.
Local Open Scope R_scope.

(* Layer sizes the models accept: two inputs, [outs] outputs *)
Definition layer_sizes (dims : list Z) (outs : Z) : Prop :=
  (2 <= length dims)%nat /\ nth 0 dims 0%Z = 2%Z /\ nth (length dims - 1) dims 0%Z = outs /\ forall w, In w dims -> (1 <= w)%Z.
Definition odd (f : R -> R) : Prop := forall x, f (- x) = - f x.
(* does not increase distances *)
Definition nonexpansive (f : R -> R) : Prop := forall x y, Rabs (f x - f y) <= Rabs (x - y).
(* maximum norm of the plane *)
Definition far (p q : R * R) : R := Rmax (Rabs (fst p - fst q)) (Rabs (snd p - snd q)).
Definition in_box (xl yl : R * R) (p : R * R) : Prop := fst xl <= fst p <= snd xl /\ fst yl <= snd p <= snd yl.
Definition steepness_on (D : R * R -> Prop) (U : R * R -> R) (K : R) : Prop := forall p q, D p -> D q -> Rabs (U p - U q) <= K * far p q.
(* the absolute weights that enter a unit of layer i sum to at most g i *)
Definition gains (dims : list Z) (nt : net) (g : nat -> R) : Prop :=
  forall i d, (i < length dims - 1)%nat -> 0 <= g i /\ forall j, (j < Z.to_nat (nth (i + 1) dims 0%Z))%nat ->
    Sum (fun k => Rabs (entry (fst (snd (nth i (n_layers nt) d))) k j)) (Z.to_nat (nth i dims 0%Z)) <= g i.
Fixpoint product (g : nat -> R) (n : nat) : R := match n with O => 1 | S n => product g n * g n end.

(* Steepness of a network of the given layer sizes whose weights moved by at most b since they were drawn *)
Definition drift_steepness (dims : list Z) (b : R) : R :=
  product (fun l => let n := INR (Z.to_nat (nth l dims 0%Z)) in let u := INR (Z.to_nat (nth (l + 1) dims 0%Z)) in n * (sqrt (6 / (n + u)) + b)) (length dims - 1).
