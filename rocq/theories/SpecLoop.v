(* Specification vocabulary for C77-C78: what a script that trains its own network leaves. *)
From Coq Require Import String ZArith List Reals.
From Coquelicot Require Import Coquelicot.
From Verif Require Import Num Py Basis Tensor Data Train Geometry Nets Metrics Problems Driver Optim Spec SpecTrain NetFacts JetFacts.
Import ListNotations.
Local Open Scope R_scope.

(* The same settings with another learning-rate dictionary *)
Definition with_rates (i : settings) (d : lrdict) : settings :=
  {| i_output_path := i_output_path i; i_method := i_method i; i_mesh_type := i_mesh_type i; i_mesh_plot := i_mesh_plot i;
     i_xlim := i_xlim i; i_ylim := i_ylim i; i_ncx := i_ncx i; i_ncy := i_ncy i; i_nb := i_nb i; i_ntx := i_ntx i; i_nty := i_nty i;
     i_mesh_file := i_mesh_file i; i_level := i_level i; i_sampling := i_sampling i;
     i_fe_order := i_fe_order i; i_fe_type := i_fe_type i; i_quad_order := i_quad_order i; i_quad_type := i_quad_type i;
     i_architecture := i_architecture i; i_attention := i_attention i; i_epochs := i_epochs i; i_dtype := i_dtype i; i_rates := d;
     i_beta := i_beta i; i_update := i_update i |}.
(* A network with these layers, two inputs and [outs] outputs, no attention *)
Record starts (dims : list Z) (outs : Z) (nt : net) : Prop := {
  st_dims : (2 <= length dims)%nat;
  st_in : nth 0 dims 0%Z = 2%Z;
  st_out : nth (length dims - 1) dims 0%Z = outs;
  st_shape : widths dims nt;
  st_attention : n_attention nt = false
}.
(* loss_function.txt: the same number in every line, or a smaller one in the second than in the first *)
Definition unchanged (l : list (list R)) : Prop := exists a, forall t, (t < length l)%nat -> nth t l [] = [a].
Definition drops (l : list (list R)) : Prop := exists a b, nth 0 l [] = [a] /\ nth 1 l [] = [b] /\ b < a.
(* A dictionary with initial rate lr0 and a positive number of decay steps *)
Definition initial_rate (d : lrdict) (lr0 : R) : Prop :=
  dget String.eqb d "initial_learning_rate"%string = Ok (LNum lr0) /\ exists steps, dget String.eqb d "decay_steps"%string = Ok (LNum steps) /\ 0 < steps.
(* [writes d l]: with the learning-rate dictionary d a script comes to its end and writes the losses l;
   f is the loss as a function of the trainable variables and w their initial values.  Training leaves the
   loss as it is if f has gradient zero at w; otherwise the loss drops in the first step, for every small
   enough initial learning rate *)
Definition learns (f : list R -> result (losses R)) (w : list R) (writes : lrdict -> list (list R) -> Prop) : Prop :=
  ((forall k, (k < length w)%nat -> nth k (gradients f w) 0 = 0) -> forall d l, writes d l -> unchanged l) /\
  ((exists k, (k < length w)%nat /\ nth k (gradients f w) 0 <> 0) ->
   exists eta, 0 < eta /\ forall d lr0 l, initial_rate d lr0 -> 0 < lr0 < eta -> writes d l -> (2 <= length l)%nat -> drops l).
