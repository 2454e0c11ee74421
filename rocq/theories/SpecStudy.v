(* Notions for the study of the hyperparameter tuner *)
From Coq Require Import String ZArith List Reals.
From Verif Require Import Num Py Quadrature Space Physics Metrics Nets Geometry Train Tuner Optim Study NetFacts Spec SpecTrain SpecMesh SpecOptim.
Import ListNotations.
Local Open Scope R_scope.

(* v is a number or infinity and not above v' *)
Definition not_above (v v' : npfloat) : Prop :=
  match v, v' with Fin x, Fin y => x <= y | Fin _, PosInf => True | PosInf, PosInf => True | _, _ => False end.
(* The initial network of a trial: dense layers of the suggested widths, tanh, no attention *)
Record fresh (s : suggestion) (nt : net) : Prop := {
  fr_widths : widths (architecture s) nt;
  fr_attention : n_attention nt = false;
  fr_act : n_act nt = tanh
}.
(* What the dictionary of a trial says about a suggestion *)
Record describes (ps : list (string * pval)) (s : suggestion) : Prop := {
  de_nx : dget String.eqb ps "n_cells_x"%string = Ok (PInt (s_nx s));
  de_ny : dget String.eqb ps "n_cells_y"%string = Ok (PInt (s_ny s));
  de_nb : dget String.eqb ps "n_boundary_points"%string = Ok (PInt (s_nb s));
  de_fe : dget String.eqb ps "fe_order"%string = Ok (PInt (s_fe_order s));
  de_fe_type : dget String.eqb ps "fe_type"%string = Ok (PStr (s_fe_type s));
  de_quad : dget String.eqb ps "quad_order"%string = Ok (PInt (s_quad_order s));
  de_quad_type : dget String.eqb ps "quad_type"%string = Ok (PStr (s_quad_type s));
  de_n : dget String.eqb ps "n_layers"%string = Ok (PInt (Z.of_nat (length (s_layers s))));
  de_layer : forall k, (k < length (s_layers s))%nat ->
    dget String.eqb ps (String.append "layer_" (DecimalString.NilZero.string_of_uint (Nat.to_uint k))) = Ok (PInt (nth k (s_layers s) 0%Z));
  de_lr : dget String.eqb ps "initial_learning_rate"%string = Ok (PNum (s_lr s));
  de_steps : dget String.eqb ps "decay_steps"%string = Ok (PInt (s_steps s));
  de_rate : dget String.eqb ps "decay_rate"%string = Ok (PNum (s_rate s))
}.

(* Set-ups in which every trial runs: a problem file with the four sides and eps, suggestions of the search
   space with freshly built networks, and exact quadrature rules of the suggested orders *)
Definition can_run (e : numpy R) (lhs1 : nat -> nat -> list R) (o : quad_oracle R) (pb : Tuner.problem) (d : draw) : Prop :=
  numpy_ok e /\ sampler_ok lhs1 /\ oracle_ok o (Z.to_nat (s_quad_order (d_suggestion d))) /\ in_search_space (d_suggestion d) /\
  (forall t, In t [1000; 1001; 1002; 1003]%Z -> In t (map fst (Tuner.pb_bound pb))) /\ (exists eps, has (Tuner.pb_params pb) "eps" eps) /\
  fresh (d_suggestion d) (d_net d).
(* The trials of a storage: no COMPLETE trial has the value nan *)
Definition stored_ok (l : list frozen) : Prop := forall v ps, In (Complete v ps) l -> v <> NaN.
(* The exact solution is not zero at every point (i/99, j/99) *)
Definition nonzero_on_grid (u : R -> R -> R) : Prop := exists i j, (i < Z.to_nat 100)%nat /\ (j < Z.to_nat 100)%nat /\ u (INR i / 99) (INR j / 99) <> 0.
Definition zero_on_grid (u : R -> R -> R) : Prop := forall i j, (i < Z.to_nat 100)%nat -> (j < Z.to_nat 100)%nat -> u (INR i / 99) (INR j / 99) = 0.
