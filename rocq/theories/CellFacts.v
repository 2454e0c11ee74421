(* Proofs about Cell.v. *)
From Coq Require Import String ZArith List Arith Lia Reals Lra.
From Coquelicot Require Import Coquelicot.
From Verif Require Import Num Py Jacobi Quadrature Basis Transform Cell Spec RCalc PolyFacts
  ListFacts BasisFacts BasisFacts2.
Import ListNotations.
Local Open Scope R_scope.

Lemma nsf_square : forall cf, (0 <= cf_fe_order cf)%Z ->
  num_shape_functions cf = (Z.to_nat (cf_fe_order cf) * Z.to_nat (cf_fe_order cf))%nat.
Proof.
  intros. unfold num_shape_functions. rewrite Z.pow_2_r. apply Z2Nat.inj_mul; auto.
Qed.

Definition set_fe_type (cf : config) (s : string) : config :=
  {| cf_cell_type := cf_cell_type cf; cf_fe_order := cf_fe_order cf; cf_fe_type := s;
     cf_quad_order := cf_quad_order cf; cf_quad_type := cf_quad_type cf; cf_trafo := cf_trafo cf |}.

Lemma make_cell_alias : forall o cf (c : cell R),
  make_cell o (set_fe_type cf "jacobi") c = make_cell o (set_fe_type cf "legendre") c /\
  make_cell o (set_fe_type cf "legendre_special") c = make_cell o (set_fe_type cf "legendre") c.
Proof.
  intros. split; [reflexivity|].
  unfold make_cell, assign_basis_function, set_fe_type; simpl.
  destruct ((cf_fe_order cf <=? 1)%Z || (cf_fe_order cf >=? 1000)%Z)%bool eqn:E; [reflexivity|].
  destruct (String.eqb (cf_cell_type cf) "quadrilateral") eqn:E2; simpl.
  2: reflexivity.
  unfold assign_quadrature_rules, assign_fe_transformation; simpl. rewrite E2.
  match goal with |- bind ?x _ = bind ?y _ => change y with x; destruct x as [[[w xi] eta]|]; [|reflexivity] end.
  simpl.
  match goal with |- bind ?x _ = bind ?y _ => change y with x; destruct x as [t|]; [|reflexivity] end.
  simpl.
  match goal with |- bind ?x _ = bind ?y _ => destruct x as [mult|]; [|reflexivity] end.
  cbn [bind]. unfold num_shape_functions; cbn [cf_fe_order].
  apply Bool.orb_false_iff in E. destruct E as [E _]. apply Z.leb_gt in E.
  assert (Hs : Z.to_nat (cf_fe_order cf ^ 2) = (Z.to_nat (cf_fe_order cf) * Z.to_nat (cf_fe_order cf))%nat).
  { rewrite Z.pow_2_r. apply Z2Nat.inj_mul; lia. }
  rewrite Hs. set (k := Z.to_nat (cf_fe_order cf)).
  destruct (tables_agree k xi eta) as (A1 & A2 & A3 & A4 & A5 & A6).
  rewrite A1, A2, A3, A4, A5, A6. reflexivity.
Qed.
