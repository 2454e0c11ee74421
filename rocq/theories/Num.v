(* Carrier of the numeric model.

   The Python code computes with numpy/TensorFlow float64 numbers.  The model is
   polymorphic in a carrier [A] with the operations below; it is run over [Q]
   (examples, by [vm_compute]) and proved about over [R].  Simplification:
   arithmetic is exact, there is no rounding, overflow, nan or inf. *)
From Coq Require Import ZArith QArith Qabs Reals Lra.

Class Num (A : Type) := {
  nofZ : Z -> A;
  nadd : A -> A -> A;
  nsub : A -> A -> A;
  nmul : A -> A -> A;
  ndiv : A -> A -> A;
  nopp : A -> A;
  nabs : A -> A;
  nleb : A -> A -> bool
}.

Declare Scope num_scope.
Delimit Scope num_scope with num.
Infix "+" := nadd : num_scope.
Infix "-" := nsub : num_scope.
Infix "*" := nmul : num_scope.
Infix "/" := ndiv : num_scope.
Notation "- x" := (nopp x) : num_scope.

Definition n0 {A} `{Num A} : A := nofZ 0.
Definition n1 {A} `{Num A} : A := nofZ 1.
Definition n2 {A} `{Num A} : A := nofZ 2.
Definition nofnat {A} `{Num A} (n : nat) : A := nofZ (Z.of_nat n).
#[global] Arguments nofnat {A H} n : simpl never.
Definition neqb {A} `{Num A} (x y : A) : bool := andb (nleb x y) (nleb y x).
Definition nltb {A} `{Num A} (x y : A) : bool := negb (nleb y x).

Fixpoint npow {A} `{Num A} (x : A) (n : nat) : A :=
  match n with O => n1 | S m => nmul x (npow x m) end.

Definition Rleb (x y : R) : bool := if Rle_dec x y then true else false.

#[global] Instance Num_R : Num R := {
  nofZ := IZR;
  nadd := Rplus;
  nsub := Rminus;
  nmul := Rmult;
  ndiv := Rdiv;
  nopp := Ropp;
  nabs := Rabs;
  nleb := Rleb
}.

#[global] Instance Num_Q : Num Q := {
  nofZ := fun z => inject_Z z;
  nadd := fun x y => Qred (Qplus x y);
  nsub := fun x y => Qred (Qminus x y);
  nmul := fun x y => Qred (Qmult x y);
  ndiv := fun x y => Qred (Qdiv x y);
  nopp := Qopp;
  nabs := Qabs;
  nleb := Qle_bool
}.

(* Turns the polymorphic operations at carrier [R] into the operations of the
   standard library. *)
Ltac to_R :=
  unfold n0, n1, n2, neqb, nltb;
  change (@nadd R Num_R) with Rplus;
  change (@nsub R Num_R) with Rminus;
  change (@nmul R Num_R) with Rmult;
  change (@ndiv R Num_R) with Rdiv;
  change (@nopp R Num_R) with Ropp;
  change (@nabs R Num_R) with Rabs;
  change (@nleb R Num_R) with Rleb;
  change (@nofZ R Num_R) with IZR.
Ltac to_R_in H :=
  unfold n0, n1, n2, neqb, nltb in H;
  change (@nadd R Num_R) with Rplus in H;
  change (@nsub R Num_R) with Rminus in H;
  change (@nmul R Num_R) with Rmult in H;
  change (@ndiv R Num_R) with Rdiv in H;
  change (@nopp R Num_R) with Ropp in H;
  change (@nabs R Num_R) with Rabs in H;
  change (@nleb R Num_R) with Rleb in H;
  change (@nofZ R Num_R) with IZR in H.
Ltac to_R_all :=
  unfold n0, n1, n2, neqb, nltb in *;
  change (@nadd R Num_R) with Rplus in *;
  change (@nsub R Num_R) with Rminus in *;
  change (@nmul R Num_R) with Rmult in *;
  change (@ndiv R Num_R) with Rdiv in *;
  change (@nopp R Num_R) with Ropp in *;
  change (@nabs R Num_R) with Rabs in *;
  change (@nleb R Num_R) with Rleb in *;
  change (@nofZ R Num_R) with IZR in *.

Lemma Rleb_true : forall x y, Rleb x y = true <-> (x <= y)%R.
Proof. intros; unfold Rleb; destruct (Rle_dec x y); split; auto; discriminate. Qed.
Lemma Rleb_false : forall x y, Rleb x y = false <-> (y < x)%R.
Proof.
  intros; unfold Rleb; destruct (Rle_dec x y); split; auto; try discriminate; intros; try lra.
Qed.
Lemma Rneqb_true : forall x y : R, neqb x y = true <-> x = y.
Proof.
  intros; unfold neqb; to_R. rewrite Bool.andb_true_iff, !Rleb_true. split; lra.
Qed.
Lemma Rneqb_false : forall x y : R, neqb x y = false <-> x <> y.
Proof.
  intros. destruct (neqb x y) eqn:E.
  - apply Rneqb_true in E. subst. split; congruence.
  - split; auto. intros _ ->. assert (neqb y y = true) by (apply Rneqb_true; auto). congruence.
Qed.

Lemma npow_R : forall (x : R) n, npow x n = pow x n.
Proof. induction n; simpl; auto. rewrite IHn. reflexivity. Qed.

Lemma nofnat_R : forall n, nofnat n = INR n.
Proof. intros; unfold nofnat; to_R. now rewrite INR_IZR_INZ. Qed.
