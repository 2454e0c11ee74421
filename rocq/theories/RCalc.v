(* Real-valued versions of the Coquelicot derivative and integral rules. *)
From Coq Require Import Reals Lra.
From Coquelicot Require Import Coquelicot.
Local Open Scope R_scope.

Lemma derR_const : forall c x : R, is_derive (fun _ : R => c) x 0.
Proof. intros. apply (is_derive_const (K := R_AbsRing) (V := R_NormedModule) c x). Qed.
Lemma derR_id : forall x : R, is_derive (fun y : R => y) x 1.
Proof. intros. apply (is_derive_id (K := R_AbsRing) x). Qed.
Lemma derR_plus : forall (f g : R -> R) (x a b : R),
  is_derive f x a -> is_derive g x b -> is_derive (fun y => f y + g y) x (a + b).
Proof. intros. apply (is_derive_plus (K := R_AbsRing) (V := R_NormedModule) f g x a b); auto. Qed.
Lemma derR_minus : forall (f g : R -> R) (x a b : R),
  is_derive f x a -> is_derive g x b -> is_derive (fun y => f y - g y) x (a - b).
Proof. intros. apply (is_derive_minus (K := R_AbsRing) (V := R_NormedModule) f g x a b); auto. Qed.
Lemma derR_scal : forall (f : R -> R) (x a c : R),
  is_derive f x a -> is_derive (fun y => c * f y) x (c * a).
Proof. intros. apply (is_derive_scal f x c a); auto. Qed.
Lemma derR_mult : forall (f g : R -> R) (x a b : R),
  is_derive f x a -> is_derive g x b -> is_derive (fun y => f y * g y) x (a * g x + f x * b).
Proof.
  intros. apply (is_derive_mult (K := R_AbsRing) f g x a b); auto. intros; apply Rmult_comm.
Qed.
Lemma derR_comp : forall (f g : R -> R) (x a b : R),
  is_derive f (g x) a -> is_derive g x b -> is_derive (fun y => f (g y)) x (b * a).
Proof. intros. apply (is_derive_comp (K := R_AbsRing) (V := R_NormedModule) f g x a b); auto. Qed.
Lemma derR_eq : forall (f : R -> R) (x a b : R), is_derive f x a -> a = b -> is_derive f x b.
Proof. intros; subst; auto. Qed.
Lemma derR_ext : forall (f g : R -> R) (x a : R),
  (forall y, f y = g y) -> is_derive f x a -> is_derive g x a.
Proof. intros. apply (is_derive_ext f g x a); auto. Qed.
Lemma derR_uniq : forall (f : R -> R) (x a b : R), is_derive f x a -> is_derive f x b -> a = b.
Proof. intros. rewrite <- (is_derive_unique f x a), <- (is_derive_unique f x b); auto. Qed.
Lemma derR_pow : forall (f : R -> R) (n : nat) (x l : R),
  is_derive f x l -> is_derive (fun y => f y ^ n) x (INR n * l * f x ^ (n - 1)).
Proof.
  intros. destruct n.
  - simpl. replace (0 * l * 1) with 0 by lra. apply derR_const.
  - replace (S n - 1)%nat with (pred (S n)) by (simpl; rewrite Nat.sub_0_r; auto).
    apply is_derive_pow; auto.
Qed.

(* Integrals *)
Lemma RIntR_plus : forall (f g : R -> R) a b, ex_RInt f a b -> ex_RInt g a b ->
  RInt (fun x => f x + g x) a b = RInt f a b + RInt g a b.
Proof. intros. apply (RInt_plus (V := R_CompleteNormedModule) f g a b); auto. Qed.
Lemma RIntR_minus : forall (f g : R -> R) a b, ex_RInt f a b -> ex_RInt g a b ->
  RInt (fun x => f x - g x) a b = RInt f a b - RInt g a b.
Proof. intros. apply (RInt_minus (V := R_CompleteNormedModule) f g a b); auto. Qed.
Lemma RIntR_scal : forall (f : R -> R) c a b, ex_RInt f a b ->
  RInt (fun x => c * f x) a b = c * RInt f a b.
Proof. intros. apply (RInt_scal (V := R_CompleteNormedModule) f a b c); auto. Qed.
Lemma RIntR_ext : forall (f g : R -> R) a b, (forall x, f x = g x) -> RInt f a b = RInt g a b.
Proof. intros. apply RInt_ext; auto. Qed.
Lemma RIntR_const : forall c a b, RInt (fun _ : R => c) a b = c * (b - a).
Proof. intros. rewrite RInt_const. cbn. unfold mult; cbn. ring. Qed.

(* Retype an equation at R, where Coquelicot left a canonical-structure type. *)
Ltac eqR := match goal with |- ?a = ?b => change (@eq R a b) end.
