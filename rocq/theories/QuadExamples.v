(* Concrete oracles meeting the contracts of Spec.v. *)
From Coq Require Import String ZArith List Arith Lia Reals Lra.
From Coquelicot Require Import Coquelicot.
From Verif Require Import Num Py Jacobi Quadrature RCalc PolyFacts PolyDeg LegendreFacts ListFacts
  Basis Spec BasisFacts Interp QuadFacts.
Import ListNotations.
Local Open Scope R_scope.

Lemma RInt_pow_sym : forall k, RInt (fun t => t ^ k) (-1) 1 = (1 - (-1) ^ S k) / INR (S k).
Proof.
  intros. assert (Hk : INR (S k) <> 0) by (apply not_0_INR; lia).
  rewrite (RInt_of_derive (fun t => t ^ S k / INR (S k)) (fun t => t ^ k)).
  - rewrite pow1. eqR. field; auto.
  - intros x. auto_derive; auto. simpl pred. change (match k with O => 1 | S _ => INR k + 1 end) with (INR (S k)). field; auto.
  - intros x. eapply pdeg_continuous. apply pdeg_pow.
Qed.

Lemma sqrt3_sq : (/ sqrt 3) * (/ sqrt 3) = / 3.
Proof. rewrite <- Rinv_mult. now rewrite sqrt_sqrt by lra. Qed.

Lemma leggauss2 : leggauss_ok 2 ([- / sqrt 3; / sqrt 3], [1; 1]).
Proof.
  split; [reflexivity|]. split; [reflexivity|]. cbn [fst snd]. intros c.
  rewrite (RIntR_ext _ (fun x => rsum (fun k => c k * x ^ k) 4)) by reflexivity.
  destruct (RInt_rsum (fun k x => c k * x ^ k) 4 (-1) 1) as [_ E].
  { intros. eapply pdeg_ex_RInt. apply pdeg_scal. apply pdeg_pow. }
  etransitivity; [|symmetry; exact E].
  rewrite (rsum_ext _ (fun k => c k * ((1 - (-1) ^ S k) / INR (S k)))).
  2:{ intros. rewrite RIntR_scal by (eapply pdeg_ex_RInt; apply pdeg_pow). now rewrite RInt_pow_sym. }
  change (2 * 2)%nat with 4%nat. unfold Rule, Poly. cbn [length nth Sum rsum]. pose proof sqrt3_sq as S3. set (s := / sqrt 3) in *.
  transitivity (2 * c 0%nat + 2 * c 2%nat * (s * s)); [ring|]. rewrite S3. simpl INR. field.
Qed.

Lemma roots1 : roots_ok 1 [0].
Proof.
  split; [reflexivity|]. split; [repeat constructor; auto|].
  intros a [<-|[]]. split; [lra|]. unfold JacobiP. simpl. field.
Qed.

Definition example_oracle : quad_oracle R :=
  {| leggauss := fun _ => ([- / sqrt 3; / sqrt 3], [1; 1]); roots_jacobi11 := fun m => repeat 0 m |}.

Lemma example_gl : exists w xi eta, lengths_ok example_oracle 2 /\
  quad2d example_oracle 2 "gauss-legendre" = Ok (w, xi, eta) /\ nth 1 xi 0 = / sqrt 3 /\ nth 1 eta 0 = - / sqrt 3.
Proof.
  do 3 eexists. split; [repeat split|]. split; [reflexivity|]. split; reflexivity.
Qed.
Lemma example_gj : exists w xi eta,
  quad2d example_oracle 3 "gauss-jacobi" = Ok (w, xi, eta) /\ nth 4 w 0 = 16 / 9 /\ nth 0 w 0 = 1 / 9.
Proof.
  rewrite quad2d_gj by lia. do 3 eexists. split; [reflexivity|].
  change (Z.to_nat 3) with 3%nat. unfold rule1d. cbn [String.eqb Ascii.eqb Bool.eqb fst snd roots_jacobi11 example_oracle Nat.sub repeat app map].
  assert (E0 : LegendreP 2 0 = - (1/2)) by (unfold LegendreP, JacobiP; simpl; field).
  assert (E1 : LegendreP 2 (-1) = 1) by (unfold LegendreP, JacobiP; simpl; field).
  assert (E2 : LegendreP 2 1 = 1) by (unfold LegendreP, JacobiP; simpl; field).
  rewrite E0, E1, E2. cbn [outer_flat map concat app nth]. unfold outer_flat. cbn. to_R. split; field.
Qed.
