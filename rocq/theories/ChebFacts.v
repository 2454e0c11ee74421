(* Proofs for C90: the Jacobi polynomials with parameters -1/2 are the Chebyshev polynomials. *)
From Coq Require Import ZArith List Arith Lia Reals Lra.
From Coquelicot Require Import Coquelicot.
From Verif Require Import Num Py Jacobi Basis Spec RCalc PolyFacts BasisFacts BasisFacts2.
Import ListNotations.
Local Open Scope R_scope.

(* the second of the two relations of a Jacobi polynomial and its derivative *)
Lemma jac_back : forall n a b x,
  (1 - x * x) * djac n (a + 1) (b + 1) x + ((b + 1) * (1 - x) - (a + 1) * (1 + x)) * peval (jac n (a + 1) (b + 1)) x = - 2 * INR (S n) * peval (jac (S n) a b) x.
Proof.
  intros n a b x. set (c := jcoef n (a + 1) (b + 1)). set (d := jcoef (S n) a b).
  assert (D : djac n (a + 1) (b + 1) x = / 2 ^ n * rsum (fun l => c l * (INR (n - l) * (x - 1) ^ (n - l - 1) * (x + 1) ^ l + INR l * (x - 1) ^ (n - l) * (x + 1) ^ (l - 1))) (S n)).
  { apply (derR_uniq (peval (jac n (a + 1) (b + 1))) x); [apply djac_derive|].
    apply (derR_ext (fun x => / 2 ^ n * rsum (fun l => c l * ((x - 1) ^ (n - l) * (x + 1) ^ l)) (S n))); [intros; unfold c; now rewrite jac_eval|].
    apply derR_scal. apply is_derive_rsum with (f := fun l x => c l * ((x - 1) ^ (n - l) * (x + 1) ^ l)). intros k Hk. apply derR_scal. apply pow_deriv2. }
  assert (L : (1 - x * x) * djac n (a + 1) (b + 1) x + ((b + 1) * (1 - x) - (a + 1) * (1 + x)) * peval (jac n (a + 1) (b + 1)) x =
    / 2 ^ n * rsum (fun l => - (c l * (INR (n - l) + a + 1) * ((x - 1) ^ (n - l) * (x + 1) ^ S l)) - c l * (INR l + b + 1) * ((x - 1) ^ S (n - l) * (x + 1) ^ l)) (S n)).
  { rewrite D, jac_eval. fold c. rewrite <- !Rmult_assoc, (Rmult_comm (1 - x * x)), (Rmult_comm (_ - _) (/ 2 ^ n)), !Rmult_assoc, <- Rmult_plus_distr_l. f_equal.
    rewrite <- !rsum_scal, <- rsum_plus. apply rsum_ext. intros l Hl.
    assert (E1 : (x - 1) * (INR (n - l) * (x - 1) ^ (n - l - 1)) = INR (n - l) * (x - 1) ^ (n - l)) by (destruct (n - l)%nat as [|k]; [cbn [INR]; ring | replace (S k - 1)%nat with k by lia; cbn [pow]; ring]).
    assert (E2 : (x + 1) * (INR l * (x + 1) ^ (l - 1)) = INR l * (x + 1) ^ l) by (destruct l as [|k]; [cbn [INR]; ring | replace (S k - 1)%nat with k by lia; cbn [pow]; ring]).
    replace ((1 - x * x) * (c l * (INR (n - l) * (x - 1) ^ (n - l - 1) * (x + 1) ^ l + INR l * (x - 1) ^ (n - l) * (x + 1) ^ (l - 1)))) with
      (- c l * ((x - 1) * (INR (n - l) * (x - 1) ^ (n - l - 1)) * (x + 1) * (x + 1) ^ l + (x - 1) ^ (n - l) * (x - 1) * ((x + 1) * (INR l * (x + 1) ^ (l - 1))))) by ring.
    rewrite E1, E2. cbn [pow]. ring. }
  rewrite L, jac_eval. fold d. change (2 ^ S n) with (2 * 2 ^ n). assert (P : 2 ^ n <> 0) by (apply pow_nonzero; lra).
  replace (- 2 * INR (S n) * (/ (2 * 2 ^ n) * rsum (fun l => d l * ((x - 1) ^ (S n - l) * (x + 1) ^ l)) (S (S n)))) with
    (/ 2 ^ n * (- INR (S n) * rsum (fun l => d l * ((x - 1) ^ (S n - l) * (x + 1) ^ l)) (S (S n)))) by (field; exact P). f_equal.
  rewrite <- rsum_scal.
  rewrite (rsum_ext (fun k => - INR (S n) * _) (fun l => - (INR l * d l * ((x - 1) ^ (S n - l) * (x + 1) ^ l)) + - (INR (S n - l) * d l * ((x - 1) ^ (S n - l) * (x + 1) ^ l)))).
  2:{ intros k Hk. rewrite (minus_INR (S n) k) by lia. ring. }
  rewrite rsum_plus, (rsum_S_l (fun l => - (INR l * d l * _))), (rsum_S _ (S n)), Nat.sub_diag. change (INR 0) with 0. rewrite !Rmult_0_l, Ropp_0, Rplus_0_l, Rplus_0_r, <- rsum_plus.
  apply rsum_ext. intros l Hl. replace (S n - S l)%nat with (n - l)%nat by lia. replace (S n - l)%nat with (S (n - l)) by lia.
  assert (C1 : INR (S l) * d (S l) = c l * (INR (n - l) + a + 1)).
  { unfold d, c, jcoef. replace (S n - S l)%nat with (n - l)%nat by lia. replace (INR n + (a + 1)) with (INR (S n) + a) by (rewrite S_INR; lra). replace (INR n + (b + 1)) with (INR (S n) + b) by (rewrite S_INR; lra).
    replace (INR (S l) * (gbinom (INR (S n) + a) (S l) * gbinom (INR (S n) + b) (n - l))) with (gbinom (INR (S n) + a) (S l) * INR (S l) * gbinom (INR (S n) + b) (n - l)) by ring.
    rewrite gbinom_S, minus_INR by lia. rewrite (S_INR n). ring. }
  assert (C2 : INR (S (n - l)) * d l = c l * (INR l + b + 1)).
  { unfold d, c, jcoef. replace (S n - l)%nat with (S (n - l)) by lia. replace (INR n + (a + 1)) with (INR (S n) + a) by (rewrite S_INR; lra). replace (INR n + (b + 1)) with (INR (S n) + b) by (rewrite S_INR; lra).
    replace (INR (S (n - l)) * (gbinom (INR (S n) + a) l * gbinom (INR (S n) + b) (S (n - l)))) with (gbinom (INR (S n) + a) l * (gbinom (INR (S n) + b) (S (n - l)) * INR (S (n - l)))) by ring.
    rewrite gbinom_S, minus_INR by lia. rewrite (S_INR n). ring. }
  rewrite C1, C2. ring.
Qed.

Section Cheb.
Variable n : nat.
Let N := INR (S n).
Let P := peval (jac (S n) (-1/2) (-1/2)).
Let Q := peval (jac n (-1/2 + 1) (-1/2 + 1)).
Let f (t : R) := P (cos t).
Let g (t : R) := sin t * Q (cos t) / 2.
Lemma f_der : forall t : R, is_derive f t (- N * g t).
Proof.
  intros t. eapply derR_eq; [apply (derR_comp P cos t); [apply jac_derive | apply is_derive_Reals, derivable_pt_lim_cos]|]. unfold g, Q, N. field.
Qed.
Lemma g_der : forall t : R, is_derive g t (N * f t).
Proof.
  intros t. apply (derR_ext (fun t => / 2 * (sin t * Q (cos t)))); [intros; unfold g; field|].
  eapply derR_eq; [apply derR_scal, derR_mult; [apply is_derive_Reals, derivable_pt_lim_sin | apply (derR_comp Q cos t); [apply djac_derive | apply is_derive_Reals, derivable_pt_lim_cos]]|].
  pose proof (jac_back n (-1/2) (-1/2) (cos t)) as B. fold N P Q in B. fold Q. unfold f. set (q := djac n (-1/2 + 1) (-1/2 + 1) (cos t)) in *.
  pose proof (sin2_cos2 t) as S. unfold Rsqr in S. replace (1 - cos t * cos t) with (sin t * sin t) in B by lra. nra.
Qed.
Lemma const_der : forall h : R -> R, (forall t, is_derive h t 0) -> forall t, h t = h 0.
Proof.
  intros h H t. destruct (MVT_gen h 0 t (fun _ => 0)) as (c & _ & E); [intros x _; apply H | intros x _; apply continuity_pt_filterlim, (ex_derive_continuous (K:=R_AbsRing) (V:=R_NormedModule)); eexists; apply H |]. lra.
Qed.
Lemma arg_der : forall (F : R -> R) (G : R -> R) t, (forall y, is_derive F y (G y)) -> is_derive (fun t => F (N * t)) t (N * G (N * t)).
Proof. intros F G t H. eapply derR_eq; [apply (derR_comp F (fun t => N * t) t); [apply H | apply derR_scal, derR_id]|]. ring. Qed.
Lemma f_cos : forall t, f t = P 1 * cos (N * t).
Proof.
  intros t. assert (Dc : forall t, is_derive (fun t => cos (N * t)) t (N * (- sin (N * t)))) by (intros; apply (arg_der cos (fun y => - sin y)); intros; apply is_derive_Reals, derivable_pt_lim_cos).
  assert (Ds : forall t, is_derive (fun t => sin (N * t)) t (N * cos (N * t))) by (intros; apply (arg_der sin cos); intros; apply is_derive_Reals, derivable_pt_lim_sin).
  assert (H1 : forall t, f t * cos (N * t) + g t * sin (N * t) = P 1).
  { intros s. rewrite (const_der (fun t => f t * cos (N * t) + g t * sin (N * t))).
    - unfold f, g. rewrite Rmult_0_r, cos_0, sin_0. ring.
    - intros y. eapply derR_eq; [apply derR_plus; apply derR_mult; [apply f_der | apply Dc | apply g_der | apply Ds]|]. cbv beta. ring. }
  assert (H2 : forall t, f t * sin (N * t) - g t * cos (N * t) = 0).
  { intros s. rewrite (const_der (fun t => f t * sin (N * t) - g t * cos (N * t))).
    - unfold f, g. rewrite Rmult_0_r, cos_0, sin_0. unfold Rdiv. ring.
    - intros y. eapply derR_eq; [apply derR_minus; apply derR_mult; [apply f_der | apply Ds | apply g_der | apply Dc]|]. cbv beta. ring. }
  pose proof (sin2_cos2 (N * t)) as S. unfold Rsqr in S. rewrite <- (H1 t). specialize (H2 t).
  replace (f t) with (f t * (sin (N * t) * sin (N * t) + cos (N * t) * cos (N * t))) at 1 by (rewrite S; ring).
  assert (K : g t * cos (N * t) = f t * sin (N * t)) by lra. replace ((f t * cos (N * t) + g t * sin (N * t)) * cos (N * t)) with (f t * cos (N * t) * cos (N * t) + g t * cos (N * t) * sin (N * t)) by ring. rewrite K. ring.
Qed.
End Cheb.

Lemma cheb_cos : forall n t, ChebyshevT n (cos t) = cos (INR n * t).
Proof.
  intros n t. unfold ChebyshevT. rewrite !JacobiP_eval. destruct n as [|n].
  - rewrite !jac_0. change (INR 0) with 0. rewrite Rmult_0_l, cos_0. field.
  - pose proof (f_cos n t) as E. cbv beta in E. rewrite E. pose proof (gb_half_neq (S n)). field. exact H.
Qed.
Lemma cheb_phi : forall n t, (1 <= n)%nat -> phi FChebyshev2 n (cos t) = - 2 * (sin (INR n * t) * sin t).
Proof.
  intros n t H. cbn [phi]. rewrite !cheb_cos. rewrite plus_INR, minus_INR by exact H. change (INR 1) with 1.
  replace ((INR n + 1) * t) with (INR n * t + t) by ring. replace ((INR n - 1) * t) with (INR n * t - t) by ring. rewrite cos_plus, cos_minus. ring.
Qed.
Lemma cheb_bound : forall n x, (1 <= n)%nat -> -1 <= x <= 1 -> Rabs (phi FChebyshev2 n x) <= 2 * sqrt (1 - x * x).
Proof.
  intros n x H X. rewrite <- (cos_acos x X) at 1. rewrite cheb_phi by exact H. set (t := acos x). assert (S : sin t = sqrt (1 - x * x)) by (unfold t; rewrite sin_acos by exact X; unfold Rsqr; reflexivity).
  rewrite S, !Rabs_mult, (Rabs_left (-2)) by lra. pose proof (sqrt_pos (1 - x * x)) as Q. rewrite (Rabs_right (sqrt _)) by lra.
  assert (Rabs (sin (INR n * t)) <= 1) by (apply Rabs_le; pose proof (SIN_bound (INR n * t)); lra). pose proof (Rabs_pos (sin (INR n * t))). nra.
Qed.
Lemma cheb_zeros : forall n j, (1 <= n)%nat -> phi FChebyshev2 n (cos (INR j * PI / INR n)) = 0.
Proof.
  intros n j H. rewrite cheb_phi by exact H. assert (N : INR n <> 0) by (apply not_0_INR; lia). replace (INR n * (INR j * PI / INR n)) with (INR j * PI) by (field; exact N).
  replace (sin (INR j * PI)) with 0; [ring|]. induction j as [|j IH]; [change (INR 0) with 0; rewrite Rmult_0_l, sin_0; reflexivity|].
  rewrite S_INR, Rmult_plus_distr_r, Rmult_1_l, neg_sin, <- IH. ring.
Qed.

(* on the tables the code returns *)
Lemma cheb_table : forall k (xi eta : list R) i j q s t,
  length xi = length eta -> (i < k)%nat -> (j < k)%nat -> (q < length xi)%nat ->
  nth q xi 0 = cos s -> nth q eta 0 = cos t ->
  entry (b_value FChebyshev2 (k * k) xi eta) (k * i + j) q =
  4 * (sin (INR (S i) * s) * sin s) * (sin (INR (S j) * t) * sin t).
Proof.
  intros k xi eta i j q s t L Hi Hj Hq E1 E2. destruct (tables_layout FChebyshev2 k xi eta i j q L Hi Hj Hq) as (T & _). cbv zeta in T.
  rewrite T, E1, E2, !cheb_phi by lia. ring.
Qed.
Lemma cheb_table_bound : forall k (xi eta : list R) r q,
  length xi = length eta -> (r < k * k)%nat -> (q < length xi)%nat ->
  -1 <= nth q xi 0 <= 1 -> -1 <= nth q eta 0 <= 1 ->
  Rabs (entry (b_value FChebyshev2 (k * k) xi eta) r q) <=
  4 * sqrt (1 - nth q xi 0 * nth q xi 0) * sqrt (1 - nth q eta 0 * nth q eta 0).
Proof.
  intros k xi eta r q L Hr Hq X Y. assert (K : k <> 0%nat) by (intros ->; simpl in Hr; lia).
  rewrite (Nat.div_mod r k K). assert (Hi : (r / k < k)%nat) by (apply Nat.div_lt_upper_bound; assumption). assert (Hj : (r mod k < k)%nat) by (apply Nat.mod_upper_bound; exact K).
  destruct (tables_layout FChebyshev2 k xi eta _ _ q L Hi Hj Hq) as (T & _). cbv zeta in T. rewrite T, Rabs_mult.
  pose proof (cheb_bound (S (r / k)) _ ltac:(lia) X) as A. pose proof (cheb_bound (S (r mod k)) _ ltac:(lia) Y) as B.
  eapply Rle_trans; [apply Rmult_le_compat; [apply Rabs_pos | apply Rabs_pos | exact A | exact B]|]. apply Req_le. ring.
Qed.
Lemma jacobi_equation : forall n a b x,
  (1 - x * x) * Derive (Derive (JacobiP n a b)) x + (b - a - (a + b + 2) * x) * Derive (JacobiP n a b) x + INR n * (INR n + a + b + 1) * JacobiP n a b x = 0.
Proof.
  intros n a b x.
  assert (E0 : forall y, JacobiP n a b y = peval (jac n a b) y) by (intros; apply JacobiP_eval).
  assert (E1 : forall y, Derive (JacobiP n a b) y = djac n a b y) by (intros y; rewrite (Derive_ext _ _ y E0); apply is_derive_unique, djac_derive).
  rewrite (Derive_ext _ _ x E1), E1, E0, (is_derive_unique _ _ _ (ddjac_derive n a b x)). destruct n as [|n]; unfold ddjac; fold djac.
  - unfold djac. change (INR 0) with 0. ring.
  - change (djac (S n) a b x) with ((INR (S n) + a + b + 1) / 2 * peval (jac n (a + 1) (b + 1)) x).
    pose proof (jac_back n a b x) as B. set (q := djac n (a + 1) (b + 1) x) in *. set (p := peval (jac n (a + 1) (b + 1)) x) in *.
    set (K := INR (S n) + a + b + 1). set (P := peval (jac (S n) a b) x) in *.
    replace ((1 - x * x) * (K / 2 * q) + (b - a - (a + b + 2) * x) * (K / 2 * p) + INR (S n) * K * P) with
      (K / 2 * (((1 - x * x) * q + ((b + 1) * (1 - x) - (a + 1) * (1 + x)) * p) - (- 2 * INR (S n) * P))) by field.
    rewrite B. ring.
Qed.
