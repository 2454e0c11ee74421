(* Derivatives, boundary values and independence of the test functions. *)
From Coq Require Import ZArith List Arith Lia Reals Lra.
From Coquelicot Require Import Coquelicot.
From Verif Require Import Num Py Jacobi Basis Spec RCalc PolyFacts ListFacts BasisFacts.
Import ListNotations.
Local Open Scope R_scope.

Lemma jac_deriv_const : forall (a b x : R), is_derive (peval (jac 0 a b)) x 0.
Proof.
  intros. apply (derR_ext (fun _ => 1)). intros; now rewrite jac_0. apply derR_const.
Qed.

(* derivative of P_n^(a,b), all n *)
Definition djac (n : nat) (a b x : R) : R :=
  match n with O => 0 | S m => (INR (S m) + a + b + 1) / 2 * peval (jac m (a + 1) (b + 1)) x end.
Lemma djac_derive : forall n a b x, is_derive (peval (jac n a b)) x (djac n a b x).
Proof. destruct n; intros. apply jac_deriv_const. apply jac_derive. Qed.

Lemma pderiv_jac : forall n a b x, peval (pderiv (jac n a b)) x = djac n a b x.
Proof. intros. apply (derR_uniq (peval (jac n a b)) x). apply is_derive_peval. apply djac_derive. Qed.

Definition ddjac (n : nat) (a b x : R) : R :=
  match n with O => 0 | S m => (INR (S m) + a + b + 1) / 2 * djac m (a + 1) (b + 1) x end.
Lemma ddjac_derive : forall n a b x, is_derive (djac n a b) x (ddjac n a b x).
Proof.
  destruct n; intros.
  - apply (derR_ext (fun _ => 0)); auto. apply derR_const.
  - apply (derR_ext (fun x => (INR (S n) + a + b + 1) / 2 * peval (jac n (a + 1) (b + 1)) x)); auto.
    apply derR_scal. apply djac_derive.
Qed.
Lemma pderiv2_jac : forall n a b x, peval (pderiv (pderiv (jac n a b))) x = ddjac n a b x.
Proof.
  intros. apply (derR_uniq (djac n a b) x).
  - apply (derR_ext (peval (pderiv (jac n a b)))). intros; apply pderiv_jac. apply is_derive_peval.
  - apply ddjac_derive.
Qed.

Lemma gb_half_neq : forall n, peval (jac n (-1/2) (-1/2)) 1 <> 0.
Proof.
  intros. rewrite jac_at_1. pose proof (gbinom_n_pos n (-1/2)). lra.
Qed.

Lemma phi_derive_leg : forall n x,
  is_derive (phi FLegendre n) x (djac (n + 1) 0 0 x - djac (n - 1) 0 0 x).
Proof.
  intros. apply (derR_ext (fun x => peval (leg (n + 1)) x - peval (leg (n - 1)) x)).
  - intros; unfold phi. now rewrite !LegendreP_eval.
  - apply derR_minus; apply djac_derive.
Qed.

Lemma dphi_leg_eq : forall n x, (1 <= n)%nat ->
  dphi FLegendre n x = djac (n + 1) 0 0 x - djac (n - 1) 0 0 x.
Proof.
  intros. unfold dphi. rewrite (Nat.add_comm n 1). cbn [Nat.add djac].
  replace (0 + 1) with 1 by lra.
  destruct (Nat.eqb_spec n 1).
  - subst n. cbn [Nat.sub djac]. simpl INR. lra.
  - destruct n as [|[|n]]; try lia. cbn [Nat.sub djac]. rewrite ?Nat.sub_0_r.
    replace (0 + 1) with 1 by lra.
    rewrite plus_INR, !S_INR. simpl INR. lra.
Qed.
Lemma dphi_ls_eq : forall n x,
  dphi FLegendreSpecial n x = djac (n + 1) 0 0 x - djac (n - 1) 0 0 x.
Proof. intros. unfold dphi, leg. now rewrite !pderiv_jac. Qed.

Lemma ddphi_leg_eq : forall n x, (1 <= n)%nat ->
  ddphi FLegendre n x = ddjac (n + 1) 0 0 x - ddjac (n - 1) 0 0 x.
Proof.
  intros. unfold ddphi. rewrite (Nat.add_comm n 1). cbn [Nat.add ddjac].
  replace (0 + 1) with 1 by lra.
  destruct n as [|[|[|n]]]; try lia; cbn [Nat.sub ddjac djac Nat.eqb orb].
  - replace (1 + 1) with 2 by lra. simpl INR. lra.
  - replace (1 + 1) with 2 by lra. simpl INR. lra.
  - replace (0 + 1) with 1 by lra. replace (1 + 1) with 2 by lra. rewrite ?Nat.sub_0_r.
    rewrite !mult_INR, !plus_INR, !S_INR. simpl INR. lra.
Qed.
Lemma ddphi_ls_eq : forall n x,
  ddphi FLegendreSpecial n x = ddjac (n + 1) 0 0 x - ddjac (n - 1) 0 0 x.
Proof. intros. unfold ddphi, leg. now rewrite !pderiv2_jac. Qed.

(* Chebyshev *)
Lemma dphi_che_eq : forall n x, (1 <= n)%nat ->
  dphi FChebyshev2 n x = djac (n + 1) (-1/2) (-1/2) x / peval (jac (n + 1) (-1/2) (-1/2)) 1
                       - djac (n - 1) (-1/2) (-1/2) x / peval (jac (n - 1) (-1/2) (-1/2)) 1.
Proof.
  intros. unfold dphi.
  pose proof (gb_half_neq (n + 1)). pose proof (gb_half_neq (n - 1)).
  set (A := peval (jac (n + 1) (-1/2) (-1/2)) 1) in *.
  set (B := peval (jac (n - 1) (-1/2) (-1/2)) 1) in *. clearbody A B.
  rewrite (Nat.add_comm n 1). cbn [Nat.add djac].
  replace (-1/2 + 1) with (1/2) by lra.
  destruct (Nat.eqb_spec n 1).
  - subst n. cbn [Nat.sub djac]. simpl INR. field; auto.
  - destruct n as [|[|n]]; try lia. cbn [Nat.sub djac]. rewrite ?Nat.sub_0_r.
    replace (-1/2 + 1) with (1/2) by lra.
    rewrite !S_INR. field; auto.
Qed.
Lemma ddphi_che_eq : forall n x, (1 <= n)%nat ->
  ddphi FChebyshev2 n x = ddjac (n + 1) (-1/2) (-1/2) x / peval (jac (n + 1) (-1/2) (-1/2)) 1
                       - ddjac (n - 1) (-1/2) (-1/2) x / peval (jac (n - 1) (-1/2) (-1/2)) 1.
Proof.
  intros. unfold ddphi.
  pose proof (gb_half_neq (n + 1)). pose proof (gb_half_neq (n - 1)).
  set (A := peval (jac (n + 1) (-1/2) (-1/2)) 1) in *.
  set (B := peval (jac (n - 1) (-1/2) (-1/2)) 1) in *. clearbody A B.
  rewrite (Nat.add_comm n 1). cbn [Nat.add ddjac].
  replace (-1/2 + 1) with (1/2) by lra.
  destruct n as [|[|[|n]]]; try lia; cbn [Nat.sub ddjac djac Nat.eqb orb];
    replace (1/2 + 1) with (3/2) by lra.
  - simpl INR. field; auto.
  - simpl INR. field; auto.
  - replace (-1/2 + 1) with (1/2) by lra. replace (1/2 + 1) with (3/2) by lra. rewrite ?Nat.sub_0_r.
    rewrite !mult_INR, !plus_INR, !S_INR. simpl INR. field; auto.
Qed.

(* The first-derivative tables *)
Lemma phi_derive : forall f n x, (1 <= n)%nat -> is_derive (phi f n) x (dphi f n x).
Proof.
  intros. destruct f.
  - rewrite dphi_leg_eq by auto. apply phi_derive_leg.
  - rewrite dphi_ls_eq. apply phi_derive_leg.
  - rewrite dphi_che_eq by auto.
    apply (derR_ext (fun x => peval (jac (n + 1) (-1/2) (-1/2)) x * / peval (jac (n + 1) (-1/2) (-1/2)) 1
       - peval (jac (n - 1) (-1/2) (-1/2)) x * / peval (jac (n - 1) (-1/2) (-1/2)) 1)).
    { intros; unfold phi, ChebyshevT. now rewrite !JacobiP_eval. }
    unfold Rdiv.
    apply derR_minus.
    + eapply derR_eq; [apply derR_mult; [apply djac_derive | apply derR_const]|]. simpl. ring.
    + eapply derR_eq; [apply derR_mult; [apply djac_derive | apply derR_const]|]. simpl. ring.
  - unfold dphi. apply (derR_ext (peval (jac (n - 1) 0 0))).
    intros; unfold phi. now rewrite LegendreP_eval. apply is_derive_peval.
Qed.
Lemma dphi_derive : forall f n x, (1 <= n)%nat -> is_derive (dphi f n) x (ddphi f n x).
Proof.
  intros. destruct f.
  - rewrite ddphi_leg_eq by auto.
    apply (derR_ext (fun x => djac (n + 1) 0 0 x - djac (n - 1) 0 0 x)).
    intros; now rewrite dphi_leg_eq. apply derR_minus; apply ddjac_derive.
  - rewrite ddphi_ls_eq.
    apply (derR_ext (fun x => djac (n + 1) 0 0 x - djac (n - 1) 0 0 x)).
    intros; now rewrite dphi_ls_eq. apply derR_minus; apply ddjac_derive.
  - rewrite ddphi_che_eq by auto.
    apply (derR_ext (fun x => djac (n + 1) (-1/2) (-1/2) x * / peval (jac (n + 1) (-1/2) (-1/2)) 1
       - djac (n - 1) (-1/2) (-1/2) x * / peval (jac (n - 1) (-1/2) (-1/2)) 1)).
    { intros; now rewrite dphi_che_eq. }
    unfold Rdiv. apply derR_minus.
    + eapply derR_eq; [apply derR_mult; [apply ddjac_derive | apply derR_const]|]. simpl. ring.
    + eapply derR_eq; [apply derR_mult; [apply ddjac_derive | apply derR_const]|]. simpl. ring.
  - unfold dphi, ddphi. apply is_derive_peval.
Qed.

(* ---------- boundary values ---------- *)
Lemma pow_m1_shift : forall n, (1 <= n)%nat -> (-1) ^ (n + 1) = (-1) ^ (n - 1).
Proof.
  intros. destruct n; [lia|]. replace (S n + 1)%nat with (2 + n)%nat by lia.
  replace (S n - 1)%nat with n by lia. rewrite pow_add. simpl. ring.
Qed.
Lemma phi_boundary : forall f n, (1 <= n)%nat -> f <> FJacobiPlain ->
  phi f n 1 = 0 /\ phi f n (-1) = 0.
Proof.
  intros. destruct f; try congruence; unfold phi.
  - rewrite !LegendreP_eval, !leg_at_1, !leg_at_m1, pow_m1_shift by auto. lra.
  - rewrite !LegendreP_eval, !leg_at_1, !leg_at_m1, pow_m1_shift by auto. lra.
  - unfold ChebyshevT. rewrite !JacobiP_eval.
    pose proof (gb_half_neq (n + 1)) as H1. pose proof (gb_half_neq (n - 1)) as H2.
    rewrite !jac_at_m1, !jac_at_1, pow_m1_shift in * by auto. split; field; auto.
Qed.

(* ---------- independence ---------- *)
(* n-th derivative of f is the constant c *)
Fixpoint topder (n : nat) (f : R -> R) (c : R) : Prop :=
  match n with
  | O => forall x, f x = c
  | S m => exists g, (forall x, is_derive f x (g x)) /\ topder m g c
  end.
Lemma topder_ext : forall n f g c, (forall x, f x = g x) -> topder n f c -> topder n g c.
Proof.
  destruct n; simpl; intros.
  - now rewrite <- H.
  - destruct H0 as (h & H0 & H1). exists h. split; auto. intros. apply (derR_ext f); auto.
Qed.
Lemma topder_plus : forall n f g c d, topder n f c -> topder n g d ->
  topder n (fun x => f x + g x) (c + d).
Proof.
  induction n; simpl; intros.
  - now rewrite H, H0.
  - destruct H as (f' & H1 & H2), H0 as (g' & H3 & H4).
    exists (fun x => f' x + g' x). split; auto. intros; apply derR_plus; auto.
Qed.
Lemma topder_scal : forall n f c k, topder n f c -> topder n (fun x => k * f x) (k * c).
Proof.
  induction n; simpl; intros.
  - now rewrite H.
  - destruct H as (f' & H1 & H2). exists (fun x => k * f' x). split; auto. intros; apply derR_scal; auto.
Qed.
Lemma topder_0 : forall n, topder n (fun _ => 0) 0.
Proof. induction n; simpl; auto. exists (fun _ => 0). split; auto. intros; apply derR_const. Qed.
Lemma topder_S : forall n f c, topder n f c -> topder (S n) f 0.
Proof.
  induction n; intros.
  - simpl in *. exists (fun _ => 0). split; auto. intros. apply (derR_ext (fun _ => c)); auto. apply derR_const.
  - destruct H as (g & H1 & H2). exists g; split; auto. apply (IHn g c); auto.
Qed.
Lemma topder_add : forall m n f c, topder n f c -> topder (S m + n) f 0.
Proof.
  induction m; intros.
  - apply topder_S with c; auto.
  - change (S (S m) + n)%nat with (S (S m + n)). apply topder_S with 0. apply IHm with c; auto.
Qed.
Lemma topder_lt : forall n m f c, topder n f c -> (n < m)%nat -> topder m f 0.
Proof.
  intros. replace m with (S (m - n - 1) + n)%nat by lia. apply topder_add with c; auto.
Qed.

Lemma topder_jac : forall n a b, 0 <= a + b + 1 -> exists c, 0 < c /\ topder n (peval (jac n a b)) c.
Proof.
  induction n; intros.
  - exists 1. split; [lra|]. intros x. apply jac_0.
  - destruct (IHn (a + 1) (b + 1)) as (c & Hc & Ht); [lra|].
    exists ((INR (S n) + a + b + 1) / 2 * c). split.
    + apply Rmult_lt_0_compat; auto. rewrite S_INR. pose proof (pos_INR n). lra.
    + exists (fun x => (INR (S n) + a + b + 1) / 2 * peval (jac n (a + 1) (b + 1)) x). split.
      * intros; apply jac_derive.
      * apply topder_scal; auto.
Qed.

Definition fdeg (f : family) (n : nat) : nat :=
  match f with FJacobiPlain => n - 1 | _ => n + 1 end.

Lemma topder_phi : forall f n, (1 <= n)%nat -> exists c, c <> 0 /\ topder (fdeg f n) (phi f n) c.
Proof.
  assert (L : forall n, (1 <= n)%nat -> exists c, c <> 0 /\
     topder (n + 1) (fun x => LegendreP (n + 1) x - LegendreP (n - 1) x) c).
  { intros. destruct (topder_jac (n + 1) 0 0) as (c & Hc & Ht); [lra|].
    destruct (topder_jac (n - 1) 0 0) as (d & Hd & Ht'); [lra|].
    exists c. split; [lra|].
    apply (topder_ext _ (fun x => peval (leg (n + 1)) x + (-1) * peval (leg (n - 1)) x)).
    - intros. rewrite !LegendreP_eval. lra.
    - replace c with (c + (-1) * 0) by lra. apply topder_plus; auto. apply topder_scal.
      apply topder_lt with (n - 1)%nat d; auto. lia. }
  intros. destruct f; unfold phi, fdeg; auto.
  - destruct (topder_jac (n + 1) (-1/2) (-1/2)) as (c & Hc & Ht); [lra|].
    destruct (topder_jac (n - 1) (-1/2) (-1/2)) as (d & Hd & Ht'); [lra|].
    exists (/ JacobiP (n + 1) (-1/2) (-1/2) 1 * c). split.
    + rewrite JacobiP_eval. pose proof (gb_half_neq (n + 1)).
      apply Rmult_integral_contrapositive. split; [apply Rinv_neq_0_compat; auto | lra].
    + apply (topder_ext _ (fun x => / JacobiP (n + 1) (-1/2) (-1/2) 1 * peval (jac (n + 1) (-1/2) (-1/2)) x
              + (- / JacobiP (n - 1) (-1/2) (-1/2) 1) * peval (jac (n - 1) (-1/2) (-1/2)) x)).
      * intros. unfold ChebyshevT, Rdiv. rewrite !(JacobiP_eval _ _ _ x). ring.
      * replace (/ JacobiP (n + 1) (-1/2) (-1/2) 1 * c)
          with (/ JacobiP (n + 1) (-1/2) (-1/2) 1 * c + (- / JacobiP (n - 1) (-1/2) (-1/2) 1) * 0) by ring.
        apply topder_plus; apply topder_scal; auto.
        apply topder_lt with (n - 1)%nat d; auto. lia.
  - destruct (topder_jac (n - 1) 0 0) as (c & Hc & Ht); [lra|].
    exists c. split; [lra|]. apply (topder_ext _ (peval (leg (n - 1)))); auto.
    intros; now rewrite LegendreP_eval.
Qed.

(* a function vanishing on (-1,1) has vanishing derivative there *)
Lemma topder_zero : forall n f c, topder n f c -> (forall x, -1 < x < 1 -> f x = 0) -> c = 0.
Proof.
  induction n; simpl; intros.
  - rewrite <- (H 0). apply H0; lra.
  - destruct H as (g & H1 & H2). apply (IHn g c); auto. intros x Hx.
    assert (D : is_derive (fun _ : R => 0) x (g x)).
    { apply (is_derive_ext_loc f); auto.
      assert (Hd : 0 < Rmin (x + 1) (1 - x)) by (apply Rmin_glb_lt; lra).
      exists (mkposreal _ Hd). intros y Hy. apply H0.
      unfold ball in Hy; simpl in Hy; unfold AbsRing_ball, abs, minus, plus, opp in Hy; simpl in Hy.
      apply Rabs_lt_between in Hy. 
      pose proof (Rmin_l (x + 1) (1 - x)). pose proof (Rmin_r (x + 1) (1 - x)). lra. }
    apply (derR_uniq (fun _ => 0) x); auto. apply derR_const.
Qed.

Lemma phi_indep : forall f k (a : nat -> R),
  (forall x, -1 < x < 1 -> rsum (fun i => a i * phi f (S i) x) k = 0) ->
  forall i, (i < k)%nat -> a i = 0.
Proof.
  induction k; intros; [lia|].
  assert (Ha : a k = 0).
  { destruct (topder_phi f (S k)) as (c & Hc & Ht); [lia|].
    assert (Hsum : topder (fdeg f (S k)) (fun x => rsum (fun i => a i * phi f (S i) x) (S k)) (a k * c)).
    { cbn [rsum]. replace (a k * c) with (0 + a k * c) by ring.
      apply topder_plus; [| apply topder_scal; auto].
      assert (forall m, (m <= k)%nat ->
         topder (fdeg f (S k)) (fun x => rsum (fun i => a i * phi f (S i) x) m) 0).
      { induction m; intros.
        - apply topder_0.
        - cbn [rsum]. replace 0 with (0 + a m * 0) by ring. apply topder_plus. apply IHm; lia.
          apply topder_scal. destruct (topder_phi f (S m)) as (d & _ & Hd); [lia|].
          apply topder_lt with (fdeg f (S m)) d; auto. unfold fdeg; destruct f; lia. }
      apply H1; auto. }
    apply topder_zero in Hsum; auto. apply Rmult_integral in Hsum. tauto. }
  destruct (Nat.eq_dec i k); [subst; auto|].
  apply IHk; try lia. intros x Hx. specialize (H x Hx). cbn [rsum] in H. rewrite Ha in H. lra.
Qed.

Lemma Phi_indep : forall f k (c : nat -> nat -> R),
  (forall x y, -1 < x < 1 -> -1 < y < 1 ->
     rsum (fun i => rsum (fun j => c i j * Phi f i j x y) k) k = 0) ->
  forall i j, (i < k)%nat -> (j < k)%nat -> c i j = 0.
Proof.
  intros. apply (phi_indep f k (fun j => c i j)); auto. intros y Hy.
  apply (phi_indep f k (fun i => rsum (fun j => c i j * phi f (S j) y) k)); auto.
  intros x Hx. rewrite <- (H x y); auto. apply rsum_ext; intros.
  rewrite <- rsum_scal_r. apply rsum_ext; intros. unfold Phi. ring.
Qed.

(* ---------- the six tables ---------- *)
Lemma Derive_phi : forall f n x, (1 <= n)%nat -> Derive (phi f n) x = dphi f n x.
Proof. intros. apply is_derive_unique. now apply phi_derive. Qed.
Lemma Derive2_phi : forall f n x, (1 <= n)%nat -> Derive (Derive (phi f n)) x = ddphi f n x.
Proof.
  intros. apply is_derive_unique. apply (derR_ext (dphi f n)).
  - intros. now rewrite Derive_phi.
  - now apply dphi_derive.
Qed.

Ltac tabs := unfold b_value, b_gradx, b_grady, b_gradxx, b_gradxy, b_gradyy;
  cbv zeta; rewrite ?int_sqrt_sq, ?tx_table, ?ty_table, ?dtx_table, ?ddtx_table.

Lemma tables_shape : forall f k (xi eta : list R), length xi = length eta ->
  has_shape (b_value f (k * k) xi eta) (k * k) (length xi) /\
  has_shape (b_gradx f (k * k) xi eta) (k * k) (length xi) /\
  has_shape (b_grady f (k * k) xi eta) (k * k) (length xi) /\
  has_shape (b_gradxx f (k * k) xi eta) (k * k) (length xi) /\
  has_shape (b_gradxy f (k * k) xi eta) (k * k) (length xi) /\
  has_shape (b_gradyy f (k * k) xi eta) (k * k) (length xi).
Proof.
  intros. tabs. repeat split; try (apply fill_tables_shape; auto);
  intros row Hr; eapply fill_tables_shape; eauto.
Qed.

Lemma value_entry : forall f k xi eta i j q,
  length xi = length eta -> (i < k)%nat -> (j < k)%nat -> (q < length xi)%nat ->
  entry (b_value f (k * k) xi eta) (k * i + j) q = phi f (S i) (nth q xi 0) * phi f (S j) (nth q eta 0).
Proof. intros. tabs. now rewrite fill_tables_entry. Qed.
Lemma gradx_entry : forall f k xi eta i j q,
  length xi = length eta -> (i < k)%nat -> (j < k)%nat -> (q < length xi)%nat ->
  entry (b_gradx f (k * k) xi eta) (k * i + j) q = dphi f (S i) (nth q xi 0) * phi f (S j) (nth q eta 0).
Proof. intros. tabs. now rewrite fill_tables_entry. Qed.
Lemma grady_entry : forall f k xi eta i j q,
  length xi = length eta -> (i < k)%nat -> (j < k)%nat -> (q < length xi)%nat ->
  entry (b_grady f (k * k) xi eta) (k * i + j) q = phi f (S i) (nth q xi 0) * dphi f (S j) (nth q eta 0).
Proof. intros. tabs. now rewrite fill_tables_entry. Qed.
Lemma gradxx_entry : forall f k xi eta i j q,
  length xi = length eta -> (i < k)%nat -> (j < k)%nat -> (q < length xi)%nat ->
  entry (b_gradxx f (k * k) xi eta) (k * i + j) q = ddphi f (S i) (nth q xi 0) * phi f (S j) (nth q eta 0).
Proof. intros. tabs. now rewrite fill_tables_entry. Qed.
Lemma gradxy_entry : forall f k xi eta i j q,
  length xi = length eta -> (i < k)%nat -> (j < k)%nat -> (q < length xi)%nat ->
  entry (b_gradxy f (k * k) xi eta) (k * i + j) q = dphi f (S i) (nth q xi 0) * dphi f (S j) (nth q eta 0).
Proof. intros. tabs. now rewrite fill_tables_entry. Qed.
Lemma gradyy_entry : forall f k xi eta i j q,
  length xi = length eta -> (i < k)%nat -> (j < k)%nat -> (q < length xi)%nat ->
  entry (b_gradyy f (k * k) xi eta) (k * i + j) q = phi f (S i) (nth q xi 0) * ddphi f (S j) (nth q eta 0).
Proof. intros. tabs. now rewrite fill_tables_entry. Qed.

Lemma tables_layout : forall f k (xi eta : list R) i j q,
  length xi = length eta -> (i < k)%nat -> (j < k)%nat -> (q < length xi)%nat ->
  let x := nth q xi 0 in let y := nth q eta 0 in let r := (k * i + j)%nat in
  let a := phi f (S i) in let b := phi f (S j) in
  entry (b_value f (k * k) xi eta) r q = a x * b y /\
  entry (b_gradx f (k * k) xi eta) r q = Derive a x * b y /\
  entry (b_grady f (k * k) xi eta) r q = a x * Derive b y /\
  entry (b_gradxx f (k * k) xi eta) r q = Derive (Derive a) x * b y /\
  entry (b_gradxy f (k * k) xi eta) r q = Derive a x * Derive b y /\
  entry (b_gradyy f (k * k) xi eta) r q = a x * Derive (Derive b) y.
Proof.
  intros. subst x y r a b.
  rewrite value_entry, gradx_entry, grady_entry, gradxx_entry, gradxy_entry, gradyy_entry by auto.
  rewrite !Derive_phi, !Derive2_phi by lia. tauto.
Qed.

(* row index split *)
Lemma row_split : forall k r, (r < k * k)%nat ->
  exists i j, r = (k * i + j)%nat /\ (i < k)%nat /\ (j < k)%nat.
Proof.
  intros. assert (k <> 0)%nat by (intros ->; simpl in H; lia).
  exists (r / k)%nat, (r mod k)%nat. split; [apply Nat.div_mod; auto|].
  split; [apply Nat.div_lt_upper_bound; auto | apply Nat.mod_upper_bound; auto].
Qed.

Ltac one := first [apply (Nat.lt_0_1) | reflexivity | simpl; lia | auto].

Lemma tables_derivatives : forall f k (xi eta : list R) r q,
  length xi = length eta -> (r < k * k)%nat -> (q < length xi)%nat ->
  let x := nth q xi 0 in let y := nth q eta 0 in
  let at1 T t s := entry (T [t] [s]) r 0 in
  is_derive (fun t => at1 (b_value f (k * k)) t y) x (entry (b_gradx f (k * k) xi eta) r q) /\
  is_derive (fun s => at1 (b_value f (k * k)) x s) y (entry (b_grady f (k * k) xi eta) r q) /\
  is_derive (fun t => at1 (b_gradx f (k * k)) t y) x (entry (b_gradxx f (k * k) xi eta) r q) /\
  is_derive (fun s => at1 (b_gradx f (k * k)) x s) y (entry (b_gradxy f (k * k) xi eta) r q) /\
  is_derive (fun t => at1 (b_grady f (k * k)) t y) x (entry (b_gradxy f (k * k) xi eta) r q) /\
  is_derive (fun s => at1 (b_grady f (k * k)) x s) y (entry (b_gradyy f (k * k) xi eta) r q) /\
  at1 (b_value f (k * k)) x y = entry (b_value f (k * k) xi eta) r q.
Proof.
  intros f k xi eta r q Hl Hr Hq x y at1.
  destruct (row_split k r Hr) as (i & j & -> & Hi & Hj).
  rewrite gradx_entry, grady_entry, gradxx_entry, gradxy_entry, gradyy_entry, value_entry by auto.
  fold x y. unfold at1.
  refine (conj _ (conj _ (conj _ (conj _ (conj _ (conj _ _)))))).
  - apply (derR_ext (fun t => phi f (S i) t * phi f (S j) y)).
    + intros; rewrite value_entry by one. reflexivity.
    + eapply derR_eq; [apply derR_mult; [apply phi_derive; lia | apply derR_const]|]. simpl; ring.
  - apply (derR_ext (fun t => phi f (S i) x * phi f (S j) t)).
    + intros; rewrite value_entry by one. reflexivity.
    + apply derR_scal. apply phi_derive; lia.
  - apply (derR_ext (fun t => dphi f (S i) t * phi f (S j) y)).
    + intros; rewrite gradx_entry by one. reflexivity.
    + eapply derR_eq; [apply derR_mult; [apply dphi_derive; lia | apply derR_const]|]. simpl; ring.
  - apply (derR_ext (fun t => dphi f (S i) x * phi f (S j) t)).
    + intros; rewrite gradx_entry by one. reflexivity.
    + apply derR_scal. apply phi_derive; lia.
  - apply (derR_ext (fun t => phi f (S i) t * dphi f (S j) y)).
    + intros; rewrite grady_entry by one. reflexivity.
    + eapply derR_eq; [apply derR_mult; [apply phi_derive; lia | apply derR_const]|]. simpl; ring.
  - apply (derR_ext (fun t => phi f (S i) x * dphi f (S j) t)).
    + intros; rewrite grady_entry by one. reflexivity.
    + apply derR_scal. apply dphi_derive; lia.
  - rewrite value_entry by one. reflexivity.
Qed.

Lemma tables_boundary : forall f k (xi eta : list R) r q,
  f <> FJacobiPlain -> length xi = length eta -> (r < k * k)%nat -> (q < length xi)%nat ->
  (nth q xi 0 = 1 \/ nth q xi 0 = -1 \/ nth q eta 0 = 1 \/ nth q eta 0 = -1) ->
  entry (b_value f (k * k) xi eta) r q = 0.
Proof.
  intros f k xi eta r q Hf Hl Hr Hq Hb.
  destruct (row_split k r Hr) as (i & j & -> & Hi & Hj). rewrite value_entry by auto.
  destruct (phi_boundary f (S i)) as [A1 A2]; [lia|auto|].
  destruct (phi_boundary f (S j)) as [B1 B2]; [lia|auto|].
  destruct Hb as [H|[H|[H|H]]]; rewrite H, ?A1, ?A2, ?B1, ?B2; ring.
Qed.

Lemma tables_boundary_plain : forall k (xi eta : list R) q,
  (1 <= k)%nat -> length xi = length eta -> (q < length xi)%nat ->
  entry (b_value FJacobiPlain (k * k) xi eta) 0 q = 1.
Proof.
  intros. replace 0%nat with (k * 0 + 0)%nat by lia. rewrite value_entry by (auto; lia).
  unfold phi. simpl (1 - 1)%nat. rewrite !LegendreP_eval. unfold leg. rewrite !jac_0. ring.
Qed.

Lemma dphi_agree : forall n x, (1 <= n)%nat -> dphi FLegendre n x = dphi FLegendreSpecial n x.
Proof. intros. now rewrite dphi_leg_eq, dphi_ls_eq. Qed.
Lemma ddphi_agree : forall n x, (1 <= n)%nat -> ddphi FLegendre n x = ddphi FLegendreSpecial n x.
Proof. intros. now rewrite ddphi_leg_eq, ddphi_ls_eq. Qed.
Lemma table_ext : forall g h k x, (forall n t, (1 <= n)%nat -> g n t = h n t) -> table g k x = table h k x.
Proof.
  intros. unfold table. apply map_ext_in. intros n Hn. apply in_seq in Hn.
  apply map_ext; intros. apply H. lia.
Qed.
Lemma tables_agree : forall k (xi eta : list R),
  b_value FLegendre (k * k) xi eta = b_value FLegendreSpecial (k * k) xi eta /\
  b_gradx FLegendre (k * k) xi eta = b_gradx FLegendreSpecial (k * k) xi eta /\
  b_grady FLegendre (k * k) xi eta = b_grady FLegendreSpecial (k * k) xi eta /\
  b_gradxx FLegendre (k * k) xi eta = b_gradxx FLegendreSpecial (k * k) xi eta /\
  b_gradxy FLegendre (k * k) xi eta = b_gradxy FLegendreSpecial (k * k) xi eta /\
  b_gradyy FLegendre (k * k) xi eta = b_gradyy FLegendreSpecial (k * k) xi eta.
Proof.
  intros. tabs.
  assert (P : forall x, table (phi FLegendre) k x = table (phi FLegendreSpecial) k x) by (intros; reflexivity).
  assert (D : forall x, table (dphi FLegendre) k x = table (dphi FLegendreSpecial) k x)
    by (intros; apply table_ext; apply dphi_agree).
  assert (DD : forall x, table (ddphi FLegendre) k x = table (ddphi FLegendreSpecial) k x)
    by (intros; apply table_ext; apply ddphi_agree).
  rewrite !P, !D, !DD. tauto.
Qed.

Lemma tables_indep : forall f k (c : nat -> R),
  (forall x y, -1 < x < 1 -> -1 < y < 1 ->
     Sum (fun r => c r * entry (b_value f (k * k) [x] [y]) r 0) (k * k) = 0) ->
  forall r, (r < k * k)%nat -> c r = 0.
Proof.
  intros f k c H r Hr. destruct (row_split k r Hr) as (i & j & -> & Hi & Hj).
  apply (Phi_indep f k (fun i j => c (k * i + j)%nat)); auto.
  intros x y Hx Hy. specialize (H x y Hx Hy). rewrite Sum_rsum, rsum_mul in H.
  etransitivity; [|apply H].
  apply rsum_ext; intros a Ha. apply rsum_ext; intros b Hb.
  rewrite (Nat.mul_comm a k), value_entry by one. reflexivity.
Qed.
