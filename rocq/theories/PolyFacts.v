(* Facts about the polynomial layer (Jacobi.v) over the reals. *)
From Coq Require Import ZArith List Arith Lia Reals Lra.
From Coquelicot Require Import Coquelicot.
From Verif Require Import Num Py Jacobi RCalc.
Import ListNotations.
Local Open Scope R_scope.

(* Finite sums: rsum f n = f 0 + ... + f (n-1). *)
Fixpoint rsum (f : nat -> R) (n : nat) : R :=
  match n with O => 0 | S m => rsum f m + f m end.

Lemma rsum_ext : forall f g n, (forall k, (k < n)%nat -> f k = g k) -> rsum f n = rsum g n.
Proof.
  induction n; simpl; intros; auto. rewrite IHn, H; auto.
Qed.
Lemma rsum_S : forall f n, rsum f (S n) = rsum f n + f n.
Proof. reflexivity. Qed.
Lemma rsum_plus : forall f g n, rsum (fun k => f k + g k) n = rsum f n + rsum g n.
Proof. induction n; simpl; intros; lra. Qed.
Lemma rsum_minus : forall f g n, rsum (fun k => f k - g k) n = rsum f n - rsum g n.
Proof. induction n; simpl; intros; lra. Qed.
Lemma rsum_scal : forall c f n, rsum (fun k => c * f k) n = c * rsum f n.
Proof. induction n; simpl; intros; lra. Qed.
Lemma rsum_scal_r : forall c f n, rsum (fun k => f k * c) n = rsum f n * c.
Proof. induction n; simpl; intros; lra. Qed.
Lemma rsum_0 : forall n, rsum (fun _ => 0) n = 0.
Proof. induction n; simpl; lra. Qed.
Lemma rsum_S_l : forall f n, rsum f (S n) = f 0%nat + rsum (fun k => f (S k)) n.
Proof. induction n; simpl in *; intros; lra. Qed.
Lemma rsum_swap : forall f n m,
  rsum (fun i => rsum (fun j => f i j) m) n = rsum (fun j => rsum (fun i => f i j) n) m.
Proof.
  induction n; simpl; intros.
  - now rewrite rsum_0.
  - rewrite IHn. now rewrite <- rsum_plus.
Qed.
Lemma rsum_nonneg : forall f n, (forall k, (k < n)%nat -> 0 <= f k) -> 0 <= rsum f n.
Proof.
  induction n; simpl; intros; try lra.
  assert (0 <= rsum f n) by (apply IHn; intros; apply H; lia).
  assert (0 <= f n) by (apply H; lia). lra.
Qed.
Lemma rsum_single : forall f n i, (i < n)%nat ->
  (forall k, (k < n)%nat -> k <> i -> f k = 0) -> rsum f n = f i.
Proof.
  induction n; simpl; intros. lia.
  destruct (Nat.eq_dec i n).
  - subst. rewrite (rsum_ext _ (fun _ => 0)).
    + rewrite rsum_0; lra.
    + intros; apply H0; lia.
  - rewrite (IHn i); try lia. rewrite (H0 n); try lia. lra. intros; apply H0; lia.
Qed.
Lemma rsum_add : forall f n m, rsum f (n + m) = rsum f n + rsum (fun k => f (n + k)%nat) m.
Proof.
  induction m; simpl; intros.
  - rewrite Nat.add_0_r; lra.
  - rewrite Nat.add_succ_r; simpl. rewrite IHm. lra.
Qed.
Lemma rsum_mul : forall f n m,
  rsum f (n * m) = rsum (fun i => rsum (fun j => f (i * m + j)%nat) m) n.
Proof.
  induction n; simpl; intros; auto.
  replace (m + n * m)%nat with (n * m + m)%nat by lia.
  rewrite rsum_add, IHn. reflexivity.
Qed.

Lemma is_derive_rsum : forall (f : nat -> R -> R) (g : nat -> R) n x,
  (forall k, (k < n)%nat -> is_derive (f k) x (g k)) ->
  is_derive (fun y => rsum (fun k => f k y) n) x (rsum g n).
Proof.
  induction n; simpl; intros.
  - apply derR_const.
  - apply derR_plus.
    + apply IHn; intros; apply H; lia.
    + apply H; lia.
Qed.

(* Evaluation is a ring morphism. *)
Lemma peval_padd : forall (p q : poly R) x, peval (padd p q) x = peval p x + peval q x.
Proof.
  induction p; destruct q; simpl; intros; to_R; try lra.
  rewrite IHp. to_R. lra.
Qed.
Lemma peval_pscale : forall c (p : poly R) x, peval (pscale c p) x = c * peval p x.
Proof. induction p; simpl; intros; to_R; try lra. unfold pscale in IHp; rewrite IHp; to_R; lra. Qed.
Lemma peval_pmul : forall (p q : poly R) x, peval (pmul p q) x = peval p x * peval q x.
Proof.
  induction p; simpl; intros; to_R; try lra.
  rewrite peval_padd, peval_pscale. simpl. rewrite IHp. to_R. lra.
Qed.
Lemma peval_ppow : forall (p : poly R) n x, peval (ppow p n) x = peval p x ^ n.
Proof.
  induction n; simpl; intros; to_R; try lra.
  rewrite peval_pmul, IHn. auto.
Qed.
Lemma peval_fold_padd : forall (l : list (poly R)) x,
  peval (fold_right padd [] l) x = fold_right Rplus 0 (map (fun p => peval p x) l).
Proof. induction l; simpl; intros; to_R; auto. rewrite peval_padd, IHl; auto. Qed.

Lemma fold_right_rsum : forall (f : nat -> R) a n,
  fold_right Rplus 0 (map f (seq a n)) = rsum (fun k => f (a + k)%nat) n.
Proof.
  intros f a n; revert a; induction n; intros.
  - reflexivity.
  - rewrite rsum_S_l. cbn [seq map fold_right]. rewrite IHn. f_equal.
    + f_equal; lia.
    + apply rsum_ext; intros; f_equal; lia.
Qed.

(* The derivative of a polynomial. *)
Lemma pderiv_from_eval : forall (p : poly R) k x,
  peval (pderiv_from (S k) p) x = peval p x + peval (pderiv_from k p) x.
Proof.
  induction p; cbn [pderiv_from peval]; intros; to_R; try lra.
  rewrite IHp. rewrite !nofnat_R, S_INR. ring.
Qed.
Lemma pderiv_from_0 : forall (p : poly R) x,
  peval (pderiv_from 0 p) x = x * peval (pderiv p) x.
Proof.
  destruct p; intros; cbn [pderiv_from pderiv peval]; rewrite ?nofnat_R; to_R; simpl; lra.
Qed.
Lemma is_derive_peval : forall (p : poly R) x, is_derive (peval p) x (peval (pderiv p) x).
Proof.
  induction p; intros.
  - apply derR_const.
  - change (is_derive (fun x => a + x * peval p x) x (peval (pderiv_from 1 p) x)).
    rewrite pderiv_from_eval, pderiv_from_0.
    eapply derR_eq.
    + apply derR_plus; [apply derR_const|]. apply derR_mult; [apply derR_id | apply IHp].
    + simpl; lra.
Qed.
Lemma Derive_peval : forall (p : poly R) x, Derive (peval p) x = peval (pderiv p) x.
Proof. intros; apply is_derive_unique, is_derive_peval. Qed.
Lemma ex_derive_peval : forall (p : poly R) x, ex_derive (peval p) x.
Proof. intros; eexists; apply is_derive_peval. Qed.
Lemma continuous_peval : forall (p : poly R) x, continuous (peval p) x.
Proof. intros; apply (ex_derive_continuous (K:=R_AbsRing) (V:=R_NormedModule) (peval p) x), ex_derive_peval. Qed.
Lemma ex_RInt_peval : forall (p : poly R) a b, ex_RInt (peval p) a b.
Proof. intros; apply (ex_RInt_continuous (V:=R_CompleteNormedModule)); intros; apply continuous_peval. Qed.

(* Generalised binomials *)
Lemma gbinom_S : forall (z : R) k, gbinom z (S k) * INR (S k) = gbinom z k * (z - INR k).
Proof.
  intros. cbn [gbinom]. rewrite !nofnat_R. to_R.
  assert (INR (S k) <> 0) by (apply not_0_INR; lia). field; auto.
Qed.

(* Value of the Jacobi polynomial: explicit sum. *)
Definition jcoef (n : nat) (a b : R) (l : nat) : R :=
  gbinom (INR n + a) l * gbinom (INR n + b) (n - l).

Lemma jac_eval : forall n a b x,
  peval (jac n a b) x =
  / 2 ^ n * rsum (fun l => jcoef n a b l * ((x - 1) ^ (n - l) * (x + 1) ^ l)) (S n).
Proof.
  intros. unfold jac. rewrite peval_pscale, peval_fold_padd, map_map, fold_right_rsum.
  rewrite npow_R. to_R. unfold Rdiv; rewrite Rmult_1_l. f_equal.
  apply rsum_ext; intros l Hl. simpl (0 + l)%nat. unfold jac_term.
  rewrite peval_pscale, peval_pmul, !peval_ppow, !nofnat_R. unfold jcoef. to_R. simpl.
  f_equal. f_equal; f_equal; lra.
Qed.

Lemma pow_deriv2 : forall (i j : nat) (x : R),
  is_derive (fun y : R => (y - 1) ^ i * (y + 1) ^ j) x
   (INR i * (x - 1) ^ (i - 1) * (x + 1) ^ j + INR j * (x - 1) ^ i * (x + 1) ^ (j - 1)).
Proof.
  intros.
  assert (H1 : is_derive (fun y : R => (y - 1) ^ i) x (INR i * (1 - 0) * (x - 1) ^ (i - 1)))
    by (apply (derR_pow (fun y => y - 1)); apply derR_minus; [apply derR_id | apply derR_const]).
  assert (H2 : is_derive (fun y : R => (y + 1) ^ j) x (INR j * (1 + 0) * (x + 1) ^ (j - 1)))
    by (apply (derR_pow (fun y => y + 1)); apply derR_plus; [apply derR_id | apply derR_const]).
  eapply derR_eq. apply (derR_mult _ _ _ _ _ H1 H2). simpl; lra.
Qed.

(* d/dx P_n^(a,b) = (n+a+b+1)/2 P_{n-1}^(a+1,b+1) *)
Lemma jac_derive : forall n a b x,
  is_derive (peval (jac (S n) a b)) x
    ((INR (S n) + a + b + 1) / 2 * peval (jac n (a + 1) (b + 1)) x).
Proof.
  intros.
  apply (derR_ext (fun x => / 2 ^ S n *
     rsum (fun l => jcoef (S n) a b l * ((x - 1) ^ (S n - l) * (x + 1) ^ l)) (S (S n)))).
  { intros; now rewrite jac_eval. }
  eapply derR_eq.
  { apply derR_scal. apply is_derive_rsum with
      (f := fun l x => jcoef (S n) a b l * ((x - 1) ^ (S n - l) * (x + 1) ^ l)).
    intros k Hk. apply derR_scal. apply pow_deriv2. }
  assert (Hs : forall l, (l <= n)%nat ->
     jcoef (S n) a b l * INR (S n - l) + jcoef (S n) a b (S l) * INR (S l)
     = (INR (S n) + a + b + 1) * jcoef n (a+1) (b+1) l).
  { intros l Hl. unfold jcoef.
    replace (S n - l)%nat with (S (n - l)) by lia.
    replace (S n - S l)%nat with (n - l)%nat by lia.
    replace (INR n + (a + 1)) with (INR (S n) + a) by (rewrite S_INR; lra).
    replace (INR n + (b + 1)) with (INR (S n) + b) by (rewrite S_INR; lra).
    rewrite Rmult_assoc, gbinom_S.
    replace (gbinom (INR (S n) + a) (S l) * gbinom (INR (S n) + b) (n - l) * INR (S l))
      with (gbinom (INR (S n) + a) (S l) * INR (S l) * gbinom (INR (S n) + b) (n - l)) by ring.
    rewrite gbinom_S. rewrite minus_INR by lia. rewrite S_INR. ring. }
  rewrite (rsum_ext _ (fun l => jcoef (S n) a b l * INR (S n - l) * (x - 1) ^ (S n - l - 1) * (x + 1) ^ l
      + jcoef (S n) a b l * INR l * (x - 1) ^ (S n - l) * (x + 1) ^ (l - 1)))
    by (intros; ring).
  rewrite rsum_plus.
  rewrite (rsum_S_l (fun l => jcoef (S n) a b l * INR l * (x - 1) ^ (S n - l) * (x + 1) ^ (l - 1))).
  rewrite (rsum_S _ (S n)).
  rewrite Nat.sub_diag. change (INR 0) with 0.
  rewrite !Rmult_0_r, !Rmult_0_l, Rplus_0_r, Rplus_0_l.
  rewrite <- rsum_plus.
  rewrite (rsum_ext _ (fun k => (INR (S n) + a + b + 1) * (jcoef n (a+1) (b+1) k * ((x - 1) ^ (n - k) * (x + 1) ^ k)))).
  2:{ intros; rewrite <- Rmult_assoc, <- Hs by lia.
      replace (S n - k - 1)%nat with (n - k)%nat by lia.
      replace (S n - S k)%nat with (n - k)%nat by lia.
      replace (S k - 1)%nat with k by lia. ring. }
  rewrite rsum_scal. rewrite jac_eval.
  change (2 ^ S n) with (2 * 2 ^ n). assert (2 ^ n <> 0) by (apply pow_nonzero; lra). field. auto.
Qed.

(* End-point values *)
Lemma jac_at_1 : forall n a b, peval (jac n a b) 1 = gbinom (INR n + a) n.
Proof.
  intros. rewrite jac_eval. cbn [rsum].
  rewrite (rsum_ext _ (fun _ => 0)).
  - rewrite rsum_0. unfold jcoef. rewrite Nat.sub_diag. cbn [gbinom pow]. to_R.
    replace (1 + 1) with 2 by lra.
    assert (2 ^ n <> 0) by (apply pow_nonzero; lra). field; auto.
  - intros. replace (1 - 1) with 0 by lra. rewrite pow_i by lia. ring.
Qed.
Lemma jac_at_m1 : forall n a b, peval (jac n a b) (-1) = (-1) ^ n * gbinom (INR n + b) n.
Proof.
  intros. rewrite jac_eval. rewrite rsum_S_l.
  rewrite (rsum_ext _ (fun _ => 0)).
  - rewrite rsum_0. unfold jcoef. rewrite Nat.sub_0_r. cbn [gbinom]. to_R.
    replace (-1 - 1) with ((-1) * 2) by lra. rewrite Rpow_mult_distr. simpl ((-1 + 1) ^ 0).
    assert (2 ^ n <> 0) by (apply pow_nonzero; lra). field; auto.
  - intros. replace (-1 + 1) with 0 by lra. rewrite (pow_i (S k)) by lia. ring.
Qed.

(* C(n, n) = 1 and positivity of C(n + a, n) for a > -1 *)
Lemma gbinom_pos : forall z k, INR k <= z + 1 -> -1 < z - INR k -> 0 < gbinom z k.
Proof.
  intros z k _. revert z. induction k; intros.
  - cbn; to_R; lra.
  - cbn [gbinom]. rewrite !nofnat_R. to_R. rewrite S_INR in *.
    assert (0 <= INR k) by apply pos_INR.
    apply Rmult_lt_0_compat; [apply Rmult_lt_0_compat|].
    + apply IHk. lra.
    + lra.
    + apply Rinv_0_lt_compat; lra.
Qed.
Lemma gbinom_n_pos : forall n a, -1 < a -> 0 < gbinom (INR n + a) n.
Proof.
  intros. apply gbinom_pos; lra.
Qed.
Lemma gbinom_nn : forall n, gbinom (INR n) n = 1.
Proof.
  (* C(n,k) with k factors: C(m + k, ...) via the symmetric value *)
  assert (H : forall k m, gbinom (INR (m + k)) k = gbinom (INR (m + k)) m).
  { assert (G : forall k m, gbinom (INR (m + k)) k * INR (fact k) * INR (fact m) = INR (fact (m + k))).
    { induction k; intros.
      - rewrite Nat.add_0_r. simpl. to_R. ring.
      - replace (m + S k)%nat with (S m + k)%nat by lia.
        specialize (IHk (S m)).
        assert (E : gbinom (INR (S m + k)) (S k) * INR (S k) = gbinom (INR (S m + k)) k * INR (S m)).
        { rewrite gbinom_S. f_equal. rewrite plus_INR. ring. }
        change (fact (S k)) with (S k * fact k)%nat. rewrite mult_INR.
        rewrite <- IHk. change (fact (S m)) with (S m * fact m)%nat. rewrite (mult_INR (S m)).
        transitivity (gbinom (INR (S m + k)) (S k) * INR (S k) * INR (fact k) * INR (fact m)). ring.
        rewrite E. ring. }
    intros. pose proof (G k m) as G1. pose proof (G m k) as G2.
    rewrite (Nat.add_comm k m) in G2. 
    assert (INR (fact k) <> 0) by apply INR_fact_neq_0.
    assert (INR (fact m) <> 0) by apply INR_fact_neq_0.
    apply Rmult_eq_reg_r with (INR (fact k)); auto.
    apply Rmult_eq_reg_r with (INR (fact m)); auto.
    rewrite G1, <- G2. ring. }
  intros. specialize (H n 0%nat). simpl (0 + n)%nat in H. rewrite H. reflexivity.
Qed.

Lemma leg_at_1 : forall n, peval (leg n) 1 = 1.
Proof.
  intros. unfold leg. rewrite jac_at_1. to_R. rewrite Rplus_0_r. apply gbinom_nn.
Qed.
Lemma leg_at_m1 : forall n, peval (leg n) (-1) = (-1) ^ n.
Proof.
  intros. unfold leg. rewrite jac_at_m1. to_R. rewrite Rplus_0_r, gbinom_nn. ring.
Qed.
Lemma jac_0 : forall (a b : R) x, peval (jac 0 a b) x = 1.
Proof. intros. rewrite jac_eval. unfold jcoef. cbn. to_R. field. Qed.
