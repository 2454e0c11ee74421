(* Jacobi/Legendre polynomials: the raising relation, the differential equation,
   orthogonality and the zeros. *)
From Coq Require Import ZArith List Arith Lia Reals Lra Sorting.Sorted.
From Coquelicot Require Import Coquelicot.
From Verif Require Import Num Py Jacobi RCalc PolyFacts PolyDeg.
Import ListNotations.
Local Open Scope R_scope.

(* d/dx (1-x^2)^(k+1) P_m^(k+1,k+1) = -2(m+1) (1-x^2)^k P_{m+1}^(k,k) *)
Lemma jac_raise : forall m k (x : R),
  is_derive (fun x => (1 - x ^ 2) ^ S k * peval (jac m (INR k + 1) (INR k + 1)) x) x
    (-2 * INR (S m) * ((1 - x ^ 2) ^ k * peval (jac (S m) (INR k) (INR k)) x)).
Proof.
  intros.
  apply (derR_ext (fun x => ((-1) ^ S k * / 2 ^ m) *
     rsum (fun l => jcoef m (INR k + 1) (INR k + 1) l * ((x - 1) ^ (m - l + S k) * (x + 1) ^ (l + S k))) (S m))).
  { intros y. rewrite jac_eval.
    replace (1 - y ^ 2) with ((-1) * ((y - 1) * (y + 1))) by (simpl; ring).
    rewrite !Rpow_mult_distr.
    transitivity ((-1) ^ S k * / 2 ^ m * ((y - 1) ^ S k * (y + 1) ^ S k *
      rsum (fun l : nat => jcoef m (INR k + 1) (INR k + 1) l * ((y - 1) ^ (m - l) * (y + 1) ^ l)) (S m))).
    - f_equal. rewrite <- rsum_scal. apply rsum_ext; intros l Hl. rewrite !pow_add. ring.
    - ring. }
  eapply derR_eq.
  { apply derR_scal. apply is_derive_rsum with
      (f := fun l x => jcoef m (INR k + 1) (INR k + 1) l * ((x - 1) ^ (m - l + S k) * (x + 1) ^ (l + S k))).
    intros j Hj. apply derR_scal. apply pow_deriv2. }
  set (z := INR m + (INR k + 1)).
  assert (Hz : z = INR (S m) + INR k) by (unfold z; rewrite S_INR; ring).
  (* coefficient identities *)
  assert (C1 : forall l, (l <= m)%nat -> jcoef m (INR k + 1) (INR k + 1) l * INR (m - l + S k)
     = INR (S l) * jcoef (S m) (INR k) (INR k) (S l)).
  { intros l Hl. unfold jcoef. fold z. rewrite <- Hz. simpl (S m - S l)%nat.
    replace (INR (m - l + S k)) with (z - INR l)
      by (unfold z; rewrite plus_INR, minus_INR, S_INR by lia; ring).
    transitivity (gbinom z l * (z - INR l) * gbinom z (m - l)); [ring|].
    rewrite <- gbinom_S. ring. }
  assert (C2 : forall l, (l <= m)%nat -> jcoef m (INR k + 1) (INR k + 1) l * INR (l + S k)
     = INR (S m - l) * jcoef (S m) (INR k) (INR k) l).
  { intros l Hl. unfold jcoef. fold z. rewrite <- Hz.
    replace (S m - l)%nat with (S (m - l)) by lia.
    replace (INR (l + S k)) with (z - INR (m - l))
      by (unfold z; rewrite plus_INR, minus_INR, S_INR by lia; ring).
    rewrite Rmult_assoc, <- gbinom_S. ring. }
  rewrite (rsum_ext _ (fun l => (x - 1) ^ k * (x + 1) ^ k *
      (INR (S l) * jcoef (S m) (INR k) (INR k) (S l) * ((x - 1) ^ (m - l) * (x + 1) ^ S l)
     + INR (S m - l) * jcoef (S m) (INR k) (INR k) l * ((x - 1) ^ (S m - l) * (x + 1) ^ l)))).
  2:{ intros l Hl. rewrite <- C1, <- C2 by lia.
      replace (m - l + S k - 1)%nat with (m - l + k)%nat by lia.
      replace (l + S k - 1)%nat with (l + k)%nat by lia.
      replace (S m - l)%nat with (S (m - l)) by lia.
      rewrite !pow_add. simpl. ring. }
  rewrite rsum_scal, rsum_plus.
  (* both sums over 0 .. m+1 *)
  assert (S1 : rsum (fun l => INR (S l) * jcoef (S m) (INR k) (INR k) (S l) * ((x - 1) ^ (m - l) * (x + 1) ^ S l)) (S m)
     = rsum (fun j => INR j * (jcoef (S m) (INR k) (INR k) j * ((x - 1) ^ (S m - j) * (x + 1) ^ j))) (S (S m))).
  { rewrite (rsum_S_l _ (S m)). simpl (INR 0). rewrite Rmult_0_l, Rplus_0_l.
    apply rsum_ext; intros l Hl. simpl (S m - S l)%nat. ring. }
  assert (S2 : rsum (fun l => INR (S m - l) * jcoef (S m) (INR k) (INR k) l * ((x - 1) ^ (S m - l) * (x + 1) ^ l)) (S m)
     = rsum (fun j => INR (S m - j) * (jcoef (S m) (INR k) (INR k) j * ((x - 1) ^ (S m - j) * (x + 1) ^ j))) (S (S m))).
  { rewrite (rsum_S _ (S m)). rewrite Nat.sub_diag. simpl (INR 0). rewrite Rmult_0_l, Rplus_0_r.
    apply rsum_ext; intros l Hl. ring. }
  rewrite S1, S2, <- rsum_plus.
  rewrite (rsum_ext _ (fun j => INR (S m) * (jcoef (S m) (INR k) (INR k) j * ((x - 1) ^ (S m - j) * (x + 1) ^ j)))).
  2:{ intros j Hj. rewrite minus_INR by lia. ring. }
  rewrite rsum_scal. rewrite jac_eval.
  replace (1 - x ^ 2) with ((-1) * ((x - 1) * (x + 1))) by (simpl; ring).
  rewrite !Rpow_mult_distr.
  set (T := rsum _ _). change (2 ^ S m) with (2 * 2 ^ m).
  assert (2 ^ m <> 0) by (apply pow_nonzero; lra). simpl ((-1) ^ S k). field. auto.
Qed.

(* ---------- Legendre differential equation ---------- *)
Definition dleg (N : nat) (x : R) : R := peval (pderiv (leg N)) x.
Lemma dleg_derive : forall N (x : R), is_derive (peval (leg N)) x (dleg N x).
Proof. intros. apply is_derive_peval. Qed.
Lemma dleg_jac : forall m (x : R), dleg (S m) x = (INR (S m) + 1) / 2 * peval (jac m 1 1) x.
Proof.
  intros. apply (derR_uniq (peval (leg (S m))) x). apply dleg_derive.
  eapply derR_eq. apply (jac_derive m 0 0). replace (0 + 1) with 1 by lra.
  replace (INR (S m) + 0 + 0 + 1) with (INR (S m) + 1) by lra. reflexivity.
Qed.
Lemma jac_length : forall n (a b : R), (length (jac n a b) <= S n)%nat.
Proof.
  intros. unfold jac. rewrite pscale_length.
  assert (P : forall (p : list R) k, (length p <= 2)%nat -> p <> [] -> (length (ppow p k) <= S k)%nat /\ ppow p k <> []).
  { induction k; intros; simpl.
    - split; [lia | discriminate].
    - destruct IHk; auto. split.
      + pose proof (pmul_length p (ppow p k) H2). lia.
      + destruct p; [congruence|]. simpl. destruct (pscale _ _); simpl; discriminate. }
  assert (G : forall l : list nat, (forall i, In i l -> (i <= n)%nat) ->
     (length (fold_right padd [] (map (jac_term n a b) l)) <= S n)%nat).
  { induction l; simpl; intros; [lia|]. rewrite padd_length. apply Nat.max_lub.
    - unfold jac_term. rewrite pscale_length.
      destruct (P [nopp n1; n1] (n - a0)%nat) as [P1 _]; [simpl; auto | discriminate|].
      destruct (P [n1; n1] a0) as [P2 P3]; [simpl; auto | discriminate|].
      pose proof (pmul_length (ppow [nopp n1; n1] (n - a0)) (ppow [n1; n1] a0) P3).
      specialize (H a0 (or_introl eq_refl)). lia.
    - apply IHl. auto. }
  apply G. intros i Hi. apply in_seq in Hi. lia.
Qed.
Lemma jac_pdeg : forall n a b, pdeg (S n) (peval (jac n a b)).
Proof. intros. apply (pdeg_mono (length (jac n a b))). apply jac_length. apply pdeg_peval. Qed.
Lemma leg_pdeg : forall n, pdeg (S n) (peval (leg n)).
Proof. intros. apply jac_pdeg. Qed.

Lemma legendre_ode : forall N (x : R),
  is_derive (fun x => (1 - x ^ 2) * dleg N x) x (- (INR N * (INR N + 1)) * peval (leg N) x).
Proof.
  intros. destruct N as [|m].
  - apply (derR_ext (fun _ => 0)).
    + intros. replace (dleg 0 y) with 0; [ring|].
      apply (derR_uniq (peval (leg 0)) y); [|apply dleg_derive].
      apply (derR_ext (fun _ => 1)). intros; unfold leg; now rewrite jac_0. apply derR_const.
    + eapply derR_eq; [apply derR_const|]. simpl; ring.
  - apply (derR_ext (fun x => (INR (S m) + 1) / 2 * ((1 - x ^ 2) ^ 1 * peval (jac m (INR 0 + 1) (INR 0 + 1)) x))).
    { intros. rewrite dleg_jac. simpl (INR 0). replace (0 + 1) with 1 by lra. simpl (_ ^ 1). ring. }
    eapply derR_eq; [apply derR_scal; apply (jac_raise m 0)|].
    simpl (INR 0). unfold leg. simpl ((1 - x ^ 2) ^ 0). change (@n0 R Num_R) with 0. field.
Qed.

(* ---------- orthogonality ---------- *)
Lemma one_m_sq_pdeg : pdeg 3 (fun x => 1 - x ^ 2).
Proof. exists [1; 0; -1]. split; auto. intros; simpl; to_R; ring. Qed.
Lemma deriv_pdeg : forall d f f', pdeg (S d) f -> (forall x, is_derive f x (f' x)) -> pdeg d f'.
Proof.
  intros d f f' H H'. destruct (pdeg_deriv d f H) as (g & Hg & Dg).
  apply (pdeg_ext _ g); auto. intros. eapply derR_uniq; eauto.
Qed.
Lemma dleg_pdeg : forall N, pdeg N (dleg N).
Proof. intros. apply (deriv_pdeg N (peval (leg N))). apply leg_pdeg. apply dleg_derive. Qed.

(* For every polynomial q: int P_N (L q) = -N(N+1) int P_N q, L q = ((1-x^2) q')' *)
Lemma legendre_selfadj : forall N d q q' Lq, pdeg d q -> (forall x, is_derive q x (q' x)) ->
  (forall x, is_derive (fun x => (1 - x ^ 2) * q' x) x (Lq x)) ->
  RInt (fun x => Lq x * peval (leg N) x) (-1) 1
  = - (INR N * (INR N + 1)) * RInt (fun x => peval (leg N) x * q x) (-1) 1.
Proof.
  intros N d q q' Lq Hq Dq DL.
  assert (Hq' : pdeg d q') by (apply (deriv_pdeg d q); auto; apply (pdeg_mono d); auto).
  assert (H1 : pdeg (3 + d - 1) (fun x => (1 - x ^ 2) * q' x)) by (apply pdeg_mult; auto; apply one_m_sq_pdeg).
  rewrite (pdeg_ibp _ _ (fun x => (1 - x ^ 2) * q' x) (peval (leg N)) Lq (dleg N) (-1) 1 H1 (leg_pdeg N) DL (dleg_derive N)).
  assert (H2 : pdeg (3 + N - 1) (fun x => (1 - x ^ 2) * dleg N x)) by (apply pdeg_mult; [apply one_m_sq_pdeg | apply dleg_pdeg]).
  pose proof (pdeg_ibp _ _ (fun x => (1 - x ^ 2) * dleg N x) q
     (fun x => - (INR N * (INR N + 1)) * peval (leg N) x) q' (-1) 1 H2 Hq (legendre_ode N) Dq) as I2. cbv beta in I2.
  rewrite (RIntR_ext (fun x => - (INR N * (INR N + 1)) * peval (leg N) x * q x)
     (fun x => - (INR N * (INR N + 1)) * (peval (leg N) x * q x))) in I2 by (intros; ring).
  rewrite RIntR_scal in I2.
  2:{ eapply pdeg_ex_RInt. apply pdeg_mult; [apply leg_pdeg | apply Hq]. }
  rewrite I2.
  rewrite (RIntR_ext (fun x => (1 - x ^ 2) * q' x * dleg N x) (fun x => (1 - x ^ 2) * dleg N x * q' x)) by (intros; ring).
  simpl; ring.
Qed.

Lemma legendre_orth_mono : forall N m, (m < N)%nat -> RInt (fun x => peval (leg N) x * x ^ m) (-1) 1 = 0.
Proof.
  intros N m. induction m as [m IH] using (well_founded_induction Wf_nat.lt_wf). intros Hm.
  set (I := fun m => RInt (fun x => peval (leg N) x * x ^ m) (-1) 1) in *.
  assert (EX : forall m, ex_RInt (fun x => peval (leg N) x * x ^ m) (-1) 1).
  { intros. eapply pdeg_ex_RInt. apply pdeg_mult; [apply leg_pdeg | apply pdeg_pow]. }
  assert (D : forall n (x : R), is_derive (fun x => x ^ n) x (INR n * x ^ (n - 1))).
  { intros. eapply derR_eq; [apply (derR_pow (fun y => y) n x 1); apply derR_id|]. ring. }
  assert (L : forall x : R, is_derive (fun x => (1 - x ^ 2) * (INR m * x ^ (m - 1))) x
     (INR m * (INR (m - 1) * x ^ (m - 2)) - INR m * (INR m + 1) * x ^ m)).
  { intros. destruct m as [|m].
    - apply (derR_ext (fun _ => 0)). intros; simpl; ring. eapply derR_eq; [apply derR_const|]. simpl; ring.
    - replace (S m - 1)%nat with m by lia. replace (S m - 2)%nat with (m - 1)%nat by lia.
      apply (derR_ext (fun x => INR (S m) * (x ^ m - x ^ (S (S m))))).
      + intros; simpl; ring.
      + eapply derR_eq.
        * apply derR_scal. apply derR_minus; apply D.
        * replace (S (S m) - 1)%nat with (S m) by lia. rewrite (S_INR (S m)). ring. }
  pose proof (legendre_selfadj N _ (fun x => x ^ m) _ _ (pdeg_pow m) (D m) L) as E. cbv beta in E.
  fold (I m) in E.
  rewrite (RIntR_ext _ (fun x => INR m * INR (m - 1) * (peval (leg N) x * x ^ (m - 2))
       - INR m * (INR m + 1) * (peval (leg N) x * x ^ m))) in E by (intros; ring).
  rewrite RIntR_minus in E.
  2:{ apply (ex_RInt_scal (V := R_NormedModule) (fun x => peval (leg N) x * x ^ (m - 2)) (-1) 1 (INR m * INR (m - 1))). auto. }
  2:{ apply (ex_RInt_scal (V := R_NormedModule) (fun x => peval (leg N) x * x ^ m) (-1) 1 (INR m * (INR m + 1))). auto. }
  rewrite !RIntR_scal in E by auto. fold (I m) (I (m - 2)%nat) in E.
  assert (Z : INR m * INR (m - 1) * I (m - 2)%nat = 0).
  { destruct m as [|[|m]]; [simpl; ring | simpl; ring |]. unfold I. rewrite IH; [ring | lia | lia]. }
  rewrite Z in E.
  assert (INR m + 1 <= INR N) by (rewrite <- S_INR; apply le_INR; lia).
  assert (0 <= INR m) by apply pos_INR.
  assert (NZ : INR m * (INR m + 1) - INR N * (INR N + 1) <> 0).
  { apply Rlt_not_eq. assert (0 <= (INR N - INR m - 1) * (INR N + INR m + 1)) by (apply Rmult_le_pos; lra). nra. }
  apply Rmult_eq_reg_l with (INR m * (INR m + 1) - INR N * (INR N + 1)); auto. change (RInt (fun x => peval (leg N) x * x ^ m) (-1) 1) with (I m). clearbody I. nra.
Qed.

Lemma RInt_rsum : forall (f : nat -> R -> R) n a b, (forall k, (k < n)%nat -> ex_RInt (f k) a b) ->
  ex_RInt (fun x => rsum (fun k => f k x) n) a b /\
  RInt (fun x => rsum (fun k => f k x) n) a b = rsum (fun k => RInt (f k) a b) n.
Proof.
  induction n; intros.
  - cbn [rsum]. split. apply ex_RInt_const. rewrite RIntR_const; apply Rmult_0_l.
  - destruct (IHn a b) as [E1 E2]; [intros; apply H; lia|]. cbn [rsum]. split.
    + apply (ex_RInt_plus (V := R_NormedModule)); auto.
    + rewrite RIntR_plus by auto. now rewrite E2.
Qed.

Lemma legendre_orth : forall N q, pdeg N q -> RInt (fun x => peval (leg N) x * q x) (-1) 1 = 0.
Proof.
  intros N q (p & Hp & Hq).
  assert (EX : forall m, ex_RInt (fun x => peval (leg N) x * x ^ m) (-1) 1).
  { intros. eapply pdeg_ex_RInt. apply pdeg_mult; [apply leg_pdeg | apply pdeg_pow]. }
  rewrite (RIntR_ext _ (fun x => rsum (fun k => nth k p 0 * (peval (leg N) x * x ^ k)) (length p))).
  2:{ intros. rewrite Hq, (peval_mono p), <- rsum_scal. apply rsum_ext; intros; ring. }
  destruct (RInt_rsum (fun k x => nth k p 0 * (peval (leg N) x * x ^ k)) (length p) (-1) 1) as [_ E].
  { intros. apply (ex_RInt_scal (V := R_NormedModule) (fun x => peval (leg N) x * x ^ k)). auto. }
  rewrite E. rewrite (rsum_ext _ (fun _ => 0)); [apply rsum_0|].
  intros. rewrite RIntR_scal by auto. rewrite legendre_orth_mono by lia. ring.
Qed.

(* (1-x^2) P_N' is orthogonal to all polynomials of degree at most N-2 *)
Lemma lobatto_orth : forall N q, pdeg (N - 1) q -> (1 <= N)%nat ->
  RInt (fun x => (1 - x ^ 2) * dleg N x * q x) (-1) 1 = 0.
Proof.
  intros N q Hq HN. destruct (pdeg_prim _ q Hq) as (Q & HQ & DQ).
  replace (S (N - 1)) with N in HQ by lia.
  assert (H2 : pdeg (3 + N - 1) (fun x => (1 - x ^ 2) * dleg N x)) by (apply pdeg_mult; [apply one_m_sq_pdeg | apply dleg_pdeg]).
  pose proof (pdeg_ibp _ _ (fun x => (1 - x ^ 2) * dleg N x) Q
     (fun x => - (INR N * (INR N + 1)) * peval (leg N) x) q (-1) 1 H2 HQ (legendre_ode N) DQ) as E. cbv beta in E.
  rewrite (RIntR_ext (fun x => - (INR N * (INR N + 1)) * peval (leg N) x * Q x)
     (fun x => - (INR N * (INR N + 1)) * (peval (leg N) x * Q x))) in E by (intros; ring).
  rewrite RIntR_scal in E.
  2:{ eapply pdeg_ex_RInt. apply pdeg_mult; [apply leg_pdeg | apply HQ]. }
  rewrite legendre_orth in E by auto. 
  replace (1 - 1 ^ 2) with 0 in E by ring. replace (1 - (-1) ^ 2) with 0 in E by ring. lra.
Qed.

(* End-point values of the derivative *)
Lemma gbinom_n_nm1 : forall m, gbinom (INR (S m)) m = INR (S m).
Proof.
  intros. pose proof (gbinom_S (INR (S m)) m). rewrite gbinom_nn in H.
  rewrite S_INR in H at 3. lra.
Qed.
Lemma dleg_at_1 : forall m, dleg (S m) 1 = INR (S m) * (INR (S m) + 1) / 2.
Proof.
  intros. rewrite dleg_jac, jac_at_1. replace (INR m + 1) with (INR (S m)) by apply S_INR.
  rewrite gbinom_n_nm1. field.
Qed.
Lemma dleg_at_m1 : forall m, dleg (S m) (-1) = (-1) ^ m * (INR (S m) * (INR (S m) + 1) / 2).
Proof.
  intros. rewrite dleg_jac, jac_at_m1. replace (INR m + 1) with (INR (S m)) by apply S_INR.
  rewrite gbinom_n_nm1. field.
Qed.

(* ---------- zeros ---------- *)
Fixpoint incr (lo : R) (l : list R) (hi : R) : Prop :=
  match l with [] => lo < hi | a :: r => lo < a /\ incr a r hi end.
Lemma incr_lt : forall l lo hi, incr lo l hi -> lo < hi.
Proof. induction l; simpl; intros; auto. destruct H. apply IHl in H0. lra. Qed.
Lemma incr_in : forall l lo hi, incr lo l hi -> forall a, In a l -> lo < a < hi.
Proof.
  induction l; simpl; intros lo hi H b Hb; [easy|]. destruct H as [H1 H2]. destruct Hb as [->|Hb].
  - split; auto. now apply incr_lt in H2.
  - destruct (IHl _ _ H2 b Hb). lra.
Qed.
Lemma incr_nodup : forall l lo hi, incr lo l hi -> NoDup l.
Proof.
  induction l; simpl; intros. constructor. destruct H. constructor; eauto.
  intro Hi. destruct (incr_in _ _ _ H0 a Hi). lra.
Qed.

Lemma rolle : forall (f g : R -> R) a b, a < b -> (forall x, is_derive f x (g x)) ->
  f a = 0 -> f b = 0 -> exists c, a < c < b /\ g c = 0.
Proof.
  intros f g a b Hab D Ha Hb.
  assert (E : exists c, g c * (b - a) = f b - f a /\ a < c < b).
  { destruct (MVT_cor2 f g a b Hab) as (c & H1 & H2).
    - intros. apply is_derive_Reals. apply D.
    - exists c. split; auto. }
  destruct E as (c & H1 & H2). exists c. split; auto.
  rewrite Ha, Hb in H1. replace (0 - 0) with 0 in H1 by ring.
  apply Rmult_integral in H1. destruct H1; auto. lra.
Qed.

Lemma rolle_list : forall l lo hi (f g : R -> R), incr lo l hi -> (forall x, is_derive f x (g x)) ->
  f lo = 0 -> f hi = 0 -> (forall a, In a l -> f a = 0) ->
  exists l', length l' = S (length l) /\ incr lo l' hi /\ forall a, In a l' -> g a = 0.
Proof.
  induction l; simpl; intros lo hi f g Hi D Hlo Hhi Hz.
  - destruct (rolle f g lo hi Hi D Hlo Hhi) as (c & Hc & Ec). exists [c]. simpl.
    repeat split; try tauto. intros b [<-|[]]; auto.
  - destruct Hi as [H1 H2]. assert (Ha : f a = 0) by auto.
    destruct (rolle f g lo a H1 D Hlo Ha) as (c & Hc & Ec).
    destruct (IHl a hi f g H2 D Ha Hhi) as (l' & L1 & L2 & L3); auto.
    exists (c :: l'). simpl. repeat split; try tauto; auto.
    + destruct l'; simpl in *; [discriminate|]. split; [lra | tauto].
    + intros b [<-|Hb]; auto.
Qed.

Lemma jac_roots : forall m k, exists l, length l = m /\ incr (-1) l 1 /\
  forall a, In a l -> peval (jac m (INR k) (INR k)) a = 0.
Proof.
  induction m; intros.
  - exists []. simpl. repeat split; [lra | easy].
  - destruct (IHm (S k)) as (l & L1 & L2 & L3).
    rewrite S_INR in L3.
    destruct (rolle_list l (-1) 1 _ _ L2 (jac_raise m k)) as (l' & M1 & M2 & M3).
    + simpl; ring.
    + simpl; ring.
    + intros a Ha. rewrite L3 by auto. ring.
    + exists l'. split; [lia|]. split; auto. intros a Ha. specialize (M3 a Ha).
      destruct (incr_in _ _ _ M2 a Ha).
      apply Rmult_integral in M3. destruct M3 as [M3|M3].
      * exfalso. rewrite S_INR in M3. pose proof (pos_INR m). lra.
      * apply Rmult_integral in M3. destruct M3 as [M3|M3]; auto. exfalso.
        apply pow_nonzero in M3; auto. simpl. nra.
Qed.
