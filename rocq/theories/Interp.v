(* Interpolatory quadrature: Lagrange basis, exactness from orthogonality, Gauss and
   Gauss-Lobatto rules. *)
From Coq Require Import ZArith List Arith Lia Reals Lra Sorting.Permutation.
From Coquelicot Require Import Coquelicot.
From Verif Require Import Num Py Jacobi RCalc PolyFacts PolyDeg LegendreFacts ListFacts Basis Spec BasisFacts.
Import ListNotations.
Local Open Scope R_scope.

Lemma Poly_pdeg : forall c d, pdeg d (Poly c d).
Proof.
  intros. apply (pdeg_ext _ (fun x => rsum (fun k => c k * x ^ k) d)).
  - intros. reflexivity.
  - apply pdeg_rsum; intros. apply pdeg_scal. apply (pdeg_mono (S k)); [lia | apply pdeg_pow].
Qed.
Lemma pdeg_Poly : forall d f, pdeg d f -> exists c, forall x, f x = Poly c d x.
Proof.
  intros d f (p & Hp & Hf). exists (fun k => nth k p 0). intros x.
  rewrite Hf, peval_mono. unfold Poly. change Sum with rsum.
  replace d with (length p + (d - length p))%nat by lia. rewrite rsum_add.
  rewrite (rsum_ext (fun k => nth (length p + k) p 0 * _) (fun _ => 0)).
  - rewrite rsum_0. ring.
  - intros. rewrite nth_overflow by lia. ring.
Qed.

Lemma Rule_rsum : forall x w f, Rule x w f = rsum (fun i => nth i w 0 * f (nth i x 0)) (length x).
Proof. intros. reflexivity. Qed.
Lemma Rule_ext : forall x w f g, (forall t, f t = g t) -> Rule x w f = Rule x w g.
Proof. intros. rewrite !Rule_rsum. apply rsum_ext; intros. now rewrite H. Qed.
Lemma exact_pdeg : forall d x w f, exact_upto d x w -> pdeg d f -> Rule x w f = RInt f (-1) 1.
Proof.
  intros. destruct (pdeg_Poly d f H0) as (c & E).
  rewrite (Rule_ext x w f (Poly c d)) by auto. rewrite (RIntR_ext f (Poly c d)) by auto. apply H.
Qed.
Lemma pdeg_exact : forall d x w, (forall f, pdeg d f -> Rule x w f = RInt f (-1) 1) -> exact_upto d x w.
Proof. intros d x w H c. apply H. apply Poly_pdeg. Qed.

(* ---------- Lagrange basis ---------- *)
Definition others (l : list R) (i : nat) : list R := firstn i l ++ skipn (S i) l.
Lemma others_length : forall l i, (i < length l)%nat -> length (others l i) = (length l - 1)%nat.
Proof. intros. unfold others. rewrite app_length, firstn_length, skipn_length. lia. Qed.
Lemma split_nth : forall (l : list R) i, (i < length l)%nat -> l = firstn i l ++ nth i l 0 :: skipn (S i) l.
Proof.
  induction l; simpl; intros; [lia|]. destruct i; auto. simpl. f_equal. apply IHl. lia.
Qed.
Lemma others_notin : forall l i, NoDup l -> (i < length l)%nat -> ~ In (nth i l 0) (others l i).
Proof.
  intros. rewrite (split_nth l i H0) in H. now apply NoDup_remove_2 in H.
Qed.
Lemma others_in : forall l i j, (i < length l)%nat -> (j < length l)%nat -> i <> j -> In (nth j l 0) (others l i).
Proof.
  intros. unfold others. apply in_or_app.
  assert (Hin : In (nth j l 0) (firstn i l) \/ In (nth j l 0) (skipn (S i) l)); auto.
  assert (E0 : nth j l 0 = nth j (firstn i l ++ nth i l 0 :: skipn (S i) l) 0) by (rewrite <- split_nth; auto).
  rewrite E0. clear E0. set (a := firstn i l). set (b := skipn (S i) l).
  assert (La : length a = i) by (unfold a; rewrite firstn_length; lia).
  assert (Lb : length b = (length l - S i)%nat) by (unfold b; rewrite skipn_length; lia).
  destruct (lt_dec j i).
  - left. rewrite app_nth1 by lia. apply nth_In. lia.
  - right. rewrite app_nth2 by lia. rewrite La. destruct (j - i)%nat as [|k] eqn:E; [lia|]. simpl.
    apply nth_In. lia.
Qed.
Lemma in_others : forall l i a, In a (others l i) -> In a l.
Proof.
  intros. unfold others in H. apply in_app_or in H. destruct H.
  - rewrite <- (firstn_skipn i l). apply in_or_app. auto.
  - rewrite <- (firstn_skipn (S i) l). apply in_or_app. auto.
Qed.

Definition lag (l : list R) (i : nat) (x : R) : R :=
  / rprod (others l i) (nth i l 0) * rprod (others l i) x.
Lemma lag_pdeg : forall l i, (i < length l)%nat -> pdeg (length l) (lag l i).
Proof.
  intros. unfold lag. apply pdeg_scal. replace (length l) with (S (length (others l i))).
  apply rprod_pdeg. rewrite others_length; lia.
Qed.
Lemma lag_same : forall l i, NoDup l -> (i < length l)%nat -> lag l i (nth i l 0) = 1.
Proof. intros. unfold lag. apply Rinv_l. apply rprod_nonzero. now apply others_notin. Qed.
Lemma lag_other : forall l i j, (i < length l)%nat -> (j < length l)%nat -> i <> j -> lag l i (nth j l 0) = 0.
Proof. intros. unfold lag. rewrite (rprod_zero _ (nth j l 0)); [ring | now apply others_in]. Qed.

(* interpolatory weight *)
Definition iw (l : list R) (i : nat) : R := RInt (lag l i) (-1) 1.
Definition iws (l : list R) : list R := map (iw l) (seq 0 (length l)).
Lemma iws_length : forall l, length (iws l) = length l.
Proof. intros. unfold iws. now rewrite map_length, seq_length. Qed.
Lemma iws_nth : forall l i, (i < length l)%nat -> nth i (iws l) 0 = iw l i.
Proof. intros. unfold iws. now rewrite nth_seq_map. Qed.

Lemma interp_exact : forall l e, NoDup l ->
  (forall q, pdeg e q -> RInt (fun x => rprod l x * q x) (-1) 1 = 0) ->
  forall f, pdeg (length l + e) f -> Rule l (iws l) f = RInt f (-1) 1.
Proof.
  intros l e Hn Ho f Hf.
  set (r := fun x => rsum (fun i => f (nth i l 0) * lag l i x) (length l)).
  assert (Hr : pdeg (length l) r).
  { apply pdeg_rsum; intros. apply pdeg_scal. now apply lag_pdeg. }
  assert (Er : forall a, In a l -> r a = f a).
  { intros a Ha. destruct (In_nth l a 0 Ha) as (j & Hj & <-). unfold r.
    rewrite (rsum_single _ _ j); auto.
    - rewrite lag_same; auto. ring.
    - intros k Hk Hkj. rewrite lag_other; auto. ring. }
  destruct (pdeg_factor_list l e (fun x => f x - r x)) as (g & Hg & Eg); auto.
  - apply pdeg_minus; auto. apply (pdeg_mono (length l)); auto; lia.
  - intros a Ha. rewrite Er; auto. ring.
  - assert (I : RInt (fun x => f x - r x) (-1) 1 = 0).
    { rewrite (RIntR_ext _ (fun x => rprod l x * g x)) by auto. apply Ho; auto. }
    rewrite RIntR_minus in I by (eapply pdeg_ex_RInt; eauto).
    assert (R : RInt r (-1) 1 = Rule l (iws l) f).
    { unfold r. destruct (RInt_rsum (fun i x => f (nth i l 0) * lag l i x) (length l) (-1) 1) as [_ E].
      - intros. eapply pdeg_ex_RInt. apply pdeg_scal. now apply lag_pdeg.
      - rewrite E. rewrite Rule_rsum. apply rsum_ext; intros.
        rewrite RIntR_scal by (eapply pdeg_ex_RInt; now apply lag_pdeg).
        rewrite iws_nth by auto. unfold iw. ring. }
    lra.
Qed.

(* ---------- what exactness implies: positive weights, interior nodes ---------- *)
Lemma rprod_sq_pos : forall l (h : R -> R), (forall x, -1 < x < 1 -> 0 < h x) -> (forall x, continuous h x) ->
  0 < RInt (fun x => rprod l x * rprod l x * h x) (-1) 1.
Proof.
  intros l h Hh Ch. destruct (exists_off l (-1) 1) as (c & Hc & Hn); [lra|].
  apply (RInt_pos _ (-1) 1 c); auto.
  - intros x. apply (continuous_mult (K := R_AbsRing)); auto.
    apply (continuous_mult (K := R_AbsRing)); eapply pdeg_continuous; apply rprod_pdeg.
  - intros x Hx. apply Rmult_le_pos. apply Rle_0_sqr. apply Rlt_le; auto.
  - apply Rmult_lt_0_compat; auto. apply Rsqr_pos_lt. now apply rprod_nonzero.
Qed.

Lemma exact_weights : forall n x w, length x = n -> exact_upto (2 * n) x w -> forall i, (i < n)%nat ->
  0 < nth i w 0 /\ -1 < nth i x 0 < 1.
Proof.
  intros n x w Hl He i Hi.
  set (P := rprod (others x i)).
  assert (HP : pdeg n P).
  { unfold P. replace n with (S (length (others x i))). apply rprod_pdeg. rewrite others_length; lia. }
  assert (Z : forall k, (k < n)%nat -> k <> i -> P (nth k x 0) = 0).
  { intros. unfold P. apply rprod_zero. apply others_in; try lia. }
  set (xi := nth i x 0) in *.
  (* weight against density P^2 *)
  assert (A : nth i w 0 * (P xi * P xi) = RInt (fun t => P t * P t * 1) (-1) 1).
  { rewrite <- (exact_pdeg (2 * n) x w (fun t => P t * P t * 1)); auto.
    - rewrite Rule_rsum, Hl. rewrite (rsum_single _ n i); auto. fold xi. ring.
      intros. rewrite Z; auto. ring.
    - apply (pdeg_ext _ (fun t => P t * P t)). intros; ring.
      apply (pdeg_mono (n + n - 1)). lia. now apply pdeg_mult. }
  assert (Apos : 0 < RInt (fun t => P t * P t * 1) (-1) 1).
  { apply (rprod_sq_pos (others x i) (fun _ => 1)). intros; lra. intros; apply continuous_const. }
  assert (W : 0 < nth i w 0).
  { rewrite <- A in Apos. pose proof (Rle_0_sqr (P xi)). unfold Rsqr in H.
    destruct (Rle_lt_dec (nth i w 0) 0); auto. exfalso. nra. }
  split; auto.
  assert (LIN : forall a b, pdeg (2 * n) (fun t => P t * P t * (a + b * t))).
  { intros. apply (pdeg_mono (n + n - 1 + 2 - 1)). lia.
    apply (pdeg_mult (n + n - 1) 2 (fun t => P t * P t) (fun t => a + b * t)).
    now apply pdeg_mult. apply pdeg_lin. }
  assert (LC : forall a b t, continuous (fun t : R => a + b * t) t).
  { intros. apply (pdeg_continuous 2). apply pdeg_lin. }
  assert (B : forall a b, nth i w 0 * (P xi * P xi) * (a + b * xi)
     = RInt (fun t => P t * P t * (a + b * t)) (-1) 1).
  { intros. rewrite <- (exact_pdeg (2 * n) x w); auto.
    rewrite Rule_rsum, Hl. rewrite (rsum_single _ n i); auto. fold xi. ring.
    intros. rewrite Z; auto. ring. }
  rewrite <- A in Apos.
  assert (B1 : 0 < RInt (fun t => P t * P t * (1 + 1 * t)) (-1) 1).
  { apply (rprod_sq_pos (others x i) (fun t => 1 + 1 * t)); auto. intros; lra. }
  assert (B2 : 0 < RInt (fun t => P t * P t * (1 + (-1) * t)) (-1) 1).
  { apply (rprod_sq_pos (others x i) (fun t => 1 + (-1) * t)); auto. intros; lra. }
  rewrite <- B in B1, B2.
  set (u := nth i w 0 * (P xi * P xi)) in *. clearbody u.
  split.
  - assert (0 < 1 + 1 * xi); [|lra]. destruct (Rle_lt_dec (1 + 1 * xi) 0); auto. exfalso; nra.
  - assert (0 < 1 + (-1) * xi); [|lra]. destruct (Rle_lt_dec (1 + (-1) * xi) 0); auto. exfalso; nra.
Qed.

(* ---------- existence of Gauss-Legendre rules ---------- *)
Lemma gauss_exists : forall n, exists xw, leggauss_ok n xw.
Proof.
  intros n. destruct (jac_roots n 0) as (l & L1 & L2 & L3).
  pose proof (incr_nodup _ _ _ L2) as Hn.
  exists (l, iws l). split; [auto|]. split; [simpl; rewrite iws_length; auto|]. simpl fst; simpl snd.
  destruct (pdeg_factor_list l 1 (peval (leg n))) as (g & Hg & Eg); auto.
  { rewrite L1. replace (n + 1)%nat with (S n) by lia. apply leg_pdeg. }
  (* g is a nonzero constant *)
  assert (Gc : forall x, g x = g 1).
  { intros. destruct Hg as (p & Hp & E). rewrite !E. destruct p as [|a [|b p]]; simpl in *; try lia; to_R; lra. }
  assert (Gnz : g 1 <> 0).
  { intro E. pose proof (leg_at_1 n) as H1. rewrite Eg, E in H1. lra. }
  apply pdeg_exact. intros f Hf.
  apply (interp_exact l n); auto.
  - intros q Hq. apply Rmult_eq_reg_l with (g 1); auto. rewrite Rmult_0_r.
    rewrite <- RIntR_scal.
    + rewrite (RIntR_ext _ (fun x => peval (leg n) x * q x)).
      * now apply legendre_orth.
      * intros. rewrite Eg, (Gc x). ring.
    + eapply pdeg_ex_RInt. apply pdeg_mult; [apply rprod_pdeg | apply Hq].
  - rewrite L1. replace (n + n)%nat with (2 * n)%nat by lia. auto.
Qed.

Lemma roots_exist : forall n, exists x, roots_ok n x.
Proof.
  intros n. destruct (jac_roots n 1) as (l & L1 & L2 & L3). exists l.
  split; auto. split. eapply incr_nodup; eauto. intros a Ha. split. eapply incr_in; eauto.
  rewrite JacobiP_eval. apply (L3 a Ha).
Qed.

(* ---------- Gauss-Lobatto ---------- *)
Section Lobatto.
Variable m : nat.                      (* number of interior nodes *)
Hypothesis Hm : (1 <= m)%nat.
Let N := S m.
Variable X : list R.
Hypothesis HX : roots_ok m X.
Let l := -1 :: (X ++ [1]).
Definition lw (N : nat) (a : R) : R := 2 / (INR N * INR (S N) * (peval (leg N) a * peval (leg N) a)).

Lemma X_len : length X = m. Proof. apply HX. Qed.
Lemma l_len : length l = S N.
Proof. unfold l, N. simpl. rewrite app_length, X_len. simpl. lia. Qed.
Lemma X_in : forall a, In a X -> -1 < a < 1 /\ dleg N a = 0.
Proof.
  intros a Ha. destruct HX as (_ & _ & H). destruct (H a Ha) as [H1 H2]. split; auto.
  unfold N. rewrite dleg_jac. rewrite JacobiP_eval in H2. rewrite H2. ring.
Qed.
Lemma l_nodup : NoDup l.
Proof.
  unfold l. constructor.
  - intro H. apply in_app_or in H. destruct H as [H|[H|[]]]; [|lra]. apply X_in in H. lra.
  - assert (P : NoDup (1 :: X)).
    { constructor. intro H. apply X_in in H. lra. apply HX. }
    apply (Permutation_NoDup (l := 1 :: X)); auto. apply Permutation_cons_append.
Qed.
Lemma NN_pos : 0 < INR N * (INR N + 1).
Proof. unfold N. rewrite S_INR. pose proof (pos_INR m). nra. Qed.

(* the node polynomial is a multiple of (1-x^2) P_N' *)
Lemma node_poly : exists c, c <> 0 /\ forall x, (1 - x ^ 2) * dleg N x = c * rprod l x.
Proof.
  destruct (pdeg_factor_list l 1 (fun x => (1 - x ^ 2) * dleg N x)) as (g & Hg & Eg).
  - apply l_nodup.
  - rewrite l_len. apply (pdeg_mono (3 + N - 1)). lia. apply pdeg_mult; [apply one_m_sq_pdeg | apply dleg_pdeg].
  - intros a Ha. unfold l in Ha. destruct Ha as [<-|Ha]; [simpl; ring|].
    apply in_app_or in Ha. destruct Ha as [Ha|[<-|[]]]; [|simpl; ring].
    apply X_in in Ha. destruct Ha as [_ ->]. ring.
  - assert (Gc : forall x, g x = g 0).
    { intros. destruct Hg as (p & Hp & E). rewrite !E. destruct p as [|a [|b p]]; simpl in *; try lia; to_R; lra. }
    exists (g 0). split.
    + intro E.
      (* derivative at 1 would vanish: (1-x^2) P' = 0 everywhere, so its derivative -N(N+1) P is 0 at 1 *)
      assert (D : is_derive (fun _ : R => 0) 1 (- (INR N * (INR N + 1)) * peval (leg N) 1)).
      { apply (derR_ext (fun x => (1 - x ^ 2) * dleg N x)); [|apply legendre_ode].
        intros y. rewrite Eg, (Gc y), E. ring. }
      pose proof (derR_uniq _ _ _ _ D (derR_const 0 1)) as Z. rewrite leg_at_1 in Z.
      pose proof NN_pos. lra.
    + intros. rewrite Eg, (Gc x). ring.
Qed.

Lemma lob_exact : forall f, pdeg (2 * N) f -> Rule l (iws l) f = RInt f (-1) 1.
Proof.
  intros f Hf. apply (interp_exact l (N - 1)).
  - apply l_nodup.
  - intros q Hq. destruct node_poly as (c & Hc & E).
    apply Rmult_eq_reg_l with c; auto. rewrite Rmult_0_r. rewrite <- RIntR_scal.
    + rewrite (RIntR_ext _ (fun x => (1 - x ^ 2) * dleg N x * q x)).
      * apply lobatto_orth; auto. unfold N; lia.
      * intros. rewrite E. ring.
    + eapply pdeg_ex_RInt. apply pdeg_mult; [apply rprod_pdeg | apply Hq].
  - rewrite l_len. replace (S N + (N - 1))%nat with (2 * N)%nat by (unfold N; lia). auto.
Qed.

(* Rule value = contributions of the two ends and the interior *)
Lemma rule_split : forall w f, length w = S N ->
  Rule l w f = nth 0 w 0 * f (-1) + rsum (fun i => nth (S i) w 0 * f (nth i X 0)) m + nth N w 0 * f 1.
Proof.
  intros. rewrite Rule_rsum, l_len. rewrite rsum_S_l. unfold N at 1. rewrite rsum_S.
  unfold l. cbn [nth]. rewrite app_nth2 by (rewrite X_len; lia). rewrite X_len, Nat.sub_diag. cbn [nth].
  rewrite (rsum_ext _ (fun i => nth (S i) w 0 * f (nth i X 0))). unfold N. ring.
  intros. rewrite app_nth1 by (rewrite X_len; lia). reflexivity.
Qed.

Lemma end_right : nth N (iws l) 0 = lw N 1.
Proof.
  set (f := fun x => dleg N x * (1 + 1 * x)).
  assert (Hf : pdeg (2 * N) f).
  { apply (pdeg_mono (N + 2 - 1)). unfold N; lia. apply pdeg_mult. apply dleg_pdeg. apply pdeg_lin. }
  pose proof (lob_exact f Hf) as E. rewrite rule_split in E by (rewrite iws_length; apply l_len).
  rewrite (rsum_ext _ (fun _ => 0)) in E.
  2:{ intros. unfold f. destruct (X_in (nth k X 0)) as [_ ->]. apply nth_In. rewrite X_len; auto. ring. }
  rewrite rsum_0 in E.
  assert (D : forall x, is_derive (fun x => 1 + 1 * x) x 1).
  { intros. eapply derR_eq. apply derR_plus; [apply derR_const | apply derR_scal, derR_id]. ring. }
  assert (I : RInt f (-1) 1 = 2).
  { unfold f. rewrite (pdeg_ibp _ _ (peval (leg N)) (fun x => 1 + 1 * x) (dleg N) (fun _ => 1) (-1) 1
      (leg_pdeg N) (pdeg_lin 1 1) (dleg_derive N) D).
    rewrite (legendre_orth N (fun _ => 1)).
    - rewrite leg_at_1. eqR; ring.
    - apply (pdeg_mono 1). unfold N; lia. apply pdeg_const. }
  rewrite I in E. unfold f in E. unfold N in E at 3. rewrite dleg_at_1 in E. fold N in E.
  pose proof NN_pos as NP. unfold lw. rewrite leg_at_1, (S_INR N).
  assert (INR N <> 0) by nra. assert (INR N + 1 <> 0) by nra.
  apply Rmult_eq_reg_r with (INR N * (INR N + 1)); [|lra]. 
  transitivity 2; [|field; auto]. lra.
Qed.

Lemma end_left : nth 0 (iws l) 0 = lw N (-1).
Proof.
  set (f := fun x => dleg N x * (1 + (-1) * x)).
  assert (Hf : pdeg (2 * N) f).
  { apply (pdeg_mono (N + 2 - 1)). unfold N; lia. apply pdeg_mult. apply dleg_pdeg. apply pdeg_lin. }
  pose proof (lob_exact f Hf) as E. rewrite rule_split in E by (rewrite iws_length; apply l_len).
  rewrite (rsum_ext _ (fun _ => 0)) in E.
  2:{ intros. unfold f. destruct (X_in (nth k X 0)) as [_ ->]. apply nth_In. rewrite X_len; auto. ring. }
  rewrite rsum_0 in E.
  assert (D : forall x, is_derive (fun x => 1 + (-1) * x) x (-1)).
  { intros. eapply derR_eq. apply derR_plus; [apply derR_const | apply derR_scal, derR_id]. ring. }
  assert (I : RInt f (-1) 1 = - 2 * (-1) ^ N).
  { unfold f. rewrite (pdeg_ibp _ _ (peval (leg N)) (fun x => 1 + (-1) * x) (dleg N) (fun _ => -1) (-1) 1
      (leg_pdeg N) (pdeg_lin 1 (-1)) (dleg_derive N) D).
    rewrite (legendre_orth N (fun _ => -1)).
    - rewrite leg_at_1, leg_at_m1. eqR; ring.
    - apply (pdeg_mono 1). unfold N; lia. apply pdeg_const. }
  rewrite I in E. unfold f in E.
  assert (DM : dleg N (-1) = (-1) ^ m * (INR N * (INR N + 1) / 2)) by apply dleg_at_m1.
  rewrite DM in E.
  pose proof NN_pos as NP. unfold lw. rewrite leg_at_m1, (S_INR N).
  assert (S2 : (-1) ^ m * (-1) ^ m = 1).
  { rewrite <- Rpow_mult_distr. replace (-1 * -1) with 1 by ring. apply pow1. }
  assert (PN : (-1) ^ N = - (-1) ^ m) by (unfold N; simpl; ring).
  rewrite PN in *.
  assert (INR N <> 0) by nra. assert (INR N + 1 <> 0) by nra.
  replace (- (-1) ^ m * - (-1) ^ m) with 1 by (rewrite <- S2; ring).
  assert (NZ : (-1) ^ m <> 0) by (apply pow_nonzero; lra).
  apply Rmult_eq_reg_r with (INR N * (INR N + 1)); [|lra].
  apply Rmult_eq_reg_r with ((-1) ^ m); auto.
  transitivity (2 * (-1) ^ m); [lra | field; auto].
Qed.

Lemma interior : forall i, (i < m)%nat -> nth (S i) (iws l) 0 = lw N (nth i X 0) /\ peval (leg N) (nth i X 0) <> 0.
Proof.
  intros i Hi. set (a := nth i X 0).
  assert (Ha : In a X) by (apply nth_In; rewrite X_len; auto).
  destruct (X_in a Ha) as [Ha1 Ha2].
  destruct (pdeg_factor m (dleg N) a) as (g & Hg & Eg); auto.
  { apply dleg_pdeg. }
  set (f := fun x => peval (leg N) x * g x).
  assert (Hf : pdeg (2 * N) f).
  { apply (pdeg_mono (S N + m - 1)). unfold N; lia. apply pdeg_mult. apply leg_pdeg. auto. }
  pose proof (lob_exact f Hf) as E. unfold f in E at 2.
  rewrite legendre_orth in E by (apply (pdeg_mono m); auto; unfold N; lia).
  rewrite rule_split in E by (rewrite iws_length; apply l_len).
  assert (Gz : forall k, (k < m)%nat -> k <> i -> g (nth k X 0) = 0).
  { intros k Hk Hki. assert (Hin : In (nth k X 0) X) by (apply nth_In; rewrite X_len; auto).
    destruct (X_in _ Hin) as [_ Z]. rewrite Eg in Z. apply Rmult_integral in Z. destruct Z; auto.
    exfalso. apply Hki. destruct HX as (_ & ND & _).
    apply (proj1 (NoDup_nth X 0) ND); try (rewrite X_len; auto). fold a. lra. }
  rewrite (rsum_single _ m i) in E; auto.
  2:{ intros. unfold f. rewrite Gz; auto. ring. }
  fold a in E. rewrite end_left, end_right in E.
  (* g at the ends *)
  assert (G1 : g 1 * (1 - a) = INR N * (INR N + 1) / 2).
  { pose proof (dleg_at_1 m) as T. change (S m) with N in T. rewrite Eg in T. lra. }
  assert (G2 : g (-1) * (-1 - a) = (-1) ^ m * (INR N * (INR N + 1) / 2)).
  { pose proof (dleg_at_m1 m) as T. change (S m) with N in T. rewrite Eg in T. lra. }
  (* g a = P_N''(a), ODE at a *)
  assert (G3 : (1 - a ^ 2) * g a = - (INR N * (INR N + 1)) * peval (leg N) a).
  { destruct (pdeg_deriv m g) as (g' & _ & Dg); [apply (pdeg_mono m); auto|].
    apply (derR_uniq (fun x => (1 - x ^ 2) * dleg N x) a); [|apply legendre_ode].
    apply (derR_ext (fun x => (x - a) * ((1 - x ^ 2) * g x))).
    { intros. rewrite Eg. ring. }
    eapply derR_eq.
    - apply derR_mult.
      + apply derR_minus; [apply derR_id | apply derR_const].
      + apply derR_mult; [|apply Dg]. apply derR_minus; [apply derR_const|].
        apply (derR_pow (fun y => y) 2). apply derR_id.
    - simpl. ring. }
  pose proof NN_pos as NP.
  assert (INR N <> 0) by nra. assert (INR N + 1 <> 0) by nra.
  assert (PN : (-1) ^ N = - (-1) ^ m) by (unfold N; simpl; ring).
  assert (S2 : (-1) ^ m * (-1) ^ m = 1).
  { rewrite <- Rpow_mult_distr. replace (-1 * -1) with 1 by ring. apply pow1. }
  unfold f, lw in E. rewrite leg_at_1, leg_at_m1, PN, (S_INR N) in E.
  replace (- (-1) ^ m * - (-1) ^ m) with 1 in E by (rewrite <- S2; ring).
  set (s := (-1) ^ m) in *. set (p := peval (leg N) a) in *. set (K := INR N * (INR N + 1)) in *.
  set (W := nth (S i) (iws l) 0) in *.
  assert (Q1 : g 1 = K / (2 * (1 - a))) by (apply Rmult_eq_reg_r with (1 - a); [rewrite G1; field; lra | lra]).
  assert (Q2 : g (-1) = - s * K / (2 * (1 + a))) by (apply Rmult_eq_reg_r with (-1 - a); [rewrite G2; field; lra | lra]).
  assert (AA : 1 - a ^ 2 <> 0) by (simpl; nra).
  assert (Q3 : g a = - K * p / (1 - a ^ 2)) by (apply Rmult_eq_reg_l with (1 - a ^ 2); [rewrite G3; field; auto | auto]).
  rewrite Q1, Q2, Q3 in E.
  assert (F : W * (p * p) * K = 2).
  { assert (KZ : K <> 0) by lra.
    assert (E' : W * (p * p) * K * / (1 - a ^ 2) = 2 * / (1 - a ^ 2)).
    { assert (2 / (K * 1) * (- s * (- s * K / (2 * (1 + a)))) = / (1 + a)).
      { transitivity (s * s / (1 + a)); [field; split; [lra | auto] | rewrite S2; field; lra]. }
      assert (2 / (K * (1 * 1)) * (1 * (K / (2 * (1 - a)))) = / (1 - a)) by (field; split; [lra | auto]).
      rewrite H1, H2 in E.
      assert (/ (1 + a) + / (1 - a) = 2 * / (1 - a ^ 2)).
      { field. repeat split; try lra; auto. }
      replace (W * (p * (- K * p / (1 - a ^ 2)))) with (- (W * (p * p) * K * / (1 - a ^ 2))) in E by (unfold Rdiv; ring).
      lra. }
    apply Rmult_eq_reg_r in E'; auto. apply Rinv_neq_0_compat; auto. }
  assert (pnz : p <> 0) by (intro Z; rewrite Z in F; lra).
  split; auto. unfold lw. fold p. rewrite (S_INR N). fold K.
  apply Rmult_eq_reg_r with (p * p * K).
  - transitivity 2; [lra | field; split; auto; lra].
  - apply Rmult_integral_contrapositive. split; [apply Rmult_integral_contrapositive; auto | lra].
Qed.

Lemma lob_weights : iws l = lw N (-1) :: (map (lw N) X ++ [lw N 1]).
Proof.
  apply nth_ext with (d := 0) (d' := 0).
  - rewrite iws_length, l_len. simpl. rewrite app_length, map_length, X_len. simpl. unfold N; lia.
  - intros i Hi. rewrite iws_length, l_len in Hi. destruct i.
    + apply end_left.
    + cbn [nth]. destruct (Nat.eq_dec i m).
      * subst i. rewrite app_nth2 by (rewrite map_length, X_len; auto).
        rewrite map_length, X_len, Nat.sub_diag. apply end_right.
      * rewrite app_nth1 by (rewrite map_length, X_len; unfold N in Hi; lia).
        rewrite nth_map_lt with (d' := 0) by (rewrite X_len; unfold N in Hi; lia).
        apply interior. unfold N in Hi; lia.
Qed.

Lemma lw_pos : forall a, In a l -> 0 < lw N a.
Proof.
  intros a Ha. assert (NZ : peval (leg N) a <> 0).
  { unfold l in Ha. destruct Ha as [<-|Ha].
    - rewrite leg_at_m1. apply pow_nonzero; lra.
    - apply in_app_or in Ha. destruct Ha as [Ha|[<-|[]]].
      + destruct (In_nth X a 0 Ha) as (i & Hi & <-). rewrite X_len in Hi. apply interior; auto.
      + rewrite leg_at_1. lra. }
  unfold lw. rewrite (S_INR N). pose proof NN_pos. apply Rdiv_lt_0_compat; [lra|].
  apply Rmult_lt_0_compat; auto. apply Rsqr_pos_lt; auto.
Qed.
End Lobatto.
