(* Property C61: test functions span the polynomials vanishing at the ends, and functions orthogonal to all of them vanish. *)
From Coq Require Import String ZArith List Arith Lia Reals Lra FunctionalExtensionality.
From Coquelicot Require Import Coquelicot.
From Verif Require Import Num Py Jacobi Quadrature Basis Transform Cell Space Tensor Physics RCalc PolyFacts ListFacts
  Spec SpecGeom SpecPde SpecTrain BasisFacts2 ExactFacts SpecWeak PolyDeg LegendreFacts QuadFacts Interp Weierstrass SquareInt ErrorFacts.
Import ListNotations.
Local Open Scope R_scope.

(* ---------- the span of the test functions ---------- *)
Lemma pdeg_topder : forall d f, pdeg d f -> topder d f 0.
Proof.
  induction d as [|d IH]; intros f H.
  - intros x. now apply pdeg_0_zero.
  - destruct (pdeg_deriv d f H) as (g & Hg & Dg). exists g. split; [exact Dg | now apply IH].
Qed.
Lemma pdeg_split : forall d f, pdeg (S d) f -> exists a g, pdeg d g /\ forall x, f x = g x + a * x ^ d.
Proof.
  intros d f H. destruct (pdeg_Poly (S d) f H) as (c & E). exists (c d), (Poly c d). split.
  - apply (pdeg_ext _ (fun x => rsum (fun k => c k * x ^ k) d)); [reflexivity|]. apply pdeg_rsum. intros k Hk. apply pdeg_scal.
    apply (pdeg_mono (S k)); [lia | apply pdeg_pow].
  - intros x. rewrite E. unfold Poly. change Sum with rsum. apply rsum_S.
Qed.
Lemma phi_lead : forall fam i, fam <> FJacobiPlain -> exists a g, a <> 0 /\ pdeg (i + 2) g /\ forall x, phi fam (S i) x = g x + a * x ^ (i + 2).
Proof.
  intros fam i Hf. pose proof (phi_pdeg fam (S i) i ltac:(lia)) as P. replace (S i + 2)%nat with (S (i + 2)) in P by lia.
  destruct (pdeg_split _ _ P) as (a & g & Hg & E). exists a, g. split; [|auto]. intros ->.
  destruct (topder_phi fam (S i) ltac:(lia)) as (c & Hc & Ht).
  assert (F : fdeg fam (S i) = (i + 2)%nat) by (destruct fam; try congruence; cbn; lia). rewrite F in Ht.
  assert (Z : topder (i + 2) (phi fam (S i)) 0).
  { apply (topder_ext _ g); [intros; rewrite E; ring | now apply pdeg_topder]. }
  assert (D : topder (i + 2) (fun _ => 0) (c + -1 * 0)).
  { apply (topder_ext _ (fun x => phi fam (S i) x + -1 * phi fam (S i) x)); [intros; ring|]. apply topder_plus; [exact Ht | now apply topder_scal]. }
  apply topder_zero in D; [lra | reflexivity].
Qed.
Lemma phi_span : forall fam k f, fam <> FJacobiPlain -> pdeg (k + 2) f -> f 1 = 0 -> f (-1) = 0 ->
  exists a : nat -> R, forall x, f x = rsum (fun i => a i * phi fam (S i) x) k.
Proof.
  intros fam k f Hf. revert f. induction k as [|k IH]; intros f Hd H1 H2.
  - exists (fun _ => 0). intros x. cbn. apply (pdeg_too_many_roots [1; -1]); [constructor; [intros [H|[]]; lra | constructor; [easy | constructor]] | exact Hd|].
    intros b [<- | [<- | []]]; auto.
  - destruct (phi_lead fam k Hf) as (a & g & Ha & Hg & E). replace (S k + 2)%nat with (S (k + 2)) in Hd by lia.
    destruct (pdeg_split _ _ Hd) as (b & h & Hh & E'). destruct (phi_boundary fam (S k) ltac:(lia) Hf) as [B1 B2].
    destruct (IH (fun x => f x - b / a * phi fam (S k) x)) as (co & Hco).
    + apply (pdeg_ext _ (fun x => h x - b / a * g x)); [intros; rewrite E', E; field; exact Ha|]. apply pdeg_minus; [exact Hh | now apply pdeg_scal].
    + rewrite H1, B1. ring.
    + rewrite H2, B2. ring.
    + exists (fun i => if Nat.eqb i k then b / a else co i). intros x. rewrite rsum_S, Nat.eqb_refl.
      rewrite (rsum_ext _ (fun i => co i * phi fam (S i) x)); [rewrite <- Hco; ring|]. intros i Hi. destruct (Nat.eqb_spec i k); [lia | reflexivity].
Qed.

Lemma span_iff : forall fam k f, fam <> FJacobiPlain ->
  ((exists co, forall x, f x = Poly co (k + 2) x) /\ f 1 = 0 /\ f (-1) = 0 <-> exists a, forall x, f x = Sum (fun i => a i * phi fam (S i) x) k).
Proof.
  intros fam k f Hf. split.
  - intros ((co & E) & H1 & H2). apply phi_span; auto. apply (pdeg_ext _ (fun x => rsum (fun i => co i * x ^ i) (k + 2))); [intros; symmetry; apply E|].
    apply pdeg_rsum. intros i Hi. apply pdeg_scal. apply (pdeg_mono (S i)); [lia | apply pdeg_pow].
  - intros (a & E). refine (conj _ (conj _ _)).
    + apply pdeg_Poly. apply (pdeg_ext _ (fun x => rsum (fun i => a i * phi fam (S i) x) k)); [intros; symmetry; apply E|].
      apply pdeg_rsum. intros i Hi. apply pdeg_scal. now apply phi_pdeg.
    + rewrite E. change Sum with rsum. rewrite (rsum_ext _ (fun _ => 0)); [apply rsum_0|]. intros i Hi. destruct (phi_boundary fam (S i) ltac:(lia) Hf) as [B _]. rewrite B. ring.
    + rewrite E. change Sum with rsum. rewrite (rsum_ext _ (fun _ => 0)); [apply rsum_0|]. intros i Hi. destruct (phi_boundary fam (S i) ltac:(lia) Hf) as [_ B]. rewrite B. ring.
Qed.

(* ---------- a function orthogonal to all test functions ---------- *)
Lemma I2_rsum : forall n (F : nat -> R -> R -> R), (forall i, (i < n)%nat -> csq (F i) /\ I2 (F i) = 0) ->
  csq (fun x y => rsum (fun i => F i x y) n) /\ I2 (fun x y => rsum (fun i => F i x y) n) = 0.
Proof.
  induction n as [|n IH]; intros F H.
  - split; [exact (csq_const 0)|]. pose proof (I2_scal 0 (fun _ _ => 0) (csq_const 0)) as E. rewrite Rmult_0_l in E.
    transitivity (I2 (fun x y => 0 * (fun _ _ => 0) x y)); [|exact E]. apply I2_ext. intros. cbn. ring.
  - destruct (IH F) as [C Z]; [intros; apply H; lia|]. destruct (H n ltac:(lia)) as [Cn Zn]. split.
    + exact (csq_plus _ _ C Cn).
    + transitivity (I2 (fun x y => (fun x y => rsum (fun i => F i x y) n) x y + F n x y)); [reflexivity|]. rewrite (I2_plus _ _ C Cn), Z, Zn. ring.
Qed.
Section Orthogonal.
Variables (fam : family) (W : R -> R -> R).
Hypothesis Hfam : fam <> FJacobiPlain.
Hypothesis HW : csq W.
Hypothesis Horth : forall i j, I2 (fun x y => Phi fam i j x y * W x y) = 0.
Lemma csq_scal : forall k F, csq F -> csq (fun x y => k * F x y).
Proof. intros. apply csq_mult; [apply csq_const | assumption]. Qed.
Lemma orth_product : forall n f g, pdeg (n + 2) f -> f 1 = 0 -> f (-1) = 0 -> pdeg (n + 2) g -> g 1 = 0 -> g (-1) = 0 ->
  csq (fun x y => (f x * g y) * W x y) /\ I2 (fun x y => (f x * g y) * W x y) = 0.
Proof.
  intros n f g F0 F1 F2 G0 G1 G2. destruct (phi_span fam n f Hfam F0 F1 F2) as (a & Ea). destruct (phi_span fam n g Hfam G0 G1 G2) as (b & Eb).
  assert (E : forall x y, rsum (fun i => rsum (fun j => (a i * b j) * (Phi fam i j x y * W x y)) n) n = f x * g y * W x y).
  { intros x y. rewrite Ea, Eb. rewrite <- rsum_scal_r. rewrite <- rsum_scal_r. apply rsum_ext. intros i Hi. rewrite <- rsum_scal, <- rsum_scal_r.
    apply rsum_ext. intros j Hj. unfold Phi. ring. }
  destruct (I2_rsum n (fun i x y => rsum (fun j => (a i * b j) * (Phi fam i j x y * W x y)) n)) as [C Z].
  - intros i Hi. apply (I2_rsum n (fun j x y => (a i * b j) * (Phi fam i j x y * W x y))). intros j Hj.
    assert (K : csq (fun x y => Phi fam i j x y * W x y)) by (apply csq_mult; [apply (Phi_csq fam i j) | exact HW]).
    split; [now apply csq_scal|]. rewrite (I2_scal (a i * b j) (fun x y => Phi fam i j x y * W x y) K), Horth. ring.
  - split; [exact (csq_ext _ _ E C)|]. rewrite <- Z. apply I2_ext. intros x y _. symmetry. apply E.
Qed.
Definition bump (x y : R) : R := (1 - x ^ 2) * (1 - y ^ 2).
Lemma bump_csq : csq bump.
Proof.
  unfold bump. apply csq_mult; [apply (csq_1 (fun x => 1 - x ^ 2)) | apply (csq_2 (fun x => 1 - x ^ 2))]; intros x; eapply pdeg_continuous; apply one_m_sq_pdeg.
Qed.
Lemma orth_poly : forall co d, I2 (fun x y => bump x y * Poly2 co d x y * W x y) = 0.
Proof.
  intros co d.
  destruct (I2_rsum d (fun i x y => rsum (fun j => co i j * (((1 - x ^ 2) * x ^ i * ((1 - y ^ 2) * y ^ j)) * W x y)) d)) as [C Z].
  - intros i Hi. apply (I2_rsum d (fun j x y => co i j * (((1 - x ^ 2) * x ^ i * ((1 - y ^ 2) * y ^ j)) * W x y))). intros j Hj.
    assert (P : forall m, (m < d)%nat -> pdeg (d + 2) (fun x => (1 - x ^ 2) * x ^ m)).
    { intros m Hm. apply (pdeg_mono (3 + S m - 1)); [lia|]. apply pdeg_mult; [apply one_m_sq_pdeg | apply pdeg_pow]. }
    destruct (orth_product d (fun x => (1 - x ^ 2) * x ^ i) (fun y => (1 - y ^ 2) * y ^ j)) as [K Z]; auto; try ring.
    split; [exact (csq_scal (co i j) _ K)|].
    rewrite (I2_scal (co i j) (fun x y => ((1 - x ^ 2) * x ^ i * ((1 - y ^ 2) * y ^ j)) * W x y) K), Z. ring.
  - rewrite <- Z. apply I2_ext. intros x y _. unfold Poly2, bump. change Sum with rsum. rewrite <- rsum_scal, <- rsum_scal_r. apply rsum_ext. intros i Hi.
    rewrite <- rsum_scal, <- rsum_scal_r. apply rsum_ext. intros j Hj. ring.
Qed.
Lemma I2_pos : forall F x0 y0, csq F -> (forall x y, in_square x y -> 0 <= F x y) -> -1 < x0 < 1 -> -1 < y0 < 1 -> 0 < F x0 y0 -> 0 < I2 F.
Proof.
  intros F x0 y0 HF Hp Hx Hy H. unfold I2, Int2.
  rewrite (RInt_ext11 _ (fun y => RInt (fun x => ext2 F x y) (-1) 1)) by (intros; symmetry; now apply sq_inner).
  assert (N : forall x y, 0 <= ext2 F x y) by (intros x y; apply Hp; split; apply clamp_in).
  apply (RInt_pos _ (-1) 1 y0); [exact Hy | intros; now apply ext2_inner_cont | |].
  - intros y _. apply RInt_ge_0; [lra | now apply ext2_ex_x | intros; apply N].
  - apply (RInt_pos _ (-1) 1 x0); [exact Hx | intros; now apply ext2_cont_x | intros; apply N|]. rewrite ext2_in by (split; lra). exact H.
Qed.
Lemma orth_energy : I2 (fun x y => bump x y * W x y * W x y) <= 0.
Proof.
  destruct (csq_bounded W HW) as (M & HM & BW). apply Rnot_lt_le. intros Hpos. set (e := I2 _) in Hpos.
  assert (HM' : 0 < 4 * M + 4) by lra. set (eps := e / (2 * (4 * M + 4))). assert (He : 0 < eps) by (apply Rdiv_lt_0_compat; lra).
  destruct (weierstrass W HW eps He) as (co & d & Hc).
  assert (CB := bump_csq). assert (CP : csq (Poly2 co d)) by apply csq_poly.
  assert (E : e = I2 (fun x y => bump x y * (W x y - Poly2 co d x y) * W x y)).
  { rewrite (I2_ext _ (fun x y => bump x y * W x y * W x y - bump x y * Poly2 co d x y * W x y)) by (intros; ring).
    rewrite I2_minus; [rewrite orth_poly; fold e; ring| |]; (apply csq_mult; [apply csq_mult; assumption | exact HW]). }
  assert (B : Rabs (I2 (fun x y => bump x y * (W x y - Poly2 co d x y) * W x y)) <= 4 * (eps * M)).
  { apply I2_bound; [apply csq_mult; [apply csq_mult; [exact CB | now apply csq_minus] | exact HW]|].
    intros x y Hxy. specialize (Hc x y Hxy). specialize (BW x y Hxy). rewrite !Rabs_mult. apply Rmult_le_compat; [apply Rmult_le_pos; apply Rabs_pos | apply Rabs_pos | | exact BW].
    rewrite <- (Rmult_1_l eps). apply Rmult_le_compat; try apply Rabs_pos; [|exact Hc]. unfold bump. destruct Hxy as [Hx Hy].
      assert (A : forall t, -1 <= t <= 1 -> 0 <= 1 - t ^ 2 <= 1) by (intros; nra). pose proof (A x Hx). pose proof (A y Hy). rewrite Rabs_right; nra. }
  rewrite <- E in B. rewrite Rabs_right in B by lra. assert (Q : eps * (2 * (4 * M + 4)) = e) by (unfold eps; field; lra). nra.
Qed.
Lemma orth_interior : forall x y, -1 < x < 1 -> -1 < y < 1 -> W x y = 0.
Proof.
  intros x y Hx Hy. destruct (Req_dec (W x y) 0) as [|N]; [assumption|]. exfalso. apply (Rle_not_lt _ _ orth_energy).
  apply (I2_pos _ x y); auto.
  - apply csq_mult; [apply csq_mult; [apply bump_csq | exact HW] | exact HW].
  - intros s t [Hs Ht]. unfold bump. assert (A : forall z, -1 <= z <= 1 -> 0 <= 1 - z ^ 2) by (intros; nra).
    rewrite Rmult_assoc. apply Rmult_le_pos; [apply Rmult_le_pos; auto | apply Rle_0_sqr].
  - unfold bump. rewrite Rmult_assoc. apply Rmult_lt_0_compat; [apply Rmult_lt_0_compat; nra | now apply Rsqr_pos_lt].
Qed.
Lemma orth_zero : forall x y, in_square x y -> W x y = 0.
Proof.
  intros x y Hxy. destruct (Req_dec (W x y) 0) as [|N]; [assumption|]. exfalso.
  assert (P : 0 < Rabs (W x y)) by now apply Rabs_pos_lt. destruct (HW x y Hxy (mkposreal _ P)) as [del K]. cbn in K.
  assert (Hd := cond_pos del). set (t := Rmin (1 / 2) (del / 2)).
  assert (T0 : 0 < t) by (apply Rmin_pos; lra). assert (T1 : t <= 1 / 2) by apply Rmin_l. assert (T2 : t <= del / 2) by apply Rmin_r.
  assert (A : forall z, -1 <= z <= 1 -> -1 < (1 - t) * z < 1 /\ Rabs ((1 - t) * z - z) < del).
  { intros z Hz. split; [nra|]. replace ((1 - t) * z - z) with (- (t * z)) by ring. rewrite Rabs_Ropp, Rabs_mult, (Rabs_right t) by lra.
    assert (Rabs z <= 1) by (apply Rabs_le; lra). pose proof (Rabs_pos z). nra. }
  destruct Hxy as [Hx Hy]. destruct (A x Hx) as [A1 A2]. destruct (A y Hy) as [A3 A4].
  specialize (K _ _ A2 A4). rewrite (orth_interior _ _ A1 A3), Rminus_0_l, Rabs_Ropp in K. lra.
Qed.
End Orthogonal.

(* ---------- zero loss for all orders ---------- *)
Lemma sum_zero2 : forall (h : nat -> nat -> R) k, rsum (fun i => rsum (fun j => h i j ^ 2) k) k = 0 -> forall i j, (i < k)%nat -> (j < k)%nat -> h i j = 0.
Proof.
  assert (Z : forall (w : nat -> R) n, (forall i, (i < n)%nat -> 0 <= w i) -> rsum w n = 0 -> forall i, (i < n)%nat -> w i = 0).
  { intros w n. induction n as [|n IH]; intros Hw E i Hi; [lia|]. rewrite rsum_S in E.
    assert (0 <= rsum w n) by (apply rsum_nonneg; intros; apply Hw; lia). pose proof (Hw n ltac:(lia)).
    destruct (Nat.eq_dec i n) as [-> | N]; [lra|]. apply IH; [intros; apply Hw; lia | lra | lia]. }
  intros h k E i j Hi Hj. assert (S : rsum (fun j => h i j ^ 2) k = 0).
  { apply (Z (fun i => rsum (fun j => h i j ^ 2) k) k); auto. intros. apply rsum_nonneg. intros. apply pow2_ge_0. }
  pose proof (Z (fun j => h i j ^ 2) k (fun _ _ => pow2_ge_0 _) S j Hj) as Q. cbv beta in Q. nra.
Qed.
Lemma exact_loss_terms : forall f U G a bx bn g tr fam k cells, exact_loss f U G a bx bn g tr fam k cells = 0 ->
  forall c i j, In c cells -> (i < k)%nat -> (j < k)%nat -> exact_res f U G a bx bn g tr fam c i j = 0.
Proof.
  intros f U G a bx bn g tr fam k cells H c i j Hc Hi Hj. assert (P : 0 < INR (k * k)) by (apply lt_0_INR; nia).
  revert H Hc. induction cells as [|c0 l IH]; intros H Hc; [destruct Hc|]. unfold exact_loss in H. cbn [fold_right] in H.
  change (Sum (fun i => Sum (fun j => exact_res f U G a bx bn g tr fam c0 i j ^ 2) k) k / INR (k * k) + exact_loss f U G a bx bn g tr fam k l = 0) in H.
  pose proof (exact_loss_nonneg f U G a bx bn g tr fam k l) as N.
  assert (Q : 0 <= Sum (fun i => Sum (fun j => exact_res f U G a bx bn g tr fam c0 i j ^ 2) k) k).
  { change Sum with rsum. apply rsum_nonneg. intros. apply rsum_nonneg. intros. apply pow2_ge_0. }
  assert (Q' : 0 <= Sum (fun i => Sum (fun j => exact_res f U G a bx bn g tr fam c0 i j ^ 2) k) k / INR (k * k)) by (apply Rmult_le_pos; [exact Q | left; now apply Rinv_0_lt_compat]).
  destruct Hc as [<- | Hc]; [|apply IH; [lra | exact Hc]].
  apply (sum_zero2 (fun i j => exact_res f U G a bx bn g tr fam c0 i j) k); auto. change rsum with Sum.
  assert (E : Sum (fun i => Sum (fun j => exact_res f U G a bx bn g tr fam c0 i j ^ 2) k) k / INR (k * k) = 0) by lra.
  apply Rmult_integral in E. destruct E as [E|E]; [exact E|]. pose proof (Rinv_0_lt_compat _ P). lra.
Qed.
Lemma zero_loss_solves : forall f u a U G A bx bn g tr fam cells, tr = "bilinear"%string \/ tr = "affine"%string ->
  (forall c, In c cells -> strictly_convex c) -> fam <> FJacobiPlain ->
  C1_on tr cells (fun s t => a s t * Dx u s t) -> C1_on tr cells (fun s t => a s t * Dy u s t) ->
  continuous_on tr cells u -> continuous_on tr cells (Dx u) -> continuous_on tr cells (Dy u) -> continuous_on tr cells f ->
  represents tr cells u a U G A ->
  (strong_solution tr cells u a bx bn g f <-> forall k, exact_loss f U G A bx bn g tr fam k cells = 0).
Proof.
  intros f u a U G A bx bn g tr fam cells Ht Hc Hfam HP HQ Cu Cx Cy Cf Hr. split.
  - intros Hs k. now apply (exact_loss_zero f u a).
  - intros H c x y Hin Hxy. cbv zeta. pose proof (regular_shape tr c Ht (Hc c Hin)) as Hreg.
    pose (W := fun x y => Rabs (JacDet (RefMap tr c) x y) * defect f u a bx bn g (fst (RefMap tr c x y)) (snd (RefMap tr c x y))).
    assert (CW : csq W).
    { unfold W. apply csq_mult.
      - apply csq_abs. destruct (partial_csq tr c) as (PA & PB & PC & PD). unfold JacDet.
        apply csq_minus; apply csq_mult; assumption.
      - unfold defect. destruct HP as (_ & P1 & _). destruct HQ as (_ & _ & Q2).
        apply (csq_minus (fun x y => - (Dx (fun s t => a s t * Dx u s t) (fst (RefMap tr c x y)) (snd (RefMap tr c x y)) + Dy (fun s t => a s t * Dy u s t) (fst (RefMap tr c x y)) (snd (RefMap tr c x y)))
            + bx * Dx u (fst (RefMap tr c x y)) (snd (RefMap tr c x y)) + bn * Dy u (fst (RefMap tr c x y)) (snd (RefMap tr c x y)) + g * u (fst (RefMap tr c x y)) (snd (RefMap tr c x y)))
          (fun x y => f (fst (RefMap tr c x y)) (snd (RefMap tr c x y)))); [|now apply (on_csq tr cells c Hin)].
        apply csq_plus; [apply csq_plus; [apply csq_plus|]|]; try (apply csq_mult; [apply csq_const|]).
        + apply (csq_ext (fun x y => -1 * (Dx (fun s t => a s t * Dx u s t) (fst (RefMap tr c x y)) (snd (RefMap tr c x y)) + Dy (fun s t => a s t * Dy u s t) (fst (RefMap tr c x y)) (snd (RefMap tr c x y))))); [intros; ring|].
          apply csq_mult; [apply csq_const|]. apply csq_plus; [exact (on_csq tr cells c Hin _ P1) | exact (on_csq tr cells c Hin _ Q2)].
        + exact (on_csq tr cells c Hin _ Cx).
        + exact (on_csq tr cells c Hin _ Cy).
        + exact (on_csq tr cells c Hin _ Cu). }
    assert (O : forall i j, I2 (fun x y => Phi fam i j x y * W x y) = 0).
    { intros i j. destruct (integrand_parts tr cells c Hin Hreg f u a U G A bx bn g HP HQ Hr fam i j Hfam) as (T1 & T2 & C1 & C2 & Z1 & Z2 & E).
      pose proof (exact_loss_terms f U G A bx bn g tr fam (S (i + j)) cells (H _) c i j Hin ltac:(lia) ltac:(lia)) as R0.
      unfold exact_res in R0. fold (I2 (weak_integrand f U G A bx bn g (RefMap tr c) (Phi fam i j))) in R0. rewrite (I2_ext _ _ E) in R0.
      assert (CPW : csq (fun x y => Phi fam i j x y * W x y)) by (apply csq_mult; [apply (Phi_csq fam i j) | exact CW]).
      pose proof (I2_plus (fun x y => T1 x y + T2 x y) (fun x y => Phi fam i j x y * W x y) (csq_plus _ _ C1 C2) CPW) as E1.
      pose proof (I2_plus T1 T2 C1 C2) as E2. rewrite E2, Z1, Z2 in E1. unfold W in E1 |- *. rewrite R0 in E1. lra. }
    pose proof (orth_zero fam W Hfam CW O x y Hxy) as Z. unfold W in Z. apply Rmult_integral in Z.
    destruct Z as [Z | Z]; [exfalso; exact (Rabs_no_R0 _ (Hreg x y Hxy) Z)|]. unfold defect in Z. lra.
Qed.
Lemma exp_converse : forall tr c0 cells, In c0 cells ->
  C1_on tr cells (fun s t => 1 * Dx (fun s _ => exp s) s t) /\ C1_on tr cells (fun s t => 1 * Dy (fun s _ => exp s) s t) /\
  continuous_on tr cells (fun s _ => exp s) /\ continuous_on tr cells (Dx (fun s _ => exp s)) /\ continuous_on tr cells (Dy (fun s _ => exp s)) /\
  represents tr cells (fun s _ => exp s) (fun _ _ => 1) (fun p => exp (fst p)) (fun p => (exp (fst p), 0)) (fun _ => 1) /\
  ~ strong_solution tr cells (fun s _ => exp s) (fun _ _ => 1) 0 0 0 (fun _ _ => 0).
Proof.
  intros tr c0 cells I. destruct (exp_data tr cells) as (_ & H1 & H2 & H3 & H4).
  assert (Ex : Dx (fun s _ => exp s) = (fun s _ => exp s)) by (do 2 (apply functional_extensionality; intros); apply exp_Dx).
  assert (Ey : Dy (fun s _ => exp s) = (fun _ _ => 0)) by (do 2 (apply functional_extensionality; intros); apply exp_Dy).
  refine (conj H1 (conj H2 (conj _ (conj _ (conj _ (conj H4 _)))))).
  - intros c x y _ _. apply exp_cont.
  - rewrite Ex. intros c x y _ _. apply exp_cont.
  - rewrite Ey. intros c x y _ _. apply continuity_2d_pt_const.
  - intros K. specialize (H3 c0 0 0). specialize (K c0 0 0).
    assert (Q : in_square 0 0) by (split; lra).
    specialize (H3 I Q). specialize (K I Q). pose proof (eq_trans (eq_sym H3) K) as E. cbv beta in E. pose proof (exp_pos (fst (RefMap tr c0 0 0))). lra.
Qed.
