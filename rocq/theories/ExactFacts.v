(* Exact polynomial solutions have zero residual (C33): discrete integration by parts on a
   parallelogram cell. *)
From Coq Require Import String ZArith List Arith Lia Reals Lra.
From Coquelicot Require Import Coquelicot.
From Verif Require Import Num Py PyFacts Jacobi Quadrature Basis Transform Cell Space RCalc PolyFacts PolyDeg ListFacts Spec SpecGeom SpecMesh SpecPde BasisFacts BasisFacts2
  LegendreFacts Interp QuadFacts TransformFacts CellFacts2 SpaceFacts TransformFacts2 GlobalQuad.
Import ListNotations.
Local Open Scope R_scope.

(* Finite sums of products p(x) q(y), p a polynomial with at most e coefficients *)
Inductive sepx (e : nat) : (R -> R -> R) -> Prop :=
| sepx_prod : forall p q, pdeg e p -> sepx e (fun x y => p x * q y)
| sepx_plus : forall f g, sepx e f -> sepx e g -> sepx e (fun x y => f x y + g x y)
| sepx_ext : forall f g, (forall x y, f x y = g x y) -> sepx e f -> sepx e g.

Lemma sepx_mono : forall d e f, (d <= e)%nat -> sepx d f -> sepx e f.
Proof.
  intros d e f H Hf. induction Hf.
  - apply sepx_prod. eapply pdeg_mono; eauto.
  - now apply sepx_plus.
  - eapply sepx_ext; eauto.
Qed.
Lemma sepx_mult : forall a b f g, sepx a f -> sepx b g -> sepx (a + b - 1) (fun x y => f x y * g x y).
Proof.
  intros a b f g Hf. revert g. induction Hf; intros k Hk.
  - induction Hk.
    + apply (sepx_ext _ (fun x y => (p x * p0 x) * (q y * q0 y))). { intros; ring. }
      apply (sepx_prod _ (fun x => p x * p0 x) (fun y => q y * q0 y)). now apply pdeg_mult.
    + apply (sepx_ext _ (fun x y => p x * q y * f x y + p x * q y * g x y)). { intros; ring. }
      now apply sepx_plus.
    + eapply sepx_ext; [|exact IHHk]. intros; cbv beta. now rewrite H0.
  - apply (sepx_ext _ (fun x y => f x y * k x y + g x y * k x y)). { intros; ring. }
    apply sepx_plus; auto.
  - eapply sepx_ext; [|apply (IHHf k Hk)]. intros; cbv beta. now rewrite H.
Qed.
Lemma sepx_const : forall c, sepx 1 (fun _ _ => c).
Proof. intros. apply (sepx_ext _ (fun x y => 1 * c)). { intros; ring. } apply (sepx_prod 1 (fun _ => 1) (fun _ => c)). apply pdeg_const. Qed.
Lemma sepx_aff : forall a b c, sepx 2 (fun x y => a + b * x + c * y).
Proof.
  intros. apply (sepx_ext _ (fun x y => (a + b * x) * 1 + c * y)). { intros; ring. } apply sepx_plus.
  - apply (sepx_prod 2 (fun x => a + b * x) (fun _ => 1)). apply pdeg_lin.
  - apply (sepx_mono 1); [lia|]. apply (sepx_prod 1 (fun _ => c) (fun y => y)). apply pdeg_const.
Qed.
Lemma sepx_pow : forall f n, sepx 2 f -> sepx (S n) (fun x y => f x y ^ n).
Proof.
  intros f n Hf. induction n; simpl; [apply sepx_const|].
  apply (sepx_mono (2 + S n - 1)); [lia|]. now apply (sepx_mult 2 (S n) f (fun x y => f x y ^ n)).
Qed.
Lemma sepx_derive : forall e f, sepx e f -> exists f', forall x y, is_derive (fun t => f t y) x (f' x y).
Proof.
  intros e f Hf. induction Hf.
  - destruct (pdeg_deriv e p) as (g & _ & Dg); [eapply pdeg_mono; [|eauto]; lia|].
    exists (fun x y => g x * q y). intros. apply (derR_ext (fun t => q y * p t)); [intros; ring|].
    eapply derR_eq; [apply derR_scal, Dg | ring].
  - destruct IHHf1 as (f' & Df). destruct IHHf2 as (g' & Dg). exists (fun x y => f' x y + g' x y).
    intros. apply derR_plus; auto.
  - destruct IHHf as (f' & Df). exists f'. intros. apply (derR_ext (fun t => f t y)); auto.
Qed.

Lemma Rule2_ext : forall w xi eta F G, (forall s t, F s t = G s t) -> Rule2 w xi eta F = Rule2 w xi eta G.
Proof. intros. unfold Rule2. change Sum with rsum. apply rsum_ext. intros. now rewrite H. Qed.
Lemma Rule2_plus : forall w xi eta F G, Rule2 w xi eta (fun s t => F s t + G s t) = Rule2 w xi eta F + Rule2 w xi eta G.
Proof. intros. unfold Rule2. change Sum with rsum. rewrite <- rsum_plus. apply rsum_ext. intros. ring. Qed.
Lemma Rule2_scal : forall w xi eta c F, Rule2 w xi eta (fun s t => c * F s t) = c * Rule2 w xi eta F.
Proof. intros. unfold Rule2. change Sum with rsum. rewrite <- rsum_scal. apply rsum_ext. intros. ring. Qed.

Section Parts.
Variables (x v : list R) (n D : nat).
Hypothesis Lx : length x = n.
Hypothesis Lv : length v = n.
Hypothesis He : exact_upto D x v.
Let W := outer_flat v v.
Let XI := fst (meshgrid_flat x x).
Let ETA := snd (meshgrid_flat x x).
Notation R2 := (Rule2 W XI ETA).

Lemma Rule2_flip : forall F, R2 F = R2 (fun s t => F t s).
Proof.
  intros. unfold W, XI, ETA. rewrite !(Rule2_double x v n Lx Lv). rewrite rsum_swap.
  apply rsum_ext; intros i Hi. apply rsum_ext; intros j Hj. ring.
Qed.

(* a vanishes at both ends *)
Variables (a b a' b' : R -> R) (m : nat).
Hypothesis Da : forall t, is_derive a t (a' t).
Hypothesis Db : forall t, is_derive b t (b' t).
Hypothesis Pa : pdeg m a.
Hypothesis Pb : pdeg m b.
Hypothesis Ea : a (-1) = 0 /\ a 1 = 0.
Hypothesis Eb : b (-1) = 0 /\ b 1 = 0.

Lemma rule_derivative : forall e p p' c c', (e + m - 2 <= D)%nat -> pdeg e p -> (forall t, is_derive p t (p' t)) ->
  (forall t, is_derive c t (c' t)) -> pdeg m c -> c (-1) = 0 -> c 1 = 0 ->
  Rule x v (fun t => p' t * c t + p t * c' t) = 0.
Proof.
  intros e p p' c c' Hd Hp Dp Dc Pc E1 E2.
  assert (DD : forall t, is_derive (fun t => p t * c t) t (p' t * c t + p t * c' t)) by (intros; now apply derR_mult).
  assert (PP : pdeg (e + m - 2) (fun t => p' t * c t + p t * c' t)).
  { destruct (Nat.eq_dec (e + m - 2) 0) as [Z|Z].
    - (* at most one coefficient: the product is constant *)
      destruct (pdeg_deriv 0 (fun t => p t * c t)) as (g & Pg & Dg).
      { apply (pdeg_mono (e + m - 1)); [lia|]. now apply pdeg_mult. }
      rewrite Z. apply (pdeg_ext _ g); auto. intros t. eapply derR_uniq; eauto.
    - destruct (pdeg_deriv (e + m - 2) (fun t => p t * c t)) as (g & Pg & Dg).
      { replace (S (e + m - 2)) with (e + m - 1)%nat by lia. now apply pdeg_mult. }
      apply (pdeg_ext _ g); auto. intros t. eapply derR_uniq; eauto. }
  rewrite (exact_pdeg D x v _ He) by (eapply pdeg_mono; eauto).
  rewrite (RInt_of_derive (fun t => p t * c t)); auto; [rewrite E1, E2; ring|].
  intros t. eapply pdeg_continuous; eauto.
Qed.

Lemma parts_x : forall e, (e + m - 2 <= D)%nat -> forall g, sepx e g -> forall g', (forall s t, is_derive (fun r => g r t) s (g' s t)) ->
  R2 (fun s t => g' s t * (a s * b t) + g s t * (a' s * b t)) = 0.
Proof.
  intros e Hd g Hg. induction Hg; intros g' Dg.
  - destruct (pdeg_deriv e p) as (p' & _ & Dp); [eapply pdeg_mono; [|eauto]; lia|].
    rewrite (Rule2_ext _ _ _ _ (fun s t => (p' s * a s + p s * a' s) * (q t * b t))).
    + unfold W, XI, ETA. rewrite (Rule2_product x v n Lx Lv (fun s => p' s * a s + p s * a' s) (fun t => q t * b t)).
      rewrite (rule_derivative e p p' a a'); auto; try apply Ea. ring.
    + intros s t. replace (g' s t) with (p' s * q t); [ring|].
      eapply derR_uniq; [|apply Dg]. apply (derR_ext (fun r => q t * p r)); [intros; ring|].
      eapply derR_eq; [apply derR_scal, Dp | ring].
  - destruct (sepx_derive _ _ Hg1) as (f1 & D1). destruct (sepx_derive _ _ Hg2) as (f2 & D2).
    rewrite (Rule2_ext _ _ _ _ (fun s t => (f1 s t * (a s * b t) + f s t * (a' s * b t)) + (f2 s t * (a s * b t) + g s t * (a' s * b t)))).
    + rewrite Rule2_plus, (IHHg1 f1 D1), (IHHg2 f2 D2). ring.
    + intros s t. replace (g' s t) with (f1 s t + f2 s t); [ring|].
      eapply derR_uniq; [|apply Dg]. apply derR_plus; auto.
  - rewrite (Rule2_ext _ _ _ _ (fun s t => g' s t * (a s * b t) + f s t * (a' s * b t))) by (intros; now rewrite H).
    apply IHHg. intros. apply (derR_ext (fun r => g r t)); auto.
Qed.
End Parts.

Section PartsY.
Variables (x v : list R) (n D : nat).
Hypothesis Lx : length x = n.
Hypothesis Lv : length v = n.
Hypothesis He : exact_upto D x v.
Let W := outer_flat v v.
Let XI := fst (meshgrid_flat x x).
Let ETA := snd (meshgrid_flat x x).
Variables (a b a' b' : R -> R) (m : nat).
Hypothesis Da : forall t, is_derive a t (a' t).
Hypothesis Db : forall t, is_derive b t (b' t).
Hypothesis Pa : pdeg m a.
Hypothesis Pb : pdeg m b.
Hypothesis Ea : a (-1) = 0 /\ a 1 = 0.
Hypothesis Eb : b (-1) = 0 /\ b 1 = 0.

Lemma parts_y : forall e, (e + m - 2 <= D)%nat -> forall g, sepx e (fun s t => g t s) ->
  forall g', (forall s t, is_derive (fun r => g s r) t (g' s t)) ->
  Rule2 W XI ETA (fun s t => g' s t * (a s * b t) + g s t * (a s * b' t)) = 0.
Proof.
  intros e Hd g Hg g' Dg. unfold W, XI, ETA. rewrite (Rule2_flip x v n Lx Lv).
  rewrite (Rule2_ext _ _ _ _ (fun s t => g' t s * (b s * a t) + g t s * (b' s * a t))) by (intros; ring).
  apply (parts_x x v n D Lx Lv He b a b' m Db Pb Eb e Hd (fun s t => g t s) Hg (fun s t => g' t s)). auto.
Qed.

(* An affine map X = X0 + xx s + xy t, Y = Y0 + yx s + yy t with determinant J <> 0 *)
Variables (X0 xx xy Y0 yx yy : R).
Let X s t := X0 + xx * s + xy * t.
Let Y s t := Y0 + yx * s + yy * t.
Let J := xx * yy - xy * yx.
Hypothesis HJ : J <> 0.
(* the partial derivatives of the transported test function *)
Variables A B : R -> R -> R.
Hypothesis HA : forall s t, a' s * b t = A s t * xx + B s t * yx.
Hypothesis HB : forall s t, a s * b' t = A s t * xy + B s t * yy.

Lemma mono_derive : forall (P Q : R -> R) p q i j t, is_derive P t p -> is_derive Q t q ->
  is_derive (fun r => P r ^ i * Q r ^ j) t (INR i * P t ^ pred i * Q t ^ j * p + INR j * P t ^ i * Q t ^ pred j * q).
Proof.
  intros P Q p q i j t HP HQ. eapply derR_eq.
  - apply derR_mult; apply derR_pow; eassumption.
  - rewrite <- !Nat.sub_1_r. ring.
Qed.
Lemma X_ds : forall s t, is_derive (fun r => X r t) s xx. Proof. intros. unfold X. auto_derive; auto; ring. Qed.
Lemma X_dt : forall s t, is_derive (fun r => X s r) t xy. Proof. intros. unfold X. auto_derive; auto; ring. Qed.
Lemma Y_ds : forall s t, is_derive (fun r => Y r t) s yx. Proof. intros. unfold Y. auto_derive; auto; ring. Qed.
Lemma Y_dt : forall s t, is_derive (fun r => Y s r) t yy. Proof. intros. unfold Y. auto_derive; auto; ring. Qed.

(* Which monomials the bound D covers: total degree in general, degree in each variable when
   the map keeps the axes. *)
Definition covered_x (d i j : nat) : Prop := (i + j < d)%nat \/ (xy = 0 /\ yx = 0 /\ (i < d)%nat).
Definition covered_y (d i j : nat) : Prop := (i + j < d)%nat \/ (xy = 0 /\ yx = 0 /\ (j < d)%nat).
Definition covered (d i j : nat) : Prop := (i + j < d)%nat \/ (xy = 0 /\ yx = 0).

Lemma aff_sepx : forall i j, sepx (i + j + 1) (fun s t => X s t ^ i * Y s t ^ j).
Proof.
  intros. apply (sepx_mono (S i + S j - 1)); [lia|].
  apply (sepx_mult (S i) (S j) (fun s t => X s t ^ i) (fun s t => Y s t ^ j)); apply sepx_pow; apply sepx_aff.
Qed.
Lemma aff_sepy : forall i j, sepx (i + j + 1) (fun t s => X s t ^ i * Y s t ^ j).
Proof.
  intros. apply (sepx_mono (S i + S j - 1)); [lia|].
  apply (sepx_mult (S i) (S j) (fun t s => X s t ^ i) (fun t s => Y s t ^ j)); apply sepx_pow.
  - apply (sepx_ext _ (fun t s => X0 + xy * t + xx * s)); [intros; unfold X; ring | apply sepx_aff].
  - apply (sepx_ext _ (fun t s => Y0 + yy * t + yx * s)); [intros; unfold Y; ring | apply sepx_aff].
Qed.
Lemma rect_sepx : forall i j, xy = 0 -> yx = 0 -> sepx (i + 1) (fun s t => X s t ^ i * Y s t ^ j).
Proof.
  intros i j E1 E2. apply (sepx_ext _ (fun s t => (X0 + xx * s) ^ i * (Y0 + yy * t) ^ j)).
  { intros. unfold X, Y. rewrite E1, E2. f_equal; f_equal; ring. }
  apply (sepx_prod _ (fun s => (X0 + xx * s) ^ i) (fun t => (Y0 + yy * t) ^ j)). rewrite Nat.add_1_r. apply pdeg_linpow.
Qed.
Lemma rect_sepy : forall i j, xy = 0 -> yx = 0 -> sepx (j + 1) (fun t s => X s t ^ i * Y s t ^ j).
Proof.
  intros i j E1 E2. apply (sepx_ext _ (fun t s => (Y0 + yy * t) ^ j * (X0 + xx * s) ^ i)).
  { intros. unfold X, Y. rewrite E1, E2. rewrite Rmult_comm. f_equal; f_equal; ring. }
  apply (sepx_prod _ (fun t => (Y0 + yy * t) ^ j) (fun s => (X0 + xx * s) ^ i)). rewrite Nat.add_1_r. apply pdeg_linpow.
Qed.

Notation R2 := (Rule2 W XI ETA).
Notation phi s t := (a s * b t).
Definition gs i j s t := INR i * X s t ^ pred i * Y s t ^ j * xx + INR j * X s t ^ i * Y s t ^ pred j * yx.
Definition gt i j s t := INR i * X s t ^ pred i * Y s t ^ j * xy + INR j * X s t ^ i * Y s t ^ pred j * yy.
Lemma gs_ok : forall i j s t, is_derive (fun r => X r t ^ i * Y r t ^ j) s (gs i j s t).
Proof. intros. apply (mono_derive (fun r => X r t) (fun r => Y r t)); [apply X_ds | apply Y_ds]. Qed.
Lemma gt_ok : forall i j s t, is_derive (fun r => X s r ^ i * Y s r ^ j) t (gt i j s t).
Proof. intros. apply (mono_derive (fun r => X s r) (fun r => Y s r)); [apply X_dt | apply Y_dt]. Qed.

Lemma parts_J : forall (c1 c2 : R) F G H, c1 * R2 G - c2 * R2 H = 0 ->
  (forall s t, J * F s t = c1 * G s t - c2 * H s t) -> R2 F = 0.
Proof.
  intros c1 c2 F G H E0 E. apply (Rmult_eq_reg_l J); [|exact HJ]. rewrite <- Rule2_scal, Rmult_0_r, <- E0.
  rewrite <- !Rule2_scal. unfold Rminus. rewrite <- (Rmult_1_l (R2 (fun s t => c2 * H s t))), Ropp_mult_distr_l, <- Rule2_scal, <- Rule2_plus.
  apply Rule2_ext. intros. rewrite E. ring.
Qed.

(* Sum of the derivative of x^i y^j times phi, and x^i y^j times the derivative of phi *)
Lemma mono_dx : forall d i j, (d + m - 2 <= D)%nat -> covered_x d i j ->
  R2 (fun s t => INR i * X s t ^ pred i * Y s t ^ j * phi s t + X s t ^ i * Y s t ^ j * A s t) = 0.
Proof.
  intros d i j Hd Hc.
  apply (parts_J yy yx _ (fun s t => gs i j s t * phi s t + (X s t ^ i * Y s t ^ j) * (a' s * b t))
                         (fun s t => gt i j s t * phi s t + (X s t ^ i * Y s t ^ j) * (a s * b' t))).
  2:{ intros s t. rewrite HA, HB. unfold gs, gt, J. ring. }
  destruct Hc as [Hc | (E1 & E2 & H1)].
  - pose proof (parts_x x v n D Lx Lv He a b a' m Da Pa Ea (i + j + 1) ltac:(lia) (fun s t => X s t ^ i * Y s t ^ j) (aff_sepx i j) (gs i j) (gs_ok i j)) as P1.
    pose proof (parts_y (i + j + 1) ltac:(lia) (fun s t => X s t ^ i * Y s t ^ j) (aff_sepy i j) (gt i j) (gt_ok i j)) as P2. unfold W, XI, ETA in *. rewrite P1, P2. ring.
  - pose proof (parts_x x v n D Lx Lv He a b a' m Da Pa Ea (i + 1) ltac:(lia) (fun s t => X s t ^ i * Y s t ^ j) (rect_sepx i j E1 E2) (gs i j) (gs_ok i j)) as P1.
    unfold W, XI, ETA in *. rewrite P1, E2. ring.
Qed.
Lemma mono_dy : forall d i j, (d + m - 2 <= D)%nat -> covered_y d i j ->
  R2 (fun s t => INR j * X s t ^ i * Y s t ^ pred j * phi s t + X s t ^ i * Y s t ^ j * B s t) = 0.
Proof.
  intros d i j Hd Hc.
  apply (parts_J (- xy) (- xx) _ (fun s t => gs i j s t * phi s t + (X s t ^ i * Y s t ^ j) * (a' s * b t))
                         (fun s t => gt i j s t * phi s t + (X s t ^ i * Y s t ^ j) * (a s * b' t))).
  2:{ intros s t. rewrite HA, HB. unfold gs, gt, J. ring. }
  destruct Hc as [Hc | (E1 & E2 & H1)].
  - pose proof (parts_x x v n D Lx Lv He a b a' m Da Pa Ea (i + j + 1) ltac:(lia) (fun s t => X s t ^ i * Y s t ^ j) (aff_sepx i j) (gs i j) (gs_ok i j)) as P1.
    pose proof (parts_y (i + j + 1) ltac:(lia) (fun s t => X s t ^ i * Y s t ^ j) (aff_sepy i j) (gt i j) (gt_ok i j)) as P2. unfold W, XI, ETA in *. rewrite P1, P2. ring.
  - pose proof (parts_y (j + 1) ltac:(lia) (fun s t => X s t ^ i * Y s t ^ j) (rect_sepy i j E1 E2) (gt i j) (gt_ok i j)) as P2.
    unfold W, XI, ETA in *. rewrite P2, E1. ring.
Qed.

(* sums of covered monomials *)
Definition poly (c : nat -> nat -> R) a b x y := rsum (fun i => rsum (fun j => c i j * (x ^ i * y ^ j)) b) a.
Definition polyx (c : nat -> nat -> R) a b x y := rsum (fun i => rsum (fun j => c i j * (INR i * (x ^ pred i * y ^ j))) b) a.
Definition polyy (c : nat -> nat -> R) a b x y := rsum (fun i => rsum (fun j => c i j * (INR j * (x ^ i * y ^ pred j))) b) a.

Lemma Rule2_rsum2 : forall (F : nat -> nat -> R -> R -> R) p q,
  R2 (fun s t => rsum (fun i => rsum (fun j => F i j s t) q) p) = rsum (fun i => rsum (fun j => R2 (F i j)) q) p.
Proof.
  intros. unfold Rule2. change Sum with rsum.
  rewrite (rsum_ext _ (fun r => rsum (fun i => rsum (fun j => nth r W 0 * F i j (nth r XI 0) (nth r ETA 0)) q) p)).
  - rewrite rsum_swap. apply rsum_ext; intros i Hi. now rewrite rsum_swap.
  - intros r Hr. rewrite <- rsum_scal. apply rsum_ext; intros i Hi. now rewrite <- rsum_scal.
Qed.
Lemma rsum2_scal : forall (f : nat -> nat -> R) p q k, rsum (fun i => rsum (fun j => f i j) q) p * k = rsum (fun i => rsum (fun j => f i j * k) q) p.
Proof. intros. rewrite <- rsum_scal_r. apply rsum_ext; intros i Hi. now rewrite <- rsum_scal_r. Qed.
Lemma rsum2_plus : forall (f g : nat -> nat -> R) p q, rsum (fun i => rsum (fun j => f i j) q) p + rsum (fun i => rsum (fun j => g i j) q) p
  = rsum (fun i => rsum (fun j => f i j + g i j) q) p.
Proof. intros. rewrite <- rsum_plus. apply rsum_ext; intros i Hi. now rewrite <- rsum_plus. Qed.
Lemma rsum2_0 : forall (f : nat -> nat -> R) p q, (forall i j, (i < p)%nat -> (j < q)%nat -> f i j = 0) ->
  rsum (fun i => rsum (fun j => f i j) q) p = 0.
Proof.
  intros. rewrite (rsum_ext _ (fun _ => 0)); [apply rsum_0|]. intros i Hi.
  rewrite (rsum_ext _ (fun _ => 0)); [apply rsum_0|]. auto.
Qed.
Lemma Rule2_zero : forall F, (forall s t, F s t = 0) -> R2 F = 0.
Proof. intros F H. rewrite (Rule2_ext _ _ _ F (fun s t => 0 * 0)) by (intros; rewrite H; ring). rewrite Rule2_scal. ring. Qed.

Lemma flux_x_ref : forall c p q d, (d + m - 2 <= D)%nat ->
  (forall i j, (i < p)%nat -> (j < q)%nat -> c i j <> 0 -> covered_x d i j) ->
  R2 (fun s t => polyx c p q (X s t) (Y s t) * phi s t + poly c p q (X s t) (Y s t) * A s t) = 0.
Proof.
  intros c p q d Hd Hc.
  rewrite (Rule2_ext _ _ _ _ (fun s t => rsum (fun i => rsum (fun j => c i j *
      (INR i * X s t ^ pred i * Y s t ^ j * phi s t + X s t ^ i * Y s t ^ j * A s t)) q) p)).
  2:{ intros s t. unfold poly, polyx. rewrite !rsum2_scal, rsum2_plus.
      apply rsum_ext; intros i Hi. apply rsum_ext; intros j Hj. ring. }
  rewrite (Rule2_rsum2 (fun i j s t => c i j * (INR i * X s t ^ pred i * Y s t ^ j * phi s t + X s t ^ i * Y s t ^ j * A s t))).
  apply rsum2_0. intros i j Hi Hj. destruct (Req_dec (c i j) 0) as [Z|Z].
  { apply Rule2_zero. intros; rewrite Z; ring. }
  rewrite Rule2_scal, (mono_dx d i j); auto. ring.
Qed.
Lemma flux_y_ref : forall c p q d, (d + m - 2 <= D)%nat ->
  (forall i j, (i < p)%nat -> (j < q)%nat -> c i j <> 0 -> covered_y d i j) ->
  R2 (fun s t => polyy c p q (X s t) (Y s t) * phi s t + poly c p q (X s t) (Y s t) * B s t) = 0.
Proof.
  intros c p q d Hd Hc.
  rewrite (Rule2_ext _ _ _ _ (fun s t => rsum (fun i => rsum (fun j => c i j *
      (INR j * X s t ^ i * Y s t ^ pred j * phi s t + X s t ^ i * Y s t ^ j * B s t)) q) p)).
  2:{ intros s t. unfold poly, polyy. rewrite !rsum2_scal, rsum2_plus.
      apply rsum_ext; intros i Hi. apply rsum_ext; intros j Hj. ring. }
  rewrite (Rule2_rsum2 (fun i j s t => c i j * (INR j * X s t ^ i * Y s t ^ pred j * phi s t + X s t ^ i * Y s t ^ j * B s t))).
  apply rsum2_0. intros i j Hi Hj. destruct (Req_dec (c i j) 0) as [Z|Z].
  { apply Rule2_zero. intros; rewrite Z; ring. }
  rewrite Rule2_scal, (mono_dy d i j); auto. ring.
Qed.
End PartsY.

(* ---------- derivatives of polynomials ---------- *)
Lemma poly_dx : forall c a b x y, is_derive (fun t => poly c a b t y) x (polyx c a b x y).
Proof.
  intros. unfold poly, polyx. apply (is_derive_rsum (fun i t => rsum (fun j => c i j * (t ^ i * y ^ j)) b)). intros i Hi.
  apply (is_derive_rsum (fun j t => c i j * (t ^ i * y ^ j))). intros j Hj. apply derR_scal.
  apply (derR_ext (fun t => y ^ j * t ^ i)); [intros; ring|]. eapply derR_eq; [apply derR_scal, (derR_pow (fun t => t)), derR_id|].
  rewrite <- Nat.sub_1_r. ring.
Qed.
Lemma poly_dy : forall c a b x y, is_derive (fun t => poly c a b x t) y (polyy c a b x y).
Proof.
  intros. unfold poly, polyy. apply (is_derive_rsum (fun i t => rsum (fun j => c i j * (x ^ i * t ^ j)) b)). intros i Hi.
  apply (is_derive_rsum (fun j t => c i j * (x ^ i * t ^ j))). intros j Hj. apply derR_scal.
  eapply derR_eq; [apply derR_scal, (derR_pow (fun t => t)), derR_id|].
  rewrite <- Nat.sub_1_r. ring.
Qed.
Lemma Dx_poly : forall u c a b, (forall x y, u x y = poly c a b x y) -> forall x y, Dx u x y = polyx c a b x y.
Proof. intros u c a b H x y. unfold Dx. rewrite (Derive_ext _ (fun t => poly c a b t y)) by auto. apply is_derive_unique, poly_dx. Qed.
Lemma Dy_poly : forall u c a b, (forall x y, u x y = poly c a b x y) -> forall x y, Dy u x y = polyy c a b x y.
Proof. intros u c a b H x y. unfold Dy. rewrite (Derive_ext _ (fun t => poly c a b x t)) by auto. apply is_derive_unique, poly_dy. Qed.
Lemma polyx_shift : forall c a b x y, polyx c a b x y = poly (fun i j => c (S i) j * INR (S i)) (a - 1) b x y.
Proof.
  intros. unfold polyx, poly. destruct a; [reflexivity|]. rewrite rsum_S_l. replace (S a - 1)%nat with a by lia.
  rewrite (rsum_ext (fun j => c 0%nat j * _) (fun _ => 0)) by (intros; simpl; ring). rewrite rsum_0, Rplus_0_l.
  apply rsum_ext; intros i Hi. apply rsum_ext; intros j Hj. cbn [pred]. ring.
Qed.
Lemma polyy_shift : forall c a b x y, polyy c a b x y = poly (fun i j => c i (S j) * INR (S j)) a (b - 1) x y.
Proof.
  intros. unfold polyy, poly. apply rsum_ext; intros i Hi. destruct b; [reflexivity|]. rewrite rsum_S_l. replace (S b - 1)%nat with b by lia.
  change (INR 0) with 0. rewrite Rmult_0_l, Rmult_0_r, Rplus_0_l. apply rsum_ext; intros j Hj. cbn [pred]. ring.
Qed.
Lemma box_dx : forall a b u, poly_box a b u -> poly_box (a - 1) b (Dx u).
Proof.
  intros a b u (c & H). eexists. intros x y. rewrite (Dx_poly u c a b H), polyx_shift. reflexivity.
Qed.
Lemma box_dy : forall a b u, poly_box a b u -> poly_box a (b - 1) (Dy u).
Proof.
  intros a b u (c & H). eexists. intros x y. rewrite (Dy_poly u c a b H), polyy_shift. reflexivity.
Qed.
(* dropping a zero last row or column *)
Lemma poly_trunc : forall c a b a' b' x y, (a' <= a)%nat -> (b' <= b)%nat ->
  (forall i j, (i < a)%nat -> (j < b)%nat -> (a' <= i \/ b' <= j)%nat -> c i j = 0) -> poly c a b x y = poly c a' b' x y.
Proof.
  assert (T : forall (f : nat -> R) n m, (m <= n)%nat -> (forall k, (m <= k < n)%nat -> f k = 0) -> rsum f n = rsum f m).
  { intros f n m Hm Hf. induction Hm; auto. simpl. rewrite IHHm by (intros; apply Hf; lia). rewrite Hf by lia. ring. }
  intros c a b a' b' x y Ha Hb Hz. unfold poly. rewrite (T _ a a' Ha).
  - apply rsum_ext; intros i Hi. apply T; auto. intros j Hj. rewrite Hz by (auto; lia). ring.
  - intros i Hi. rewrite (rsum_ext _ (fun _ => 0)); [apply rsum_0|]. intros j Hj. rewrite Hz by (auto; lia). ring.
Qed.
Lemma total_dx : forall d u, poly_total d u -> poly_total (d - 1) (Dx u).
Proof.
  intros d u (c & Hz & H). exists (fun i j => c (S i) j * INR (S i)). split.
  - intros i j Hij. rewrite Hz by lia. ring.
  - intros x y. rewrite (Dx_poly u c d d H), polyx_shift. apply poly_trunc; [lia | lia |].
    intros i j Hi Hj Ho. rewrite Hz by lia. ring.
Qed.
Lemma total_dy : forall d u, poly_total d u -> poly_total (d - 1) (Dy u).
Proof.
  intros d u (c & Hz & H). exists (fun i j => c i (S j) * INR (S j)). split.
  - intros i j Hij. rewrite Hz by lia. ring.
  - intros x y. rewrite (Dy_poly u c d d H), polyy_shift. apply poly_trunc; [lia | lia |].
    intros i j Hi Hj Ho. rewrite Hz by lia. ring.
Qed.
Lemma solution_flux : forall d u c, solution_on d u c -> flux_on (d - 1) (Dx u) (Dy u) c.
Proof.
  intros d u c [(P & J & T) | (a & b & p & q & E & Hab & Hpq & B)].
  - left. split; [auto|]. split; [auto|]. split; [now apply total_dx | now apply total_dy].
  - right. exists a, b, p, q, d. split; [auto|]. split; [auto|]. split; [auto|]. split; [now apply box_dx | now apply box_dy].
Qed.

(* ---------- the 1D test functions ---------- *)
Lemma jac_pdeg : forall n a b, pdeg (S n) (peval (jac n a b)).
Proof. intros. eapply pdeg_mono; [apply jac_length | apply pdeg_peval]. Qed.
Lemma phi_pdeg : forall f k i, (i < k)%nat -> pdeg (k + 2) (phi f (S i)).
Proof.
  intros f k i Hi. assert (L : forall n, (n <= k + 1)%nat -> pdeg (k + 2) (LegendreP n)).
  { intros n Hn. apply (pdeg_ext _ (peval (leg n))); [intros; symmetry; apply LegendreP_eval|].
    apply (pdeg_mono (S n)); [lia | apply jac_pdeg]. }
  assert (T : forall n, (n <= k + 1)%nat -> pdeg (k + 2) (ChebyshevT n)).
  { intros n Hn. unfold ChebyshevT. apply (pdeg_ext _ (fun x => / JacobiP n (-1/2) (-1/2) 1 * peval (jac n (-1/2) (-1/2)) x)).
    { intros. rewrite (JacobiP_eval n _ _ x). apply Rmult_comm. }
    apply pdeg_scal. apply (pdeg_mono (S n)); [lia | apply jac_pdeg]. }
  destruct f; cbn [phi].
  - apply pdeg_minus; apply L; lia.
  - apply pdeg_minus; apply L; lia.
  - apply pdeg_minus; apply T; lia.
  - apply L; lia.
Qed.

(* ---------- a cell of a built space ---------- *)
Lemma RefMap_para : forall name c s t, parallelogram c -> RefMap name c s t =
  ((fst (v1 c) + fst (v3 c)) / 2 + (fst (v1 c) - fst (v0 c)) / 2 * s + (fst (v3 c) - fst (v0 c)) / 2 * t,
   (snd (v1 c) + snd (v3 c)) / 2 + (snd (v1 c) - snd (v0 c)) / 2 * s + (snd (v3 c) - snd (v0 c)) / 2 * t).
Proof.
  intros name c s t [Px Py]. assert (E2 : fst (v2 c) = fst (v1 c) + fst (v3 c) - fst (v0 c)) by lra.
  assert (E3 : snd (v2 c) = snd (v1 c) + snd (v3 c) - snd (v0 c)) by lra.
  unfold RefMap. destruct (String.eqb name "affine"); rewrite ?E2, ?E3; f_equal; field.
Qed.

Section CellFlux.
Variables (o : quad_oracle R) (cf : config) (cells : list (cell R)) (bp : bdict R) (bf : bfun R) (plot : bool)
  (s : space R) (ci : nat) (c : cell R).
Hypothesis Ho : oracle_ok o (Z.to_nat (cf_quad_order cf)).
Hypothesis Hs : make_space o cf cells bp bf plot = Ok s.
Hypothesis Hc : nth_error cells ci = Some c.
Hypothesis Hplain : cf_fe_type cf <> "jacobi_plain"%string.
Let n := Z.to_nat (cf_quad_order cf).
Let k := Z.to_nat (cf_fe_order cf).

Lemma family_vanishes : forall fam, family_of (cf_fe_type cf) = Some fam -> fam <> FJacobiPlain.
Proof.
  intros fam H E. subst fam. unfold family_of in H. apply Hplain.
  destruct (orb _ _); [discriminate|]. destruct (String.eqb _ "legendre_special"); [discriminate|].
  destruct (String.eqb _ "chebyshev_2"); [discriminate|].
  destruct (String.eqb_spec (cf_fe_type cf) "jacobi_plain"); [auto | discriminate].
Qed.

Lemma flux_para : forall p q, 
  parallelogram c -> cross (v0 c) (v1 c) (v3 c) <> 0 ->
  forall cp cq pa pb qa qb d, (d + k <= exactness (cf_quad_type cf) n)%nat ->
  (forall x y, p x y = poly cp pa pb x y) -> (forall x y, q x y = poly cq qa qb x y) ->
  let xy := (fst (v3 c) - fst (v0 c)) / 2 in let yx := (snd (v1 c) - snd (v0 c)) / 2 in
  (forall i j, (i < pa)%nat -> (j < pb)%nat -> cp i j <> 0 -> covered_x xy yx d i j) ->
  (forall i j, (i < qa)%nat -> (j < qb)%nat -> cq i j <> 0 -> covered_y xy yx d i j) ->
  exists val gx gy pts, get_shape_function_val s (Z.of_nat ci) = Ok val /\ get_shape_function_grad_x s (Z.of_nat ci) = Ok gx /\
    get_shape_function_grad_y s (Z.of_nat ci) = Ok gy /\ get_quadrature_actual_coordinates s (Z.of_nat ci) = Ok pts /\
    forall r, (r < k * k)%nat -> 
      let at_q (u : R -> R -> R) q := u (fst (nth q pts (0, 0))) (snd (nth q pts (0, 0))) in
      Sum (fun j => entry gx r j * at_q p j + entry gy r j * at_q q j + entry val r j * at_q (Div p q) j) (n * n) = 0.
Proof.
  intros p q Hp Hcr cp cq pa pb qa qb d Hd Ep Eq xy yx Cp Cq.
  destruct (space_tables o cf cells bp bf plot s ci _ (oracle_lengths _ _ Ho) Hs Hc)
    as (fam & w & xi & eta & val & gx & gy & gxr & gyr & pts & mult & Hf & Hq & Hval & Hgx & Hgy & _ & _ & Hpt & Hm & Lm & Lp & _ & _ & _ & _ & _ & T).
  fold n k in Lm, Lp, T. exists val, gx, gy, pts. do 4 (split; [assumption|]). intros r Hr at_q.
  destruct (row_split k r Hr) as (i & j & -> & Hi & Hj).
  destruct (quad_tensor o _ _ w xi eta Ho Hq) as (x & v & Lx & Lv & E & He). fold n in Lx, Lv, He.
  rewrite tensorise_eq in E. injection E as -> E1 E2.
  set (xx := (fst (v1 c) - fst (v0 c)) / 2) in *. set (yy := (snd (v3 c) - snd (v0 c)) / 2) in *.
  set (X0 := (fst (v1 c) + fst (v3 c)) / 2) in *. set (Y0 := (snd (v1 c) + snd (v3 c)) / 2) in *.
  assert (HJ : xx * yy - xy * yx <> 0).
  { intros Z. apply Hcr. unfold cross. unfold xx, yy, xy, yx in Z. nra. }
  assert (HF : forall a b, RefMap (cf_trafo cf) c a b = (X0 + xx * a + xy * b, Y0 + yx * a + yy * b)) by (intros; now apply RefMap_para).
  assert (DF : forall a b, Dx (fun a b => fst (RefMap (cf_trafo cf) c a b)) a b = xx /\ Dx (fun a b => snd (RefMap (cf_trafo cf) c a b)) a b = yx /\
     Dy (fun a b => fst (RefMap (cf_trafo cf) c a b)) a b = xy /\ Dy (fun a b => snd (RefMap (cf_trafo cf) c a b)) a b = yy).
  { intros a b. unfold Dx, Dy.
    rewrite (Derive_ext _ (fun t => X0 + xx * t + xy * b)) by (intros; now rewrite HF).
    rewrite (Derive_ext (fun t => snd (RefMap (cf_trafo cf) c t b)) (fun t => Y0 + yx * t + yy * b)) by (intros; now rewrite HF).
    rewrite (Derive_ext (fun t => fst (RefMap (cf_trafo cf) c a t)) (fun t => X0 + xx * a + xy * t)) by (intros; now rewrite HF).
    rewrite (Derive_ext (fun t => snd (RefMap (cf_trafo cf) c a t)) (fun t => Y0 + yx * a + yy * t)) by (intros; now rewrite HF).
    repeat split; apply is_derive_unique; auto_derive; auto; ring. }
  assert (HJac : forall a b, JacDet (RefMap (cf_trafo cf) c) a b = xx * yy - xy * yx).
  { intros a b. destruct (DF a b) as (D1 & D2 & D3 & D4). unfold Dx, Dy in D1, D2, D3, D4. unfold JacDet. now rewrite D1, D2, D3, D4. }
  set (a := phi fam (S i)). set (b := phi fam (S j)). set (a' := dphi fam (S i)). set (b' := dphi fam (S j)).
  assert (Da : forall t, is_derive a t (a' t)) by (intros; apply phi_derive; lia).
  assert (Db : forall t, is_derive b t (b' t)) by (intros; apply phi_derive; lia).
  destruct (phi_boundary fam (S i) ltac:(lia) (family_vanishes fam Hf)) as [A1 A2].
  destruct (phi_boundary fam (S j) ltac:(lia) (family_vanishes fam Hf)) as [B1 B2].
  set (J := xx * yy - xy * yx) in *.
  set (A := fun s t => (yy * (a' s * b t) - yx * (a s * b' t)) / J).
  set (B := fun s t => (xx * (a s * b' t) - xy * (a' s * b t)) / J).
  assert (HA : forall s t, a' s * b t = A s t * xx + B s t * yx) by (intros; unfold A, B, J; field; exact HJ).
  assert (HB : forall s t, a s * b' t = A s t * xy + B s t * yy) by (intros; unfold A, B, J; field; exact HJ).
  pose proof (flux_x_ref x v n _ Lx Lv He a b a' b' (k + 2) Da Db (phi_pdeg fam k i Hi) (phi_pdeg fam k j Hj) (conj A2 A1) (conj B2 B1)
    X0 xx xy Y0 yx yy HJ A B HA HB cp pa pb d ltac:(lia) Cp) as Fx.
  pose proof (flux_y_ref x v n _ Lx Lv He a b a' b' (k + 2) Da Db (phi_pdeg fam k i Hi) (phi_pdeg fam k j Hj) (conj A2 A1) (conj B2 B1)
    X0 xx xy Y0 yx yy HJ A B HA HB cq qa qb d ltac:(lia) Cq) as Fy.
  match type of Fx with ?Rx = 0 => match type of Fy with ?Ry = 0 =>
    transitivity (Rabs J * (Rx + Ry)); [|rewrite Fx, Fy; ring] end end.
  rewrite <- Rule2_plus, <- Rule2_scal.
  unfold Rule2. rewrite (W_len v n Lv). change (fst (meshgrid_flat x x)) with (concat (map (fun _ : R => x) x)). change (snd (meshgrid_flat x x)) with (concat (map (fun b : R => map (fun _ : R => b) x) x)). rewrite <- E1, <- E2. change Sum with rsum. apply rsum_ext. intros l Hl.
  destruct (T l Hl) as (M1 & P1 & T1). destruct (T1 i j Hi Hj) as (V1 & _ & _ & G1).
  rewrite HJac in G1. destruct (G1 HJ) as (ga & gb & EA & EB & (C1 & C2) & _). rewrite HJac in M1.
  set (xl := nth l xi 0) in *. set (yl := nth l eta 0) in *. destruct (DF xl yl) as (D1 & D2 & D3 & D4). rewrite D1, D2 in C1. rewrite D3, D4 in C2.
  assert (EDx : Dx (Phi fam i j) xl yl = a' xl * b yl).
  { unfold Dx, Phi. apply is_derive_unique. apply (derR_ext (fun t => b yl * a t)); [intros; unfold a, b; ring|].
    eapply derR_eq; [apply derR_scal, Da | ring]. }
  assert (EDy : Dy (Phi fam i j) xl yl = a xl * b' yl).
  { unfold Dy, Phi. apply is_derive_unique. apply (derR_scal b). apply Db. }
  assert (ga = A xl yl /\ gb = B xl yl) as [-> ->].
  { unfold A, B. rewrite <- EDx, <- EDy, C1, C2. unfold J. split; field; exact HJ. }
  unfold at_q. rewrite EA, EB, V1, M1, P1, HF. cbn [fst snd]. unfold Div. rewrite (Dx_poly p cp pa pb Ep), (Dy_poly q cq qa qb Eq), Ep, Eq.
  fold J. unfold Phi. fold a b. ring.
Qed.

Lemma flux_identity : forall p q d, flux_on d p q c -> (d + k <= exactness (cf_quad_type cf) n)%nat ->
  exists val gx gy pts, get_shape_function_val s (Z.of_nat ci) = Ok val /\ get_shape_function_grad_x s (Z.of_nat ci) = Ok gx /\
    get_shape_function_grad_y s (Z.of_nat ci) = Ok gy /\ get_quadrature_actual_coordinates s (Z.of_nat ci) = Ok pts /\
    forall r, (r < k * k)%nat -> 
      let at_q (u : R -> R -> R) q := u (fst (nth q pts (0, 0))) (snd (nth q pts (0, 0))) in
      Sum (fun j => entry gx r j * at_q p j + entry gy r j * at_q q j + entry val r j * at_q (Div p q) j) (n * n) = 0.
Proof.
  intros p q d [(Hp & Hcr & (cp & Zp & Ep) & (cq & Zq & Eq)) | (a & b & y0 & y1 & e & Ec & Hab & Hy & (cp & Ep) & (cq & Eq))] Hd.
  - apply (flux_para p q Hp Hcr cp cq d d d d d Hd Ep Eq).
    + intros i j Hi Hj Z. left. destruct (Nat.lt_ge_cases (i + j) d); auto. exfalso. apply Z. auto.
    + intros i j Hi Hj Z. left. destruct (Nat.lt_ge_cases (i + j) d); auto. exfalso. apply Z. auto.
  - assert (Hp : parallelogram c) by (rewrite Ec; unfold parallelogram, rect; cbn; lra).
    assert (Hcr : cross (v0 c) (v1 c) (v3 c) <> 0).
    { rewrite Ec. unfold cross, rect; cbn. intros Z. assert (Z' : (b - a) * (y1 - y0) = 0) by lra.
      apply Rmult_integral in Z'. destruct Z'; [apply Hab | apply Hy]; lra. }
    apply (flux_para p q Hp Hcr cp cq d e e d d Hd Ep Eq); rewrite Ec; cbn [rect v0 v1 v3 fst snd].
    + intros i j Hi Hj _. right. repeat split; auto; field.
    + intros i j Hi Hj _. right. repeat split; auto; field.
Qed.
End CellFlux.
