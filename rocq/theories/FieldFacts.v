(* Proofs for C88: the diffusion fields of the two inverse scripts. *)
From Coq Require Import String ZArith List Arith Lia Bool Reals Lra FunctionalExtensionality.
From Coquelicot Require Import Coquelicot.
From Verif Require Import Num Py Basis Transform Problems Spec SpecGeom SpecPde SpecWeak SpecProblem SpecMax
  ErrorFacts ProblemFacts SmoothFacts HardFacts.
Import ListNotations.
Local Open Scope R_scope.

(* ---------- a field that solves the equation leaves no loss ---------- *)
Lemma smooth1_ext : forall u v ux uy, (forall x y, u x y = v x y) -> smooth1 u ux uy -> smooth1 v ux uy.
Proof.
  intros u v ux uy E S x y. destruct (S x y) as (A & B & C & D). split; [eapply is_derive_ext; [|exact A]; intros; apply E|].
  split; [eapply is_derive_ext; [|exact B]; intros; apply E | auto].
Qed.
Lemma smooth1_C1 : forall tr cells h hx hy, smooth1 h hx hy -> C1_on tr cells h.
Proof.
  intros tr cells h hx hy S. split; [|split]; intros c s t _ _.
  - exists (hx (fst (RefMap tr c s t)) (snd (RefMap tr c s t))), (hy (fst (RefMap tr c s t)) (snd (RefMap tr c s t))). now apply smooth1_continuous.
  - apply (continuity_2d_pt_ext hx); [|apply S]. intros. symmetry. apply is_derive_unique, S.
  - apply (continuity_2d_pt_ext hy); [|apply S]. intros. symmetry. apply is_derive_unique, S.
Qed.
Lemma field_zero_loss : forall tr cells fam k u a ax ay bx by_ c f, twice_smooth u -> smooth1 a ax ay -> solves_field a bx by_ c u f ->
  tr = "bilinear"%string \/ tr = "affine"%string -> (forall cl, In cl cells -> strictly_convex cl) -> fam <> FJacobiPlain ->
  exact_loss f (on_points u) (gradient u) (on_points a) bx by_ c tr fam k cells = 0.
Proof.
  intros tr cells fam k u a ax ay bx by_ c f (ux & uy & uxx & uxy & uyx & uyy & H1 & H2 & H3) Ha (wx & wy & px & qy & P & E) Ht Hc Hfam.
  assert (Ex : forall x y, Dx u x y = ux x y) by (intros; apply is_derive_unique, H1). assert (Ey : forall x y, Dy u x y = uy x y) by (intros; apply is_derive_unique, H1).
  assert (Wx : forall x y, wx x y = ux x y) by (intros; rewrite <- Ex; symmetry; apply is_derive_unique, P). assert (Wy : forall x y, wy x y = uy x y) by (intros; rewrite <- Ey; symmetry; apply is_derive_unique, P).
  pose proof (smooth1_mult _ _ _ _ _ _ Ha H2) as S1. pose proof (smooth1_mult _ _ _ _ _ _ Ha H3) as S2.
  apply (exact_loss_zero f u a); auto.
  - eapply smooth1_C1, smooth1_ext; [|exact S1]. intros x y. cbn. now rewrite Ex.
  - eapply smooth1_C1, smooth1_ext; [|exact S2]. intros x y. cbn. now rewrite Ey.
  - intros cl x y _ _ X Y. specialize (E X Y). rewrite Wx, Wy in E. destruct (P X Y) as (_ & _ & D1 & D2).
    replace (Dx (fun s t => a s t * Dx u s t) X Y) with (px X Y).
    2:{ symmetry. apply is_derive_unique. eapply is_derive_ext; [|exact D1]. intros t. cbn. now rewrite Ex, Wx. }
    replace (Dy (fun s t => a s t * Dy u s t) X Y) with (qy X Y).
    2:{ symmetry. apply is_derive_unique. eapply is_derive_ext; [|exact D2]. intros t. cbn. now rewrite Ey, Wy. }
    rewrite Ex, Ey. lra.
  - intros cl x y _ _. cbv zeta. auto.
Qed.
(* fields whose flux along grad u is free of divergence can be added *)
Lemma field_kernel : forall a h u bx by_ c f s, solves_field a bx by_ c u f -> solves_field h 0 0 0 u (fun _ _ => 0) -> solves_field (fun x y => a x y + s * h x y) bx by_ c u f.
Proof.
  intros a h u bx by_ c f s (ux & uy & px & qy & P & E) (vx & vy & hx & hy & Q & F).
  assert (Vx : forall x y, vx x y = ux x y) by (intros x y; destruct (P x y) as (D & _); rewrite <- (is_derive_unique _ _ _ D); symmetry; apply is_derive_unique, Q).
  assert (Vy : forall x y, vy x y = uy x y) by (intros x y; destruct (P x y) as (_ & D & _); rewrite <- (is_derive_unique _ _ _ D); symmetry; apply is_derive_unique, Q).
  exists ux, uy, (fun x y => px x y + s * hx x y), (fun x y => qy x y + s * hy x y). split.
  - intros x y. destruct (P x y) as (A & B & C & D). destruct (Q x y) as (_ & _ & C' & D'). split; [exact A|]. split; [exact B|]. split.
    + eapply is_derive_ext; [|exact (is_derive_plus _ _ _ _ _ C (is_derive_scal _ _ s _ C'))]. intros t. cbn. rewrite Vx. unfold plus. cbn. ring.
    + eapply is_derive_ext; [|exact (is_derive_plus _ _ _ _ _ D (is_derive_scal _ _ s _ D'))]. intros t. cbn. rewrite Vy. unfold plus. cbn. ring.
  - intros x y. specialize (E x y). specialize (F x y). cbn in F. nra.
Qed.

(* ---------- the map of the USA ---------- *)
Lemma smooth_exp : smooth_activation exp.
Proof. exists exp, exp. intros x. split; [auto_derive; auto; ring|]. split; [auto_derive; auto; ring | apply derivable_continuous, derivable_exp]. Qed.
Lemma smooth_sin : smooth_activation sin.
Proof.
  exists cos, (fun x => - sin x). intros x. split; [auto_derive; auto; ring|]. split; [auto_derive; auto; ring|]. apply (continuity_pt_opp sin), continuity_sin.
Qed.
Lemma smooth_cos : smooth_activation cos.
Proof.
  exists (fun x => - sin x), (fun x => - cos x). intros x. split; [auto_derive; auto; ring|]. split; [auto_derive; auto; ring|]. apply (continuity_pt_opp cos), continuity_cos.
Qed.
Lemma twice_once : forall u, twice_smooth u -> exists ux uy, smooth1 u ux uy.
Proof. intros u (ux & uy & _ & _ & _ & _ & H & _). eauto. Qed.
Lemma usa_smooth : twice_smooth (pb_exact usa_inverse).
Proof.
  cbn [pb_exact usa_inverse]. apply twice_mult; [|apply (twice_comp cos (fun x _ => x)); [exact smooth_cos | exact twice_fst]].
  apply (twice_comp exp (fun _ y => - (1 / 10) * y)); [exact smooth_exp|]. apply twice_scal, twice_snd.
Qed.
Definition usa_field (s x y : R) : R := sin x * cos (x * y) + s * exp (- (99 / 10) * y).
Lemma usa_field_smooth : forall s, twice_smooth (usa_field s).
Proof.
  intros s. unfold usa_field. apply twice_plus; [apply twice_mult|].
  - apply (twice_comp sin (fun x _ => x)); [exact smooth_sin | exact twice_fst].
  - apply (twice_comp cos (fun x y => x * y)); [exact smooth_cos|]. apply twice_mult; [exact twice_fst | exact twice_snd].
  - apply twice_scal. apply (twice_comp exp (fun _ y => - (99 / 10) * y)); [exact smooth_exp|]. apply twice_scal, twice_snd.
Qed.
Lemma usa_kernel : solves_field (fun _ y => exp (- (99 / 10) * y)) 0 0 0 (pb_exact usa_inverse) (fun _ _ => 0).
Proof.
  cbn [pb_exact usa_inverse].
  exists (fun x y => - exp (- (1 / 10) * y) * sin x), (fun x y => - (1 / 10) * exp (- (1 / 10) * y) * cos x),
    (fun x y => - (exp (- (99 / 10) * y) * exp (- (1 / 10) * y)) * cos x), (fun x y => exp (- (99 / 10) * y) * exp (- (1 / 10) * y) * cos x). split.
  - intros x y; refine (conj _ (conj _ (conj _ _))); auto_derive; auto; field.
  - intros x y. ring.
Qed.
Lemma usa_many : forall s, solves_field (usa_field s) 0 0 0 (pb_exact usa_inverse) (pb_rhs usa_inverse).
Proof. intros s. exact (field_kernel _ _ _ _ _ _ _ s usa_solves usa_kernel). Qed.
Lemma usa_far : forall M, exists a, solves_field a 0 0 0 (pb_exact usa_inverse) (pb_rhs usa_inverse) /\
  (forall tr cells fam k, tr = "bilinear"%string \/ tr = "affine"%string -> (forall c, In c cells -> strictly_convex c) -> fam <> FJacobiPlain ->
     exact_loss (pb_rhs usa_inverse) (on_points (pb_exact usa_inverse)) (gradient (pb_exact usa_inverse)) (on_points a) 0 0 0 tr fam k cells = 0) /\
  forall x y eps, y <= 1 -> entry (usa_actual x y) "eps" eps -> eps + M <= a x y.
Proof.
  intros M. exists (usa_field (Rabs M * exp (99 / 10))). split; [apply usa_many|]. split.
  - intros tr cells fam k Ht Hc Hf. destruct (twice_once _ (usa_field_smooth (Rabs M * exp (99 / 10)))) as (ax & ay & S). apply (field_zero_loss tr cells fam k _ _ ax ay _ _ _ _ usa_smooth S (usa_many _)); auto.
  - intros x y eps Hy E. unfold entry in E. cbn in E. injection E as <-. unfold usa_field.
    assert (K : 1 <= exp (99 / 10) * exp (- (99 / 10) * y)).
    { rewrite <- exp_plus. rewrite <- exp_0. destruct (Req_dec (99 / 10 + - (99 / 10) * y) 0) as [Z | Z]; [rewrite Z; lra|]. left. apply exp_increasing. lra. }
    pose proof (RRle_abs M). pose proof (Rabs_pos M). rewrite Rmult_assoc. nra.
Qed.
(* the actual coefficient has the sign of x *)
Lemma usa_sign : forall x y eps, -1 <= x <= 1 -> -1 <= y <= 1 -> entry (usa_actual x y) "eps" eps -> (0 < x -> 0 < eps) /\ (x < 0 -> eps < 0) /\ (x = 0 -> eps = 0).
Proof.
  intros x y eps Hx Hy E. unfold entry in E. cbn in E. injection E as <-. pose proof PI2_1. assert (P2 : 2 < PI) by lra.
  assert (C : 0 < cos (x * y)) by (apply cos_gt_0; nra).
  split; [|split].
  - intros Hp. apply Rmult_lt_0_compat; [apply sin_gt_0; lra | exact C].
  - intros Hn. assert (S : 0 < sin (- x)) by (apply sin_gt_0; lra). rewrite sin_neg in S. nra.
  - intros ->. rewrite sin_0. ring.
Qed.

(* ---------- the disc ---------- *)
Lemma cos_below : forall z, z ^ 2 <= 2 -> 1 - z ^ 2 / 2 <= cos z.
Proof.
  pose proof PI2_1. assert (D : forall z, 0 <= z -> z ^ 2 <= 2 -> 1 - z ^ 2 / 2 <= cos z).
  { intros z Hz Hz1. replace (cos z) with (1 - 2 * sin (z / 2) * sin (z / 2)) by (rewrite <- cos_2a_sin; f_equal; field).
    assert (z <= 2) by nra. assert (0 <= sin (z / 2)) by (apply sin_ge_0; lra).
    destruct Hz as [Hz | <-]; [|replace (0 / 2) with 0 by field; rewrite sin_0; lra]. assert (sin (z / 2) < z / 2) by (apply sin_lt_x; lra). nra. }
  intros z Hz. destruct (Rle_dec 0 z) as [H0 | H0]; [apply D; lra|]. rewrite <- (cos_neg z). replace (z ^ 2) with ((- z) ^ 2) by ring. apply D; nra.
Qed.
Lemma circle_positive : forall x y eps, x ^ 2 + y ^ 2 <= 1001 / 1000 -> entry (circle_actual x y) "eps" eps -> 0 < eps.
Proof.
  intros x y eps Hd E. unfold entry in E. cbn in E. injection E as <-. pose proof PI2_1.
  assert (Y : 1 - y ^ 2 / 2 <= cos y) by (apply cos_below; nra).
  assert (X : - (999 / 2000 + x ^ 2 / 2) < sin x).
  { destruct (Rle_dec (- (9 / 10)) x) as [Hx | Hx].
    - destruct (Rle_dec 0 x) as [H0 | H0]; [assert (0 <= sin x) by (apply sin_ge_0; nra); nra|].
      assert (S : sin (- x) < - x) by (apply sin_lt_x; lra). rewrite sin_neg in S. nra.
    - assert (C : 1 - x ^ 2 / 2 <= cos x) by (apply cos_below; nra). pose proof (sin2_cos2 x) as P. unfold Rsqr in P. assert (x ^ 2 <= 1001 / 1000) by nra. assert (4 / 10 <= x ^ 2 / 2) by nra.
      destruct (Rlt_dec (- (8 / 9)) (sin x)) as [S | S]; [nra|]. exfalso. assert (C1 : 4995 / 10000 - 1 / 10000 <= cos x) by lra. nra. }
  nra.
Qed.
