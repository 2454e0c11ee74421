(* The error bound for the two shipped scripts on the unit square. *)
From Coq Require Import String ZArith List Arith Lia Bool Reals Lra.
From Coquelicot Require Import Coquelicot.
From Verif Require Import Num Py Jacobi Quadrature Basis Transform Cell Space Tensor Data Physics Train Geometry Nets Metrics Problems Driver
  Spec SpecGeom SpecTrain SpecMesh SpecPde SpecWeak SpecProblem SpecDriver SpecScript SpecLoop SpecInit SpecMax ListFacts PyFacts ProblemFacts MaxFacts RimFacts.
Import ListNotations.
Local Open Scope R_scope.

Lemma solves_residual : forall eps bx bn g xl yl u f, solves_cd eps bx bn g u f -> residual_below eps bx bn g xl yl u f 0.
Proof.
  intros eps bx bn g xl yl u f (ux & uy & uxx & uyy & H & E). exists ux, uy, uxx, uyy. split; [exact H|]. intros x y _. unfold applied. rewrite E, Rminus_diag_eq by reflexivity. rewrite Rabs_R0. lra.
Qed.
Lemma solves_residual_helmholtz : forall eps k xl yl u f, solves_helmholtz eps k u f -> residual_below (- eps) 0 0 (k ^ 2) xl yl u f 0.
Proof.
  intros eps k xl yl u f (ux & uy & uxx & uyy & H & E). exists ux, uy, uxx, uyy. split; [exact H|]. intros x y _. unfold applied. rewrite <- E. match goal with |- Rabs ?q <= 0 => replace q with 0 by ring end. rewrite Rabs_R0. lra.
Qed.
Lemma sin_lip : forall a b, Rabs (sin a - sin b) <= Rabs (a - b).
Proof.
  intros a b. destruct (MVT_cor4 sin cos b (Rabs (a - b)) (fun c _ => is_derive_sin c) a (Rle_refl _)) as (c & E & _). rewrite E, Rabs_mult.
  rewrite <- (Rmult_1_l (Rabs (a - b))) at 2. apply Rmult_le_compat_r; [apply Rabs_pos|]. apply Rabs_le. apply COS_bound.
Qed.
Lemma abs_product : forall a b A B, Rabs a <= A -> Rabs b <= B -> Rabs (a * b) <= A * B.
Proof. intros a b A B Ha Hb. rewrite Rabs_mult. apply Rmult_le_compat; auto; apply Rabs_pos. Qed.
Lemma far_fst : forall p q, Rabs (fst p - fst q) <= far p q.
Proof. intros. apply Rmax_l. Qed.
Lemma far_snd : forall p q, Rabs (snd p - snd q) <= far p q.
Proof. intros. apply Rmax_r. Qed.
Lemma sine_bound : forall x, Rabs (sin x) <= 1.
Proof. intros x. apply Rabs_le. apply SIN_bound. Qed.
Lemma sine_steep : forall w p q, 0 <= w -> Rabs (sin (w * fst p) - sin (w * fst q)) <= w * far p q /\ Rabs (sin (w * snd p) - sin (w * snd q)) <= w * far p q.
Proof.
  intros w p q Hw. split; (eapply Rle_trans; [apply sin_lip|]); rewrite <- Rmult_minus_distr_l, Rabs_mult, (Rabs_pos_eq w) by auto; apply Rmult_le_compat_l; auto; [apply far_fst | apply far_snd].
Qed.
Lemma sines_steep : forall w p q, 0 <= w -> Rabs (sin (w * fst p) * sin (w * snd p) - sin (w * fst q) * sin (w * snd q)) <= 2 * w * far p q.
Proof.
  intros w p q Hw. destruct (sine_steep w p q Hw) as [A B].
  replace (sin (w * fst p) * sin (w * snd p) - sin (w * fst q) * sin (w * snd q)) with ((sin (w * fst p) - sin (w * fst q)) * sin (w * snd p) + sin (w * fst q) * (sin (w * snd p) - sin (w * snd q))) by ring.
  eapply Rle_trans; [apply Rabs_triang|]. pose proof (abs_product _ _ _ _ A (sine_bound (w * snd p))). pose proof (abs_product _ _ _ _ (sine_bound (w * fst q)) B). lra.
Qed.
Lemma poisson_steep : forall D, steepness_on D (fun p => pb_exact uniform_poisson (fst p) (snd p)) (8 * PI).
Proof.
  intros D p q _ _. cbn [pb_exact uniform_poisson]. pose proof PI_RGT_0. pose proof (sines_steep (4 * PI) p q ltac:(lra)) as S.
  replace (-1 * sin (4 * PI * fst p) * sin (4 * PI * snd p) - -1 * sin (4 * PI * fst q) * sin (4 * PI * snd q)) with (- (sin (4 * PI * fst p) * sin (4 * PI * snd p) - sin (4 * PI * fst q) * sin (4 * PI * snd q))) by ring.
  rewrite Rabs_Ropp. lra.
Qed.
Lemma helmholtz_steep : steepness_on (in_box (0, 1) (0, 1)) (fun p => pb_exact uniform_helmholtz (fst p) (snd p)) (2 + 4 * PI).
Proof.
  intros p q Hp Hq. cbn [pb_exact uniform_helmholtz]. unfold helmholtz_exact. pose proof PI_RGT_0. pose proof (sines_steep PI p q ltac:(lra)) as S. destruct Hp as [Px Py]. destruct Hq as [Qx Qy]. cbn [fst snd] in Px, Py, Qx, Qy.
  pose proof (far_fst p q) as A. pose proof (far_snd p q) as B.
  assert (C : Rabs (fst p + snd p - (fst q + snd q)) <= 2 * far p q).
  { replace (fst p + snd p - (fst q + snd q)) with ((fst p - fst q) + (snd p - snd q)) by ring. eapply Rle_trans; [apply Rabs_triang | lra]. }
  assert (D : Rabs (sin (PI * fst p) * sin (PI * snd p)) <= 1 * 1) by (apply abs_product; apply sine_bound).
  assert (E : Rabs (fst q + snd q) <= 2) by (apply Rabs_le; lra).
  replace ((fst p + snd p) * sin (PI * fst p) * sin (PI * snd p) - (fst q + snd q) * sin (PI * fst q) * sin (PI * snd q))
    with ((fst p + snd p - (fst q + snd q)) * (sin (PI * fst p) * sin (PI * snd p)) + (fst q + snd q) * (sin (PI * fst p) * sin (PI * snd p) - sin (PI * fst q) * sin (PI * snd q))) by ring.
  eapply Rle_trans; [apply Rabs_triang|]. pose proof (abs_product _ _ _ _ C D). pose proof (abs_product _ _ _ _ E S). lra.
Qed.
Lemma poisson_rhs_continuous : forall x y, continuity_2d_pt (pb_rhs uniform_poisson) x y.
Proof.
  intros x y. cbn [pb_rhs uniform_poisson].
  apply (continuity_2d_pt_mult (fun _ _ => -2 * (4 * PI) ^ 2) (fun x y => sin (4 * PI * x) * sin (4 * PI * y))); [apply continuity_2d_pt_const|].
  apply (continuity_2d_pt_mult (fun x y => sin (4 * PI * x)) (fun x y => sin (4 * PI * y))); apply (continuity_1d_2d_pt_comp sin); try apply continuity_sin;
    apply (continuity_2d_pt_mult (fun _ _ => 4 * PI)); try apply continuity_2d_pt_const; [apply continuity_2d_pt_id1 | apply continuity_2d_pt_id2].
Qed.
Section Unit.
Variables (e : numpy R) (lhs1 : nat -> nat -> list R) (o : quad_oracle R) (template : string) (vtk : result (list (list R))) (i : settings) (weights : nat -> net) (fs : files) (r : report) (t : nat)
  (U : point -> R) (G : point -> point) (K rs : R).
Hypothesis He : numpy_ok e.
Hypothesis Hs : sampler_ok lhs1.
Hypothesis Hl : forall i n, latin n (lhs1 i n).
Hypothesis Ho : oracle_ok o (Z.to_nat (i_quad_order i)).
Hypothesis Hx : i_xlim i = (0, 1).
Hypothesis Hy : i_ylim i = (0, 1).
Hypothesis Hc : (1 <= i_ncx i)%Z /\ (1 <= i_ncy i)%Z.
Hypothesis Hb : (4 <= i_nb i)%Z.
Hypothesis Hbeta : 0 < i_beta i.
Hypothesis Ht : (t < Z.to_nat (i_epochs i))%nat.
Hypothesis HK : 0 <= K.
Hypothesis SK : steepness_on (in_box (0, 1) (0, 1)) U K.
Let k := INR (Z.to_nat (i_nb i / 4)).
Lemma poisson_error : run_internal e lhs1 o template vtk uniform_poisson main_uniform_poisson i weights fs = Ok r -> pointwise (the_network main_uniform_poisson (weights t)) U G ->
  residual_below 1 0 0 0 (0, 1) (0, 1) (fun x y => U (x, y)) (pb_rhs uniform_poisson) rs ->
  exists loss, nth t (r_loss r) [] = [loss] /\ forall p, in_box (0, 1) (0, 1) p ->
    Rabs (U p - pb_exact uniform_poisson (fst p) (snd p)) <= exp 1 * Rmax (sqrt (4 * k * (loss / i_beta i)) + (K + 8 * PI) / k) rs.
Proof.
  intros H P Rr. pose proof PI_RGT_0. pose proof (exp_barrier 1 0 0 0 (0, 1) (0, 1) ltac:(lra) ltac:(lra)) as B. cbv zeta in B. cbn [fst snd] in B.
  destruct (script_error e lhs1 o template vtk uniform_poisson main_uniform_poisson i weights fs r 1 0 0 0) with (t := t) (U := U) (G := G) (K := K) (L := 8 * PI) (rs := rs)
    (sg := 1) (phi := fun x _ : R => 1 + exp ((Rabs 0 + 1) / 1 * (1 - 0)) - exp ((Rabs 0 + 1) / 1 * (x - 0))) (top := exp ((Rabs 0 + 1) / 1 * (1 - 0))) (rho := (Rabs 0 + 1) / 1)
    as (loss & El & Bd); try rewrite Hx; try rewrite Hy; cbn [fst snd]; try assumption; try lra; try exact H; try exact P; try exact B.
  - constructor. reflexivity.
  - intros tag b Hd p [_ Sp]. apply uniform_boundary_values with (t := tag); [left; now apply dgetZ_in | exact Sp].
  - apply poisson_steep.
  - apply solves_residual. exact (sincos_solves _).
  - exists loss. split; [exact El|]. cbv zeta in Bd. rewrite Hx, Hy in Bd. cbn [fst snd] in Bd. fold k in Bd. intros p Hp. specialize (Bd p Hp).
    replace (Rmax (1 - 0) (1 - 0)) with 1 in Bd by (rewrite Rmax_left; lra). rewrite Rabs_R0 in Bd. replace ((0 + 1) / 1 * (1 - 0)) with 1 in Bd by field. replace (rs / ((0 + 1) / 1)) with rs in Bd by field. unfold Rdiv in *. rewrite Rmult_1_l in Bd. exact Bd.
Qed.
Lemma helmholtz_error : run_internal e lhs1 o template vtk uniform_helmholtz main_uniform_helmholtz i weights fs = Ok r -> pointwise (the_network main_uniform_helmholtz (weights t)) U G ->
  residual_below (-1) 0 0 1 (0, 1) (0, 1) (fun x y => U (x, y)) (pb_rhs uniform_helmholtz) rs ->
  exists loss, nth t (r_loss r) [] = [loss] /\ forall p, in_box (0, 1) (0, 1) p ->
    Rabs (U p - pb_exact uniform_helmholtz (fst p) (snd p)) <= / cos 1 * Rmax (sqrt (4 * k * (loss / i_beta i)) + (K + (2 + 4 * PI)) / k) (rs / 3).
Proof.
  intros H P Rr. pose proof PI_RGT_0. pose proof PI2_1. assert (P2 : 2 < PI) by lra.
  pose proof (cos_barrier 1 1 2 (0, 1) (0, 1) ltac:(lra) ltac:(lra) ltac:(lra) ltac:(cbn; lra) ltac:(cbn; lra)) as B. cbv zeta in B. cbn [fst snd] in B.
  destruct (script_error e lhs1 o template vtk uniform_helmholtz main_uniform_helmholtz i weights fs r (- (1)) 0 0 (1 ^ 2)) with (t := t) (U := U) (G := G) (K := K) (L := 2 + 4 * PI) (rs := rs)
    (sg := -1) (phi := fun x _ : R => cos (2 * (x - (0 + 1) / 2)) / cos (2 * ((1 - 0) / 2))) (top := / cos (2 * ((1 - 0) / 2))) (rho := 1 * 2 ^ 2 - 1 ^ 2)
    as (loss & El & Bd); try rewrite Hx; try rewrite Hy; cbn [fst snd]; try assumption; try lra; try exact H; try exact P; try exact B.
  - constructor; reflexivity.
  - intros tag b Hd p _. apply dgetZ_in, in_sides in Hd. now destruct Hd as [[_ ->] | [[_ ->] | [[_ ->] | [_ ->]]]].
  - exact helmholtz_steep.
  - replace (1 ^ 2) with 1 by ring. exact Rr.
  - apply solves_residual_helmholtz. exact helmholtz_solves.
  - exists loss. split; [exact El|]. cbv zeta in Bd. rewrite Hx, Hy in Bd. cbn [fst snd] in Bd. fold k in Bd. intros p Hp. specialize (Bd p Hp).
    replace (Rmax (1 - 0) (1 - 0)) with 1 in Bd by (rewrite Rmax_left; lra). replace (2 * ((1 - 0) / 2)) with 1 in Bd by field. replace (1 * 2 ^ 2 - 1 ^ 2) with 3 in Bd by ring. unfold Rdiv in *. rewrite Rmult_1_l in Bd. exact Bd.
Qed.
End Unit.
