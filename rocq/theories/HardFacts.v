(* Error bounds for the script with the boundary values built in. *)
From Coq Require Import String ZArith List Arith Lia Bool Reals Lra.
From Coquelicot Require Import Coquelicot.
From Verif Require Import Num Py Jacobi Quadrature Basis Transform Cell Space Tensor Data Physics Train Geometry Nets Metrics Problems Driver
  Spec SpecGeom SpecTrain SpecMesh SpecPde SpecWeak SpecProblem SpecDriver SpecScript SpecLoop SpecInit SpecMax
  ListFacts PyFacts PolyFacts ErrorFacts NetFacts MeshFacts ProblemFacts LoopFacts MaxFacts RimFacts SmoothFacts UniqueFacts ShippedError.
Import ListNotations.
Local Open Scope R_scope.

Lemma twice_mult : forall u v, twice_smooth u -> twice_smooth v -> twice_smooth (fun x y => u x y * v x y).
Proof.
  intros u v (a & b & c & d & e & f & H1 & H2 & H3) (a' & b' & c' & d' & e' & f' & H1' & H2' & H3'). do 6 eexists. split; [|split].
  - apply smooth1_mult; eassumption.
  - apply smooth1_plus; apply smooth1_mult; eassumption.
  - apply smooth1_plus; apply smooth1_mult; eassumption.
Qed.
Lemma smooth_steep : forall u xl yl, twice_smooth u -> exists K, 0 <= K /\ steepness_on (in_box xl yl) (fun p => u (fst p) (snd p)) K.
Proof.
  intros u xl yl (a & b & c & d & e & f & H1 & _ & _).
  destruct (bounded_box a xl yl (fun x y _ => proj1 (proj2 (proj2 (H1 x y))))) as [A HA]. destruct (bounded_box b xl yl (fun x y _ => proj2 (proj2 (proj2 (H1 x y))))) as [B HB].
  exists (Rabs A + Rabs B). split; [pose proof (Rabs_pos A); pose proof (Rabs_pos B); lra|]. intros [x y] [x' y'] [Px Py] [Qx Qy]. cbn [fst snd] in *.
  assert (Mx : Rabs (u x y - u x' y) <= Rabs A * Rabs (x - x')).
  { destruct (MVT_gen (fun t => u t y) x' x (fun t => a t y)) as (z & Hz & E); [intros z _; apply H1 | intros z _; apply derivable_continuous_pt; exists (a z y); apply is_derive_Reals, H1|].
    rewrite E, Rabs_mult. apply Rmult_le_compat_r; [apply Rabs_pos|]. eapply Rle_trans; [apply HA | apply RRle_abs]. split; cbn [fst snd]; [|exact Py]. destruct Hz as [Z1 Z2]. unfold Rmin, Rmax in *. destruct (Rle_dec x' x); lra. }
  assert (My : Rabs (u x' y - u x' y') <= Rabs B * Rabs (y - y')).
  { destruct (MVT_gen (fun t => u x' t) y' y (fun t => b x' t)) as (z & Hz & E); [intros z _; apply H1 | intros z _; apply derivable_continuous_pt; exists (b x' z); apply is_derive_Reals, H1|].
    rewrite E, Rabs_mult. apply Rmult_le_compat_r; [apply Rabs_pos|]. eapply Rle_trans; [apply HB | apply RRle_abs]. split; cbn [fst snd]; [exact Qx|]. destruct Hz as [Z1 Z2]. unfold Rmin, Rmax in *. destruct (Rle_dec y' y); lra. }
  pose proof (far_fst (x, y) (x', y')) as Fx. pose proof (far_snd (x, y) (x', y')) as Fy. cbn [fst snd] in Fx, Fy.
  replace (u x y - u x' y') with ((u x y - u x' y) + (u x' y - u x' y')) by ring. eapply Rle_trans; [apply Rabs_triang|].
  pose proof (Rmult_le_compat_l _ _ _ (Rabs_pos A) Fx). pose proof (Rmult_le_compat_l _ _ _ (Rabs_pos B) Fy). lra.
Qed.
Lemma twice_linear : forall a b k, twice_smooth (fun x y => a * x + b * y + k).
Proof. intros a b k. apply (twice_plus (fun x y => a * x + b * y) (fun _ _ => k)); [|apply twice_const]. apply (twice_plus (fun x _ => a * x) (fun _ y => b * y)); apply twice_scal; [apply twice_fst | apply twice_snd]. Qed.
Lemma ansatz_smooth : twice_smooth (fun x y => ansatz (x, y)).
Proof.
  unfold ansatz. cbn [fst snd].
  assert (T : forall a b k, twice_smooth (fun x y => tanh (a * x + b * y + k))) by (intros; apply (twice_comp tanh); [exact smooth_tanh | apply twice_linear]).
  apply (twice_mult (fun x y => tanh (4 * PI * x) * tanh (4 * PI * y) * tanh (4 * PI * (x - 1))) (fun x y => tanh (4 * PI * (y - 1)))).
  apply (twice_mult (fun x y => tanh (4 * PI * x) * tanh (4 * PI * y)) (fun x y => tanh (4 * PI * (x - 1)))).
  apply (twice_mult (fun x y => tanh (4 * PI * x)) (fun x y => tanh (4 * PI * y))).
  - eapply twice_ext; [|apply (T (4 * PI) 0 0)]. intros; cbn. f_equal. ring.
  - eapply twice_ext; [|apply (T 0 (4 * PI) 0)]. intros; cbn. f_equal. ring.
  - eapply twice_ext; [|apply (T (4 * PI) 0 (- (4 * PI)))]. intros; cbn. f_equal. ring.
  - eapply twice_ext; [|apply (T 0 (4 * PI) (- (4 * PI)))]. intros; cbn. f_equal. ring.
Qed.
Lemma rim_side : forall p, on_rim (0, 1) (0, 1) p -> exists t, on_side unit_limits t p.
Proof.
  intros p [_ [H | [H | [H | H]]]]; cbn [fst snd] in H; unfold on_side, unit_limits.
  - exists 1003%Z. auto 6.
  - exists 1001%Z. auto.
  - exists 1000%Z. auto.
  - exists 1002%Z. auto.
Qed.
(* the network of the script *)
Lemma hard_network_smooth : forall dims nt, starts dims 1 nt -> smooth_activation (n_act nt) -> exists V,
  pointwise (the_network main_hard_poisson nt) V (grad V) /\ twice_smooth (fun x y => V (x, y)) /\ (forall p, on_rim (0, 1) (0, 1) p -> V p = 0).
Proof.
  intros dims nt Hs Ha. destruct (hard_pointwise (fun p => Rmult (ansatz p)) nt (st_attention _ _ _ Hs) (starts_chain _ _ _ Hs)) as (U & E & P).
  exists (fun p => ansatz p * U p). split; [exact P|]. split.
  - apply (twice_mult (fun x y => ansatz (x, y)) (fun x y => U (x, y))); [exact ansatz_smooth | exact (network_smooth dims 1 nt Hs Ha (fun p => [U p]) E 0%nat ltac:(lia))].
  - intros p Hp. destruct (rim_side p Hp) as [t Ht]. rewrite (ansatz_sides p t Ht). ring.
Qed.
Lemma pointwise_unique : forall nn U G V H, pointwise nn U G -> pointwise nn V H -> forall p, U p = V p.
Proof. intros nn U G V H P Q p. destruct (P [p]) as [E _]. destruct (Q [p]) as [F _]. rewrite E in F. cbn in F. now injection F. Qed.
Lemma hard_error : forall dims nt V G rs, starts dims 1 nt -> smooth_activation (n_act nt) -> pointwise (the_network main_hard_poisson nt) V G ->
  residual_below 1 0 0 0 (0, 1) (0, 1) (fun x y => V (x, y)) (pb_rhs hard_poisson) rs ->
  forall p, in_box (0, 1) (0, 1) p -> Rabs (V p - pb_exact hard_poisson (fst p) (snd p)) <= exp 1 * rs.
Proof.
  intros dims nt V G rs Hs Ha P Rr [x y] Hp. destruct (hard_network_smooth dims nt Hs Ha) as (W & PW & SW & ZW).
  assert (E : forall p, V p = W p) by exact (pointwise_unique _ _ _ _ _ P PW).
  assert (SV : twice_smooth (fun x y => V (x, y))) by (eapply twice_ext; [|exact SW]; intros; symmetry; apply E).
  destruct (smooth_steep _ (0, 1) (0, 1) SV) as (K & K0 & SK).
  pose proof PI_RGT_0. pose proof (exp_barrier 1 0 0 0 (0, 1) (0, 1) ltac:(lra) ltac:(lra)) as B. cbv zeta in B. cbn [fst snd] in B. rewrite Rabs_R0 in B. replace ((0 + 1) / 1) with 1 in B by field. replace (1 * (1 - 0)) with 1 in B by ring.
  assert (R0 : 0 <= rs). { destruct Rr as (a & b & c & d & _ & Z). eapply Rle_trans; [apply Rabs_pos | apply (Z x y Hp)]. }
  assert (X : Rabs (V (x, y) - pb_exact hard_poisson x y) <= exp 1 * Rmax 0 (rs / 1)).
  { apply (stability _ _ _ _ _ _ _ _ _ _ (fun x y => V (x, y)) (pb_exact hard_poisson) (pb_rhs hard_poisson) rs 0 K (8 * PI) B); cbn [fst snd]; auto; try lra.
    - apply solves_residual. exact (sincos_solves _).
    - exact (poisson_steep _).
    - intros p Hr. rewrite <- surjective_pairing, E, (ZW p Hr). destruct (rim_side p Hr) as [t Ht]. cbn [pb_exact hard_poisson]. rewrite (unit_sincos t p Ht). rewrite Rminus_0_r, Rabs_R0. lra. }
  rewrite Rmax_right in X by (unfold Rdiv; rewrite Rinv_1; lra). unfold Rdiv in X. rewrite Rinv_1, Rmult_1_r in X. exact X.
Qed.
