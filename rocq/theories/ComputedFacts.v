(* Proofs for C87: what the working precision prints, against the exact solution. *)
From Coq Require Import String ZArith List Arith Lia Bool Reals Lra.
From Flocq Require Import Core.
From Verif Require Import Num Py Quadrature Basis Tensor Data Physics Train Geometry Nets Problems Driver Loop
  Spec SpecGeom SpecTrain SpecMesh SpecPde SpecProblem SpecDriver SpecScript SpecLoop SpecInit SpecMax Rounding SpecRound RoundNet SpecRoundNet
  ListFacts MeshFacts DriverFacts ScriptFacts LoopFacts MaxFacts RimFacts SmoothFacts UniqueFacts ShippedError HardFacts RoundFacts RoundNetFacts RoundHard.
Import ListNotations.
Local Open Scope R_scope.

Lemma closer : forall U' U v B E : R, Rabs (U - v) <= B -> Rabs (U' - U) <= E -> Rabs (U' - v) <= B + E.
Proof. intros U' U v B E H1 H2. replace (U' - v) with ((U - v) + (U' - U)) by ring. eapply Rle_trans; [apply Rabs_triang|]. lra. Qed.

(* the script with hard constraints *)
Lemma hard_computed : forall a u N mt dims nt c V G rs, arith_ok a u N mt -> starts dims 1 nt -> n_act nt = tanh -> Rabs (c - 4 * PI) <= ((1 + u) ^ 2 - 1) * (4 * PI) ->
  pointwise (the_network main_hard_poisson nt) V G -> residual_below 1 0 0 0 (0, 1) (0, 1) (fun x y => V (x, y)) (pb_rhs hard_poisson) rs ->
  exists V' G', pointwise (rounded_hard_network a c nt) V' G' /\ forall p, in_box (0, 1) (0, 1) p ->
    Rabs (V' p - pb_exact hard_poisson (fst p) (snd p)) <= exp 1 * rs + ((1 + u) ^ hard_rounds mt nt - 1) * hard_size nt p.
Proof.
  intros a u N mt dims nt c V G rs Ha Hs Ht Hc P Rr.
  destruct (hard_networks a u N mt nt c Ha Ht (st_attention _ _ _ Hs) (starts_chain _ _ _ Hs) Hc) as (W & GW & V' & G' & PW & P' & B).
  exists V', G'. split; [exact P'|]. intros p Hp.
  assert (E : V p = W p) by exact (pointwise_unique _ _ _ _ _ P PW p).
  apply closer with (U := V p).
  - apply (hard_error dims nt V G rs Hs); try assumption. rewrite Ht. exact smooth_tanh.
  - rewrite E. exact (proj1 (B p)).
Qed.

(* the forward scripts with a soft boundary *)
Lemma script_soft : forall sc d al bx bn g, script_pde sc d al bx bn g false ->
  (forall nt, the_network sc nt = network_of nt) /\ forall m nn beta bp, train_step sc m nn beta bp = train_standard m nn beta bp.
Proof. intros sc d al bx bn g H. inversion H; subst; split; reflexivity. Qed.

Lemma script_computed : forall a u N mt e lhs1 o template vtk pb sc i weights fs r loss al bx bn g, arith_ok a u N mt -> numpy_ok e -> sampler_ok lhs1 -> (forall i n, latin n (lhs1 i n)) -> oracle_ok o (Z.to_nat (i_quad_order i)) ->
  fst (i_xlim i) < snd (i_xlim i) -> fst (i_ylim i) < snd (i_ylim i) -> (1 <= i_ncx i)%Z /\ (1 <= i_ncy i)%Z -> (4 <= i_nb i <= N)%Z -> (i_fe_order i * i_fe_order i <= N)%Z -> 0 < i_beta i ->
  script_pde sc (pb_params pb) al bx bn g false -> sc_loss sc = loss Num_R -> SpecRound.forward_loss loss (pb_params pb) al bx bn g -> run_internal e lhs1 o template vtk pb sc i weights fs = Ok r ->
  (forall tag b, dget Z.eqb (pb_bound pb) tag = Ok b -> forall p, side_point (i_xlim i) (i_ylim i) tag p -> b (fst p) (snd p) = pb_exact pb (fst p) (snd p)) ->
  forall t U G phi sg top rho K L rs, (t < Z.to_nat (i_epochs i))%nat -> starts (layer_dims sc i) 1 (weights t) -> n_act (weights t) = tanh ->
  pointwise (network_of (weights t)) U G -> barrier sg al bx bn g (i_xlim i) (i_ylim i) phi top rho ->
  0 <= K -> 0 <= L -> steepness_on (in_box (i_xlim i) (i_ylim i)) U K -> steepness_on (in_box (i_xlim i) (i_ylim i)) (fun p => pb_exact pb (fst p) (snd p)) L ->
  residual_below al bx bn g (i_xlim i) (i_ylim i) (fun x y => U (x, y)) (pb_rhs pb) rs -> residual_below al bx bn g (i_xlim i) (i_ylim i) (pb_exact pb) (pb_rhs pb) 0 ->
  exists m losses printed U' G', internal_model e lhs1 o pb sc i = Ok m /\
    rounded_standard (a_rnd a) m loss (rounded_network a (weights t)) (i_beta i) (pb_params pb) = Ok losses /\ l_total losses = [printed] /\ pointwise (rounded_network a (weights t)) U' G' /\
    let nt := weights t in let k := INR (Z.to_nat (i_nb i / 4)) in let C := m_cells m in
    let T := (Z.to_nat (i_fe_order i) * Z.to_nat (i_fe_order i))%nat in let Q := (Z.to_nat (i_quad_order i) * Z.to_nat (i_quad_order i))%nat in
    let slack := ((1 + u) ^ (2 * Q + 4 * net_rounds mt nt + T + C + 4 * Z.to_nat (i_nb i / 4) + 20) - 1) *
      (size_pde m C T Q (value_size nt 0) (gradient_size None nt) (fun _ => al) bx bn g + i_beta i * size_data (value_size nt 0) (m_dir_in m) (m_dir_act m)) in
    forall p, in_box (i_xlim i) (i_ylim i) p -> Rabs (U' p - pb_exact pb (fst p) (snd p)) <=
      top * Rmax (sqrt (4 * k * ((printed + slack) / i_beta i)) + (K + L) * (Rmax (snd (i_xlim i) - fst (i_xlim i)) (snd (i_ylim i) - fst (i_ylim i)) / k)) (rs / rho)
      + ((1 + u) ^ value_rounds mt (n_layers nt) 1 - 1) * value_size nt 0 p.
Proof.
  intros a u N mt e lhs1 o template vtk pb sc i weights fs r loss al bx bn g Ha He Hs Hl Ho Hx Hy Hc Hn Hf Hb Hp El Fl H Hbd t U G phi sg top rho K L rs Ht Hst Hact HU Hbar HK HL SU SL RU RL.
  destruct (script_soft _ _ _ _ _ _ Hp) as (En & Es).
  destruct (internal_reports _ _ _ _ _ _ _ _ _ _ _ H) as (cells & mo & bd & m & Em & Eb & Rp & _).
  destruct (internal_cells e lhs1 i cells mo bd He Hs Hx Hy Hc ltac:(lia) Em) as [_ Hne].
  destruct (model_ready o pb sc i cells bd m Ho Eb Hne) as (Fit & Ec & Eml).
  assert (Len : length (m_dir_in m) = (4 * Z.to_nat (i_nb i / 4))%nat).
  { destruct (build_parts o pb sc i cells bd m Eb) as (s & h & dir & _ & _ & Ed & ->). cbn [m_dir_in model_of].
    destruct (boundary_gap _ _ _ Ed) as (data & D1 & D2 & _).
    destruct (i_xlim i) as [x0 x1]. destruct (i_ylim i) as [y0 y1]. destruct (rim_point e lhs1 x0 x1 y0 y1 _ _ (i_nb i) cells mo bd Hs Hl ltac:(lia) Hx Hy Em) as (_ & Ln & _).
    rewrite <- D2, map_length, <- Ln, <- (proj1 D1). now rewrite map_length. }
  assert (HNb : (Z.of_nat (length (m_dir_in m)) <= N)%Z).
  { rewrite Len. pose proof (Z.mul_div_le (i_nb i) 4 ltac:(lia)). assert (0 <= i_nb i / 4)%Z by (apply Z.div_pos; lia). lia. }
  assert (HNT : (Z.of_nat (Z.to_nat (i_fe_order i) * Z.to_nat (i_fe_order i)) <= N)%Z).
  { destruct (Z.le_gt_cases 0 (i_fe_order i)); [rewrite Nat2Z.inj_mul, !Z2Nat.id by lia; exact Hf|]. replace (Z.to_nat (i_fe_order i)) with 0%nat by lia. cbn. lia. }
  destruct (step_standard a u N mt (layer_dims sc i) (weights t) m _ _ _ (i_beta i) loss (pb_params pb) al bx bn g Ha Hst Hact Fit Ec HNT HNb (eq_trans Eml El) Fl)
    as (p0 & b0 & t0 & p' & b' & t' & S1 & S2 & _ & _ & W).
  assert (HU2 : pointwise (the_network sc (weights t)) U G) by (rewrite En; exact HU).
  destruct (script_error e lhs1 o template vtk pb sc i weights fs r al bx bn g He Hs Hl Ho Hx Hy Hc ltac:(lia) Hb Hp H Hbd t U G phi sg top rho K L rs Ht HU2 Hbar HK HL SU SL RU RL)
    as (tot & Et & Bd).
  destruct (rp_loss _ _ _ _ _ _ Rp t Ht) as (LL & ELL & Enth). rewrite Es, En, S1 in ELL. injection ELL as <-. cbn [l_total] in Enth. rewrite Enth in Et. injection Et as ->.
  pose proof (starts_chain _ _ _ Hst) as Hch. change (Z.to_nat 1) with 1%nat in Hch.
  destruct (pick_one a (weights t) 1 Hact (st_attention _ _ _ Hst) Hch eq_refl) as [PU PU'].
  exists m. do 4 eexists. split; [unfold internal_model; rewrite Em; exact Eb|]. split; [exact S2|]. split; [reflexivity|]. split; [exact PU'|].
  cbv zeta. intros p Hin. pose proof (pointwise_unique _ _ _ _ _ HU PU p) as EU. pose proof (proj2 (both_near a u N mt (weights t) 1 Ha Hact Hch 0 p ltac:(lia))) as A.
  apply (closer _ (U p)); [|rewrite EU; exact A]. eapply Rle_trans; [exact (Bd p Hin)|]. cbv zeta.
  assert (T0 : 0 <= top) by (destruct p as [x y]; pose proof (br_range _ _ _ _ _ _ _ _ _ _ Hbar x y Hin); lra).
  apply Rmult_le_compat_l; [exact T0|]. apply Rle_max_compat_r. apply Rplus_le_compat_r. apply sqrt_le_1_alt.
  apply Rmult_le_compat_l; [pose proof (pos_INR (Z.to_nat (i_nb i / 4))); lra|]. apply Rmult_le_compat_r; [left; now apply Rinv_0_lt_compat|].
  unfold within in W. rewrite Len, <- Ec, (Rabs_right (i_beta i)) in W by lra. pose proof (Rle_abs (tot - t')) as A1. rewrite Rabs_minus_sym in A1. lra.
Qed.

(* main_poisson2d.py of the uniform mesh with its own layers and rounding to nearest *)
Lemma poisson_computed : forall prec e lhs1 o template vtk i weights fs r t U G K rs, (1 < prec)%Z -> numpy_ok e -> sampler_ok lhs1 -> (forall i n, latin n (lhs1 i n)) -> oracle_ok o (Z.to_nat (i_quad_order i)) ->
  i_xlim i = (0, 1) -> i_ylim i = (0, 1) -> (1 <= i_ncx i)%Z /\ (1 <= i_ncy i)%Z -> (4 <= i_nb i <= 2 ^ prec)%Z -> (1 <= i_fe_order i)%Z -> (i_fe_order i * i_fe_order i <= 2 ^ prec)%Z -> 0 < i_beta i ->
  run_internal e lhs1 o template vtk uniform_poisson main_uniform_poisson i weights fs = Ok r -> (t < Z.to_nat (i_epochs i))%nat ->
  starts fixed_layers 1 (weights t) -> n_act (weights t) = tanh -> pointwise (network_of (weights t)) U G -> 0 <= K -> steepness_on (in_box (0, 1) (0, 1)) U K ->
  residual_below 1 0 0 0 (0, 1) (0, 1) (fun x y => U (x, y)) (pb_rhs uniform_poisson) rs ->
  exists m losses printed U' G', internal_model e lhs1 o uniform_poisson main_uniform_poisson i = Ok m /\
    rounded_standard (nearest prec) m (@pde_loss_poisson R) (rounded_network (ieee prec) (weights t)) (i_beta i) (pb_params uniform_poisson) = Ok losses /\ l_total losses = [printed] /\
    pointwise (rounded_network (ieee prec) (weights t)) U' G' /\
    let nt := weights t in let k := Z.to_nat (i_nb i / 4) in let C := m_cells m in
    let T := (Z.to_nat (i_fe_order i) * Z.to_nat (i_fe_order i))%nat in let Q := (Z.to_nat (i_quad_order i) * Z.to_nat (i_quad_order i))%nat in
    let ops := (2 * Q + T + C + 4 * k + 1308)%nat in
    (2 * Z.of_nat ops <= 2 ^ prec)%Z ->
    let slack := 2 * INR ops * bpow radix2 (- prec) *
      (size_pde m C T Q (value_size nt 0) (gradient_size None nt) (fun _ => 1) 0 0 0 + i_beta i * size_data (value_size nt 0) (m_dir_in m) (m_dir_act m)) in
    forall p, in_box (0, 1) (0, 1) p -> Rabs (U' p - pb_exact uniform_poisson (fst p) (snd p)) <=
      exp 1 * Rmax (sqrt (4 * INR k * ((printed + slack) / i_beta i)) + (K + 8 * PI) / INR k) rs + 200 * bpow radix2 (- prec) * value_size nt 0 p.
Proof.
  intros prec e lhs1 o template vtk i weights fs r t U G K rs Hprec He Hs Hl Ho Hx Hy Hc Hn Hf0 Hf Hb H Ht Hst Hact HU HK SK RU.
  pose proof PI_RGT_0. pose proof (exp_barrier 1 0 0 0 (0, 1) (0, 1) ltac:(lra) ltac:(lra)) as B. cbv zeta in B. cbn [fst snd] in B.
  destruct (script_computed (ieee prec) _ _ 1 e lhs1 o template vtk uniform_poisson main_uniform_poisson i weights fs r (@pde_loss_poisson R) 1 0 0 0 (ieee_ok prec Hprec)) with (t := t) (U := U) (G := G) (K := K) (L := 8 * PI) (rs := rs)
    (sg := 1) (phi := fun x _ : R => 1 + exp ((Rabs 0 + 1) / 1 * (1 - 0)) - exp ((Rabs 0 + 1) / 1 * (x - 0))) (top := exp ((Rabs 0 + 1) / 1 * (1 - 0))) (rho := (Rabs 0 + 1) / 1)
    as (m & losses & printed & U' & G' & Em & Er & Et & P & Bd); try rewrite Hx; try rewrite Hy; cbn [fst snd]; try assumption; try lra; try exact H; try exact B.
  - constructor. reflexivity.
  - reflexivity.
  - constructor. reflexivity.
  - intros tag b Hd p [_ Sp]. apply ProblemFacts.uniform_boundary_values with (t := tag); [left; now apply PyFacts.dgetZ_in | exact Sp].
  - apply poisson_steep.
  - apply solves_residual. exact (ProblemFacts.sincos_solves _).
  - exists m, losses, printed, U', G'. split; [exact Em|]. split; [exact Er|]. split; [exact Et|]. split; [exact P|]. cbv zeta. intros Hops p Hp.
    rewrite Hx, Hy in Bd. specialize (Bd p Hp). cbv zeta in Bd. cbn [fst snd] in Bd. rewrite Rabs_R0 in Bd.
    replace ((0 + 1) / 1 * (1 - 0)) with 1 in Bd by field. replace (rs / ((0 + 1) / 1)) with rs in Bd by field.
    replace (Rmax (1 - 0) (1 - 0)) with 1 in Bd by (rewrite Rmax_left; lra).
    destruct (shipped_rounds 1 _ Hst) as [V _]. rewrite V, (shipped_net_rounds 1 _ Hst) in Bd.
    pose proof (starts_chain _ _ _ Hst) as Hch. change (Z.to_nat 1) with 1%nat in Hch.
    assert (Z0 : 0 <= value_size (weights t) 0 p) by (eapply value_size_nonneg; eauto; exact (ieee_ok prec Hprec)).
    assert (Gr : forall n, (2 * Z.of_nat n <= 2 ^ prec)%Z -> (1 + bpow radix2 (- prec)) ^ n - 1 <= 2 * INR n * bpow radix2 (- prec)).
    { intros n Hn2. pose proof (within_nearest prec n 1 0 ((1 + bpow radix2 (- prec)) ^ n - 1) Hprec Hn2 ltac:(lra)) as Q. unfold within in Q.
      assert (W : Rabs ((1 + bpow radix2 (- prec)) ^ n - 1 - 0) <= 2 * INR n * bpow radix2 (- prec) * 1).
      { apply Q. rewrite Rminus_0_r, Rmult_1_r. rewrite Rabs_pos_eq; [lra|]. pose proof (bpow_ge_0 radix2 (- prec)). pose proof (pow_R1_Rle (1 + bpow radix2 (- prec)) n ltac:(lra)). lra. }
      pose proof (Rle_abs ((1 + bpow radix2 (- prec)) ^ n - 1 - 0)). lra. }
    eapply Rle_trans; [exact Bd|]. apply Rplus_le_compat.
    + apply Rmult_le_compat_l; [left; apply exp_pos|]. apply Rle_max_compat_r. replace ((K + 8 * PI) / INR (Z.to_nat (i_nb i / 4))) with ((K + 8 * PI) * (1 / INR (Z.to_nat (i_nb i / 4)))) by (unfold Rdiv; ring). apply Rplus_le_compat_r. apply sqrt_le_1_alt.
      apply Rmult_le_compat_l; [pose proof (pos_INR (Z.to_nat (i_nb i / 4))); lra|]. apply Rmult_le_compat_r; [left; now apply Rinv_0_lt_compat|]. apply Rplus_le_compat_l.
      match goal with |- ((1 + _) ^ ?n - 1) * _ <= 2 * INR ?n' * _ * _ => replace n with n' by lia end.
      apply Rmult_le_compat_r; [|apply Gr; exact Hops]. apply Rplus_le_le_0_compat; [apply size_pde_nonneg; destruct (Z.to_nat (i_fe_order i)) eqn:Ef; lia | apply Rmult_le_pos; [lra | apply size_data_nonneg]].
    + apply Rmult_le_compat_r; [exact Z0|]. eapply Rle_trans; [apply Gr; lia|]. apply Req_le. f_equal. cbn; lra.
Qed.
