(* C87: what the working precision prints, against the exact solution. *)
From Coq Require Import String ZArith List Reals Lra Lia.
From Flocq Require Import Core.
From Verif Require Import Num Py Quadrature Basis Tensor Data Physics Train Geometry Nets Problems Driver Loop
  Spec SpecGeom SpecTrain SpecMesh SpecPde SpecProblem SpecDriver SpecScript SpecLoop SpecInit SpecMax Rounding SpecRound RoundNet SpecRoundNet
  MeshFacts AngleFacts DriverFacts ScriptFacts LoopFacts SmoothFacts ShippedError RoundNetFacts RoundHard ComputedFacts.
From Verif Require Import NetFacts.
From Verif Require Properties_Driver Properties_Loop Properties_Max Properties_RoundNet.
Import ListNotations.
Local Open Scope R_scope.

(* The scripts with a soft boundary on the internal mesh: the printed loss and the predictions are those of the rounded
   program *)
Theorem C87_script : forall a u N mt e lhs1 o template vtk pb sc i weights fs r loss al bx bn g, arith_ok a u N mt -> numpy_ok e -> sampler_ok lhs1 -> (forall i n, latin n (lhs1 i n)) -> oracle_ok o (Z.to_nat (i_quad_order i)) ->
  fst (i_xlim i) < snd (i_xlim i) -> fst (i_ylim i) < snd (i_ylim i) -> (1 <= i_ncx i)%Z /\ (1 <= i_ncy i)%Z -> (4 <= i_nb i <= N)%Z -> (i_fe_order i * i_fe_order i <= N)%Z -> 0 < i_beta i ->
  script_pde sc (pb_params pb) al bx bn g false -> sc_loss sc = loss Num_R -> SpecRound.forward_loss loss (pb_params pb) al bx bn g -> run_internal e lhs1 o template vtk pb sc i weights fs = Ok r ->
  (forall tag b, dget Z.eqb (pb_bound pb) tag = Ok b -> forall p, side_point (i_xlim i) (i_ylim i) tag p -> b (fst p) (snd p) = pb_exact pb (fst p) (snd p)) ->
  forall t U G phi sg top rho K L rs, (t < Z.to_nat (i_epochs i))%nat -> starts (layer_dims sc i) 1 (weights t) -> n_act (weights t) = tanh ->
  pointwise (network_of (weights t)) U G -> barrier sg al bx bn g (i_xlim i) (i_ylim i) phi top rho ->
  0 <= K -> 0 <= L -> steepness_on (in_box (i_xlim i) (i_ylim i)) U K -> steepness_on (in_box (i_xlim i) (i_ylim i)) (fun p => pb_exact pb (fst p) (snd p)) L ->
  residual_below al bx bn g (i_xlim i) (i_ylim i) (fun x y => U (x, y)) (pb_rhs pb) rs -> residual_below al bx bn g (i_xlim i) (i_ylim i) (pb_exact pb) (pb_rhs pb) 0 ->
  exists m losses printed U' G', internal_model e lhs1 o pb sc i = Ok m /\
    rounded_standard (a_rnd a) m loss (rounded_network a (weights t)) (i_beta i) (pb_params pb) = Ok losses /\ l_total losses = [printed] /\ pointwise (rounded_network a (weights t)) U' G' /\
    let nt := weights t in let k := INR (Z.to_nat (i_nb i / 4)) in let C := m_cells m in
    let T := (Z.to_nat (i_fe_order i) * Z.to_nat (i_fe_order i))%nat in let Q := (Z.to_nat (i_quad_order i) * Z.to_nat (i_quad_order i))%nat in
    let slack := ((1 + u) ^ (2 * Q + 4 * net_rounds mt nt + T + C + 4 * Z.to_nat (i_nb i / 4) + 20) - 1) *
      (size_pde m C T Q (value_size nt 0) (gradient_size None nt) (fun _ => al) bx bn g + i_beta i * size_data (value_size nt 0) (m_dir_in m) (m_dir_act m)) in
    forall p, in_box (i_xlim i) (i_ylim i) p -> Rabs (U' p - pb_exact pb (fst p) (snd p)) <=
      top * Rmax (sqrt (4 * k * ((printed + slack) / i_beta i)) + (K + L) * (Rmax (snd (i_xlim i) - fst (i_xlim i)) (snd (i_ylim i) - fst (i_ylim i)) / k)) (rs / rho)
      + ((1 + u) ^ value_rounds mt (n_layers nt) 1 - 1) * value_size nt 0 p.
Proof. exact script_computed. Qed.
(* The shipped Poisson script with its layers 2-30-30-30-1 and prec bits *)
Theorem C87_poisson : forall prec e lhs1 o template vtk i weights fs r t U G K rs, (1 < prec)%Z -> numpy_ok e -> sampler_ok lhs1 -> (forall i n, latin n (lhs1 i n)) -> oracle_ok o (Z.to_nat (i_quad_order i)) ->
  i_xlim i = (0, 1) -> i_ylim i = (0, 1) -> (1 <= i_ncx i)%Z /\ (1 <= i_ncy i)%Z -> (4 <= i_nb i <= 2 ^ prec)%Z -> (1 <= i_fe_order i)%Z -> (i_fe_order i * i_fe_order i <= 2 ^ prec)%Z -> 0 < i_beta i ->
  run_internal e lhs1 o template vtk uniform_poisson main_uniform_poisson i weights fs = Ok r -> (t < Z.to_nat (i_epochs i))%nat ->
  starts fixed_layers 1 (weights t) -> n_act (weights t) = tanh -> pointwise (network_of (weights t)) U G -> 0 <= K -> steepness_on (in_box (0, 1) (0, 1)) U K ->
  residual_below 1 0 0 0 (0, 1) (0, 1) (fun x y => U (x, y)) (pb_rhs uniform_poisson) rs ->
  exists m losses printed U' G', internal_model e lhs1 o uniform_poisson main_uniform_poisson i = Ok m /\
    rounded_standard (nearest prec) m (@pde_loss_poisson R) (rounded_network (ieee prec) (weights t)) (i_beta i) (pb_params uniform_poisson) = Ok losses /\ l_total losses = [printed] /\
    pointwise (rounded_network (ieee prec) (weights t)) U' G' /\
    let nt := weights t in let k := Z.to_nat (i_nb i / 4) in let C := m_cells m in
    let T := (Z.to_nat (i_fe_order i) * Z.to_nat (i_fe_order i))%nat in let Q := (Z.to_nat (i_quad_order i) * Z.to_nat (i_quad_order i))%nat in
    let ops := (2 * Q + T + C + 4 * k + 1308)%nat in
    (2 * Z.of_nat ops <= 2 ^ prec)%Z ->
    let slack := 2 * INR ops * bpow radix2 (- prec) *
      (size_pde m C T Q (value_size nt 0) (gradient_size None nt) (fun _ => 1) 0 0 0 + i_beta i * size_data (value_size nt 0) (m_dir_in m) (m_dir_act m)) in
    forall p, in_box (0, 1) (0, 1) p -> Rabs (U' p - pb_exact uniform_poisson (fst p) (snd p)) <=
      exp 1 * Rmax (sqrt (4 * INR k * ((printed + slack) / i_beta i)) + (K + 8 * PI) / INR k) rs + 200 * bpow radix2 (- prec) * value_size nt 0 p.
Proof. exact poisson_computed. Qed.
(* The script with hard constraints: no loss is needed, [c] is 4.0 * np.pi in the working precision *)
Theorem C87_hard : forall a u N mt dims nt c V G rs, arith_ok a u N mt -> starts dims 1 nt -> n_act nt = tanh -> Rabs (c - 4 * PI) <= ((1 + u) ^ 2 - 1) * (4 * PI) ->
  pointwise (the_network main_hard_poisson nt) V G -> residual_below 1 0 0 0 (0, 1) (0, 1) (fun x y => V (x, y)) (pb_rhs hard_poisson) rs ->
  exists V' G', pointwise (rounded_hard_network a c nt) V' G' /\ forall p, in_box (0, 1) (0, 1) p ->
    Rabs (V' p - pb_exact hard_poisson (fst p) (snd p)) <= exp 1 * rs + ((1 + u) ^ hard_rounds mt nt - 1) * hard_size nt p.
Proof. exact hard_computed. Qed.

(* float32 on the unit square, 4 x 3 cells: 1779 operations in the loss *)
Example C87_poisson_example : exists o r U G K rs, oracle_ok o 5 /\ let i := Properties_Driver.ex_settings "internal" in let nt := Properties_Loop.ex_tanh fixed_layers in let weights := fun _ : nat => nt in
  run_internal numpy_R mid_sampler o "template" (Err FileNotFoundError) uniform_poisson main_uniform_poisson i weights [] = Ok r /\
  pointwise (network_of nt) U G /\ 0 <= K /\ steepness_on (in_box (0, 1) (0, 1)) U K /\ residual_below 1 0 0 0 (0, 1) (0, 1) (fun x y => U (x, y)) (pb_rhs uniform_poisson) rs /\
  exists m losses printed U' G', internal_model numpy_R mid_sampler o uniform_poisson main_uniform_poisson i = Ok m /\ m_cells m = 12%nat /\
    rounded_standard (nearest 24) m (@pde_loss_poisson R) (rounded_network (ieee 24) nt) 10 [("eps"%string, 1)] = Ok losses /\ l_total losses = [printed] /\
    pointwise (rounded_network (ieee 24) nt) U' G' /\
    let slack := 2 * INR 1779 * bpow radix2 (- 24) *
      (size_pde m 12 9 25 (value_size nt 0) (gradient_size None nt) (fun _ => 1) 0 0 0 + 10 * size_data (value_size nt 0) (m_dir_in m) (m_dir_act m)) in
    forall p, in_box (0, 1) (0, 1) p -> Rabs (U' p - pb_exact uniform_poisson (fst p) (snd p)) <=
      exp 1 * Rmax (sqrt (4 * INR 100 * ((printed + slack) / 10)) + (K + 8 * PI) / INR 100) rs + 200 * bpow radix2 (- 24) * value_size nt 0 p.
Proof.
  destruct Properties_Max.C85_poisson_example as (o & r & U & G & K & rs & Ho & Hl & _ & _ & Hb & HK & SK & E & P & Rr). exists o, r, U, G, K, rs. split; [exact Ho|]. cbv zeta.
  change (the_network main_uniform_poisson (Properties_Loop.ex_tanh fixed_layers)) with (network_of (Properties_Loop.ex_tanh fixed_layers)) in P.
  split; [exact E|]. split; [exact P|]. split; [exact HK|]. split; [exact SK|]. split; [exact Rr|].
  assert (S : starts fixed_layers 1 (Properties_Loop.ex_tanh fixed_layers)) by (apply Properties_Loop.ex_starts; cbn; auto; lia).
  destruct (C87_poisson 24 numpy_R mid_sampler o "template" (Err FileNotFoundError) (Properties_Driver.ex_settings "internal") _ [] r 2 U G K rs ltac:(lia)
    numpy_R_ok mid_sampler_ok Hl Ho eq_refl eq_refl ltac:(cbn; lia) ltac:(cbn; lia) ltac:(cbn; lia) ltac:(cbn; lia) Hb E ltac:(cbn; lia) S eq_refl P HK SK Rr)
    as (m & losses & printed & U' & G' & Em & El & Ep & P' & Bd).
  assert (Cm : m_cells m = 12%nat).
  { unfold internal_model in Em. destruct (generate_quad_mesh_internal _ _ _ _ _ _ _) as [[[cells mo] bd]|] eqn:Eg; [|discriminate]. cbn [bind] in Em.
    destruct (build_parts _ _ _ _ _ _ _ Em) as (s & h & dir & _ & _ & _ & ->). cbn [m_cells model_of].
    rewrite (tile_count numpy_R mid_sampler 0 1 0 1 4 3 400 cells mo bd numpy_R_ok mid_sampler_ok ltac:(lia) ltac:(lia) ltac:(lia) Eg) by lra. reflexivity. }
  exists m, losses, printed, U', G'. split; [exact Em|]. split; [exact Cm|]. split; [exact El|]. split; [exact Ep|]. split; [exact P'|].
  cbv zeta in Bd |- *. rewrite Cm in Bd. 
  intros p Hp. refine (Bd _ p Hp). vm_compute. discriminate.
Qed.
Example C87_hard_example : exists V rs V' G', let nt := Properties_Loop.ex_tanh fixed_layers in starts fixed_layers 1 nt /\ pointwise (the_network main_hard_poisson nt) V (grad V) /\
  residual_below 1 0 0 0 (0, 1) (0, 1) (fun x y => V (x, y)) (pb_rhs hard_poisson) rs /\ pointwise (rounded_hard_network (ieee 24) (nearest 24 (4 * PI)) nt) V' G' /\
  forall p, in_box (0, 1) (0, 1) p -> Rabs (V' p - pb_exact hard_poisson (fst p) (snd p)) <= exp 1 * rs + ((1 + bpow radix2 (- 24)) ^ 464 - 1) * hard_size nt p.
Proof.
  destruct Properties_Max.C85_hard_example as (V & rs & S & Sm & P & Rr).
  destruct (C87_hard (ieee 24) _ _ 1 _ _ (nearest 24 (4 * PI)) V _ rs (ieee_ok 24 ltac:(lia)) S eq_refl (four_pi_ok _ _ _ _ (ieee_ok 24 ltac:(lia))) P Rr) as (V' & G' & P' & B).
  exists V, rs, V', G'. cbv zeta. split; [exact S|]. split; [exact P|]. split; [exact Rr|]. split; [exact P'|]. intros p Hp. specialize (B p Hp).
  destruct (shipped_rounds 1 _ S) as [A1 A2]. unfold hard_rounds in B. rewrite A1, A2 in B. exact B.
Qed.

Print Assumptions C87_script.
Print Assumptions C87_poisson.
Print Assumptions C87_hard.
