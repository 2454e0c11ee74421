(* Where C33 fails: test functions that do not vanish on the boundary, and a rule that is
   too short for the test functions. *)
From Coq Require Import String ZArith List Arith Lia Reals Lra.
From Coquelicot Require Import Coquelicot.
From Verif Require Import Num Py PyFacts Jacobi Quadrature Basis Transform Cell Space Tensor Data Physics Train Geometry RCalc PolyFacts PolyDeg ListFacts
  Spec SpecGeom SpecMesh SpecPde Interp LegendreFacts QuadFacts QuadExamples TransformFacts CellFacts2 SpaceFacts TransformFacts2 ForcingFacts TensorFacts SpecTrain BasisFacts BasisFacts2 PhysicsFacts
  DataFacts TrainFacts PipelineFacts MeshFacts GlobalQuad ExactFacts ExactTrain.
Import ListNotations.
Local Open Scope R_scope.

(* every cell of an internal mesh is a rectangle along the axes *)
Lemma internal_solution : forall (e : numpy R) lhs1 x0 x1 y0 y1 nx ny num cells mo bd u d,
  numpy_ok e -> sampler_ok lhs1 -> (1 <= nx)%Z -> (1 <= ny)%Z -> (0 <= num)%Z -> x0 < x1 -> y0 < y1 ->
  generate_quad_mesh_internal e lhs1 (x0, x1) (y0, y1) nx ny num = Ok (cells, mo, bd) ->
  poly_box d d u -> forall c, In c cells -> solution_on d u c.
Proof.
  intros e lhs1 x0 x1 y0 y1 nx ny num cells mo bd u d He Hl Hnx Hny Hnum Hx Hy Hrun Hu c Hc.
  destruct (cells_eq e lhs1 x0 x1 y0 y1 nx ny num cells mo bd He Hl Hnx Hny Hnum Hrun Hx Hy) as [E _]. rewrite E in Hc.
  apply all_cells_In in Hc. destruct Hc as (i & j & Hi & Hj & ->). rewrite cell_of_rect by (auto; lia).
  right. eexists _, _, _, _. split; [reflexivity|].
  pose proof (sub_lt x0 x1 (Z.to_nat nx) i (S i) ltac:(lia) Hx ltac:(lia)). pose proof (sub_lt y0 y1 (Z.to_nat ny) j (S j) ltac:(lia) Hy ltac:(lia)).
  split; [intro K; lra|]. split; [intro K; lra|]. exact Hu.
Qed.

(* the loss of a step is zero only if every residual is *)
Lemma mean_sq_sum_zero : forall l C T res, is_mean_sq l C T res -> Sum (fun c => nth c l 0) (length l) = 0 ->
  forall c r, (c < C)%nat -> (r < T)%nat -> res c r = 0.
Proof.
  intros l C T res [L H] Z c r Hc Hr. destruct (H c Hc) as (_ & _ & E). apply E; auto.
  assert (G : forall (g : nat -> R) N, (forall i, (i < N)%nat -> 0 <= g i) -> Sum g N = 0 -> forall i, (i < N)%nat -> g i = 0).
  { induction N; simpl; intros Hg Hz i Hi; [lia|].
    assert (0 <= Sum g N) by (apply (rsum_nonneg g); intros; apply Hg; lia). pose proof (Hg N ltac:(lia)).
    destruct (Nat.eq_dec i N); [subst; lra|]. apply IHN; [intros; apply Hg; lia | lra | lia]. }
  apply (G (fun c => nth c l 0) (length l)); auto; [|lia]. intros i Hi. apply H. lia.
Qed.

(* the network u(x, y) = x *)
Definition net_x : network R := ex_net 1 0 0.
Lemma net_x_ok : pointwise net_x (on_points (fun x _ => x)) (gradient (fun x _ => x)).
Proof.
  intros b. unfold net_x, ex_net. cbn [nn_out nn_grad]. split.
  - f_equal. apply map_ext. intros p. unfold on_points. do 2 f_equal. ring.
  - apply map_ext. intros p. unfold gradient, Dx, Dy. rewrite Derive_id, Derive_const. reflexivity.
Qed.
Lemma Lap_x : forall x y, Lap (fun x _ => x) x y = 0.
Proof.
  intros. unfold Lap, Dx, Dy. rewrite (Derive_ext _ (fun _ => 1)) by (intros; apply Derive_id).
  rewrite (Derive_ext (fun t => Derive _ t) (fun _ => 0)) by (intros; apply Derive_const). rewrite !Derive_const. ring.
Qed.

Section One.
Variables (cf : config).
Let n := Z.to_nat (cf_quad_order cf).
Let k := Z.to_nat (cf_fe_order cf).
Definition bp1 : bdict R := [(7%Z, [(0, 0); (1, 0)])].
Definition bf1 : bfun R := [(7%Z, fun x _ => x)].
Hypothesis Hacc : accepted cf unit_square.
Variable o : quad_oracle R.
Hypothesis Ho : oracle_ok o n.

(* With one unit square and u = x, f = 0: the loss of Poisson's equation is not zero as soon
   as one column sum of the x-gradient table is not. *)
Lemma not_zero : forall s,
  make_space o cf [unit_square] bp1 bf1 false = Ok s ->
  (exists r gx, (r < k * k)%nat /\ get_shape_function_grad_x s 0 = Ok gx /\ Sum (fun q => entry gx r q) (n * n) <> 0) ->
  exists h dir L, make_handler s (fun _ _ => 0) true = Ok h /\ get_dirichlet_input bp1 bf1 = Ok dir /\
    train_standard (model_of h dir dir pde_loss_poisson 1) net_x 1 (Some [("eps"%string, 1)]) = Ok L /\ l_pde L <> 0.
Proof.
  intros s Hs (r & gx & Hr & Hgx & Hsum).
  destruct (handler_spec o cf [unit_square] bp1 bf1 false s (oracle_lengths _ _ Ho) Hs (fun _ _ => 0)) as (h & Hh & _).
  destruct (get_dirichlet_input bp1 bf1) as [dir|] eqn:Ed; [|discriminate].
  assert (Hne : fst dir <> []) by (cbn in Ed; injection Ed as <-; discriminate).
  destruct (model_tensors o cf [unit_square] bp1 bf1 false s (fun _ _ => 0) h dir dir Ho Hs Hh Ed Hne (fun x _ => x) pde_loss_poisson) as [M F].
  fold n k in M, F.
  destruct (poisson_spec _ _ _ _ _ _ _ _ _ _ F [("eps"%string, 1)] 1 eq_refl) as (l & El & Ml).
  pose proof (standard_ok _ net_x 1 (k * k) (n * n) 1 (Some [("eps"%string, 1)]) M _ _ net_x_ok eq_refl) as E.
  cbn [model_of m_val m_gx m_gy m_x m_force m_loss length] in E, El. unfold bparams in El.
  match type of E with context [call_kw ?a ?b] => replace (call_kw a b) with (Ok l : result (list R)) in E by (symmetry; exact El) end. cbv zeta in E.
  exists h, dir. eexists. split; [exact Hh|]. split; [auto|]. split; [exact E|]. cbn [l_pde]. intros Z.
  pose proof (mean_sq_sum_zero _ _ _ _ Ml Z 0%nat r ltac:(simpl; lia) Hr) as Zr. cbv beta in Zr.
  rewrite (handler_force o cf [unit_square] bp1 bf1 false s (fun _ _ => 0) h Ho Hs Hh 0 r ltac:(simpl; lia) Hr) in Zr. fold n in Zr. cbn [length] in Zr.
  apply Hsum. destruct (h_get o cf [unit_square] bp1 bf1 false s (fun _ _ => 0) h Ho Hs Hh 0 ltac:(simpl; lia)) as (pts & _ & G2 & _ & _ & G5 & _).
  change (Z.of_nat 0) with 0%Z in G2. rewrite Hgx in G2. injection G2 as ->. fold n in G5. cbn [length] in G5.
  assert (E1 : Sum (fun q => entry3 (h_val h) 0 r q * entry (at_points (on_points (fun _ _ => 0)) (h_x h) 1 (n * n)) 0 q) (n * n) = 0).
  { change Sum with rsum. rewrite (rsum_ext _ (fun _ => 0)); [apply rsum_0|]. intros q Hq. unfold at_points. rewrite mk_entry by lia. unfold on_points. ring. }
  rewrite E1 in Zr.
  assert (E2 : Sum (fun q => entry3 (h_gy h) 0 r q * entry (at_points (fun p => snd (gradient (fun x _ : R => x) p)) (h_x h) 1 (n * n)) 0 q) (n * n) = 0).
  { change Sum with rsum. rewrite (rsum_ext _ (fun _ => 0)); [apply rsum_0|]. intros q Hq. unfold at_points. rewrite mk_entry by lia.
    unfold gradient, Dy. cbn [snd]. rewrite Derive_const. ring. }
  rewrite E2 in Zr.
  rewrite <- (Rplus_0_r (Sum _ _)) in Zr. rewrite <- Zr. rewrite Rmult_1_l, Rminus_0_r, !Rplus_0_r. change Sum with rsum. apply rsum_ext. intros q Hq.
  unfold at_points. rewrite mk_entry by lia. unfold gradient, Dx. cbn [fst]. rewrite Derive_id. unfold entry3. ring.
Qed.

Lemma one_space : exists s, make_space o cf [unit_square] bp1 bf1 false = Ok s.
Proof.
  apply (space_iff o cf [unit_square] bp1 bf1 false (oracle_lengths _ _ Ho)).
  split; [discriminate|]. split; [intros c [<-|[]]; exact Hacc|]. split; [|discriminate].
  intros tag pts [E|[]] _. injection E as <- <-. now left.
Qed.
(* entries of the x-gradient table on the unit square *)
Lemma square_gx : forall s, make_space o cf [unit_square] bp1 bf1 false = Ok s -> exists fam w xi eta gx,
  family_of (cf_fe_type cf) = Some fam /\ quad2d o (cf_quad_order cf) (cf_quad_type cf) = Ok (w, xi, eta) /\
  get_shape_function_grad_x s 0 = Ok gx /\
  forall i j q, (i < k)%nat -> (j < k)%nat -> (q < n * n)%nat ->
    entry gx (k * i + j) q = / 2 * (nth q w 0 * (dphi fam (S i) (nth q xi 0) * phi fam (S j) (nth q eta 0))).
Proof.
  intros s Hs. destruct (space_tables o cf [unit_square] bp1 bf1 false s 0 unit_square (oracle_lengths _ _ Ho) Hs eq_refl)
    as (fam & w & xi & eta & val & gx & gy & gxr & gyr & pts & mult & Hf & Hq & Hval & Hgx & Hgy & _ & _ & Hpt & Hm & Lm & Lp & _ & _ & _ & _ & _ & T).
  fold n k in T. exists fam, w, xi, eta, gx. do 3 (split; [assumption|]). intros i j q Hi Hj Hq'.
  destruct (T q Hq') as (M1 & _ & T1). destruct (T1 i j Hi Hj) as (_ & _ & _ & G1).
  change unit_square with (rect 0 1 0 1) in *. rewrite JacDet_rect in G1, M1.
  destruct (G1 ltac:(intro K; lra)) as (ga & gb & EA & _ & (C1 & _) & _). rewrite EA, M1.
  set (xl := nth q xi 0) in *. set (yl := nth q eta 0) in *.
  assert (D1 : Dx (fun s t => fst (RefMap (cf_trafo cf) (rect 0 1 0 1) s t)) xl yl = 1 / 2).
  { unfold Dx. rewrite (Derive_ext _ (fun t => (0 + 1) / 2 + (1 - 0) / 2 * t)) by (intros; now rewrite RefMap_rect).
    apply is_derive_unique. auto_derive; auto; lra. }
  assert (D2 : Dx (fun s t => snd (RefMap (cf_trafo cf) (rect 0 1 0 1) s t)) xl yl = 0).
  { unfold Dx. rewrite (Derive_ext _ (fun t => (0 + 1) / 2 + (1 - 0) / 2 * yl)) by (intros; now rewrite RefMap_rect). apply Derive_const. }
  rewrite D1, D2 in C1.
  assert (EDx : Dx (Phi fam i j) xl yl = dphi fam (S i) xl * phi fam (S j) yl).
  { unfold Dx, Phi. apply is_derive_unique. apply (derR_ext (fun t => phi fam (S j) yl * phi fam (S i) t)); [intros; ring|].
    eapply derR_eq; [apply derR_scal, phi_derive; lia | ring]. }
  rewrite EDx in C1. replace ga with (2 * (dphi fam (S i) xl * phi fam (S j) yl)) by lra.
  replace (Rabs ((1 - 0) / 2 * ((1 - 0) / 2))) with (/ 4) by (rewrite Rabs_right; lra). field.
Qed.
End One.

(* jacobi_plain *)
Definition plain_cf : config :=
  {| cf_cell_type := "quadrilateral"; cf_fe_order := 2; cf_fe_type := "jacobi_plain"; cf_quad_order := 5;
     cf_quad_type := "gauss-legendre"; cf_trafo := "bilinear" |}.
Lemma square_accepted : forall fe ft qo qt, (1 < fe < 1000)%Z -> (3 <= qo <= 9999)%Z ->
  In ft ["legendre"; "jacobi"; "legendre_special"; "chebyshev_2"; "jacobi_plain"]%string -> In qt ["gauss-legendre"; "gauss-jacobi"]%string ->
  accepted {| cf_cell_type := "quadrilateral"; cf_fe_order := fe; cf_fe_type := ft; cf_quad_order := qo; cf_quad_type := qt; cf_trafo := "bilinear" |} unit_square.
Proof. intros. constructor; cbn [cf_cell_type cf_fe_order cf_fe_type cf_quad_order cf_quad_type cf_trafo]; auto. Qed.

Lemma plain_not_zero : exists o s h dir L, oracle_ok o 5 /\
  make_space o plain_cf [unit_square] bp1 bf1 false = Ok s /\ make_handler s (fun _ _ => 0) true = Ok h /\ get_dirichlet_input bp1 bf1 = Ok dir /\
  train_standard (model_of h dir dir pde_loss_poisson 1) net_x 1 (Some [("eps"%string, 1)]) = Ok L /\ l_pde L <> 0.
Proof.
  destruct (any_oracle_ok (Z.to_nat (cf_quad_order plain_cf))) as [o Ho].
  assert (Ha : accepted plain_cf unit_square) by (apply square_accepted; try lia; cbn; tauto).
  destruct (one_space plain_cf Ha o Ho) as [s Hs].
  destruct (square_gx plain_cf o Ho s Hs) as (fam & w & xi & eta & gx & Hf & Hq & Hgx & E).
  destruct (not_zero plain_cf o Ho s Hs) as (h & dir & L & H1 & H2 & H3 & H4).
  - exists 2%nat, gx. split; [cbn; lia|]. split; [exact Hgx|].
    destruct (gauss_legendre_exact o _ w xi eta (proj1 Ho) Hq) as (Lw & _ & S4).
    assert (LW : length w = (5 * 5)%nat).
    { destruct (quad_tensor o _ _ w xi eta Ho Hq) as (x & v & Lx & Lv & Et & _). rewrite tensorise_eq in Et. injection Et as -> _ _. apply (W_len v 5 Lv). }
    cbn in Hf. injection Hf as <-. change (Z.to_nat (cf_quad_order plain_cf)) with 5%nat in *. change (Z.to_nat (cf_fe_order plain_cf)) with 2%nat in *.
    change Sum with rsum. rewrite (rsum_ext _ (fun q => / 2 * nth q w 0)).
    + rewrite rsum_scal, <- LW. change rsum with Sum. rewrite S4. lra.
    + intros q Hq'. specialize (E 1%nat 0%nat q ltac:(lia) ltac:(lia) Hq'). change (2 * 1 + 0)%nat with 2%nat in E. rewrite E.
      replace (dphi FJacobiPlain 2 (nth q xi 0)) with 1.
      * replace (phi FJacobiPlain 1 (nth q eta 0)) with 1; [ring|]. unfold phi, LegendreP, JacobiP. simpl. field.
      * apply (derR_uniq (phi FJacobiPlain 2) (nth q xi 0)); [|apply phi_derive; lia].
        apply (derR_ext (fun t => t)); [|apply derR_id]. intros t. unfold phi, LegendreP, JacobiP. simpl. field.
  - exists o, s, h, dir, L. auto 10.
Qed.

(* fe_order 4 with the three-point Lobatto rule *)
Definition short_cf : config :=
  {| cf_cell_type := "quadrilateral"; cf_fe_order := 4; cf_fe_type := "legendre"; cf_quad_order := 3;
     cf_quad_type := "gauss-jacobi"; cf_trafo := "bilinear" |}.
Lemma short_not_zero : exists o s h dir L, oracle_ok o 3 /\
  make_space o short_cf [unit_square] bp1 bf1 false = Ok s /\ make_handler s (fun _ _ => 0) true = Ok h /\ get_dirichlet_input bp1 bf1 = Ok dir /\
  train_standard (model_of h dir dir pde_loss_poisson 1) net_x 1 (Some [("eps"%string, 1)]) = Ok L /\ l_pde L <> 0.
Proof.
  destruct (any_oracle_ok (Z.to_nat (cf_quad_order short_cf))) as [o Ho].
  assert (Ha : accepted short_cf unit_square) by (apply square_accepted; try lia; cbn; tauto).
  destruct (one_space short_cf Ha o Ho) as [s Hs].
  destruct (square_gx short_cf o Ho s Hs) as (fam & w & xi & eta & gx & Hf & Hq & Hgx & E).
  destruct (not_zero short_cf o Ho s Hs) as (h & dir & L & H1 & H2 & H3 & H4).
  - exists 12%nat, gx. split; [cbn; lia|]. split; [exact Hgx|].
    cbn in Hf. injection Hf as <-. change (Z.to_nat (cf_quad_order short_cf)) with 3%nat in *. change (Z.to_nat (cf_fe_order short_cf)) with 4%nat in *.
    (* the rule *)
    pose proof (quad2d_inv _ _ _ _ _ _ Hq) as [_ Tq]. change (Z.to_nat (cf_quad_order short_cf)) with 3%nat in Tq. cbn [cf_quad_type short_cf] in Tq.
    destruct Ho as [_ Hr]. change (3 - 2)%nat with 1%nat in Hr. 
    destruct (rule1d_gj_len o 3 ltac:(lia) (proj1 Hr)) as [L1 L2]. destruct (rule1d_gj_exact o 3 ltac:(lia) Hr) as [He _].
    assert (Ex : fst (rule1d o 3 "gauss-jacobi") = [-1; 0; 1]).
    { destruct Hr as (Lr & _ & Hr). unfold rule1d. cbn [String.eqb Ascii.eqb Bool.eqb fst Nat.sub].
      destruct (roots_jacobi11 o 1) as [|a [|]]; try discriminate Lr. destruct (Hr a (or_introl eq_refl)) as [_ Z].
      assert (a = 0) by (unfold JacobiP in Z; simpl in Z; lra). subst a. reflexivity. }
    destruct (rule1d o 3 "gauss-jacobi") as [x v]. cbn [fst snd] in *. subst x. rewrite tensorise_eq in Tq. injection Tq as <- <- <-.
    assert (R2 : forall F, Sum (fun q => nth q (outer_flat v v) 0 * F (nth q (fst (meshgrid_flat [-1; 0; 1] [-1; 0; 1])) 0) (nth q (snd (meshgrid_flat [-1; 0; 1] [-1; 0; 1])) 0)) (3 * 3)
              = Rule2 (outer_flat v v) (fst (meshgrid_flat [-1; 0; 1] [-1; 0; 1])) (snd (meshgrid_flat [-1; 0; 1] [-1; 0; 1])) F).
    { intros F. unfold Rule2. now rewrite (W_len v 3 L2). }
    change Sum with rsum. rewrite (rsum_ext _ (fun q => / 2 * (nth q (outer_flat v v) 0 *
       (dphi FLegendre 4 (nth q (fst (meshgrid_flat [-1; 0; 1] [-1; 0; 1])) 0) * phi FLegendre 1 (nth q (snd (meshgrid_flat [-1; 0; 1] [-1; 0; 1])) 0))))).
    2:{ intros q Hq'. specialize (E 3%nat 0%nat q ltac:(lia) ltac:(lia) Hq'). change (4 * 3 + 0)%nat with 12%nat in E. exact E. }
    rewrite rsum_scal. change rsum with Sum. rewrite (R2 (fun a b => dphi FLegendre 4 a * phi FLegendre 1 b)).
    rewrite (Rule2_product [-1; 0; 1] v 3 eq_refl L2 (dphi FLegendre 4) (phi FLegendre 1)).
    assert (D4 : forall t, dphi FLegendre 4 t = 9 / 8 * (35 * t ^ 4 - 30 * t ^ 2 + 3)).
    { intros t. apply (derR_uniq (phi FLegendre 4) t); [apply phi_derive; lia|].
      apply (derR_ext (fun t => (63 * t ^ 5 - 70 * t ^ 3 + 15 * t) / 8 - (5 * t ^ 3 - 3 * t) / 2)).
      - intros z. unfold phi, LegendreP, JacobiP. simpl. field.
      - auto_derive; auto. simpl. field. }
    assert (P1 : forall t, phi FLegendre 1 t = 3 / 2 * (t ^ 2 - 1)) by (intros t; unfold phi, LegendreP, JacobiP; simpl; field).
    destruct v as [|a [|b [|c [|]]]]; try discriminate L2.
    assert (X : forall m, (m < 4)%nat -> Rule [-1; 0; 1] [a; b; c] (fun t => t ^ m) = (1 - (-1) ^ S m) / INR (S m)).
    { intros m Hm. rewrite (exact_pdeg (2 * 3 - 2) _ _ _ He); [apply RInt_pow_sym|]. apply (pdeg_mono (S m)); [lia | apply pdeg_pow]. }
    pose proof (X 0%nat ltac:(lia)) as X0. pose proof (X 1%nat ltac:(lia)) as X1. pose proof (X 2%nat ltac:(lia)) as X2. clear X.
    unfold Rule in *. cbn [length Sum nth] in *. rewrite !D4, !P1. simpl in X0, X1, X2.
    assert (Ea : a = 1 / 3) by lra. assert (Ec : c = 1 / 3) by lra. assert (Eb : b = 4 / 3) by lra. rewrite Ea, Eb, Ec. intro K. lra.
  - exists o, s, h, dir, L. auto 10.
Qed.
