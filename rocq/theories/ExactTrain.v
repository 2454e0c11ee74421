(* C33: the training step at an exact polynomial solution. *)
From Coq Require Import String ZArith List Arith Lia Reals Lra.
From Coquelicot Require Import Coquelicot.
From Verif Require Import Num Py PyFacts Jacobi Quadrature Basis Transform Cell Space Tensor Data Physics Train RCalc PolyFacts ListFacts
  Spec SpecGeom SpecMesh SpecPde TransformFacts CellFacts2 SpaceFacts TransformFacts2 ForcingFacts TensorFacts SpecTrain BasisFacts2 PhysicsFacts
  DataFacts TrainFacts PipelineFacts ExactFacts.
Import ListNotations.
Local Open Scope R_scope.

Section Exact.
Variables (o : quad_oracle R) (cf : config) (cells : list (cell R)) (bp : bdict R) (bf : bfun R) (plot : bool)
  (s : space R) (f : R -> R -> R) (h : handler R).
Hypothesis Ho : oracle_ok o (Z.to_nat (cf_quad_order cf)).
Hypothesis Hs : make_space o cf cells bp bf plot = Ok s.
Hypothesis Hh : make_handler s f true = Ok h.
Hypothesis Hplain : cf_fe_type cf <> "jacobi_plain"%string.
Let n := Z.to_nat (cf_quad_order cf).
Let k := Z.to_nat (cf_fe_order cf).
Let C := length cells.
Let T := (k * k)%nat.
Let Q := (n * n)%nat.
Notation at_pts u := (at_points (on_points u) (h_x h) C Q).

Lemma h_get : forall c, (c < C)%nat -> exists pts,
    get_shape_function_val s (Z.of_nat c) = Ok (nth c (h_val h) []) /\
    get_shape_function_grad_x s (Z.of_nat c) = Ok (nth c (h_gx h) []) /\
    get_shape_function_grad_y s (Z.of_nat c) = Ok (nth c (h_gy h) []) /\
    get_quadrature_actual_coordinates s (Z.of_nat c) = Ok pts /\
    (forall u q, (q < Q)%nat -> entry (at_pts u) c q = u (fst (nth q pts (0, 0))) (snd (nth q pts (0, 0)))) /\
    exists m, get_forcing_function_values s f (Z.of_nat c) = Ok m /\ forall r, (r < T)%nat -> entry (h_force h) r c = entry m r 0.
Proof.
  intros c Hc. destruct (handler_spec o cf cells bp bf plot s (oracle_lengths _ _ Ho) Hs f) as (h' & E & _ & _ & _ & _ & _ & P).
  rewrite Hh in E. injection E as <-. destruct (P c Hc) as (P1 & P2 & P3 & (pts & P4 & _ & P5) & (m & P6 & _ & P7)).
  exists pts. do 4 (split; [assumption|]). split; [|exists m; auto].
  intros u q Hq. unfold at_points. rewrite mk_entry by auto. rewrite P5 by auto. reflexivity.
Qed.

Lemma handler_force : forall c r, (c < C)%nat -> (r < T)%nat ->
  entry (h_force h) r c = Sum (fun q => entry3 (h_val h) c r q * entry (at_pts f) c q) Q.
Proof.
  intros c r Hc Hr. destruct (h_get c Hc) as (pts & G1 & _ & _ & G4 & G5 & m & G6 & G7). rewrite G7 by auto.
  destruct (nth_error cells c) as [cell|] eqn:Ec; [|apply nth_error_None in Ec; unfold C in Hc; lia].
  destruct (row_split k r Hr) as (i & j & -> & Hi & Hj).
  destruct (forcing_sum o cf cells bp bf plot s c cell (oracle_lengths _ _ Ho) Hs Ec f) as (fam & w & xi & eta & mult & m' & Ff & Fq & Fm & Fg & _ & E).
  rewrite G6 in Fg. injection Fg as <-. specialize (E i j Hi Hj). fold k in E. rewrite E. fold n. fold Q. change Sum with rsum. apply rsum_ext. intros q Hq.
  destruct (space_tables o cf cells bp bf plot s c _ (oracle_lengths _ _ Ho) Hs Ec)
    as (fam' & w' & xi' & eta' & val & gx & gy & gxr & gyr & pts' & mult' & Tf & Tq & Tv & _ & _ & _ & _ & Tp & Tm & _ & _ & _ & _ & _ & _ & _ & TT).
  rewrite Ff in Tf. injection Tf as <-. rewrite Fq in Tq. injection Tq as <- <- <-. rewrite G1 in Tv. injection Tv as <-.
  rewrite G4 in Tp. injection Tp as <-. rewrite Fm in Tm. injection Tm as <-.
  destruct (TT q Hq) as (_ & P & V). destruct (V i j Hi Hj) as (V1 & _). fold k in V1.
  rewrite G5 by auto. rewrite P. unfold entry3. rewrite V1. ring.
Qed.

(* the discrete flux identity on the tensors of the handler *)
Lemma handler_flux : forall p q d, (forall c, In c cells -> flux_on d p q c) -> (d + k <= exactness (cf_quad_type cf) n)%nat ->
  forall c r, (c < C)%nat -> (r < T)%nat ->
  Sum (fun l => entry3 (h_gx h) c r l * entry (at_pts p) c l) Q + Sum (fun l => entry3 (h_gy h) c r l * entry (at_pts q) c l) Q
  = - Sum (fun l => entry3 (h_val h) c r l * entry (at_pts (Div p q)) c l) Q.
Proof.
  intros p q d Hf Hd c r Hc Hr. destruct (h_get c Hc) as (pts & G1 & G2 & G3 & G4 & G5 & _).
  destruct (nth_error cells c) as [cell|] eqn:Ec; [|apply nth_error_None in Ec; unfold C in Hc; lia].
  destruct (flux_identity o cf cells bp bf plot s c cell Ho Hs Ec Hplain p q d (Hf cell (nth_error_In _ _ Ec)) Hd)
    as (val & gx & gy & pts' & F1 & F2 & F3 & F4 & E).
  rewrite G1 in F1. injection F1 as <-. rewrite G2 in F2. injection F2 as <-. rewrite G3 in F3. injection F3 as <-.
  rewrite G4 in F4. injection F4 as <-. specialize (E r Hr). cbv zeta in E. fold n in E. fold Q in E.
  apply Rplus_eq_reg_r with (Sum (fun l => entry3 (h_val h) c r l * entry (at_pts (Div p q)) c l) Q).
  rewrite Rplus_opp_l, <- E. change Sum with rsum. rewrite <- !rsum_plus. apply rsum_ext. intros l Hl. rewrite !G5 by auto. reflexivity.
Qed.

(* a combination of test-function integrals *)
Notation I t v c r := (Sum (fun q => entry3 t c r q * entry v c q) Q).
Lemma I_ext : forall t u v c r, (c < C)%nat -> (forall x y, u x y = v x y) -> I t (at_pts u) c r = I t (at_pts v) c r.
Proof.
  intros. destruct (h_get c H) as (pts & _ & _ & _ & _ & G5 & _). change Sum with rsum. apply rsum_ext. intros q Hq. now rewrite !G5, H0.
Qed.
Lemma I_plus : forall t u v c r, (c < C)%nat -> I t (at_pts (fun x y => u x y + v x y)) c r = I t (at_pts u) c r + I t (at_pts v) c r.
Proof.
  intros. destruct (h_get c H) as (pts & _ & _ & _ & _ & G5 & _). change Sum with rsum. rewrite <- rsum_plus.
  apply rsum_ext. intros q Hq. rewrite !G5 by auto. ring.
Qed.
Lemma I_scal : forall t a u c r, (c < C)%nat -> I t (at_pts (fun x y => a * u x y)) c r = a * I t (at_pts u) c r.
Proof.
  intros. destruct (h_get c H) as (pts & _ & _ & _ & _ & G5 & _). change Sum with rsum. rewrite <- rsum_scal.
  apply rsum_ext. intros q Hq. rewrite !G5 by auto. ring.
Qed.

Variables (u : R -> R -> R) (d : nat).
Hypothesis Hu : forall c, In c cells -> solution_on d u c.
Hypothesis Hd : (d - 1 + k <= exactness (cf_quad_type cf) n)%nat.
Lemma stiffness : forall c r, (c < C)%nat -> (r < T)%nat ->
  I (h_gx h) (at_pts (Dx u)) c r + I (h_gy h) (at_pts (Dy u)) c r = - I (h_val h) (at_pts (Lap u)) c r.
Proof.
  intros c r Hc Hr. apply (handler_flux (Dx u) (Dy u) (d - 1)); auto. intros. now apply solution_flux, Hu.
Qed.
(* zero residual of the equations *)
Lemma residual_cd : forall eps b_x b_y g, (forall x y, f x y = - (eps * Lap u x y) + b_x * Dx u x y + b_y * Dy u x y + g * u x y) ->
  forall c r, (c < C)%nat -> (r < T)%nat ->
  eps * (I (h_gx h) (at_pts (Dx u)) c r + I (h_gy h) (at_pts (Dy u)) c r)
  + (b_x * I (h_val h) (at_pts (Dx u)) c r + b_y * I (h_val h) (at_pts (Dy u)) c r)
  + g * I (h_val h) (at_pts u) c r - entry (h_force h) r c = 0.
Proof.
  intros eps b_x b_y g E c r Hc Hr. rewrite stiffness, handler_force by auto.
  rewrite (I_ext _ f (fun x y => (((- eps) * Lap u x y + b_x * Dx u x y) + b_y * Dy u x y) + g * u x y)) by (auto; intros; rewrite E; ring).
  rewrite (I_plus _ (fun x y => ((- eps) * Lap u x y + b_x * Dx u x y) + b_y * Dy u x y) (fun x y => g * u x y)) by auto.
  rewrite (I_plus _ (fun x y => (- eps) * Lap u x y + b_x * Dx u x y) (fun x y => b_y * Dy u x y)) by auto.
  rewrite (I_plus _ (fun x y => (- eps) * Lap u x y) (fun x y => b_x * Dx u x y)) by auto.
  rewrite (I_scal _ (- eps) (Lap u)), (I_scal _ b_x (Dx u)), (I_scal _ b_y (Dy u)), (I_scal _ g u) by auto. ring.
Qed.
Lemma residual_poisson : forall eps, (forall x y, f x y = - (eps * Lap u x y)) ->
  forall c r, (c < C)%nat -> (r < T)%nat ->
  eps * (I (h_gx h) (at_pts (Dx u)) c r + I (h_gy h) (at_pts (Dy u)) c r) - entry (h_force h) r c = 0.
Proof.
  intros eps E c r Hc Hr. rewrite <- (residual_cd eps 0 0 0) with (c := c) (r := r); auto. ring.
  intros. rewrite E. ring.
Qed.
Lemma residual_helmholtz : forall eps kk, (forall x y, f x y = eps * Lap u x y + kk ^ 2 * u x y) ->
  forall c r, (c < C)%nat -> (r < T)%nat ->
  - (eps * (I (h_gx h) (at_pts (Dx u)) c r + I (h_gy h) (at_pts (Dy u)) c r)) + kk ^ 2 * I (h_val h) (at_pts u) c r - entry (h_force h) r c = 0.
Proof.
  intros eps kk E c r Hc Hr. rewrite <- (residual_cd (- eps) 0 0 (kk ^ 2)) with (c := c) (r := r); auto. ring.
  intros. rewrite E. ring.
Qed.
End Exact.

Lemma mean_sq_all_zero : forall l C T res, is_mean_sq l C T res -> (forall c r, (c < C)%nat -> (r < T)%nat -> res c r = 0) ->
  Sum (fun c => nth c l 0) (length l) = 0.
Proof.
  intros l C T res [L H] Z. change Sum with rsum. rewrite (rsum_ext _ (fun _ => 0)); [apply rsum_0|].
  intros c Hc. rewrite L in Hc. apply H; auto.
Qed.
(* boundary data that agree with u *)
Lemma misfit_zero : forall bp bf dir u, get_dirichlet_input bp bf = Ok dir -> (forall tag g, In (tag, g) bf -> forall x y, g x y = u x y) ->
  misfit (on_points u) (fst dir) (snd dir) = 0.
Proof.
  intros bp bf dir u H Hb. unfold get_dirichlet_input in H. destruct (dirichlet_data bp bf) as [[x y]|] eqn:E; [|discriminate].
  cbn [bind fst snd] in H. injection H as <-. cbn [fst snd]. unfold misfit.
  replace (Sum _ _) with 0; [unfold Rdiv; ring|]. symmetry. change Sum with rsum.
  rewrite (rsum_ext _ (fun _ => 0)); [apply rsum_0|]. intros i Hi.
  destruct (dirichlet_rows bp bf x y E) as (_ & L & P). destruct (P i Hi) as (g & G1 & G2).
  assert (Hin : exists t, In (t, g) bf).
  { clear - G1. induction bf as [|[t g'] bf IH]; [discriminate|]. cbn in G1. destruct (Z.eqb _ t).
    - injection G1 as ->. exists t. now left.
    - destruct (IH G1) as (t' & ?). exists t'. now right. }
  destruct Hin as (t & Hin). unfold entry, as_column. rewrite nth_map_lt with (d' := 0) by lia. cbn [nth].
  rewrite G2, (Hb t g Hin). unfold on_points. ring.
Qed.

Section Steps.
Variables (o : quad_oracle R) (cf : config) (cells : list (cell R)) (bp : bdict R) (bf : bfun R) (plot : bool)
  (s : space R) (f : R -> R -> R) (h : handler R) (dir sensor : list (R * R) * mat R) (nn : network R) (beta : R).
Hypothesis Ho : oracle_ok o (Z.to_nat (cf_quad_order cf)).
Hypothesis Hs : make_space o cf cells bp bf plot = Ok s.
Hypothesis Hh : make_handler s f true = Ok h.
Hypothesis Hplain : cf_fe_type cf <> "jacobi_plain"%string.
Hypothesis Hdir : get_dirichlet_input bp bf = Ok dir.
Hypothesis Hne : fst dir <> [].
Let n := Z.to_nat (cf_quad_order cf).
Let k := Z.to_nat (cf_fe_order cf).
Variables (u : R -> R -> R) (d : nat).
Hypothesis Hu : forall c, In c cells -> solution_on d u c.
Hypothesis Hd : (d - 1 + k <= exactness (cf_quad_type cf) n)%nat.
Hypothesis Hn : pointwise nn (on_points u) (gradient u).

(* both steps give zero PDE loss; the total is what the boundary data contribute *)
Definition exact_steps (m : model R) (params : list (string * R)) : Prop :=
  (exists L, train_standard m nn beta (Some params) = Ok L /\ l_pde L = 0 /\
     l_total L = [beta * misfit (on_points u) (fst dir) (snd dir)] /\
     ((forall tag g, In (tag, g) bf -> forall x y, g x y = u x y) -> l_total L = [0])) /\
  (exists L, train_hard m nn beta (Some params) = Ok L /\ l_pde L = 0 /\ l_total L = [0]).

Lemma model_tensors : forall loss, let m := model_of h dir sensor loss (length cells) in
  let C := length cells in
  model_fits m C (k * k) (n * n) /\
  fits (h_val h) (h_gx h) (h_gy h) (at_points (on_points u) (h_x h) C (n * n)) (at_points (fun p => fst (gradient u p)) (h_x h) C (n * n))
       (at_points (fun p => snd (gradient u p)) (h_x h) C (n * n)) (h_force h) C (k * k) (n * n).
Proof.
  intros loss m C.
  pose proof (pipeline_fits o cf cells bp bf plot s f h dir sensor loss C (oracle_lengths _ _ Ho) Hs Hh Hdir Hne) as M.
  split; [exact M|]. destruct M as [M1 M2 M3 M4 M5 M6 M7 M8 M9 M10]. constructor; auto; apply mk_shape.
Qed.
Lemma exact_of_zero : forall loss params l, let m := model_of h dir sensor loss (length cells) in
  let C := length cells in
  call_kw loss (args (h_val h) (h_gx h) (h_gy h) (at_points (on_points u) (h_x h) C (n * n)) (at_points (fun p => fst (gradient u p)) (h_x h) C (n * n))
       (at_points (fun p => snd (gradient u p)) (h_x h) C (n * n)) (h_force h) ++ bparams (Some params)) = Ok l ->
  Sum (fun c => nth c l 0) (length l) = 0 -> exact_steps m params.
Proof.
  intros loss params l m C El Z. destruct (model_tensors loss) as [M _]. cbv zeta in M. fold m in M.
  split.
  - pose proof (standard_ok m nn C (k * k) (n * n) beta (Some params) M (on_points u) (gradient u) Hn eq_refl) as E.
    cbn [m model_of m_val m_gx m_gy m_x m_force m_loss] in E. fold C in E. unfold bparams in El. rewrite El in E. cbv zeta in E. rewrite Z in E.
    eexists. split; [exact E|]. cbn [l_pde l_total m model_of m_dir_in m_dir_act]. split; [auto|]. split; [f_equal; ring|].
    intros Hb. rewrite (misfit_zero bp bf dir u Hdir Hb). f_equal; ring.
  - pose proof (hard_ok m nn C (k * k) (n * n) beta (Some params) M (on_points u) (gradient u) Hn eq_refl) as E.
    cbn [m model_of m_val m_gx m_gy m_x m_force m_loss] in E. fold C in E. unfold bparams in El. rewrite El in E. cbv zeta in E. rewrite Z in E.
    eexists. split; [exact E|]. cbn [l_pde l_total]. auto.
Qed.

Lemma exact_poisson : forall params eps, has params "eps" eps -> (forall x y, f x y = - (eps * Lap u x y)) ->
  exact_steps (model_of h dir sensor pde_loss_poisson (length cells)) params.
Proof.
  intros params eps Hp Hf. destruct (model_tensors pde_loss_poisson) as [_ F].
  destruct (poisson_spec _ _ _ _ _ _ _ _ _ _ F params eps Hp) as (l & E & M).
  eapply exact_of_zero; [exact E|]. eapply mean_sq_all_zero; [exact M|]. intros c r Hc Hr.
  exact (residual_poisson o cf cells bp bf plot s f h Ho Hs Hh Hplain u d Hu Hd eps Hf c r Hc Hr).
Qed.
Lemma exact_cd2d : forall params eps b_x b_y g, has params "eps" eps -> has params "b_x" b_x -> has params "b_y" b_y -> has params "c" g ->
  (forall x y, f x y = - (eps * Lap u x y) + b_x * Dx u x y + b_y * Dy u x y + g * u x y) ->
  exact_steps (model_of h dir sensor pde_loss_cd2d (length cells)) params.
Proof.
  intros params eps b_x b_y g H1 H2 H3 H4 Hf. destruct (model_tensors pde_loss_cd2d) as [_ F].
  destruct (cd2d_spec _ _ _ _ _ _ _ _ _ _ F params eps b_x b_y g H1 H2 H3 H4) as (l & E & M).
  eapply exact_of_zero; [exact E|]. eapply mean_sq_all_zero; [exact M|]. intros c r Hc Hr.
  exact (residual_cd o cf cells bp bf plot s f h Ho Hs Hh Hplain u d Hu Hd eps b_x b_y g Hf c r Hc Hr).
Qed.
Lemma exact_helmholtz : forall params eps kk, has params "eps" eps -> has params "k" kk ->
  (forall x y, f x y = eps * Lap u x y + kk ^ 2 * u x y) ->
  exact_steps (model_of h dir sensor pde_loss_helmholtz (length cells)) params.
Proof.
  intros params eps kk H1 H2 Hf. destruct (model_tensors pde_loss_helmholtz) as [_ F].
  destruct (helmholtz_spec _ _ _ _ _ _ _ _ _ _ F params eps kk H1 H2) as (l & E & M).
  eapply exact_of_zero; [exact E|]. eapply mean_sq_all_zero; [exact M|]. intros c r Hc Hr.
  exact (residual_helmholtz o cf cells bp bf plot s f h Ho Hs Hh Hplain u d Hu Hd eps kk Hf c r Hc Hr).
Qed.
(* inverse problem: the parameter of the inverse dictionary *)
Lemma exact_poisson_inverse : forall bpar ip eps, let m := model_of h dir sensor pde_loss_poisson_inverse (length cells) in
  sensors_fit m -> has ip "eps" eps -> (forall x y, f x y = - (eps * Lap u x y)) ->
  exists L, train_inverse m nn beta bpar (Some ip) = Ok L /\ l_pde L = 0 /\
    l_total L = [beta * misfit (on_points u) (fst dir) (snd dir) + 10 * misfit (on_points u) (fst sensor) (snd sensor)].
Proof.
  intros bpar ip eps m Hsen Hp Hf. destruct (model_tensors pde_loss_poisson_inverse) as [M F].
  destruct (poisson_inverse_spec _ _ _ _ _ _ _ _ _ _ F bpar ip eps Hp) as (l & El & Ml).
  pose proof (inverse_ok m nn (length cells) (k * k) (n * n) beta bpar M (on_points u) (gradient u) Hn (Some ip) Hsen eq_refl) as E.
  cbn [m model_of m_val m_gx m_gy m_x m_force m_loss] in E. unfold bparams, iparams in El. rewrite <- app_assoc in E. cbn [app] in E, El. rewrite El in E. cbv zeta in E.
  rewrite (mean_sq_all_zero _ _ _ _ Ml) in E.
  - eexists. split; [exact E|]. cbn [l_pde l_total]. split; [auto|]. f_equal. ring_simplify. reflexivity.
  - intros c r Hc Hr. exact (residual_poisson o cf cells bp bf plot s f h Ho Hs Hh Hplain u d Hu Hd eps Hf c r Hc Hr).
Qed.
End Steps.

(* a parameter field E(x, y): - div (E grad u) + b . grad u + c u = f *)
Section Domain.
Variables (o : quad_oracle R) (cf : config) (cells : list (cell R)) (bp : bdict R) (bf : bfun R) (plot : bool)
  (s : space R) (f : R -> R -> R) (h : handler R) (dir sensor : list (R * R) * mat R) (nn : network R) (beta : R).
Hypothesis Ho : oracle_ok o (Z.to_nat (cf_quad_order cf)).
Hypothesis Hs : make_space o cf cells bp bf plot = Ok s.
Hypothesis Hh : make_handler s f true = Ok h.
Hypothesis Hplain : cf_fe_type cf <> "jacobi_plain"%string.
Hypothesis Hdir : get_dirichlet_input bp bf = Ok dir.
Hypothesis Hne : fst dir <> [].
Let n := Z.to_nat (cf_quad_order cf).
Let k := Z.to_nat (cf_fe_order cf).
Variables (u E : R -> R -> R) (d : nat).
Let p x y := E x y * Dx u x y.
Let q x y := E x y * Dy u x y.
Hypothesis Hpq : forall c, In c cells -> flux_on d p q c.
Hypothesis Hd : (d + k <= exactness (cf_quad_type cf) n)%nat.
Hypothesis Hn : pointwise2 nn (on_points u) (on_points E) (gradient u).
Lemma exact_domain : forall params b_x b_y g, let m := model_of h dir sensor pde_loss_cd2d_inverse_domain (length cells) in
  sensors_fit m -> has params "b_x" b_x -> has params "b_y" b_y -> has params "c" g ->
  (forall x y, f x y = - Div p q x y + b_x * Dx u x y + b_y * Dy u x y + g * u x y) ->
  exists L, train_inverse_domain m nn beta (Some params) = Ok L /\ l_pde L = 0 /\
    l_total L = [beta * misfit (on_points u) (fst dir) (snd dir) + 10 * misfit (on_points u) (fst sensor) (snd sensor)].
Proof.
  intros params b_x b_y g m Hsen H2 H3 H4 Hf. set (C := length cells).
  assert (F : model_fits m C (k * k) (n * n)) by exact (pipeline_fits o cf cells bp bf plot s f h dir sensor _ C (oracle_lengths _ _ Ho) Hs Hh Hdir Hne).
  assert (Ft : fits (h_val h) (h_gx h) (h_gy h) (at_points (on_points u) (h_x h) C (n * n)) (at_points (fun p => fst (gradient u p)) (h_x h) C (n * n))
       (at_points (fun p => snd (gradient u p)) (h_x h) C (n * n)) (h_force h) C (k * k) (n * n)).
  { destruct F as [M1 M2 M3 M4 M5 M6 M7 M8 M9 M10]. constructor; auto; apply mk_shape. }
  destruct (domain_spec _ _ _ _ _ _ _ _ _ _ Ft params (at_points (on_points E) (h_x h) C (n * n)) b_x b_y g (mk_shape _ _ _) H2 H3 H4) as (l & El & Ml).
  pose proof (domain_ok m nn C (k * k) (n * n) beta (Some params) F (on_points u) (on_points E) (gradient u) Hn Hsen eq_refl) as Et.
  cbn [m model_of m_val m_gx m_gy m_x m_force m_loss] in Et. unfold bparams, plist in El. cbn [app] in Et, El. match type of Et with context [call_kw ?a ?b] => replace (call_kw a b) with (Ok l : result (list R)) in Et by (symmetry; exact El) end. cbv zeta in Et.
  rewrite (mean_sq_all_zero _ _ _ _ Ml) in Et.
  - eexists. split; [exact Et|]. cbn [l_pde l_total]. split; [auto|]. f_equal. ring_simplify. reflexivity.
  - intros c r Hc Hr.
    pose proof (handler_flux o cf cells bp bf plot s f h Ho Hs Hh Hplain p q d Hpq Hd c r Hc Hr) as Fx. fold n k C in Fx.
    pose proof (handler_force o cf cells bp bf plot s f h Ho Hs Hh c r Hc Hr) as Ff. fold n k C in Ff. rewrite Ff.
    rewrite (I_ext o cf cells bp bf plot s f h Ho Hs Hh (h_val h) f (fun x y => (((-1) * Div p q x y + b_x * Dx u x y) + b_y * Dy u x y) + g * u x y))
      by (auto; intros; rewrite Hf; ring).
    rewrite (I_plus o cf cells bp bf plot s f h Ho Hs Hh _ (fun x y => ((-1) * Div p q x y + b_x * Dx u x y) + b_y * Dy u x y) (fun x y => g * u x y)) by auto.
    rewrite (I_plus o cf cells bp bf plot s f h Ho Hs Hh _ (fun x y => (-1) * Div p q x y + b_x * Dx u x y) (fun x y => b_y * Dy u x y)) by auto.
    rewrite (I_plus o cf cells bp bf plot s f h Ho Hs Hh _ (fun x y => (-1) * Div p q x y) (fun x y => b_x * Dx u x y)) by auto.
    rewrite (I_scal o cf cells bp bf plot s f h Ho Hs Hh _ (-1) (Div p q)), (I_scal o cf cells bp bf plot s f h Ho Hs Hh _ b_x (Dx u)),
      (I_scal o cf cells bp bf plot s f h Ho Hs Hh _ b_y (Dy u)), (I_scal o cf cells bp bf plot s f h Ho Hs Hh _ g u) by auto. fold n C.
    rewrite (rsum_ext (fun q0 => entry3 (h_gx h) c r q0 * _) (fun l => entry3 (h_gx h) c r l * entry (at_points (on_points p) (h_x h) C (n * n)) c l)).
    2:{ intros l0 Hl. unfold at_points. rewrite !mk_entry by auto. unfold on_points, p, gradient. cbn [fst snd]. ring. }
    rewrite (rsum_ext (fun q0 => entry3 (h_gy h) c r q0 * _) (fun l => entry3 (h_gy h) c r l * entry (at_points (on_points q) (h_x h) C (n * n)) c l)).
    2:{ intros l0 Hl. unfold at_points. rewrite !mk_entry by auto. unfold on_points, q, gradient. cbn [fst snd]. ring. }
    change rsum with Sum. rewrite Fx. unfold gradient. cbn [fst snd]. unfold on_points. ring.
Qed.
End Domain.
