(* C54, C55: zero loss and the weak residuals; the loss as a sum over cells. *)
From Coq Require Import String ZArith List Arith Lia Permutation Reals Lra.
From Verif Require Import Num Py PyFacts Jacobi Quadrature Basis Transform Cell Space Tensor Data Physics Train RCalc PolyFacts ListFacts
  Spec SpecGeom SpecMesh SpecPde TransformFacts CellFacts2 SpaceFacts TransformFacts2 ForcingFacts TensorFacts SpecTrain PhysicsFacts
  DataFacts TrainFacts PipelineFacts ExactTrain SpecWeak.
Import ListNotations.
Local Open Scope R_scope.

(* the weak residual of one cell, from its own tables *)
Definition cell_weak (o : quad_oracle R) (cf : config) (f : R -> R -> R) (U : point -> R) (G : point -> point)
  (a : point -> R) (bx bn g : R) (c : cell R) (r : nat) : R :=
  match make_cell o cf c with
  | Ok d => weak_res a bx bn g U G f (cd_val d) (cd_gradx d) (cd_grady d) (cd_actual d) r
  | Err _ => 0
  end.

Lemma rsum_zero : forall f n, (forall i, (i < n)%nat -> 0 <= f i) -> rsum f n = 0 -> forall i, (i < n)%nat -> f i = 0.
Proof.
  intros f n. induction n as [|n IH]; intros Hf E i Hi; [lia|]. rewrite rsum_S in E.
  pose proof (rsum_nonneg f n ltac:(intros; apply Hf; lia)). pose proof (Hf n ltac:(lia)).
  destruct (Nat.eq_dec i n) as [-> | Hn]; [lra|]. apply IH; [intros; apply Hf; lia | lra | lia].
Qed.

Section Weak.
Variables (o : quad_oracle R) (cf : config) (cells : list (cell R)) (bp : bdict R) (bf : bfun R) (plot : bool)
  (s : space R) (f : R -> R -> R) (h : handler R) (dir sensor : list (R * R) * mat R) (nn : network R) (beta : R).
Hypothesis Ho : oracle_ok o (Z.to_nat (cf_quad_order cf)).
Hypothesis Hs : make_space o cf cells bp bf plot = Ok s.
Hypothesis Hh : make_handler s f true = Ok h.
Hypothesis Hdir : get_dirichlet_input bp bf = Ok dir.
Hypothesis Hne : fst dir <> [].
Let n := Z.to_nat (cf_quad_order cf).
Let k := Z.to_nat (cf_fe_order cf).
Let C := length cells.
Let T := (k * k)%nat.
Let Q := (n * n)%nat.
Variables (U : point -> R) (G : point -> point).
Notation at_pts u := (at_points u (h_x h) C Q).
Notation I t v c r := (Sum (fun q => entry3 t c r q * entry v c q) Q).

Lemma cell_of : forall c, (c < C)%nat -> exists cl d, nth_error cells c = Some cl /\ make_cell o cf cl = Ok d /\
  nth c (h_val h) [] = cd_val d /\ nth c (h_gx h) [] = cd_gradx d /\ nth c (h_gy h) [] = cd_grady d /\
  get_quadrature_actual_coordinates s (Z.of_nat c) = Ok (cd_actual d) /\ length (cd_actual d) = Q /\
  forall V q, (q < Q)%nat -> entry (at_pts V) c q = V (nth q (cd_actual d) (0, 0)).
Proof.
  intros c Hc. destruct (nth_error cells c) as [cl|] eqn:Ec; [|apply nth_error_None in Ec; unfold C in Hc; lia].
  destruct (space_cell _ _ _ _ _ _ _ _ _ Hs Ec) as (d & Hd & _ & Ea). exists cl, d.
  destruct (handler_spec o cf cells bp bf plot s (oracle_lengths _ _ Ho) Hs f) as (h' & E & _ & _ & _ & _ & _ & P).
  rewrite Hh in E. injection E as <-. destruct (P c Hc) as (P1 & P2 & P3 & (pts & P4 & P5 & P6) & _).
  unfold get_shape_function_val, get_shape_function_grad_x, get_shape_function_grad_y, get_quadrature_actual_coordinates in *.
  rewrite Ea in *. cbn [bind] in *. injection P1 as <-. injection P2 as <-. injection P3 as <-. injection P4 as <-.
  do 7 (split; [reflexivity || assumption|]).
  intros V q Hq. unfold at_points. rewrite mk_entry by auto. now rewrite P6.
Qed.
Lemma force_of : forall c r, (c < C)%nat -> (r < T)%nat ->
  entry (h_force h) r c = I (h_val h) (at_pts (on_points f)) c r.
Proof. intros c r Hc Hr. exact (handler_force o cf cells bp bf plot s f h Ho Hs Hh c r Hc Hr). Qed.

(* what the loss functions compute is the weak residual *)
Lemma res_of : forall (a : point -> R) bx bn g c r, (c < C)%nat -> (r < T)%nat ->
  (Sum (fun q => entry3 (h_gx h) c r q * (entry (at_pts (fun p => fst (G p))) c q * entry (at_pts a) c q)) Q
   + Sum (fun q => entry3 (h_gy h) c r q * (entry (at_pts (fun p => snd (G p))) c q * entry (at_pts a) c q)) Q)
  + (bx * I (h_val h) (at_pts (fun p => fst (G p))) c r + bn * I (h_val h) (at_pts (fun p => snd (G p))) c r)
  + g * I (h_val h) (at_pts U) c r - entry (h_force h) r c
  = cell_weak o cf f U G a bx bn g (nth c cells (mkcell (0, 0) (0, 0) (0, 0) (0, 0))) r.
Proof.
  intros a bx bn g c r Hc Hr. rewrite force_of by auto. destruct (cell_of c Hc) as (cl & d & E1 & E2 & E3 & E4 & E5 & _ & E6 & E7).
  rewrite (nth_error_nth _ _ _ E1). unfold cell_weak. rewrite E2. unfold weak_res. rewrite E6. change Sum with rsum.
  rewrite <- !rsum_scal, <- !rsum_plus. unfold Rminus at 1.
  match goal with |- ?A + - ?B = _ => replace (- B) with ((-1) * B) by ring end.
  rewrite <- rsum_scal, <- rsum_plus. apply rsum_ext. intros q Hq. unfold entry3. rewrite !E7 by auto. rewrite E3, E4, E5.
  cbv zeta. unfold on_points. ring.
Qed.
Lemma res_const : forall (al : R) bx bn g c r, (c < C)%nat -> (r < T)%nat ->
  al * (I (h_gx h) (at_pts (fun p => fst (G p))) c r + I (h_gy h) (at_pts (fun p => snd (G p))) c r)
  + (bx * I (h_val h) (at_pts (fun p => fst (G p))) c r + bn * I (h_val h) (at_pts (fun p => snd (G p))) c r)
  + g * I (h_val h) (at_pts U) c r - entry (h_force h) r c
  = cell_weak o cf f U G (fun _ => al) bx bn g (nth c cells (mkcell (0, 0) (0, 0) (0, 0) (0, 0))) r.
Proof.
  intros. rewrite <- res_of by auto. f_equal. f_equal. f_equal. change Sum with rsum.
  rewrite Rmult_plus_distr_l, <- !rsum_scal. f_equal; apply rsum_ext; intros q Hq; unfold at_points; rewrite !mk_entry by auto; ring.
Qed.

Lemma model_fit : forall loss, model_fits (model_of h dir sensor loss C) C T Q.
Proof. intros loss. exact (pipeline_fits o cf cells bp bf plot s f h dir sensor loss C (oracle_lengths _ _ Ho) Hs Hh Hdir Hne). Qed.
Lemma tensors_fit : fits (h_val h) (h_gx h) (h_gy h) (at_pts U) (at_pts (fun p => fst (G p))) (at_pts (fun p => snd (G p))) (h_force h) C T Q.
Proof. exact (at_points_fits _ C T Q U (fun p => fst (G p)) (fun p => snd (G p)) (model_fit pde_loss_poisson)). Qed.

Lemma is_mean_sq_ext : forall l c t res res', is_mean_sq l c t res -> (forall i r, (i < c)%nat -> (r < t)%nat -> res i r = res' i r) ->
  is_mean_sq l c t res'.
Proof.
  intros l c t res res' [L H] E. split; [exact L|]. intros i Hi. destruct (H i Hi) as (H1 & H2 & H3). split; [|split; [exact H2|]].
  - rewrite H1. f_equal. change Sum with rsum. apply rsum_ext. intros r Hr. now rewrite E.
  - rewrite H3. split; intros K r Hr; [rewrite <- E | rewrite E]; auto.
Qed.
Definition the_cell c := nth c cells (mkcell (0, 0) (0, 0) (0, 0) (0, 0)).
Lemma call_forward : forall loss d al bx bn g, equation loss d al bx bn g -> exists l,
  call_kw loss (args (h_val h) (h_gx h) (h_gy h) (at_pts U) (at_pts (fun p => fst (G p))) (at_pts (fun p => snd (G p))) (h_force h) ++ bparams (Some d)) = Ok l /\
  is_mean_sq l C T (fun c r => cell_weak o cf f U G (fun _ => al) bx bn g (the_cell c) r).
Proof.
  intros loss d al bx bn g H. pose proof tensors_fit as F. destruct H.
  - destruct (poisson_spec _ _ _ _ _ _ _ _ _ _ F d eps H) as (l & E & M). exists l. split; [exact E|].
    eapply is_mean_sq_ext; [exact M|]. intros c r Hc Hr. cbv beta. unfold the_cell. rewrite <- res_const by auto. ring.
  - destruct (cd2d_spec _ _ _ _ _ _ _ _ _ _ F d eps b_x b_y c H H0 H1 H2) as (l & E & M). exists l. split; [exact E|].
    eapply is_mean_sq_ext; [exact M|]. intros i r Hc Hr. cbv beta. unfold the_cell. rewrite <- res_const by auto. ring.
  - destruct (helmholtz_spec _ _ _ _ _ _ _ _ _ _ F d eps k0 H H0) as (l & E & M). exists l. split; [exact E|].
    eapply is_mean_sq_ext; [exact M|]. intros i r Hc Hr. cbv beta. unfold the_cell. rewrite <- res_const by auto. ring.
Qed.

(* the value of the PDE loss *)
Definition cell_loss (a : point -> R) bx bn g (c : cell R) : R :=
  Sum (fun r => cell_weak o cf f U G a bx bn g c r ^ 2) T / INR T.
Lemma sum_nth : forall (A : Type) (w : A -> R) l d, Sum (fun i => w (nth i l d)) (length l) = fold_right (fun c acc => w c + acc) 0 l.
Proof.
  intros A w l d. induction l as [|x l IH]; [reflexivity|]. cbn [fold_right length]. rewrite <- IH. change Sum with rsum.
  rewrite rsum_S_l. reflexivity.
Qed.
Lemma pde_value : forall l a bx bn g, is_mean_sq l C T (fun c r => cell_weak o cf f U G a bx bn g (the_cell c) r) ->
  Sum (fun c => nth c l 0) (length l) = fold_right (fun c acc => cell_loss a bx bn g c + acc) 0 cells.
Proof.
  intros l a bx bn g [L H]. rewrite <- (sum_nth _ (cell_loss a bx bn g) cells (mkcell (0, 0) (0, 0) (0, 0) (0, 0))).
  rewrite L. change Sum with rsum. apply rsum_ext. intros c Hc. apply H. exact Hc.
Qed.
Lemma pde_nonneg : forall l res, is_mean_sq l C T res ->
  0 <= Sum (fun c => nth c l 0) (length l) /\
  (Sum (fun c => nth c l 0) (length l) = 0 <-> forall c r, (c < C)%nat -> (r < T)%nat -> res c r = 0).
Proof.
  intros l res [L H]. rewrite L. change Sum with rsum. split.
  - apply rsum_nonneg. intros c Hc. apply H; auto.
  - split.
    + intros E c r Hc Hr. apply (H c Hc); auto. apply (rsum_zero (fun c => nth c l 0) C); auto. intros i Hi. apply H; auto.
    + intros E. rewrite (rsum_ext _ (fun _ => 0)); [apply rsum_0|]. intros c Hc. apply (H c Hc). intros r Hr. auto.
Qed.

(* ---------- boundary values ---------- *)
Lemma boundary_rows : forall (V : point -> R),
  (forall i, (i < length (fst dir))%nat -> V (nth i (fst dir) (0, 0)) = entry (snd dir) i 0) <->
  (forall tag pts p b, In (tag, pts) bp -> In p pts -> dget Z.eqb bf tag = Ok b -> V p = b (fst p) (snd p)).
Proof.
  intros V. destruct (dirichlet_input_shape bp bf dir Hdir) as [[L _] E]. destruct (dirichlet_rows bp bf _ _ E) as (R1 & R2 & R3).
  rewrite map_length in R2.
  assert (Rv : forall i, (i < length (fst dir))%nat -> nth i (map (fun r => nth 0 r 0) (snd dir)) 0 = entry (snd dir) i 0).
  { intros i Hi. rewrite nth_map_lt with (d' := []) by lia. reflexivity. }
  assert (Lt : length (fst dir) = length (tagged bp)) by (rewrite R1; apply map_length).
  assert (Rt : forall i, (i < length (fst dir))%nat -> nth i (fst dir) (0, 0) = snd (nth i (tagged bp) (0%Z, (0, 0)))).
  { intros i Hi. rewrite R1 at 1. rewrite nth_map_lt with (d' := (0%Z, (0, 0))) by lia. reflexivity. }
  split.
  - intros H tag pts p b H1 H2 H3.
    assert (Hin : In (tag, p) (tagged bp)).
    { unfold tagged. apply in_concat. exists (map (fun p => (tag, p)) pts). split; [|apply in_map; exact H2].
      apply in_map_iff. exists (tag, pts). split; [reflexivity | exact H1]. }
    destruct (In_nth _ _ (0%Z, (0, 0)) Hin) as (i & Hi & Ei). rewrite <- Lt in Hi.
    destruct (R3 i Hi) as (b' & B1 & B2). rewrite Ei in B1. cbn [fst] in B1. rewrite H3 in B1. injection B1 as <-.
    rewrite Rv, Rt, Ei in B2 by auto. cbn [snd] in B2. rewrite <- B2, <- H by auto. rewrite Rt, Ei by auto. reflexivity.
  - intros H i Hi. destruct (R3 i Hi) as (b & B1 & B2). rewrite <- Rv, B2 by auto.
    assert (Hin : In (nth i (tagged bp) (0%Z, (0, 0))) (tagged bp)) by (apply nth_In; lia).
    unfold tagged at 2 in Hin. apply in_concat in Hin. destruct Hin as (row & Hr & Hin). apply in_map_iff in Hr. destruct Hr as ([tag pts] & <- & Hbp).
    cbn [fst snd] in Hin. apply in_map_iff in Hin. destruct Hin as (p & Ep & Hp). rewrite Rt, <- Ep by auto. cbn [snd].
    apply (H tag pts); auto. rewrite <- Ep in B1. exact B1.
Qed.

Lemma weak_iff : forall a bx bn g,
  (forall c r, (c < C)%nat -> (r < T)%nat -> cell_weak o cf f U G a bx bn g (the_cell c) r = 0) <->
  weak_solution s C T a bx bn g U G f.
Proof.
  intros a bx bn g. split.
  - intros H c val gx gy pts Hc E1 E2 E3 E4 r Hr. specialize (H c r Hc Hr). unfold cell_weak, the_cell in H.
    destruct (nth_error cells c) as [cl|] eqn:Ec; [|apply nth_error_None in Ec; unfold C in Hc; lia].
    destruct (space_cell _ _ _ _ _ _ _ _ _ Hs Ec) as (d & Hd & _ & Ea). rewrite (nth_error_nth _ _ _ Ec), Hd in H.
    unfold get_shape_function_val, get_shape_function_grad_x, get_shape_function_grad_y, get_quadrature_actual_coordinates in *.
    rewrite Ea in *. cbn [bind] in *. congruence.
  - intros H c r Hc Hr. unfold cell_weak, the_cell.
    destruct (nth_error cells c) as [cl|] eqn:Ec; [|apply nth_error_None in Ec; unfold C in Hc; lia].
    destruct (space_cell _ _ _ _ _ _ _ _ _ Hs Ec) as (d & Hd & _ & Ea). rewrite (nth_error_nth _ _ _ Ec), Hd.
    apply (H c); auto; unfold get_shape_function_val, get_shape_function_grad_x, get_shape_function_grad_y, get_quadrature_actual_coordinates; now rewrite Ea.
Qed.

(* ---------- the training steps ---------- *)
Hypothesis Hn : pointwise nn U G.
Lemma step_standard : forall loss d al bx bn g, equation loss d al bx bn g ->
  let pde := fold_right (fun c acc => cell_loss (fun _ => al) bx bn g c + acc) 0 cells in
  exists L, train_standard (model_of h dir sensor loss C) nn beta (Some d) = Ok L /\
    l_pde L = pde /\ l_total L = [pde + beta * misfit U (fst dir) (snd dir)] /\ 0 <= pde /\
    (pde = 0 <-> forall c r, (c < C)%nat -> (r < T)%nat -> cell_weak o cf f U G (fun _ => al) bx bn g (the_cell c) r = 0).
Proof.
  intros loss d al bx bn g He pde. destruct (call_forward loss d al bx bn g He) as (l & El & Ml).
  pose proof (standard_ok _ nn C T Q beta (Some d) (model_fit loss) U G Hn eq_refl) as E.
  cbn [model_of m_val m_gx m_gy m_x m_force m_loss] in E. unfold bparams in El. rewrite El in E. cbv zeta in E.
  rewrite (pde_value l _ _ _ _ Ml) in E. fold pde in E. eexists. split; [exact E|]. cbn [l_pde l_total].
  destruct (pde_nonneg l _ Ml) as [N1 N2]. rewrite (pde_value l _ _ _ _ Ml) in N1, N2. auto.
Qed.
Lemma step_hard : forall loss d al bx bn g, equation loss d al bx bn g ->
  let pde := fold_right (fun c acc => cell_loss (fun _ => al) bx bn g c + acc) 0 cells in
  exists L, train_hard (model_of h dir sensor loss C) nn beta (Some d) = Ok L /\
    l_pde L = pde /\ l_total L = [pde] /\ 0 <= pde /\
    (pde = 0 <-> forall c r, (c < C)%nat -> (r < T)%nat -> cell_weak o cf f U G (fun _ => al) bx bn g (the_cell c) r = 0).
Proof.
  intros loss d al bx bn g He pde. destruct (call_forward loss d al bx bn g He) as (l & El & Ml).
  pose proof (hard_ok _ nn C T Q beta (Some d) (model_fit loss) U G Hn eq_refl) as E.
  cbn [model_of m_val m_gx m_gy m_x m_force m_loss] in E. unfold bparams in El. rewrite El in E. cbv zeta in E.
  rewrite (pde_value l _ _ _ _ Ml) in E. fold pde in E. eexists. split; [exact E|]. cbn [l_pde l_total].
  destruct (pde_nonneg l _ Ml) as [N1 N2]. rewrite (pde_value l _ _ _ _ Ml) in N1, N2. auto.
Qed.
Lemma step_inverse : forall d ip eps, has ip "eps" eps -> sensors_fit (model_of h dir sensor pde_loss_poisson_inverse C) ->
  let pde := fold_right (fun c acc => cell_loss (fun _ => eps) 0 0 0 c + acc) 0 cells in
  exists L, train_inverse (model_of h dir sensor pde_loss_poisson_inverse C) nn beta d (Some ip) = Ok L /\
    l_pde L = pde /\ l_total L = [pde + beta * misfit U (fst dir) (snd dir) + 10 * misfit U (fst sensor) (snd sensor)] /\ 0 <= pde /\
    (pde = 0 <-> forall c r, (c < C)%nat -> (r < T)%nat -> cell_weak o cf f U G (fun _ => eps) 0 0 0 (the_cell c) r = 0).
Proof.
  intros d ip eps He Hsen pde.
  destruct (poisson_inverse_spec _ _ _ _ _ _ _ _ _ _ tensors_fit d ip eps He) as (l & El & Ml).
  assert (Ml' : is_mean_sq l C T (fun c r => cell_weak o cf f U G (fun _ => eps) 0 0 0 (the_cell c) r)).
  { eapply is_mean_sq_ext; [exact Ml|]. intros c r Hc Hr. cbv beta. unfold the_cell. rewrite <- res_const by auto. ring. }
  pose proof (inverse_ok _ nn C T Q beta d (model_fit pde_loss_poisson_inverse) U G Hn (Some ip) Hsen eq_refl) as E.
  cbn [model_of m_val m_gx m_gy m_x m_force m_loss] in E. unfold bparams, iparams in El. rewrite <- app_assoc in E. cbn [app] in E, El.
  rewrite El in E. cbv zeta in E.
  rewrite (pde_value l _ _ _ _ Ml') in E. fold pde in E. eexists. split; [exact E|]. cbn [l_pde l_total].
  destruct (pde_nonneg l _ Ml') as [N1 N2]. rewrite (pde_value l _ _ _ _ Ml') in N1, N2. auto.
Qed.
End Weak.

Section WeakDomain.
Variables (o : quad_oracle R) (cf : config) (cells : list (cell R)) (bp : bdict R) (bf : bfun R) (plot : bool)
  (s : space R) (f : R -> R -> R) (h : handler R) (dir sensor : list (R * R) * mat R) (nn : network R) (beta : R).
Hypothesis Ho : oracle_ok o (Z.to_nat (cf_quad_order cf)).
Hypothesis Hs : make_space o cf cells bp bf plot = Ok s.
Hypothesis Hh : make_handler s f true = Ok h.
Hypothesis Hdir : get_dirichlet_input bp bf = Ok dir.
Hypothesis Hne : fst dir <> [].
Let k := Z.to_nat (cf_fe_order cf).
Variables (U a : point -> R) (G : point -> point).
Hypothesis Hn : pointwise2 nn U a G.
Lemma step_domain : forall d bx bn g, has d "b_x" bx -> has d "b_y" bn -> has d "c" g ->
  sensors_fit (model_of h dir sensor pde_loss_cd2d_inverse_domain (length cells)) ->
  let pde := fold_right (fun c acc => cell_loss o cf f U G a bx bn g c + acc) 0 cells in
  exists L, train_inverse_domain (model_of h dir sensor pde_loss_cd2d_inverse_domain (length cells)) nn beta (Some d) = Ok L /\
    l_pde L = pde /\ l_total L = [pde + beta * misfit U (fst dir) (snd dir) + 10 * misfit U (fst sensor) (snd sensor)] /\ 0 <= pde /\
    (pde = 0 <-> forall c r, (c < length cells)%nat -> (r < k * k)%nat -> cell_weak o cf f U G a bx bn g (the_cell cells c) r = 0).
Proof.
  intros d bx bn g H1 H2 H3 Hsen pde.
  pose proof (tensors_fit o cf cells bp bf plot s f h dir sensor Ho Hs Hh Hdir Hne U G) as F.
  destruct (domain_spec _ _ _ _ _ _ _ _ _ _ F d (at_points a (h_x h) (length cells) (Z.to_nat (cf_quad_order cf) * Z.to_nat (cf_quad_order cf))) bx bn g
    (mk_shape _ _ _) H1 H2 H3) as (l & El & Ml).
  assert (Ml' : is_mean_sq l (length cells) (k * k) (fun c r => cell_weak o cf f U G a bx bn g (the_cell cells c) r)).
  { eapply is_mean_sq_ext; [exact Ml|]. intros c r Hc Hr. cbv beta. unfold the_cell.
    rewrite <- (res_of o cf cells bp bf plot s f h Ho Hs Hh U G a bx bn g c r) by auto. ring. }
  pose proof (domain_ok _ nn (length cells) (k * k) _ beta (Some d)
    (model_fit o cf cells bp bf plot s f h dir sensor Ho Hs Hh Hdir Hne pde_loss_cd2d_inverse_domain) U a G Hn Hsen eq_refl) as E.
  cbn [model_of m_val m_gx m_gy m_x m_force m_loss] in E. unfold bparams, plist in El. cbn [app] in E, El.
  match type of E with context [call_kw ?x ?y] => replace (call_kw x y) with (Ok l : result (list R)) in E by (symmetry; exact El) end.
  cbv zeta in E. pose proof (pde_value o cf cells f U G l a bx bn g Ml') as V. rewrite V in E. fold pde in E.
  eexists. split; [exact E|]. cbn [l_pde l_total].
  destruct (pde_nonneg cf cells l _ Ml') as [N1 N2]. rewrite V in N1, N2. auto.
Qed.
End WeakDomain.

(* ---------- C54 ---------- *)
Section Zero.
Variables (o : quad_oracle R) (cf : config) (cells : list (cell R)) (bp : bdict R) (bf : bfun R) (plot : bool)
  (s : space R) (f : R -> R -> R) (h : handler R) (dir sensor : list (R * R) * mat R) (nn : network R) (beta : R).
Hypothesis Ho : oracle_ok o (Z.to_nat (cf_quad_order cf)).
Hypothesis Hs : make_space o cf cells bp bf plot = Ok s.
Hypothesis Hh : make_handler s f true = Ok h.
Hypothesis Hdir : get_dirichlet_input bp bf = Ok dir.
Hypothesis Hne : fst dir <> [].
Hypothesis Hb : 0 < beta.
Let k := Z.to_nat (cf_fe_order cf).
Variables (U : point -> R) (G : point -> point).
Lemma zero_boundary : misfit U (fst dir) (snd dir) = 0 <-> boundary_match bp bf U.
Proof. rewrite TrainFacts.misfit_zero by exact Hne. apply (boundary_rows cf cells bp bf dir Hdir U). Qed.
Lemma zero_standard : forall loss d al bx bn g, pointwise nn U G -> equation loss d al bx bn g ->
  exists L t, train_standard (model_of h dir sensor loss (length cells)) nn beta (Some d) = Ok L /\ l_total L = [t] /\ 0 <= t /\
    (t = 0 <-> weak_solution s (length cells) (k * k) (fun _ => al) bx bn g U G f /\ boundary_match bp bf U).
Proof.
  intros loss d al bx bn g Hn He.
  destruct (step_standard o cf cells bp bf plot s f h dir sensor nn beta Ho Hs Hh Hdir Hne U G Hn loss d al bx bn g He) as (L & E1 & _ & E2 & E3 & E4).
  exists L. eexists. split; [exact E1|]. split; [exact E2|].
  rewrite (weak_iff o cf cells bp bf plot s f Hs) in E4. fold k in E4. rewrite <- E4, <- zero_boundary.
  pose proof (misfit_nonneg U (fst dir) (snd dir)) as N. clear -N E3 Hb.
  set (A := fold_right _ _ _) in *. set (B := misfit _ _ _) in *. split; [nra|]. split; [|intros [-> ->]; ring].
  intros E. assert (0 <= beta * B) by nra. assert (A = 0) by lra. split; [auto|]. assert (beta * B = 0) by lra. apply Rmult_integral in H1. lra.
Qed.
Lemma zero_hard : forall loss d al bx bn g, pointwise nn U G -> equation loss d al bx bn g ->
  exists L t, train_hard (model_of h dir sensor loss (length cells)) nn beta (Some d) = Ok L /\ l_total L = [t] /\ 0 <= t /\
    (t = 0 <-> weak_solution s (length cells) (k * k) (fun _ => al) bx bn g U G f).
Proof.
  intros loss d al bx bn g Hn He.
  destruct (step_hard o cf cells bp bf plot s f h dir sensor nn beta Ho Hs Hh Hdir Hne U G Hn loss d al bx bn g He) as (L & E1 & _ & E2 & E3 & E4).
  exists L. eexists. split; [exact E1|]. split; [exact E2|]. split; [exact E3|].
  rewrite (weak_iff o cf cells bp bf plot s f Hs) in E4. exact E4.
Qed.
Lemma three_zero : forall A B S, 0 <= A -> 0 <= B -> 0 <= S ->
  0 <= A + beta * B + 10 * S /\ (A + beta * B + 10 * S = 0 <-> A = 0 /\ B = 0 /\ S = 0).
Proof.
  intros A B S HA HB HS. assert (0 <= beta * B) by nra. split; [lra|]. split; [|intros (-> & -> & ->); ring].
  intros E. split; [lra|]. split; [|lra]. assert (H1 : beta * B = 0) by lra. apply Rmult_integral in H1. lra.
Qed.
Lemma zero_inverse : forall d ip eps, let m := model_of h dir sensor pde_loss_poisson_inverse (length cells) in
  pointwise nn U G -> has ip "eps" eps -> sensors_fit m ->
  exists L t, train_inverse m nn beta d (Some ip) = Ok L /\ l_total L = [t] /\ 0 <= t /\
    (t = 0 <-> weak_solution s (length cells) (k * k) (fun _ => eps) 0 0 0 U G f /\ boundary_match bp bf U /\ data_match sensor U).
Proof.
  intros d ip eps m Hn He Hsen.
  destruct (step_inverse o cf cells bp bf plot s f h dir sensor nn beta Ho Hs Hh Hdir Hne U G Hn d ip eps He Hsen) as (L & E1 & _ & E2 & E3 & E4).
  exists L. eexists. split; [exact E1|]. split; [exact E2|].
  rewrite (weak_iff o cf cells bp bf plot s f Hs) in E4. fold k in E4. rewrite <- E4, <- zero_boundary.
  assert (D : misfit U (fst sensor) (snd sensor) = 0 <-> data_match sensor U) by (apply TrainFacts.misfit_zero; apply Hsen). rewrite <- D.
  apply three_zero; auto; apply misfit_nonneg.
Qed.
Lemma zero_domain : forall d (a : point -> R) bx bn g, let m := model_of h dir sensor pde_loss_cd2d_inverse_domain (length cells) in
  pointwise2 nn U a G -> has d "b_x" bx -> has d "b_y" bn -> has d "c" g -> sensors_fit m ->
  exists L t, train_inverse_domain m nn beta (Some d) = Ok L /\ l_total L = [t] /\ 0 <= t /\
    (t = 0 <-> weak_solution s (length cells) (k * k) a bx bn g U G f /\ boundary_match bp bf U /\ data_match sensor U).
Proof.
  intros d a bx bn g m Hn H1 H2 H3 Hsen.
  destruct (step_domain o cf cells bp bf plot s f h dir sensor nn beta Ho Hs Hh Hdir Hne U a G Hn d bx bn g H1 H2 H3 Hsen) as (L & E1 & _ & E2 & E3 & E4).
  exists L. eexists. split; [exact E1|]. split; [exact E2|].
  rewrite (weak_iff o cf cells bp bf plot s f Hs) in E4. fold k in E4. rewrite <- E4, <- zero_boundary.
  assert (D : misfit U (fst sensor) (snd sensor) = 0 <-> data_match sensor U) by (apply TrainFacts.misfit_zero; apply Hsen). rewrite <- D.
  apply three_zero; auto; apply misfit_nonneg.
Qed.
End Zero.

(* ---------- C55: the loss is a sum over cells ---------- *)
Lemma sum_perm : forall (A : Type) (w : A -> R) l l', Permutation l l' ->
  fold_right (fun c acc => w c + acc) 0 l = fold_right (fun c acc => w c + acc) 0 l'.
Proof. intros A w l l' H. induction H; cbn; lra. Qed.
Lemma sum_app : forall (A : Type) (w : A -> R) l l',
  fold_right (fun c acc => w c + acc) 0 (l ++ l') = fold_right (fun c acc => w c + acc) 0 l + fold_right (fun c acc => w c + acc) 0 l'.
Proof. intros A w l l'. induction l; cbn; lra. Qed.

Lemma local_loss : forall o cf f U G loss d al bx bn g, oracle_ok o (Z.to_nat (cf_quad_order cf)) -> equation loss d al bx bn g ->
  exists w : cell R -> R, (forall c, 0 <= w c) /\
  forall cells bp bf plot s h dir sensor nn beta, make_space o cf cells bp bf plot = Ok s -> make_handler s f true = Ok h ->
    get_dirichlet_input bp bf = Ok dir -> fst dir <> [] -> pointwise nn U G ->
    let m := model_of h dir sensor loss (length cells) in
    (exists L, train_standard m nn beta (Some d) = Ok L /\ l_pde L = fold_right (fun c acc => w c + acc) 0 cells) /\
    (exists L, train_hard m nn beta (Some d) = Ok L /\ l_pde L = fold_right (fun c acc => w c + acc) 0 cells).
Proof.
  intros o cf f U G loss d al bx bn g Ho He. exists (cell_loss o cf f U G (fun _ => al) bx bn g). split.
  - intros c. apply (mean_sq_nonneg _ (fun r => cell_weak o cf f U G (fun _ => al) bx bn g c r)).
  - intros cells bp bf plot s h dir sensor nn beta Hs Hh Hdir Hne Hn m. split.
    + destruct (step_standard o cf cells bp bf plot s f h dir sensor nn beta Ho Hs Hh Hdir Hne U G Hn loss d al bx bn g He) as (L & E1 & E2 & _). eauto.
    + destruct (step_hard o cf cells bp bf plot s f h dir sensor nn beta Ho Hs Hh Hdir Hne U G Hn loss d al bx bn g He) as (L & E1 & E2 & _). eauto.
Qed.
Lemma order_loss : forall o cf f U G loss d al bx bn g cells cells' bp bf plot s s' h h' dir sensor nn beta,
  oracle_ok o (Z.to_nat (cf_quad_order cf)) -> equation loss d al bx bn g -> Permutation cells cells' ->
  make_space o cf cells bp bf plot = Ok s -> make_space o cf cells' bp bf plot = Ok s' ->
  make_handler s f true = Ok h -> make_handler s' f true = Ok h' ->
  get_dirichlet_input bp bf = Ok dir -> fst dir <> [] -> pointwise nn U G ->
  exists L L', train_standard (model_of h dir sensor loss (length cells)) nn beta (Some d) = Ok L /\
    train_standard (model_of h' dir sensor loss (length cells')) nn beta (Some d) = Ok L' /\
    l_pde L' = l_pde L /\ l_total L' = l_total L.
Proof.
  intros o cf f U G loss d al bx bn g cells cells' bp bf plot s s' h h' dir sensor nn beta Ho He Hp Hs Hs' Hh Hh' Hdir Hne Hn.
  destruct (step_standard o cf cells bp bf plot s f h dir sensor nn beta Ho Hs Hh Hdir Hne U G Hn loss d al bx bn g He) as (L & E1 & E2 & E3 & _).
  destruct (step_standard o cf cells' bp bf plot s' f h' dir sensor nn beta Ho Hs' Hh' Hdir Hne U G Hn loss d al bx bn g He) as (L' & E1' & E2' & E3' & _).
  exists L, L'. split; [exact E1|]. split; [exact E1'|]. rewrite E2, E3, E2', E3'.
  rewrite (sum_perm _ (cell_loss o cf f U G (fun _ => al) bx bn g) _ _ Hp). auto.
Qed.
Lemma parts_loss : forall o cf f U G loss d al bx bn g cells cells' bp bf plot s1 s2 s h1 h2 h dir sensor nn beta,
  oracle_ok o (Z.to_nat (cf_quad_order cf)) -> equation loss d al bx bn g ->
  make_space o cf cells bp bf plot = Ok s1 -> make_space o cf cells' bp bf plot = Ok s2 -> make_space o cf (cells ++ cells') bp bf plot = Ok s ->
  make_handler s1 f true = Ok h1 -> make_handler s2 f true = Ok h2 -> make_handler s f true = Ok h ->
  get_dirichlet_input bp bf = Ok dir -> fst dir <> [] -> pointwise nn U G ->
  exists L1 L2 L, train_hard (model_of h1 dir sensor loss (length cells)) nn beta (Some d) = Ok L1 /\
    train_hard (model_of h2 dir sensor loss (length cells')) nn beta (Some d) = Ok L2 /\
    train_hard (model_of h dir sensor loss (length (cells ++ cells'))) nn beta (Some d) = Ok L /\ l_pde L = l_pde L1 + l_pde L2.
Proof.
  intros o cf f U G loss d al bx bn g cells cells' bp bf plot s1 s2 s h1 h2 h dir sensor nn beta Ho He Hs1 Hs2 Hs Hh1 Hh2 Hh Hdir Hne Hn.
  destruct (step_hard o cf cells bp bf plot s1 f h1 dir sensor nn beta Ho Hs1 Hh1 Hdir Hne U G Hn loss d al bx bn g He) as (L1 & A1 & A2 & _).
  destruct (step_hard o cf cells' bp bf plot s2 f h2 dir sensor nn beta Ho Hs2 Hh2 Hdir Hne U G Hn loss d al bx bn g He) as (L2 & B1 & B2 & _).
  destruct (step_hard o cf (cells ++ cells') bp bf plot s f h dir sensor nn beta Ho Hs Hh Hdir Hne U G Hn loss d al bx bn g He) as (L & C1 & C2 & _).
  exists L1, L2, L. do 3 (split; [assumption|]). rewrite A2, B2, C2. apply sum_app.
Qed.
