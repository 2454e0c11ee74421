(* Properties C30-C32, C34, C35: tensor assembly, loss functions, training step. *)
From Coq Require Import String ZArith List Arith Lia Reals Lra.
From Verif Require Import Num Py Jacobi Quadrature Basis Transform Cell Space Tensor Data Physics Train
  Spec SpecGeom TransformFacts TransformFacts2 TensorFacts SpecTrain PhysicsFacts DataFacts TrainFacts PipelineFacts.
Import ListNotations.
Local Open Scope R_scope.

(* C30: what the data handler stores ... *)
Theorem C30_handler : forall o cf cells bp bf plot s, lengths_ok o (Z.to_nat (cf_quad_order cf)) ->
  make_space o cf cells bp bf plot = Ok s ->
  let C := length cells in let T := (Z.to_nat (cf_fe_order cf) * Z.to_nat (cf_fe_order cf))%nat in
  let Q := (Z.to_nat (cf_quad_order cf) * Z.to_nat (cf_quad_order cf))%nat in
  forall f, exists h, make_handler s f true = Ok h /\
  shape3 (h_val h) C T Q /\ shape3 (h_gx h) C T Q /\ shape3 (h_gy h) C T Q /\
  length (h_x h) = (C * Q)%nat /\ has_shape (h_force h) T C /\
  forall c, (c < C)%nat -> let i := Z.of_nat c in
    get_shape_function_val s i = Ok (nth c (h_val h) []) /\
    get_shape_function_grad_x s i = Ok (nth c (h_gx h) []) /\
    get_shape_function_grad_y s i = Ok (nth c (h_gy h) []) /\
    (exists pts, get_quadrature_actual_coordinates s i = Ok pts /\ length pts = Q /\
       forall q, (q < Q)%nat -> nth (c * Q + q) (h_x h) (0, 0) = nth q pts (0, 0)) /\
    (exists m, get_forcing_function_values s f i = Ok m /\ has_shape m T 1 /\
       forall r, (r < T)%nat -> entry (h_force h) r c = entry m r 0).
Proof. exact handler_spec. Qed.
Theorem C30_dtype : forall (s : space R) f, make_handler s f false = Err TypeError.
Proof. reflexivity. Qed.
Print Assumptions C30_dtype.
(* ... the models built from it are consistent, and entry (c, q) of every table handed to
   the loss (see C35) is the network at quadrature point q of cell c. *)
Theorem C30_pairing : forall o cf cells bp bf plot s f h dir sensor loss nc,
  lengths_ok o (Z.to_nat (cf_quad_order cf)) -> make_space o cf cells bp bf plot = Ok s ->
  make_handler s f true = Ok h -> get_dirichlet_input bp bf = Ok dir ->
  let C := length cells in let T := (Z.to_nat (cf_fe_order cf) * Z.to_nat (cf_fe_order cf))%nat in
  let Q := (Z.to_nat (cf_quad_order cf) * Z.to_nat (cf_quad_order cf))%nat in
  (fst dir <> [] -> model_fits (model_of h dir sensor loss nc) C T Q) /\
  forall U c q, (c < C)%nat -> (q < Q)%nat ->
    exists pts, get_quadrature_actual_coordinates s (Z.of_nat c) = Ok pts /\
      entry (at_points U (h_x h) C Q) c q = U (nth q pts (0, 0)).
Proof.
  exact (fun o cf cells bp bf plot s f h dir sensor loss nc Ho Hs Hh Hd =>
    conj (pipeline_fits o cf cells bp bf plot s f h dir sensor loss nc Ho Hs Hh Hd)
         (pipeline_points o cf cells bp bf plot s f h Ho Hs Hh)).
Qed.
(* The Dirichlet data: a column of the same length as the points. *)
Theorem C30_dirichlet : forall (bp : bdict R) (bf : bfun R) dir, get_dirichlet_input bp bf = Ok dir ->
  has_shape (snd dir) (length (fst dir)) 1 /\ dirichlet_data bp bf = Ok (fst dir, map (fun r => nth 0 r 0) (snd dir)).
Proof. exact dirichlet_input_shape. Qed.
(* A wrong params_dict["n_cells"] is refused, it never mixes cells. *)
Theorem C30_params : forall V W (conv : V -> W) (d : list (string * V)),
  map fst (params_as_tensors conv d) = map fst d /\ map snd (params_as_tensors conv d) = map conv (map snd d) /\
  forall k, dget String.eqb (params_as_tensors conv d) k = match dget String.eqb d k with Ok v => Ok (conv v) | Err e => Err e end.
Proof. exact (@params_keep). Qed.
Theorem C30_wrong_cells : forall m nn C T Q beta bp, model_fits m C T Q -> m_cells m <> C ->
  (forall U G, pointwise nn U G ->
    train_standard m nn beta bp = Err InvalidArgumentError /\ train_hard m nn beta bp = Err InvalidArgumentError /\
    (forall ip, train_inverse m nn beta bp ip = Err InvalidArgumentError)) /\
  (forall U E G, pointwise2 nn U E G -> train_inverse_domain m nn beta bp = Err InvalidArgumentError).
Proof.
  exact (fun m nn C T Q beta bp Hm Hc => conj (fun U G Hn => wrong_cells m nn C T Q beta bp Hm U G Hn Hc)
    (fun U E G Hn => wrong_cells2 m nn C T Q beta bp Hm U E G Hn Hc)).
Qed.

(* C31 *)
Theorem C31_poisson : forall V Gx Gy u ux uy F C T Q, fits V Gx Gy u ux uy F C T Q ->
  let I t v c r := Sum (fun q => entry3 t c r q * entry v c q) Q in
  forall d eps, has d "eps" eps -> exists l,
  call_kw pde_loss_poisson (args V Gx Gy u ux uy F ++ bparams (Some d)) = Ok l /\
  is_mean_sq l C T (fun c r => eps * (I Gx ux c r + I Gy uy c r) - entry F r c).
Proof. exact poisson_spec. Qed.
Theorem C31_poisson_inverse : forall V Gx Gy u ux uy F C T Q, fits V Gx Gy u ux uy F C T Q ->
  let I t v c r := Sum (fun q => entry3 t c r q * entry v c q) Q in
  forall d ip eps, has ip "eps" eps -> exists l,
  call_kw pde_loss_poisson_inverse (args V Gx Gy u ux uy F ++ bparams d ++ iparams (Some ip)) = Ok l /\
  is_mean_sq l C T (fun c r => eps * (I Gx ux c r + I Gy uy c r) - entry F r c).
Proof. exact poisson_inverse_spec. Qed.
Theorem C31_cd2d : forall V Gx Gy u ux uy F C T Q, fits V Gx Gy u ux uy F C T Q ->
  let I t v c r := Sum (fun q => entry3 t c r q * entry v c q) Q in
  forall d eps b_x b_y k, has d "eps" eps -> has d "b_x" b_x -> has d "b_y" b_y -> has d "c" k -> exists l,
  call_kw pde_loss_cd2d (args V Gx Gy u ux uy F ++ bparams (Some d)) = Ok l /\
  is_mean_sq l C T (fun c r => eps * (I Gx ux c r + I Gy uy c r) + (b_x * I V ux c r + b_y * I V uy c r) + k * I V u c r - entry F r c).
Proof. exact cd2d_spec. Qed.
Theorem C31_cd2d_inverse : forall V Gx Gy u ux uy F C T Q, fits V Gx Gy u ux uy F C T Q ->
  let I t v c r := Sum (fun q => entry3 t c r q * entry v c q) Q in
  forall d ip eps b_x b_y k, has ip "eps" eps -> has d "b_x" b_x -> has d "b_y" b_y -> has d "c" k -> exists l,
  call_kw pde_loss_cd2d_inverse (args V Gx Gy u ux uy F ++
    [("bilinear_params_dict"%string, VDict (Some d)); ("inverse_param_dict"%string, VDict (Some ip))]) = Ok l /\
  is_mean_sq l C T (fun c r => eps * (I Gx ux c r + I Gy uy c r) + (b_x * I V ux c r + b_y * I V uy c r) + k * I V u c r - entry F r c).
Proof. exact cd2d_inverse_spec. Qed.
Theorem C31_cd2d_inverse_domain : forall V Gx Gy u ux uy F C T Q, fits V Gx Gy u ux uy F C T Q ->
  let I t v c r := Sum (fun q => entry3 t c r q * entry v c q) Q in
  forall d e b_x b_y k, has_shape e C Q -> has d "b_x" b_x -> has d "b_y" b_y -> has d "c" k -> exists l,
  call_kw pde_loss_cd2d_inverse_domain (args V Gx Gy u ux uy F ++ bparams (Some d) ++ plist [e]) = Ok l /\
  is_mean_sq l C T (fun c r =>
    Sum (fun q => entry3 Gx c r q * (entry ux c q * entry e c q)) Q + Sum (fun q => entry3 Gy c r q * (entry uy c q * entry e c q)) Q
    + (b_x * I V ux c r + b_y * I V uy c r) + k * I V u c r - entry F r c).
Proof. exact domain_spec. Qed.
Theorem C31_helmholtz : forall V Gx Gy u ux uy F C T Q, fits V Gx Gy u ux uy F C T Q ->
  let I t v c r := Sum (fun q => entry3 t c r q * entry v c q) Q in
  forall d eps k, has d "eps" eps -> has d "k" k -> exists l,
  call_kw pde_loss_helmholtz (args V Gx Gy u ux uy F ++ bparams (Some d)) = Ok l /\
  is_mean_sq l C T (fun c r => - (eps * (I Gx ux c r + I Gy uy c r)) + k ^ 2 * I V u c r - entry F r c).
Proof. exact helmholtz_spec. Qed.
Theorem C31_missing : forall V Gx Gy u ux uy F C T Q, fits V Gx Gy u ux uy F C T Q -> forall d,
  (lacks d "eps" -> call_kw pde_loss_poisson (args V Gx Gy u ux uy F ++ bparams (Some d)) = Err KeyError /\
     call_kw pde_loss_cd2d (args V Gx Gy u ux uy F ++ bparams (Some d)) = Err KeyError /\
     call_kw pde_loss_helmholtz (args V Gx Gy u ux uy F ++ bparams (Some d)) = Err KeyError) /\
  (forall eps, has d "eps" eps -> lacks d "b_x" \/ lacks d "b_y" \/ lacks d "c" ->
     call_kw pde_loss_cd2d (args V Gx Gy u ux uy F ++ bparams (Some d)) = Err KeyError) /\
  (forall eps, has d "eps" eps -> lacks d "k" ->
     call_kw pde_loss_helmholtz (args V Gx Gy u ux uy F ++ bparams (Some d)) = Err KeyError) /\
  (call_kw pde_loss_poisson (args V Gx Gy u ux uy F ++ bparams None) = Err TypeError /\
   call_kw pde_loss_cd2d (args V Gx Gy u ux uy F ++ bparams None) = Err TypeError /\
   call_kw pde_loss_helmholtz (args V Gx Gy u ux uy F ++ bparams None) = Err TypeError).
Proof. exact missing_param. Qed.

(* C32 *)
Theorem C32_zero_coefficients : forall V Gx Gy u ux uy F C T Q, fits V Gx Gy u ux uy F C T Q ->
  forall d dp eps, has d "eps" eps -> has d "b_x" 0 -> has d "b_y" 0 -> has d "c" 0 -> has dp "eps" eps ->
  call_kw pde_loss_cd2d (args V Gx Gy u ux uy F ++ bparams (Some d)) =
  call_kw pde_loss_poisson (args V Gx Gy u ux uy F ++ bparams (Some dp)).
Proof. exact consistency_zero. Qed.
Theorem C32_inverse_poisson : forall V Gx Gy u ux uy F C T Q, fits V Gx Gy u ux uy F C T Q ->
  forall d ip bp eps, has d "eps" eps -> has ip "eps" eps ->
  call_kw pde_loss_poisson_inverse (args V Gx Gy u ux uy F ++ bparams bp ++ iparams (Some ip)) =
  call_kw pde_loss_poisson (args V Gx Gy u ux uy F ++ bparams (Some d)).
Proof. exact consistency_inverse. Qed.
Theorem C32_inverse_cd2d : forall V Gx Gy u ux uy F C T Q, fits V Gx Gy u ux uy F C T Q ->
  forall d dp ip eps b_x b_y k, has d "eps" eps -> has d "b_x" b_x -> has d "b_y" b_y -> has d "c" k ->
  has ip "eps" eps -> has dp "b_x" b_x -> has dp "b_y" b_y -> has dp "c" k ->
  call_kw pde_loss_cd2d_inverse (args V Gx Gy u ux uy F ++
    [("bilinear_params_dict"%string, VDict (Some dp)); ("inverse_param_dict"%string, VDict (Some ip))]) =
  call_kw pde_loss_cd2d (args V Gx Gy u ux uy F ++ bparams (Some d)).
Proof. exact consistency_cd_inverse. Qed.
Theorem C32_domain : forall V Gx Gy u ux uy F C T Q, fits V Gx Gy u ux uy F C T Q ->
  forall d dp e eps b_x b_y k, has d "eps" eps -> has d "b_x" b_x -> has d "b_y" b_y -> has d "c" k ->
  has dp "b_x" b_x -> has dp "b_y" b_y -> has dp "c" k ->
  has_shape e C Q -> (forall c q, (c < C)%nat -> (q < Q)%nat -> entry e c q = eps) ->
  call_kw pde_loss_cd2d_inverse_domain (args V Gx Gy u ux uy F ++ bparams (Some dp) ++ plist [e]) =
  call_kw pde_loss_cd2d (args V Gx Gy u ux uy F ++ bparams (Some d)).
Proof. exact consistency_domain. Qed.
Theorem C32_helmholtz : forall V Gx Gy u ux uy F C T Q, fits V Gx Gy u ux uy F C T Q ->
  forall d dh F' eps k, has dh "eps" eps -> has dh "k" k ->
  has d "eps" eps -> has d "b_x" 0 -> has d "b_y" 0 -> has d "c" (- k ^ 2) ->
  has_shape F' T C -> (forall r c, (r < T)%nat -> (c < C)%nat -> entry F' r c = - entry F r c) ->
  call_kw pde_loss_helmholtz (args V Gx Gy u ux uy F ++ bparams (Some dh)) =
  call_kw pde_loss_cd2d (args V Gx Gy u ux uy F' ++ bparams (Some d)).
Proof. exact consistency_helmholtz. Qed.

(* C34: matching pairs run ... *)
Theorem C34_forward : forall m nn C T Q beta, model_fits m C T Q -> m_cells m = C ->
  forall U G d eps b_x b_y c k, pointwise nn U G ->
  has d "eps" eps -> has d "b_x" b_x -> has d "b_y" b_y -> has d "c" c -> has d "k" k ->
  In (m_loss m) [pde_loss_poisson; pde_loss_cd2d; pde_loss_helmholtz] ->
  (exists L, train_standard m nn beta (Some d) = Ok L) /\ (exists L, train_hard m nn beta (Some d) = Ok L).
Proof. exact forward_accepted. Qed.
Theorem C34_inverse : forall m nn C T Q beta, model_fits m C T Q -> m_cells m = C ->
  forall U G bp ip eps, pointwise nn U G -> sensors_fit m -> has ip "eps" eps -> m_loss m = pde_loss_poisson_inverse ->
  exists L, train_inverse m nn beta bp (Some ip) = Ok L.
Proof. exact inverse_accepted. Qed.
Theorem C34_domain : forall m nn C T Q beta, model_fits m C T Q -> m_cells m = C ->
  forall U E G d b_x b_y c, pointwise2 nn U E G -> sensors_fit m ->
  has d "b_x" b_x -> has d "b_y" b_y -> has d "c" c -> m_loss m = pde_loss_cd2d_inverse_domain ->
  exists L, train_inverse_domain m nn beta (Some d) = Ok L.
Proof. exact domain_accepted. Qed.
(* ... but the convection-diffusion loss for a constant unknown coefficient cannot be
   used by any model: the inverse model's call always fails. *)
Theorem C34_cd2d_inverse_refuted :
  (forall (m : model R) nn beta bp ip L, m_loss m = pde_loss_cd2d_inverse -> train_inverse m nn beta bp ip <> Ok L) /\
  (forall m nn C T Q U G beta bp ip, model_fits m C T Q -> pointwise nn U G -> sensors_fit m ->
     m_cells m = C -> m_loss m = pde_loss_cd2d_inverse -> train_inverse m nn beta bp ip = Err TypeError).
Proof. exact (conj cd2d_inverse_uncallable cd2d_inverse_type_error). Qed.
Theorem C34_mismatch : forall (m : model R) nn beta bp L,
  (In (m_loss m) [pde_loss_poisson_inverse; pde_loss_cd2d_inverse; pde_loss_cd2d_inverse_domain] ->
     train_standard m nn beta bp <> Ok L /\ train_hard m nn beta bp <> Ok L) /\
  (In (m_loss m) [pde_loss_poisson; pde_loss_cd2d; pde_loss_helmholtz; pde_loss_cd2d_inverse; pde_loss_cd2d_inverse_domain] ->
     forall ip, train_inverse m nn beta bp ip <> Ok L) /\
  (In (m_loss m) [pde_loss_poisson; pde_loss_cd2d; pde_loss_helmholtz; pde_loss_poisson_inverse; pde_loss_cd2d_inverse] ->
     train_inverse_domain m nn beta bp <> Ok L).
Proof. exact wrong_pairing. Qed.
Theorem C34_mismatch_type : forall m nn C T Q beta bp, model_fits m C T Q -> m_cells m = C ->
  (forall U G, pointwise nn U G -> In (m_loss m) [pde_loss_poisson_inverse; pde_loss_cd2d_inverse; pde_loss_cd2d_inverse_domain] ->
     train_standard m nn beta bp = Err TypeError /\ train_hard m nn beta bp = Err TypeError) /\
  (forall U G ip, pointwise nn U G -> sensors_fit m ->
     In (m_loss m) [pde_loss_poisson; pde_loss_cd2d; pde_loss_helmholtz; pde_loss_cd2d_inverse; pde_loss_cd2d_inverse_domain] ->
     train_inverse m nn beta bp ip = Err TypeError) /\
  (forall U E G, pointwise2 nn U E G -> sensors_fit m ->
     In (m_loss m) [pde_loss_poisson; pde_loss_cd2d; pde_loss_helmholtz; pde_loss_poisson_inverse; pde_loss_cd2d_inverse] ->
     train_inverse_domain m nn beta bp = Err TypeError).
Proof. exact wrong_pairing_type. Qed.

(* C35 *)
Theorem C35_standard : forall m nn C T Q beta bp, model_fits m C T Q -> forall U G, pointwise nn U G ->
  m_cells m = C -> train_standard m nn beta bp =
  match call_kw (m_loss m) (args (m_val m) (m_gx m) (m_gy m) (at_points U (m_x m) C Q)
          (at_points (fun p => fst (G p)) (m_x m) C Q) (at_points (fun p => snd (G p)) (m_x m) C Q) (m_force m)
          ++ bparams bp) with
  | Err e => Err e
  | Ok cells => let pde := Sum (fun c => nth c cells 0) (length cells) in
      let bd := misfit U (m_dir_in m) (m_dir_act m) in
      Ok {| l_pde := pde; l_dirichlet := [bd]; l_sensor := []; l_total := [pde + beta * bd] |}
  end.
Proof. exact standard_ok. Qed.
(* independent of beta and of the boundary data, which do not occur on the right *)
Theorem C35_hard : forall m nn C T Q beta bp, model_fits m C T Q -> forall U G, pointwise nn U G ->
  m_cells m = C -> train_hard m nn beta bp =
  match call_kw (m_loss m) (args (m_val m) (m_gx m) (m_gy m) (at_points U (m_x m) C Q)
          (at_points (fun p => fst (G p)) (m_x m) C Q) (at_points (fun p => snd (G p)) (m_x m) C Q) (m_force m)
          ++ bparams bp) with
  | Err e => Err e
  | Ok cells => let pde := Sum (fun c => nth c cells 0) (length cells) in
      Ok {| l_pde := pde; l_dirichlet := [0]; l_sensor := []; l_total := [pde] |}
  end.
Proof. exact hard_ok. Qed.
Theorem C35_inverse : forall m nn C T Q beta bp, model_fits m C T Q -> forall U G, pointwise nn U G ->
  forall ip, sensors_fit m -> m_cells m = C -> train_inverse m nn beta bp ip =
  match call_kw (m_loss m) ((args (m_val m) (m_gx m) (m_gy m) (at_points U (m_x m) C Q)
          (at_points (fun p => fst (G p)) (m_x m) C Q) (at_points (fun p => snd (G p)) (m_x m) C Q) (m_force m)
          ++ bparams bp) ++ iparams ip) with
  | Err e => Err e
  | Ok cells => let pde := Sum (fun c => nth c cells 0) (length cells) in
      let bd := misfit U (m_dir_in m) (m_dir_act m) in
      let sd := misfit U (m_sensor_in m) (m_sensor_act m) in
      Ok {| l_pde := pde; l_dirichlet := [bd]; l_sensor := [sd]; l_total := [pde + beta * bd + 10 * sd] |}
  end.
Proof. exact inverse_ok. Qed.
Theorem C35_domain : forall m nn C T Q beta bp, model_fits m C T Q -> forall U E G, pointwise2 nn U E G ->
  sensors_fit m -> m_cells m = C -> train_inverse_domain m nn beta bp =
  match call_kw (m_loss m) (args (m_val m) (m_gx m) (m_gy m) (at_points U (m_x m) C Q)
          (at_points (fun p => fst (G p)) (m_x m) C Q) (at_points (fun p => snd (G p)) (m_x m) C Q) (m_force m)
          ++ bparams bp ++ plist [at_points E (m_x m) C Q]) with
  | Err e => Err e
  | Ok cells => let pde := Sum (fun c => nth c cells 0) (length cells) in
      let bd := misfit U (m_dir_in m) (m_dir_act m) in
      let sd := misfit U (m_sensor_in m) (m_sensor_act m) in
      Ok {| l_pde := pde; l_dirichlet := [bd]; l_sensor := [sd]; l_total := [pde + beta * bd + 10 * sd] |}
  end.
Proof. exact domain_ok. Qed.
(* Signs, for any tensors at all *)
Theorem C35_nonneg : forall (m : model R) nn beta bp L,
  In (m_loss m) [pde_loss_poisson; pde_loss_cd2d; pde_loss_helmholtz; pde_loss_poisson_inverse; pde_loss_cd2d_inverse;
                 pde_loss_cd2d_inverse_domain] -> 0 <= beta ->
  let good := 0 <= l_pde L /\ (forall x, In x (l_dirichlet L) -> 0 <= x) /\ (forall x, In x (l_sensor L) -> 0 <= x) /\
              (forall x, In x (l_total L) -> l_pde L <= x) in
  (train_standard m nn beta bp = Ok L -> good) /\ (train_hard m nn beta bp = Ok L -> good) /\
  (forall ip, train_inverse m nn beta bp ip = Ok L -> good) /\ (train_inverse_domain m nn beta bp = Ok L -> good).
Proof. exact step_nonneg. Qed.
(* Zero total loss means every part is zero. *)
Theorem C35_zero : forall U pts vals spts svals beta cells, 0 < beta -> pts <> [] -> spts <> [] ->
  (forall c, (c < length cells)%nat -> 0 <= nth c cells 0) ->
  let pde := Sum (fun c => nth c cells 0) (length cells) in
  let bd := misfit U pts vals in let sd := misfit U spts svals in
  let fits_bd := forall i, (i < length pts)%nat -> U (nth i pts (0, 0)) = entry vals i 0 in
  let fits_sd := forall i, (i < length spts)%nat -> U (nth i spts (0, 0)) = entry svals i 0 in
  let solved := forall c, (c < length cells)%nat -> nth c cells 0 = 0 in
  (pde + beta * bd = 0 <-> solved /\ fits_bd) /\ (pde + beta * bd + 10 * sd = 0 <-> solved /\ fits_bd /\ fits_sd) /\
  (pde = 0 <-> solved).
Proof. exact zero_total. Qed.

(* ---------- the hypotheses are satisfiable ---------- *)
(* a two-cell mesh (a square and a kite), bilinear maps, order 4, 5 x 5 points *)
Example C30_example : forall loss, exists o s h dir,
  oracle_ok o (Z.to_nat (cf_quad_order (kite_cf "bilinear"))) /\
  make_space o (kite_cf "bilinear") [unit_square; kite] [(7%Z, [(0, 0); (1, 0)])] [(7%Z, fun x y => x + y)] false = Ok s /\
  make_handler s (fun x y => x * y) true = Ok h /\
  get_dirichlet_input [(7%Z, [(0, 0); (1, 0)])] [(7%Z, fun x y => x + y)] = Ok dir /\ fst dir = [(0, 0); (1, 0)] /\
  model_fits (model_of h dir dir loss 2) 2 16 25 /\ sensors_fit (model_of h dir dir loss 2).
Proof. exact ex_pipeline. Qed.
Example C35_example : forall a b c e,
  pointwise (ex_net a b c) (fun p => a * fst p + b * snd p + c) (fun _ => (a, b)) /\
  pointwise2 (ex_net2 a b c e) (fun p => a * fst p + b * snd p + c) (fun _ => e) (fun _ => (a, b)).
Proof. exact (fun a b c e => conj (ex_net_pointwise a b c) (ex_net2_pointwise a b c e)). Qed.
Example C31_example : fits ex_V ex_V ex_V ex_u ex_u ex_u ex_F 2 1 2 /\
  has [("eps"%string, 1); ("b_x"%string, 0)] "eps" 1 /\ lacks [("eps"%string, 1)] "b_x".
Proof. refine (conj ex_fits (conj eq_refl _)). intros [H | []]. discriminate H. Qed.
(* the values on that data: eps = 2: (2 * (1 + 1) - 1)^2 = 9 and (2 * (4 + 4) - 2)^2 = 196 *)
Example C31_value : exists l,
  call_kw pde_loss_poisson (args ex_V ex_V ex_V ex_u ex_u ex_u ex_F ++ bparams (Some [("eps"%string, 2)])) = Ok l /\
  nth 0 l 0 = 9 /\ nth 1 l 0 = 196.
Proof. exact ex_value. Qed.

Print Assumptions C30_handler.
Print Assumptions C30_pairing.
Print Assumptions C30_dirichlet.
Print Assumptions C30_params.
Print Assumptions C30_wrong_cells.
Print Assumptions C31_poisson.
Print Assumptions C31_poisson_inverse.
Print Assumptions C31_cd2d.
Print Assumptions C31_cd2d_inverse.
Print Assumptions C31_cd2d_inverse_domain.
Print Assumptions C31_helmholtz.
Print Assumptions C31_missing.
Print Assumptions C32_zero_coefficients.
Print Assumptions C32_inverse_poisson.
Print Assumptions C32_inverse_cd2d.
Print Assumptions C32_domain.
Print Assumptions C32_helmholtz.
Print Assumptions C34_forward.
Print Assumptions C34_inverse.
Print Assumptions C34_domain.
Print Assumptions C34_cd2d_inverse_refuted.
Print Assumptions C34_mismatch.
Print Assumptions C34_mismatch_type.
Print Assumptions C35_standard.
Print Assumptions C35_hard.
Print Assumptions C35_inverse.
Print Assumptions C35_domain.
Print Assumptions C35_nonneg.
Print Assumptions C35_zero.
