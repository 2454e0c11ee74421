(* Properties C25-C29, C42, C43: the finite element space object. *)
From Coq Require Import String ZArith List Arith Lia Reals Lra.
From Coquelicot Require Import Coquelicot.
From Verif Require Import Num Py Jacobi Quadrature Basis Transform Cell Space Tensor Data Heap Spec SpecGeom
  TransformFacts CellFacts2 SpaceFacts TransformFacts2 SensorFacts HeapFacts ForcingFacts.
Import ListNotations.
Local Open Scope R_scope.

(* C25 *)
Theorem C25_validation : forall o cf cells bp bf plot, lengths_ok o (Z.to_nat (cf_quad_order cf)) ->
  (exists s, make_space o cf cells bp bf plot = Ok s) <->
  (cells <> [] /\ (forall c, In c cells -> accepted cf c) /\
   (forall tag pts, In (tag, pts) bp -> pts <> [] -> In tag (map fst bf)) /\
   (plot = true -> (forall tag pts, In (tag, pts) bp -> pts <> []) /\ (length bp <= 15)%nat)).
Proof. exact space_iff. Qed.
Theorem C25_errors : forall o cf cells bp bf plot e, lengths_ok o (Z.to_nat (cf_quad_order cf)) ->
  make_space o cf cells bp bf plot = Err e ->
  e = ValueError \/
  (e = LinAlgError /\ cf_trafo cf = "affine"%string /\ exists c, In c cells /\ cross (v0 c) (v1 c) (v3 c) = 0) \/
  (e = IndexError /\ (cells = [] \/ plot = true)) \/
  (e = KeyError /\ exists tag pts, In (tag, pts) bp /\ ~ In tag (map fst bf)).
Proof. exact space_errors. Qed.

(* C26: range check ... *)
Theorem C26_range : forall (s : space R) i,
  ((i < 0 \/ Z.of_nat (length (sp_cells s)) <= i)%Z ->
     get_shape_function_val s i = Err ValueError /\ get_shape_function_grad_x s i = Err ValueError /\
     get_shape_function_grad_y s i = Err ValueError /\ get_shape_function_grad_x_ref s i = Err ValueError /\
     get_shape_function_grad_y_ref s i = Err ValueError /\ get_quadrature_actual_coordinates s i = Err ValueError /\
     get_quadrature_weights s i = Err ValueError /\
     (forall f, get_forcing_function_values s f i = Err ValueError) /\
     (forall f k, get_forcing_function_values_vector s f i k = Err ValueError)) /\
  ((0 <= i < Z.of_nat (length (sp_cells s)))%Z ->
     exists d, nth_error (sp_cells s) (Z.to_nat i) = Some d /\
     get_shape_function_val s i = Ok (cd_val d) /\ get_shape_function_grad_x s i = Ok (cd_gradx d) /\
     get_shape_function_grad_y s i = Ok (cd_grady d) /\ get_shape_function_grad_x_ref s i = Ok (cd_gradx_ref d) /\
     get_shape_function_grad_y_ref s i = Ok (cd_grady_ref d) /\ get_quadrature_actual_coordinates s i = Ok (cd_actual d) /\
     get_quadrature_weights s i = Ok (cd_mult d)).
Proof. exact getters_range. Qed.
(* ... and isolation: after any history of getter and forcing calls and of overwriting
   received arrays, every query still returns the value computed from the space alone. *)
Theorem C26_isolation : forall s f fv (h : list (op R)) (o : op R),
  (forall k v, o <> OWrite k v) ->
  observe (run (load s f (pure_fv fv)) h) o =
  match o with
  | OGet AtVal i => do m <- get_shape_function_val s i; Ok (AMat m)
  | OGet AtGradX i => do m <- get_shape_function_grad_x s i; Ok (AMat m)
  | OGet AtGradXRef i => do m <- get_shape_function_grad_x_ref s i; Ok (AMat m)
  | OGet AtGradY i => do m <- get_shape_function_grad_y s i; Ok (AMat m)
  | OGet AtGradYRef i => do m <- get_shape_function_grad_y_ref s i; Ok (AMat m)
  | OGet AtCoord i => do m <- get_quadrature_actual_coordinates s i; Ok (APts m)
  | OGet AtMult i => do m <- get_quadrature_weights s i; Ok (AVec m)
  | OForce i => do m <- get_forcing_function_values s f i; Ok (AMat m)
  | OForceVec i comp => do m <- get_forcing_function_values_vector s fv i comp; Ok (AMat m)
  | OWrite _ v => Ok v
  end.
Proof.
  exact (fun s f fv h o Hq => history_independent s f fv h o
    (match o as o0 return (forall k v, o0 <> OWrite k v) -> query o0 with
     | OWrite k v => fun H => H k v eq_refl | _ => fun _ => I end Hq)).
Qed.

(* C27 *)
Theorem C27_forcing : forall o cf cells bp bf plot s ci c, lengths_ok o (Z.to_nat (cf_quad_order cf)) ->
  make_space o cf cells bp bf plot = Ok s -> nth_error cells ci = Some c ->
  let n := Z.to_nat (cf_quad_order cf) in let k := Z.to_nat (cf_fe_order cf) in
  forall f, exists fam w xi eta mult m,
  family_of (cf_fe_type cf) = Some fam /\ quad2d o (cf_quad_order cf) (cf_quad_type cf) = Ok (w, xi, eta) /\
  get_quadrature_weights s (Z.of_nat ci) = Ok mult /\
  get_forcing_function_values s f (Z.of_nat ci) = Ok m /\ has_shape m (k * k) 1 /\
  forall i j, (i < k)%nat -> (j < k)%nat -> entry m (k * i + j) 0 =
    Sum (fun q => nth q mult 0 * Phi fam i j (nth q xi 0) (nth q eta 0)
        * f (fst (RefMap (cf_trafo cf) c (nth q xi 0) (nth q eta 0))) (snd (RefMap (cf_trafo cf) c (nth q xi 0) (nth q eta 0)))) (n * n).
Proof. exact forcing_sum. Qed.
(* The vector variant: one array of the right length, or a single number, per component;
   anything else is refused. *)
Theorem C27_forcing_vector : forall o cf cells bp bf plot s ci c, lengths_ok o (Z.to_nat (cf_quad_order cf)) ->
  make_space o cf cells bp bf plot = Ok s -> nth_error cells ci = Some c ->
  let n := Z.to_nat (cf_quad_order cf) in let k := Z.to_nat (cf_fe_order cf) in
  forall fv comp,
  match get_forcing_function_values_vector s fv (Z.of_nat ci) comp with
  | Ok m => exists fam w xi eta mult pts g,
      family_of (cf_fe_type cf) = Some fam /\ quad2d o (cf_quad_order cf) (cf_quad_type cf) = Ok (w, xi, eta) /\
      get_quadrature_weights s (Z.of_nat ci) = Ok mult /\ get_quadrature_actual_coordinates s (Z.of_nat ci) = Ok pts /\
      nth_error (fv (map fst pts) (map snd pts)) comp = Some g /\ has_shape m (k * k) 1 /\
      ((length g = n * n)%nat \/ length g = 1%nat) /\
      forall i j, (i < k)%nat -> (j < k)%nat -> entry m (k * i + j) 0 =
        Sum (fun q => nth q mult 0 * Phi fam i j (nth q xi 0) (nth q eta 0)
              * nth (if Nat.eqb (length g) 1 then 0 else q) g 0) (n * n)
  | Err e => exists pts, get_quadrature_actual_coordinates s (Z.of_nat ci) = Ok pts /\
      match nth_error (fv (map fst pts) (map snd pts)) comp with
      | None => e = IndexError
      | Some g => e = ValueError /\ length g <> (n * n)%nat /\ length g <> 1%nat
      end
  end.
Proof. exact forcing_vector. Qed.
Theorem C27_linear : forall (s : space R) f g a b i mf mg,
  get_forcing_function_values s f i = Ok mf -> get_forcing_function_values s g i = Ok mg ->
  exists m, get_forcing_function_values s (fun x y => a * f x y + b * g x y) i = Ok m /\ length m = length mf /\
  forall r, entry m r 0 = a * entry mf r 0 + b * entry mg r 0.
Proof. exact forcing_linear. Qed.

(* C28: rows in tag order, each with the value of its own tag's function. *)
Theorem C28_rows : forall (bp : bdict R) (bf : bfun R) x y, dirichlet_data bp bf = Ok (x, y) ->
  let tagged := concat (map (fun tp => map (fun p => (fst tp, p)) (snd tp)) bp) in
  x = map snd tagged /\ length y = length x /\
  forall i, (i < length x)%nat -> exists f, dget Z.eqb bf (fst (nth i tagged (0%Z, (0, 0)))) = Ok f /\
    nth i y 0 = f (fst (nth i x (0, 0))) (snd (nth i x (0, 0))).
Proof. exact (fun bp bf => dirichlet_rows bp bf). Qed.
Theorem C28_complete : forall (bp : bdict R) (bf : bfun R),
  (exists xy, dirichlet_data bp bf = Ok xy) <->
  (forall tag pts, In (tag, pts) bp -> pts <> [] -> In tag (map fst bf)).
Proof. exact (fun bp bf => dirichlet_ok_iff bp bf). Qed.
Theorem C28_missing_function : forall (bp : bdict R) (bf : bfun R) e, dirichlet_data bp bf = Err e -> e = KeyError.
Proof. exact (fun bp bf => dirichlet_err bp bf). Qed.
(* The variant for vector-valued functions: component [comp] of the function of the point's own tag *)
Theorem C28_vector : forall (bp : bdict R) (bf : bfunv R) comp x y, dirichlet_data_vector bp bf comp = Ok (x, y) ->
  let tagged := concat (map (fun tp => map (fun p => (fst tp, p)) (snd tp)) bp) in
  x = map snd tagged /\ length y = length x /\
  forall i, (i < length x)%nat -> exists f, dget Z.eqb bf (fst (nth i tagged (0%Z, (0, 0)))) = Ok f /\
    nth_error (f (fst (nth i x (0, 0))) (snd (nth i x (0, 0)))) comp = Some (nth i y 0).
Proof. exact (fun bp bf comp => vector_rows bp bf comp). Qed.
Theorem C28_vector_complete : forall (bp : bdict R) (bf : bfunv R) comp,
  ((exists xy, dirichlet_data_vector bp bf comp = Ok xy) <->
   (forall tag pts p, In (tag, pts) bp -> In p pts -> exists f, dget Z.eqb bf tag = Ok f /\ (comp < length (f (fst p) (snd p)))%nat)) /\
  (forall e, dirichlet_data_vector bp bf comp = Err e -> e = KeyError \/ e = IndexError).
Proof. exact (fun bp bf comp => conj (vector_ok_iff bp bf comp) (vector_err bp bf comp)). Qed.

(* C29 *)
Theorem C29_sensor : forall (pts : list (R * R)) lhs2 exact n P V,
  (forall m, length (lhs2 m) = m /\ forall p, In p (lhs2 m) -> 0 <= fst p <= 1 /\ 0 <= snd p <= 1) ->
  get_sensor_data pts lhs2 exact n = Ok (P, V) ->
  length P = (n * 9 / 10)%nat /\ length V = length P /\
  (forall i, (i < length P)%nat -> nth i V 0 = exact (fst (nth i P (0, 0))) (snd (nth i P (0, 0)))) /\
  (forall p, In p P -> exists a b c d, In a pts /\ In b pts /\ In c pts /\ In d pts /\
     fst a <= fst p <= fst b /\ snd c <= snd p <= snd d).
Proof. exact sensor_spec. Qed.
Theorem C29_count_refuted : forall (pts : list (R * R)) lhs2 exact n P V, (1 <= n)%nat ->
  (forall m, length (lhs2 m) = m) -> get_sensor_data pts lhs2 exact n = Ok (P, V) -> (length P < n)%nat.
Proof. exact sensor_count_wrong. Qed.
Theorem C29_defined : forall (pts : list (R * R)) lhs2 exact n,
  (exists r, get_sensor_data pts lhs2 exact n = Ok r) <-> pts <> [].
Proof. exact sensor_ok_iff. Qed.
Theorem C29_external : forall (rows : list (R * R * R)) idx n P V,
  (rows <> [] -> length (idx (length rows) n) = n /\ forall i, In i (idx (length rows) n) -> (i < length rows)%nat) ->
  rows <> [] \/ n = 0%nat -> (rows = [] -> idx 0%nat 0%nat = []) ->
  get_sensor_data_external rows idx n = Ok (P, V) ->
  length P = n /\ length V = n /\ forall i, (i < n)%nat -> In (nth i P (0, 0), nth i V 0) rows.
Proof. exact sensor_external_spec. Qed.
(* The data handler's get_sensor_data: by mesh type, the values as one column *)
Theorem C29_handler : forall (pts : list (R * R)) lhs2 exact (rows : list (R * R * R)) idx n mesh_type,
  let res := handler_sensor_data mesh_type (get_sensor_data pts lhs2 exact n) (get_sensor_data_external rows idx n) in
  (mesh_type = "internal"%string -> pts <> [] ->
    (forall m, length (lhs2 m) = m /\ forall p, In p (lhs2 m) -> 0 <= fst p <= 1 /\ 0 <= snd p <= 1) ->
    exists P M, res = Ok (P, M) /\ length P = (n * 9 / 10)%nat /\ has_shape M (length P) 1 /\
      forall i, (i < length P)%nat -> entry M i 0 = exact (fst (nth i P (0, 0))) (snd (nth i P (0, 0)))) /\
  (mesh_type = "external"%string -> rows <> [] ->
    (length (idx (length rows) n) = n /\ forall i, In i (idx (length rows) n) -> (i < length rows)%nat) ->
    exists P M, res = Ok (P, M) /\ length P = n /\ has_shape M n 1 /\ forall i, (i < n)%nat -> In (nth i P (0, 0), entry M i 0) rows) /\
  (mesh_type <> "internal"%string -> mesh_type <> "external"%string -> res = Err UnboundLocalError).
Proof. exact handler_sensors. Qed.

(* C42 *)
Theorem C42_plot_defined : forall cells (bp : bdict R), (exists r, generate_plot cells bp = Ok r) <->
  (forall tag pts, In (tag, pts) bp -> pts <> []) /\ (length bp <= 15)%nat.
Proof. exact plot_iff. Qed.
Theorem C42_plot_count : forall cells (bp : bdict R) r, generate_plot cells bp = Ok r ->
  snd r = (fold_right (fun tp n => length (snd tp) + n) 0 bp + length bp)%nat /\
  fst r = fold_right (fun c n => (length (cd_actual c) + n)%nat) 0%nat cells.
Proof. exact plot_count. Qed.
(* The numbers a space object reports: quadrature points, boundary points, points in the boundary plot *)
Theorem C42_space_counts : forall o cf cells bp bf plot s, lengths_ok o (Z.to_nat (cf_quad_order cf)) ->
  make_space o cf cells bp bf plot = Ok s ->
  sp_total_dofs s = (length cells * (Z.to_nat (cf_quad_order cf) * Z.to_nat (cf_quad_order cf)))%nat /\
  sp_total_dirichlet_dofs s = fold_right (fun tp n => (length (snd tp) + n)%nat) 0%nat bp /\
  sp_total_boundary_dofs s = (if plot then fold_right (fun tp n => (length (snd tp) + n)%nat) 0%nat bp + length bp else 0)%nat.
Proof. exact space_counts. Qed.
Theorem C42_count_refuted : exists (bp : bdict R) r, generate_plot [] bp = Ok r /\
  snd r <> fold_right (fun tp n => length (snd tp) + n)%nat 0%nat bp.
Proof. exists [(7%Z, [(0, 0)])]. eexists. split; [reflexivity | discriminate]. Qed.

(* C43: a forcing function that writes to its argument changes what the coordinates
   getter returns afterwards. *)
Theorem C43_aliasing_refuted : forall (s : space R) f d, nth_error (sp_cells s) 0 = Some d -> cd_actual d <> [] ->
  let st := load s f (fun xs ys => ([xs; ys], (map (fun x => x - 1) xs, ys))) in
  exists before after, observe st (OGet AtCoord 0) = Ok (APts before) /\
    observe (run st [OForceVec 0 0]) (OGet AtCoord 0) = Ok (APts after) /\ before <> after /\
    after = map (fun p => (fst p - 1, snd p)) before.
Proof. exact shifting_corrupts. Qed.

(* Non-vacuity *)
Example C25_example : forall tr, tr = "bilinear"%string \/ tr = "affine"%string ->
  exists o s, oracle_ok o (Z.to_nat (cf_quad_order (kite_cf tr))) /\
  make_space o (kite_cf tr) [unit_square; kite] [(7%Z, [(0, 0); (1, 0)])] [(7%Z, fun x y => x + y)] false = Ok s.
Proof. exact kite_space. Qed.
Example C28_example : dirichlet_data [(7%Z, [(0, 0); (1, 0)]); (3%Z, []); (5%Z, [(2, 1)])] [(5%Z, fun x y => x * y); (7%Z, fun x y => x)]
  = Ok ([(0, 0); (1, 0); (2, 1)], [0; 1; 2 * 1]).
Proof. reflexivity. Qed.
Example C28_example_missing : dirichlet_data [(7%Z, [(0, 0); (1, 0)])] [(5%Z, fun x y : R => x)] = Err KeyError.
Proof. reflexivity. Qed.
Example C28_vector_example : dirichlet_data_vector [(1000%Z, [(0, 2); (1, 0)]); (1001%Z, [(3, 0)])]
    [(1000%Z, fun x y => [x; y]); (1001%Z, fun x _ => [7; x])] 1 = Ok ([(0, 2); (1, 0); (3, 0)], [2; 0; 3]).
Proof. reflexivity. Qed.
Example C29_example : exists P V, get_sensor_data [(0, 0); (2, 0); (2, 1)] (fun m => repeat (1/2, 1/2) m) (fun x y => x + y) 10 = Ok (P, V)
  /\ length P = 9%nat.
Proof. do 2 eexists. split; [reflexivity | reflexivity]. Qed.
Example C29_example_external : get_sensor_data_external [(0, 0, 1); (2, 0, 3)] (fun _ m => repeat 1%nat m) 2 = Ok ([(2, 0); (2, 0)], [3; 3]).
Proof. reflexivity. Qed.
Example C26_example : exists s : space R, sp_cells s <> [] /\ forall i, (0 <= i < 2)%Z -> exists d, cell_at (sp_cells s) i = Ok d.
Proof.
  destruct (kite_space "bilinear" (or_introl eq_refl)) as (o & s & Ho & Hs). exists s.
  destruct (space_cell _ _ _ _ _ _ _ 0 unit_square Hs eq_refl) as (d & _ & E1 & E2).
  destruct (space_cell _ _ _ _ _ _ _ 1 kite Hs eq_refl) as (d' & _ & E1' & E2').
  split; [intros N; rewrite N in E1; discriminate|].
  intros i Hi. assert (i = 0 \/ i = 1)%Z as [-> | ->] by lia; eauto.
Qed.

Print Assumptions C25_validation.
Print Assumptions C25_errors.
Print Assumptions C26_range.
Print Assumptions C26_isolation.
Print Assumptions C27_forcing.
Print Assumptions C27_forcing_vector.
Print Assumptions C27_linear.
Print Assumptions C28_rows.
Print Assumptions C28_complete.
Print Assumptions C28_missing_function.
Print Assumptions C28_vector.
Print Assumptions C28_vector_complete.
Print Assumptions C29_sensor.
Print Assumptions C29_count_refuted.
Print Assumptions C29_defined.
Print Assumptions C29_external.
Print Assumptions C29_handler.
Print Assumptions C42_plot_defined.
Print Assumptions C42_plot_count.
Print Assumptions C42_space_counts.
Print Assumptions C42_count_refuted.
Print Assumptions C43_aliasing_refuted.
