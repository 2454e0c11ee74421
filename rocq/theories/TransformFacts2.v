(* The statements of TransformFacts.v for the map selected by the configuration. *)
From Coq Require Import String ZArith List Arith Lia Reals Lra.
From Coquelicot Require Import Coquelicot.
From Verif Require Import Num Py PyFacts Jacobi Quadrature Basis Transform Cell Space RCalc PolyFacts ListFacts Spec SpecGeom
  TransformFacts CellFacts2 SpaceFacts Interp QuadFacts QuadExamples.
Import ListNotations.
Local Open Scope R_scope.

Section Selected.
Variables (cf : config) (c : cell R) (t : trafo R).
Hypothesis Ht : assign_fe_transformation cf c = Ok t.

Lemma is_bil : cf_trafo cf = "bilinear"%string -> t = bil c.
Proof. intros E. apply assign_trafo_iff in Ht. destruct Ht as [_ [[E' _]|[_ ->]]]; [congruence | auto]. Qed.
Lemma is_aff : cf_trafo cf = "affine"%string -> t = aff c.
Proof. intros E. apply assign_trafo_iff in Ht. destruct Ht as [_ [[_ ->]|[E' _]]]; [auto | congruence]. Qed.
Lemma is_either : t = aff c \/ t = bil c.
Proof. apply assign_trafo_iff in Ht. destruct Ht as [_ [[_ ->]|[_ ->]]]; auto. Qed.

Lemma bilinear_map_shape : cf_trafo cf = "bilinear"%string ->
  (t_orig t (-1) (-1) = v0 c /\ t_orig t 1 (-1) = v1 c /\ t_orig t 1 1 = v2 c /\ t_orig t (-1) 1 = v3 c) /\
  (forall s,
    t_orig t s (-1) = seg (v0 c) (v1 c) ((1 + s) / 2) /\ t_orig t 1 s = seg (v1 c) (v2 c) ((1 + s) / 2) /\
    t_orig t s 1 = seg (v3 c) (v2 c) ((1 + s) / 2) /\ t_orig t (-1) s = seg (v0 c) (v3 c) ((1 + s) / 2)) /\
  (forall x y, in_square x y -> in_hull c (t_orig t x y)) /\
  (convex_ccw c -> forall x y, in_square x y -> in_cell c (t_orig t x y)).
Proof.
  intros E. rewrite (is_bil E). refine (conj (bil_corners c) (conj (bil_edges c) (conj (bil_hull c) _))).
  intros H x y Hs. apply hull_in_cell; auto. now apply bil_hull.
Qed.

Lemma affine_map_shape : cf_trafo cf = "affine"%string ->
  t_orig t (-1) (-1) = v0 c /\ t_orig t 1 (-1) = v1 c /\ t_orig t (-1) 1 = v3 c /\
  (t_orig t 1 1 = v2 c <-> parallelogram c).
Proof. intros E. rewrite (is_aff E). apply aff_corners. Qed.

Lemma jacobian_is_det : forall xi eta : list R, length xi = length eta ->
  forall q, (q < length xi)%nat ->
  nth (if String.eqb (cf_trafo cf) "affine" then 0%nat else q) (t_jacobian t xi eta) 0
    = Rabs (JacDet (t_orig t) (nth q xi 0) (nth q eta 0)) /\
  length (t_jacobian t xi eta) = (if String.eqb (cf_trafo cf) "affine" then 1%nat else length xi).
Proof.
  intros xi eta L q Hq. pose proof (proj1 (assign_trafo_iff _ _ _) Ht) as [_ [[E ->]|[E ->]]]; rewrite E.
  - cbn [String.eqb Ascii.eqb Bool.eqb]. rewrite (aff_jacobian_spec c xi eta (nth q xi 0) (nth q eta 0)). auto.
  - cbn [String.eqb Ascii.eqb Bool.eqb]. destruct (bil_jacobian_spec c xi eta L) as [A B]. rewrite A. split; auto.
Qed.
Lemma jacobian_nonzero : strictly_convex c -> forall x y, in_square x y -> 0 < Rabs (JacDet (t_orig t) x y).
Proof. intros Hc x y Hs. destruct (jacobian_positive c x y Hc Hs). destruct is_either as [-> | ->]; auto. Qed.
End Selected.

Lemma parallelogram_agree : forall cf cf' c t t', assign_fe_transformation cf c = Ok t -> assign_fe_transformation cf' c = Ok t' ->
  cf_trafo cf = "affine"%string -> cf_trafo cf' = "bilinear"%string -> parallelogram c ->
  forall x y, t_orig t x y = t_orig t' x y /\ JacDet (t_orig t) x y = JacDet (t_orig t') x y /\
   (forall xi eta q, length xi = length eta -> (q < length xi)%nat ->
      nth 0 (t_jacobian t xi eta) 0 = nth q (t_jacobian t' xi eta) 0) /\
   forall gx gy, t_grad1 t x y gx gy = t_grad1 t' x y gx gy.
Proof.
  intros cf cf' c t t' H H' E E' Hp x y. rewrite (is_aff cf c t H E), (is_bil cf' c t' H' E').
  split; [now apply par_maps|]. split; [rewrite jacdet_aff, jacdet_bil; now apply par_det|].
  split; [|intros; now apply par_grad].
  intros xi eta q L Hq. rewrite (aff_jacobian_spec c xi eta (nth q xi 0) (nth q eta 0)).
  destruct (bil_jacobian_spec c xi eta L) as [_ B]. rewrite B by auto. simpl.
  rewrite jacdet_aff, jacdet_bil. f_equal. now apply par_det.
Qed.

(* Physical derivatives of the basis in every parallelogram-like cell: the test function
   transported by the inverse map exists. *)
Lemma square_transport : forall f : R -> R -> R, let c := unit_square in let F := RefMap "bilinear" c in
  forall x y, (fun X Y => f (2 * X - 1) (2 * Y - 1)) (fst (F x y)) (snd (F x y)) = f x y /\ JacDet F x y = 1 / 4.
Proof.
  intros f c F x y. assert (E : forall s r, F s r = ((1 + s) / 2, (1 + r) / 2)).
  { intros. unfold F, RefMap, c, unit_square. cbn [String.eqb Ascii.eqb Bool.eqb v0 v1 v2 v3 fst snd].
    apply pair_eq; cbn [fst snd]; field. }
  split.
  - rewrite E. cbn [fst snd]. f_equal; field.
  - unfold JacDet.
    rewrite (is_derive_unique (fun s : R => fst (F s y)) x (1/2)), (is_derive_unique (fun s : R => snd (F x s)) y (1/2)),
      (is_derive_unique (fun s : R => fst (F x s)) y 0), (is_derive_unique (fun s : R => snd (F s y)) x 0); [eqR; field| | | |].
    + apply (derR_ext (fun s => (1 + y) / 2)). { intros; now rewrite E. } auto_derive; auto.
    + apply (derR_ext (fun s => (1 + x) / 2)). { intros; now rewrite E. } auto_derive; auto.
    + apply (derR_ext (fun s => (1 + s) / 2)). { intros; now rewrite E. } auto_derive; auto; lra.
    + apply (derR_ext (fun s => (1 + s) / 2)). { intros; now rewrite E. } auto_derive; auto; lra.
Qed.

(* Getters of a built space *)
Lemma space_tables : forall o cf cells bp bf plot s ci c, lengths_ok o (Z.to_nat (cf_quad_order cf)) ->
  make_space o cf cells bp bf plot = Ok s -> nth_error cells ci = Some c ->
  let n := Z.to_nat (cf_quad_order cf) in let k := Z.to_nat (cf_fe_order cf) in
  let F := RefMap (cf_trafo cf) c in let i0 := Z.of_nat ci in
  exists fam w xi eta val gx gy gxr gyr pts mult,
    family_of (cf_fe_type cf) = Some fam /\
    quad2d o (cf_quad_order cf) (cf_quad_type cf) = Ok (w, xi, eta) /\
    get_shape_function_val s i0 = Ok val /\ get_shape_function_grad_x s i0 = Ok gx /\ get_shape_function_grad_y s i0 = Ok gy /\
    get_shape_function_grad_x_ref s i0 = Ok gxr /\ get_shape_function_grad_y_ref s i0 = Ok gyr /\
    get_quadrature_actual_coordinates s i0 = Ok pts /\ get_quadrature_weights s i0 = Ok mult /\
    length mult = (n * n)%nat /\ length pts = (n * n)%nat /\
    has_shape val (k * k) (n * n) /\ has_shape gx (k * k) (n * n) /\ has_shape gy (k * k) (n * n) /\
    has_shape gxr (k * k) (n * n) /\ has_shape gyr (k * k) (n * n) /\
    forall q, (q < n * n)%nat -> let x := nth q xi 0 in let y := nth q eta 0 in
      nth q mult 0 = nth q w 0 * Rabs (JacDet F x y) /\
      nth q pts (0, 0) = F x y /\
      forall i j, (i < k)%nat -> (j < k)%nat -> let r := (k * i + j)%nat in
        entry val r q = nth q mult 0 * Phi fam i j x y /\
        entry gxr r q = Dx (Phi fam i j) x y /\
        entry gyr r q = Dy (Phi fam i j) x y /\
        (JacDet F x y <> 0 -> exists a b,
          entry gx r q = nth q mult 0 * a /\ entry gy r q = nth q mult 0 * b /\
          (Dx (Phi fam i j) x y = a * Dx (fun s t => fst (F s t)) x y + b * Dx (fun s t => snd (F s t)) x y /\
           Dy (Phi fam i j) x y = a * Dy (fun s t => fst (F s t)) x y + b * Dy (fun s t => snd (F s t)) x y) /\
          (forall u ux uy, locally_2d (fun s p => u (fst (F s p)) (snd (F s p)) = Phi fam i j s p) x y ->
             differentiable_pt_lim u (fst (F x y)) (snd (F x y)) ux uy -> nth q mult 0 <> 0 -> a = ux /\ b = uy)).
Proof.
  intros o cf cells bp bf plot s ci c Ho H Hc n k F i0.
  destruct (space_cell _ _ _ _ _ _ _ _ _ H Hc) as (d & Hd & _ & Ea). fold i0 in Ea.
  destruct (make_cell_tables o cf c d Ho Hd) as (fam & w & xi & eta & Tf & Tq & L1 & L2 & L3 & L4 & L5 & S1 & S2 & S3 & S4 & S5 & T).
  destruct (make_cell_chain o cf c d Ho Hd) as (fam' & w' & xi' & eta' & Tf' & Tq' & T').
  rewrite Tf in Tf'. injection Tf' as <-. rewrite Tq in Tq'. injection Tq' as <- <- <-.
  exists fam, w, xi, eta, (cd_val d), (cd_gradx d), (cd_grady d), (cd_gradx_ref d), (cd_grady_ref d), (cd_actual d), (cd_mult d).
  split; [exact Tf|]. split; [exact Tq|].
  unfold get_shape_function_val, get_shape_function_grad_x, get_shape_function_grad_x_ref,
        get_shape_function_grad_y, get_shape_function_grad_y_ref, get_quadrature_actual_coordinates, get_quadrature_weights.
  rewrite Ea. do 7 (split; [reflexivity|]). do 2 (split; [assumption|]). do 5 (split; [assumption|]).
  intros q Hq. set (x := nth q xi 0); set (y := nth q eta 0). destruct (T q Hq) as (A & B & C). split; [exact A|]. split; [exact B|].
  intros i j Hi Hj. set (r := (k * i + j)%nat). destruct (C i j Hi Hj) as (D1 & D2 & D3 & D4). split; [exact D1|]. split; [exact D2|]. split; [exact D3|].
  intros Hz. destruct (T' q i j Hq Hi Hj Hz) as (a & b & E1 & E2 & E3 & E4). exists a, b.
  split; [exact E1|]. split; [exact E2|]. split; [split; [exact E3 | exact E4]|].
  intros u ux uy Hl Hu Hm. destruct (D4 u ux uy Hz Hl Hu) as (G1 & G2). fold k in G1, G2. fold r in G1, G2.
  split; (eapply Rmult_eq_reg_l; [|exact Hm]).
  - transitivity (entry (cd_gradx d) r q); [symmetry; exact E1 | exact G1].
  - transitivity (entry (cd_grady d) r q); [symmetry; exact E2 | exact G2].
Qed.

(* C04 for getters *)
Lemma space_mult_area : forall o cf cells bp bf plot s ci c, oracle_ok o (Z.to_nat (cf_quad_order cf)) ->
  make_space o cf cells bp bf plot = Ok s -> nth_error cells ci = Some c ->
  exists mult, get_quadrature_weights s (Z.of_nat ci) = Ok mult /\
  length mult = (Z.to_nat (cf_quad_order cf) * Z.to_nat (cf_quad_order cf))%nat /\
  (cf_trafo cf = "bilinear"%string /\ strictly_convex c \/ cf_trafo cf = "affine"%string /\ parallelogram c ->
     (forall q, (q < length mult)%nat -> 0 < nth q mult 0) /\ Sum (fun q => nth q mult 0) (length mult) = area c).
Proof.
  intros o cf cells bp bf plot s ci c Ho H Hc.
  destruct (space_cell _ _ _ _ _ _ _ _ _ H Hc) as (d & Hd & _ & Ea).
  exists (cd_mult d). unfold get_quadrature_weights. rewrite Ea. split; [reflexivity|].
  destruct (make_cell_tables o cf c d (oracle_lengths _ _ Ho) Hd) as (fam & w & xi & eta & Tf & Tq & L1 & L2 & L3 & L4 & _).
  split; [exact L4|]. destruct (mult_area o cf c d Ho Hd) as [A B]. intros [[E P]|[E P]]; [auto|].
  rewrite area_parallelogram by auto. auto.
Qed.
Lemma space_mult_affine : forall o cf cells bp bf plot s ci c, oracle_ok o (Z.to_nat (cf_quad_order cf)) ->
  make_space o cf cells bp bf plot = Ok s -> nth_error cells ci = Some c -> cf_trafo cf = "affine"%string -> strictly_convex c ->
  exists mult, get_quadrature_weights s (Z.of_nat ci) = Ok mult /\
  (Sum (fun q => nth q mult 0) (length mult) = area c <-> cross (v0 c) (v1 c) (v3 c) = cross (v2 c) (v3 c) (v1 c)).
Proof.
  intros o cf cells bp bf plot s ci c Ho H Hc E P.
  destruct (space_cell _ _ _ _ _ _ _ _ _ H Hc) as (d & Hd & _ & Ea).
  exists (cd_mult d). unfold get_quadrature_weights. rewrite Ea. split; [reflexivity|].
  destruct (mult_area o cf c d Ho Hd) as [_ B]. destruct (B E) as [_ ->]. now apply area_affine_iff.
Qed.

(* examples *)
Definition any_oracle_ok : forall n, exists o, oracle_ok o n.
Proof.
  intros n. destruct (gauss_exists n) as [xw Hxw]. destruct (roots_exist (n - 2)) as [x Hx].
  exists {| leggauss := fun _ => xw; roots_jacobi11 := fun _ => x |}. split; auto.
Qed.
Definition kite : cell R := mkcell (0, 0) (1, 0) (1, 1) (0, 3).
Definition kite_cf (tr : string) : config :=
  {| cf_cell_type := "quadrilateral"; cf_fe_order := 4; cf_fe_type := "legendre"; cf_quad_order := 5;
     cf_quad_type := "gauss-jacobi"; cf_trafo := tr |}.
Lemma kite_convex : convex_ccw kite.
Proof. unfold convex_ccw, cross, kite. cbn [v0 v1 v2 v3 fst snd]. lra. Qed.
Lemma kite_accepted : forall tr, tr = "bilinear"%string \/ tr = "affine"%string -> accepted (kite_cf tr) kite.
Proof.
  intros tr H. constructor; cbn; auto; try lia.
  destruct H as [-> | ->]; [left | right]; auto. split; auto. unfold cross; cbn. lra.
Qed.
Lemma kite_space : forall tr, tr = "bilinear"%string \/ tr = "affine"%string ->
  exists o s, oracle_ok o (Z.to_nat (cf_quad_order (kite_cf tr))) /\
  make_space o (kite_cf tr) [unit_square; kite] [(7%Z, [(0, 0); (1, 0)])] [(7%Z, fun x y => x + y)] false = Ok s.
Proof.
  intros tr H. destruct (any_oracle_ok (Z.to_nat (cf_quad_order (kite_cf tr)))) as [o Ho]. exists o.
  destruct (proj2 (space_iff o (kite_cf tr) [unit_square; kite] [(7%Z, [(0, 0); (1, 0)])] [(7%Z, fun x y => x + y)] false (oracle_lengths _ _ Ho))) as [s Hs].
  - split; [discriminate|]. split.
    + intros c [<-|[<-|[]]]; [|now apply kite_accepted].
      constructor; cbn; auto; try lia. destruct H as [-> | ->]; [left | right]; auto. split; auto. unfold cross; cbn. lra.
    + split; [|discriminate]. intros tag pts [E|[]] _. injection E as <- <-. now left.
  - exists s. auto.
Qed.
Lemma kite_area_wrong : exists o s mult,
  make_space o (kite_cf "affine") [unit_square; kite] [(7%Z, [(0, 0); (1, 0)])] [(7%Z, fun x y => x + y)] false = Ok s /\
  get_quadrature_weights s 1 = Ok mult /\ strictly_convex kite /\
  Sum (fun q => nth q mult 0) (length mult) <> area kite.
Proof.
  destruct (kite_space "affine" (or_intror eq_refl)) as (o & s & Ho & Hs).
  destruct (space_mult_affine o _ _ _ _ _ s 1 kite Ho Hs eq_refl eq_refl (or_introl kite_convex)) as (mult & E1 & E2).
  exists o, s, mult. split; [exact Hs|]. split; [exact E1|]. split; [left; exact kite_convex|].
  rewrite E2. unfold cross, kite. cbn [v0 v1 v2 v3 fst snd]. lra.
Qed.
