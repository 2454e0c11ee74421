(* Properties C04, C11-C16: maps from the reference square and the tables of a cell. *)
From Coq Require Import String ZArith List Arith Lia Reals Lra.
From Coquelicot Require Import Coquelicot.
From Verif Require Import Num Py Jacobi Quadrature Basis Transform Cell Space Spec SpecGeom
  TransformFacts CellFacts2 TransformFacts2.
Import ListNotations.
Local Open Scope R_scope.

(* C04: the multipliers of a cell are positive and sum to its area. *)
Theorem C04_multipliers_area : forall o cf cells bp bf plot s ci c,
  oracle_ok o (Z.to_nat (cf_quad_order cf)) ->
  make_space o cf cells bp bf plot = Ok s -> nth_error cells ci = Some c ->
  exists mult, get_quadrature_weights s (Z.of_nat ci) = Ok mult /\
  length mult = (Z.to_nat (cf_quad_order cf) * Z.to_nat (cf_quad_order cf))%nat /\
  (cf_trafo cf = "bilinear"%string /\ strictly_convex c \/ cf_trafo cf = "affine"%string /\ parallelogram c ->
     (forall q, (q < length mult)%nat -> 0 < nth q mult 0) /\ Sum (fun q => nth q mult 0) (length mult) = area c).
Proof. exact space_mult_area. Qed.

(* With the affine map the area is right exactly when the diagonal from vertex 1 to
   vertex 3 halves the cell ... *)
Theorem C04_affine_convex : forall o cf cells bp bf plot s ci c,
  oracle_ok o (Z.to_nat (cf_quad_order cf)) ->
  make_space o cf cells bp bf plot = Ok s -> nth_error cells ci = Some c ->
  cf_trafo cf = "affine"%string -> strictly_convex c ->
  exists mult, get_quadrature_weights s (Z.of_nat ci) = Ok mult /\
  (Sum (fun q => nth q mult 0) (length mult) = area c <-> cross (v0 c) (v1 c) (v3 c) = cross (v2 c) (v3 c) (v1 c)).
Proof. exact space_mult_affine. Qed.

(* ... and so fails for some accepted convex cells. *)
Theorem C04_affine_area_refuted : exists o s mult,
  make_space o (kite_cf "affine") [unit_square; kite] [(7%Z, [(0, 0); (1, 0)])] [(7%Z, fun x y => x + y)] false = Ok s /\
  get_quadrature_weights s 1 = Ok mult /\ strictly_convex kite /\
  Sum (fun q => nth q mult 0) (length mult) <> area kite.
Proof. exact kite_area_wrong. Qed.

(* C11 *)
Theorem C11_bilinear_map : forall cf c t, assign_fe_transformation cf c = Ok t -> cf_trafo cf = "bilinear"%string ->
  (t_orig t (-1) (-1) = v0 c /\ t_orig t 1 (-1) = v1 c /\ t_orig t 1 1 = v2 c /\ t_orig t (-1) 1 = v3 c) /\
  (forall s,
    t_orig t s (-1) = seg (v0 c) (v1 c) ((1 + s) / 2) /\ t_orig t 1 s = seg (v1 c) (v2 c) ((1 + s) / 2) /\
    t_orig t s 1 = seg (v3 c) (v2 c) ((1 + s) / 2) /\ t_orig t (-1) s = seg (v0 c) (v3 c) ((1 + s) / 2)) /\
  (forall x y, in_square x y -> in_hull c (t_orig t x y)) /\
  (convex_ccw c -> forall x y, in_square x y -> in_cell c (t_orig t x y)).
Proof. exact bilinear_map_shape. Qed.

(* C12 *)
Theorem C12_affine_map : forall cf c t, assign_fe_transformation cf c = Ok t -> cf_trafo cf = "affine"%string ->
  t_orig t (-1) (-1) = v0 c /\ t_orig t 1 (-1) = v1 c /\ t_orig t (-1) 1 = v3 c /\
  (t_orig t 1 1 = v2 c <-> parallelogram c).
Proof. exact affine_map_shape. Qed.
Theorem C12_affine_agrees : forall cf cf' c t t',
  assign_fe_transformation cf c = Ok t -> assign_fe_transformation cf' c = Ok t' ->
  cf_trafo cf = "affine"%string -> cf_trafo cf' = "bilinear"%string -> parallelogram c ->
  forall x y, t_orig t x y = t_orig t' x y /\ JacDet (t_orig t) x y = JacDet (t_orig t') x y /\
   (forall xi eta q, length xi = length eta -> (q < length xi)%nat ->
      nth 0 (t_jacobian t xi eta) 0 = nth q (t_jacobian t' xi eta) 0) /\
   forall gx gy, t_grad1 t x y gx gy = t_grad1 t' x y gx gy.
Proof. exact parallelogram_agree. Qed.

(* C13: the affine map reports one Jacobian for all points, the bilinear map one per point. *)
Theorem C13_jacobian : forall cf c t, assign_fe_transformation cf c = Ok t ->
  forall xi eta : list R, length xi = length eta -> forall q, (q < length xi)%nat ->
  nth (if String.eqb (cf_trafo cf) "affine" then 0%nat else q) (t_jacobian t xi eta) 0
    = Rabs (JacDet (t_orig t) (nth q xi 0) (nth q eta 0)) /\
  length (t_jacobian t xi eta) = (if String.eqb (cf_trafo cf) "affine" then 1%nat else length xi).
Proof. exact jacobian_is_det. Qed.
Theorem C13_positive : forall cf c t, assign_fe_transformation cf c = Ok t -> strictly_convex c ->
  forall x y, in_square x y -> 0 < Rabs (JacDet (t_orig t) x y).
Proof. exact jacobian_nonzero. Qed.

(* C14: the pair returned for one point is the unique solution of the chain rule ... *)
Theorem C14_unique : forall t x y gx gy, JacDet (t_orig t) x y <> 0 ->
  let X := fun s r => fst (t_orig t s r) in let Y := fun s r => snd (t_orig t s r) in
  forall a b, t_grad1 t x y gx gy = (a, b) <->
    (gx = a * Dx X x y + b * Dx Y x y /\ gy = a * Dy X x y + b * Dy Y x y).
Proof. exact grad1_solves. Qed.
(* ... and the tables hold the physical derivatives of every differentiable u. *)
Theorem C14_chain_rule : forall t (gx gy : list (list R)) xi eta n i q u a b,
  length eta = length xi -> has_shape gx n (length xi) -> has_shape gy n (length xi) ->
  (i < n)%nat -> (q < length xi)%nat ->
  let x := nth q xi 0 in let y := nth q eta 0 in let P := t_orig t x y in
  JacDet (t_orig t) x y <> 0 ->
  differentiable_pt_lim u (fst P) (snd P) a b ->
  is_derive (fun s : R => u (fst (t_orig t s y)) (snd (t_orig t s y))) x (entry gx i q) ->
  is_derive (fun r : R => u (fst (t_orig t x r)) (snd (t_orig t x r))) y (entry gy i q) ->
  entry (fst (t_derivative t gx gy xi eta)) i q = a /\ entry (snd (t_derivative t gx gy xi eta)) i q = b.
Proof. exact table_gradient. Qed.

(* C15 *)
Theorem C15_affine_second : forall c (gxx gxy gyy : list (list R)) n l,
  JacDet (t_orig (TAffine (affine_set_cell c))) 0 0 <> 0 -> has_shape gxx n l -> has_shape gxy n l -> has_shape gyy n l ->
  exists txx txy tyy, t_second (TAffine (affine_set_cell c)) gxx gxy gyy = Ok (txx, txy, tyy) /\
  forall i q x y u ux uy a b d, (i < n)%nat -> (q < l)%nat ->
    (forall X Y, differentiable_pt_lim u X Y (ux X Y) (uy X Y)) ->
    let T := t_orig (TAffine (affine_set_cell c)) in
    let P := T x y in let U := fun s r => u (fst (T s r)) (snd (T s r)) in
    differentiable_pt_lim ux (fst P) (snd P) a b -> differentiable_pt_lim uy (fst P) (snd P) b d ->
    entry gxx i q = Dx (Dx U) x y -> entry gxy i q = Dy (Dx U) x y -> entry gyy i q = Dy (Dy U) x y ->
    entry txx i q = a /\ entry txy i q = b /\ entry tyy i q = d.
Proof. exact affine_second_physical. Qed.
Theorem C15_affine_degenerate : forall c (gxx gxy gyy : list (list R)),
  JacDet (t_orig (TAffine (affine_set_cell c))) 0 0 = 0 ->
  t_second (TAffine (affine_set_cell c)) gxx gxy gyy = Err LinAlgError.
Proof. exact affine_second_degenerate. Qed.
(* With the bilinear map the reference derivatives come back unchanged, whatever the cell ... *)
Theorem C15_bilinear_unchanged : forall c (gxx gxy gyy : list (list R)),
  t_second (TBilinear (bilinear_set_cell c)) gxx gxy gyy = Ok (gxx, gxy, gyy).
Proof. exact bilinear_second_unchanged. Qed.
(* ... so: u = x^2 on the unit square has u_xx = 2, reported as 1/2. *)
Theorem C15_bilinear_second_refuted :
  let T := TBilinear (bilinear_set_cell unit_square) in
  let u := fun X Y : R => X * X in let U := fun s r => u (fst (t_orig T s r)) (snd (t_orig T s r)) in
  exists txx txy tyy, t_second T [[Dx (Dx U) 0 0]] [[Dy (Dx U) 0 0]] [[Dy (Dy U) 0 0]] = Ok (txx, txy, tyy) /\
  entry txx 0 0 = 1 / 2 /\ Dx (Dx u) (fst (t_orig T 0 0)) (snd (t_orig T 0 0)) = 2.
Proof. exact bilinear_second_wrong. Qed.

(* C16: all getters of a cell, entry by entry. *)
Theorem C16_cell_tables : forall o cf cells bp bf plot s ci c, lengths_ok o (Z.to_nat (cf_quad_order cf)) ->
  make_space o cf cells bp bf plot = Ok s -> nth_error cells ci = Some c ->
  let n := Z.to_nat (cf_quad_order cf) in let k := Z.to_nat (cf_fe_order cf) in
  let F := RefMap (cf_trafo cf) c in let i0 := Z.of_nat ci in
  exists fam w xi eta val gx gy gxr gyr pts mult,
    family_of (cf_fe_type cf) = Some fam /\
    quad2d o (cf_quad_order cf) (cf_quad_type cf) = Ok (w, xi, eta) /\
    get_shape_function_val s i0 = Ok val /\ get_shape_function_grad_x s i0 = Ok gx /\ get_shape_function_grad_y s i0 = Ok gy /\
    get_shape_function_grad_x_ref s i0 = Ok gxr /\ get_shape_function_grad_y_ref s i0 = Ok gyr /\
    get_quadrature_actual_coordinates s i0 = Ok pts /\ get_quadrature_weights s i0 = Ok mult /\
    length mult = (n * n)%nat /\ length pts = (n * n)%nat /\
    has_shape val (k * k) (n * n) /\ has_shape gx (k * k) (n * n) /\ has_shape gy (k * k) (n * n) /\
    has_shape gxr (k * k) (n * n) /\ has_shape gyr (k * k) (n * n) /\
    forall q, (q < n * n)%nat -> let x := nth q xi 0 in let y := nth q eta 0 in
      nth q mult 0 = nth q w 0 * Rabs (JacDet F x y) /\
      nth q pts (0, 0) = F x y /\
      forall i j, (i < k)%nat -> (j < k)%nat -> let r := (k * i + j)%nat in
        entry val r q = nth q mult 0 * Phi fam i j x y /\
        entry gxr r q = Dx (Phi fam i j) x y /\
        entry gyr r q = Dy (Phi fam i j) x y /\
        (JacDet F x y <> 0 -> exists a b,
          entry gx r q = nth q mult 0 * a /\ entry gy r q = nth q mult 0 * b /\
          (Dx (Phi fam i j) x y = a * Dx (fun s t => fst (F s t)) x y + b * Dx (fun s t => snd (F s t)) x y /\
           Dy (Phi fam i j) x y = a * Dy (fun s t => fst (F s t)) x y + b * Dy (fun s t => snd (F s t)) x y) /\
          (forall u ux uy, locally_2d (fun s p => u (fst (F s p)) (snd (F s p)) = Phi fam i j s p) x y ->
             differentiable_pt_lim u (fst (F x y)) (snd (F x y)) ux uy -> nth q mult 0 <> 0 -> a = ux /\ b = uy)).
Proof. exact space_tables. Qed.

(* Non-vacuity: a strictly convex cell that is no parallelogram, accepted with both maps
   together with the unit square; the transported test function exists on the square. *)
Example C04_example : forall tr, tr = "bilinear"%string \/ tr = "affine"%string ->
  exists o s, oracle_ok o (Z.to_nat (cf_quad_order (kite_cf tr))) /\
  make_space o (kite_cf tr) [unit_square; kite] [(7%Z, [(0, 0); (1, 0)])] [(7%Z, fun x y => x + y)] false = Ok s.
Proof. exact kite_space. Qed.
Example C11_example : convex_ccw kite /\ ~ parallelogram kite /\ parallelogram unit_square /\ in_square (1/2) 0 /\
  assign_fe_transformation (kite_cf "bilinear") kite = Ok (TBilinear (bilinear_set_cell kite)) /\
  assign_fe_transformation (kite_cf "affine") unit_square = Ok (TAffine (affine_set_cell unit_square)).
Proof.
  refine (conj kite_convex (conj _ (conj _ (conj _ (conj eq_refl eq_refl))))); unfold parallelogram, in_square; cbn; lra.
Qed.
Example C16_example : forall f : R -> R -> R, let F := RefMap "bilinear" unit_square in
  forall x y, (fun X Y => f (2 * X - 1) (2 * Y - 1)) (fst (F x y)) (snd (F x y)) = f x y /\ JacDet F x y = 1 / 4.
Proof. exact square_transport. Qed.

Print Assumptions C04_multipliers_area.
Print Assumptions C04_affine_convex.
Print Assumptions C04_affine_area_refuted.
Print Assumptions C11_bilinear_map.
Print Assumptions C12_affine_map.
Print Assumptions C12_affine_agrees.
Print Assumptions C13_jacobian.
Print Assumptions C13_positive.
Print Assumptions C14_unique.
Print Assumptions C14_chain_rule.
Print Assumptions C15_affine_second.
Print Assumptions C15_affine_degenerate.
Print Assumptions C15_bilinear_unchanged.
Print Assumptions C15_bilinear_second_refuted.
Print Assumptions C16_cell_tables.
