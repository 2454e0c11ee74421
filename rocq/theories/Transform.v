(* Model of FE/quad_affine.py and FE/quad_bilinear.py. *)
From Coq Require Import ZArith List Arith.
From Verif Require Import Num Py.
Import ListNotations.

Section Transform.
Context {A : Type} `{Num A}.
Local Open Scope num_scope.

Definition pt := (A * A)%type.
(* A cell: array of shape (4, 2). Simplification: other shapes (IndexError in
   set_cell) are not representable. *)
Record cell := mkcell { v0 : pt; v1 : pt; v2 : pt; v3 : pt }.

(* ---------- QuadAffin ---------- *)
Record affine_map := mkaff { axc0 : A; axc1 : A; axc2 : A; ayc0 : A; ayc1 : A; ayc2 : A }.
Definition c05 : A := n1 / n2.
Definition c025 : A := n1 / nofZ 4.

(* quad_affine.py:39-67 *)
Definition affine_set_cell (c : cell) : affine_map :=
  let x0 := fst (v0 c) in let x1 := fst (v1 c) in let x3 := fst (v3 c) in
  let y0 := snd (v0 c) in let y1 := snd (v1 c) in let y3 := snd (v3 c) in
  {| axc0 := (x1 + x3) * c05; axc1 := (x1 - x0) * c05; axc2 := (x3 - x0) * c05;
     ayc0 := (y1 + y3) * c05; ayc1 := (y1 - y0) * c05; ayc2 := (y3 - y0) * c05 |}.

(* quad_affine.py:69-81 *)
Definition affine_orig (m : affine_map) (xi eta : A) : pt :=
  (axc0 m + axc1 m * xi + axc2 m * eta, ayc0 m + ayc1 m * xi + ayc2 m * eta).

(* quad_affine.py:95 *)
Definition affine_detjk (m : affine_map) : A := axc1 m * ayc2 m - axc2 m * ayc1 m.

(* quad_affine.py:83-98. The arguments are not used; the result is a scalar.  When
   detjk = 0 numpy's 1/detjk is inf with a warning, not an exception; here the
   reciprocal is only meaningful when detjk <> 0. *)
Definition affine_jacobian (m : affine_map) (xi eta : list A) : list A :=
  [nabs (affine_detjk m)].

(* quad_affine.py:100-123, one entry *)
Definition affine_grad1 (m : affine_map) (gx gy : A) : A * A :=
  let rec_detjk := n1 / affine_detjk m in
  ((ayc2 m * gx - ayc1 m * gy) * rec_detjk,
   ((- axc2 m) * gx + axc1 m * gy) * rec_detjk).

(* quad_affine.py:143-155 *)
Definition geo_data (m : affine_map) : list (list A) :=
  [ [axc1 m * axc1 m; n2 * axc1 m * ayc1 m; ayc1 m * ayc1 m];
    [axc1 m * axc2 m; ayc1 m * axc2 m + axc1 m * ayc2 m; ayc1 m * ayc2 m];
    [axc2 m * axc2 m; n2 * axc2 m * ayc2 m; ayc2 m * ayc2 m] ].

Definition ij (M : list (list A)) (i j : nat) : A := nth j (nth i M []) n0.

Definition det3 (M : list (list A)) : A :=
  ij M 0 0 * (ij M 1 1 * ij M 2 2 - ij M 1 2 * ij M 2 1)
  - ij M 0 1 * (ij M 1 0 * ij M 2 2 - ij M 1 2 * ij M 2 0)
  + ij M 0 2 * (ij M 1 0 * ij M 2 1 - ij M 1 1 * ij M 2 0).

(* quad_affine.py:158: numpy.linalg.solve(GeoData, identity(3)).  Library call,
   modelled by the adjugate formula; LinAlgError iff the matrix is singular. *)
Definition inv3 (M : list (list A)) : result (list (list A)) :=
  let d := det3 M in
  if neqb d n0 then Err LinAlgError
  else Ok
    [ [ (ij M 1 1 * ij M 2 2 - ij M 1 2 * ij M 2 1) / d;
        (ij M 0 2 * ij M 2 1 - ij M 0 1 * ij M 2 2) / d;
        (ij M 0 1 * ij M 1 2 - ij M 0 2 * ij M 1 1) / d ];
      [ (ij M 1 2 * ij M 2 0 - ij M 1 0 * ij M 2 2) / d;
        (ij M 0 0 * ij M 2 2 - ij M 0 2 * ij M 2 0) / d;
        (ij M 0 2 * ij M 1 0 - ij M 0 0 * ij M 1 2) / d ];
      [ (ij M 1 0 * ij M 2 1 - ij M 1 1 * ij M 2 0) / d;
        (ij M 0 1 * ij M 2 0 - ij M 0 0 * ij M 2 1) / d;
        (ij M 0 0 * ij M 1 1 - ij M 0 1 * ij M 1 0) / d ] ].

(* quad_affine.py:165-172, one entry *)
Definition affine_second1 (sol : list (list A)) (r20 r11 r02 : A) : A * A * A :=
  (ij sol 0 0 * r20 + ij sol 0 1 * r11 + ij sol 0 2 * r02,
   ij sol 1 0 * r20 + ij sol 1 1 * r11 + ij sol 1 2 * r02,
   ij sol 2 0 * r20 + ij sol 2 1 * r11 + ij sol 2 2 * r02).

(* ---------- QuadBilinear ---------- *)
Record bilinear_map := mkbil {
  bxc0 : A; bxc1 : A; bxc2 : A; bxc3 : A; byc0 : A; byc1 : A; byc2 : A; byc3 : A }.

(* quad_bilinear.py:37-66 *)
Definition bilinear_set_cell (c : cell) : bilinear_map :=
  let x0 := fst (v0 c) in let x1 := fst (v1 c) in let x2 := fst (v2 c) in let x3 := fst (v3 c) in
  let y0 := snd (v0 c) in let y1 := snd (v1 c) in let y2 := snd (v2 c) in let y3 := snd (v3 c) in
  {| bxc0 := (x0 + x1 + x2 + x3) * c025; bxc1 := (- x0 + x1 + x2 - x3) * c025;
     bxc2 := (- x0 - x1 + x2 + x3) * c025; bxc3 := (x0 - x1 + x2 - x3) * c025;
     byc0 := (y0 + y1 + y2 + y3) * c025; byc1 := (- y0 + y1 + y2 - y3) * c025;
     byc2 := (- y0 - y1 + y2 + y3) * c025; byc3 := (y0 - y1 + y2 - y3) * c025 |}.

(* quad_bilinear.py:68-83 *)
Definition bilinear_orig (m : bilinear_map) (xi eta : A) : pt :=
  (bxc0 m + bxc1 m * xi + bxc2 m * eta + bxc3 m * xi * eta,
   byc0 m + byc1 m * xi + byc2 m * eta + byc3 m * xi * eta).

(* quad_bilinear.py:98-99 and 127-128 *)
Definition bilinear_det (m : bilinear_map) (xi eta : A) : A :=
  (bxc1 m + bxc3 m * eta) * (byc2 m + byc3 m * xi)
  - (bxc2 m + bxc3 m * xi) * (byc1 m + byc3 m * eta).

(* quad_bilinear.py:85-101 on arrays *)
Definition bilinear_jacobian (m : bilinear_map) (xi eta : list A) : list A :=
  map2 (fun x e => nabs (bilinear_det m x e)) xi eta.

(* quad_bilinear.py:103-139, one entry; the reciprocal is meaningful when the
   determinant is nonzero (numpy returns inf/nan otherwise, no exception) *)
Definition bilinear_grad1 (m : bilinear_map) (xi eta gx gy : A) : A * A :=
  let rec_detjk := n1 / bilinear_det m xi eta in
  (((byc2 m + byc3 m * xi) * gx - (byc1 m + byc3 m * eta) * gy) * rec_detjk,
   ((- (bxc2 m + bxc3 m * xi)) * gx + (bxc1 m + bxc3 m * eta) * gy) * rec_detjk).

(* ---------- the common interface (fe_transformation_2d.py) ---------- *)
Inductive trafo := TAffine (m : affine_map) | TBilinear (m : bilinear_map).

Definition t_orig (t : trafo) (xi eta : A) : pt :=
  match t with TAffine m => affine_orig m xi eta | TBilinear m => bilinear_orig m xi eta end.

Definition t_jacobian (t : trafo) (xi eta : list A) : list A :=
  match t with
  | TAffine m => affine_jacobian m xi eta
  | TBilinear m => bilinear_jacobian m xi eta
  end.

Definition t_grad1 (t : trafo) (xi eta gx gy : A) : A * A :=
  match t with
  | TAffine m => affine_grad1 m gx gy
  | TBilinear m => bilinear_grad1 m xi eta gx gy
  end.

(* One row: the arrays xi, eta, gx, gy of equal length. *)
Fixpoint grad_row (t : trafo) (xi eta gx gy : list A) : list (A * A) :=
  match xi, eta, gx, gy with
  | x :: xs, e :: es, a :: ga, b :: gb => t_grad1 t x e a b :: grad_row t xs es ga gb
  | _, _, _, _ => []
  end.

(* get_orig_from_ref_derivative: quad_affine.py:100-123, quad_bilinear.py:103-139 *)
Definition t_derivative (t : trafo) (gx gy : list (list A)) (xi eta : list A)
  : list (list A) * list (list A) :=
  let rows := map2 (grad_row t xi eta) gx gy in
  (map (map fst) rows, map (map snd) rows).

Fixpoint second_row (sol : list (list A)) (a b c : list A) : list (A * A * A) :=
  match a, b, c with
  | x :: a', y :: b', z :: c' => affine_second1 sol x y z :: second_row sol a' b' c'
  | _, _, _ => []
  end.
Fixpoint map3 {X Y Z W} (f : X -> Y -> Z -> W) (a : list X) (b : list Y) (c : list Z) : list W :=
  match a, b, c with
  | x :: a', y :: b', z :: c' => f x y z :: map3 f a' b' c'
  | _, _, _ => []
  end.

(* get_orig_from_ref_second_derivative: quad_affine.py:125-174, quad_bilinear.py:141-160;
   result (xx, xy, yy) *)
Definition t_second (t : trafo) (gxx gxy gyy : list (list A))
  : result (list (list A) * list (list A) * list (list A)) :=
  match t with
  | TBilinear _ => Ok (gxx, gxy, gyy)
  | TAffine m =>
      do sol <- inv3 (geo_data m);
      let rows := map3 (second_row sol) gxx gxy gyy in
      Ok (map (map (fun r => fst (fst r))) rows,
          map (map (fun r => snd (fst r))) rows,
          map (map snd) rows)
  end.

End Transform.
Arguments pt : clear implicits.
Arguments cell : clear implicits.
Arguments trafo : clear implicits.
Arguments affine_map : clear implicits.
Arguments bilinear_map : clear implicits.
Arguments mkcell {A} v0 v1 v2 v3.
Arguments v0 {A} c. Arguments v1 {A} c. Arguments v2 {A} c. Arguments v3 {A} c.
