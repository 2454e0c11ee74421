(* Geometric specifications, written without the helpers of the model. *)
From Coq Require Import String ZArith Reals List Lra.
From Coquelicot Require Import Coquelicot.
From Verif Require Import Basis Transform Cell.
Import ListNotations.
Local Open Scope R_scope.

Definition point := (R * R)%type.
(* Twice the signed area of the triangle p q r *)
Definition cross (p q r : point) : R :=
  (fst q - fst p) * (snd r - snd p) - (snd q - snd p) * (fst r - fst p).
(* The boundary v0 v1 v2 v3 turns strictly left at each vertex *)
Definition convex_ccw (c : cell R) : Prop :=
  0 < cross (v0 c) (v1 c) (v2 c) /\ 0 < cross (v1 c) (v2 c) (v3 c) /\
  0 < cross (v2 c) (v3 c) (v0 c) /\ 0 < cross (v3 c) (v0 c) (v1 c).
Definition reversed (c : cell R) : cell R := mkcell (v3 c) (v2 c) (v1 c) (v0 c).
(* Strictly convex, in either orientation *)
Definition strictly_convex (c : cell R) : Prop := convex_ccw c \/ convex_ccw (reversed c).
(* Area of a polygon without self-intersection: shoelace formula *)
Definition area (c : cell R) : R :=
  let t p q := fst p * snd q - fst q * snd p in
  Rabs (t (v0 c) (v1 c) + t (v1 c) (v2 c) + t (v2 c) (v3 c) + t (v3 c) (v0 c)) / 2.
Definition parallelogram (c : cell R) : Prop :=
  fst (v0 c) + fst (v2 c) = fst (v1 c) + fst (v3 c) /\ snd (v0 c) + snd (v2 c) = snd (v1 c) + snd (v3 c).
(* Point at parameter t of the segment from p to q *)
Definition seg (p q : point) (t : R) : point :=
  (fst p + t * (fst q - fst p), snd p + t * (snd q - snd p)).
(* Determinant of the matrix of partial derivatives of a map of the plane *)
Definition JacDet (F : R -> R -> point) (x y : R) : R :=
  Derive (fun t => fst (F t y)) x * Derive (fun s => snd (F x s)) y
  - Derive (fun s => fst (F x s)) y * Derive (fun t => snd (F t y)) x.
Definition in_square (x y : R) : Prop := -1 <= x <= 1 /\ -1 <= y <= 1.
(* p is a convex combination of the four vertices *)
Definition in_hull (c : cell R) (p : point) : Prop :=
  exists a b g d, 0 <= a /\ 0 <= b /\ 0 <= g /\ 0 <= d /\ a + b + g + d = 1 /\
    fst p = a * fst (v0 c) + b * fst (v1 c) + g * fst (v2 c) + d * fst (v3 c) /\
    snd p = a * snd (v0 c) + b * snd (v1 c) + g * snd (v2 c) + d * snd (v3 c).
(* p is on the left of, or on, each directed edge *)
Definition in_cell (c : cell R) (p : point) : Prop :=
  0 <= cross (v0 c) (v1 c) p /\ 0 <= cross (v1 c) (v2 c) p /\
  0 <= cross (v2 c) (v3 c) p /\ 0 <= cross (v3 c) (v0 c) p.

(* The reference-to-physical map named by fe_transformation_type, by its vertices:
   affine through vertices 0, 1, 3; bilinear by the four shape functions. *)
Definition RefMap (name : string) (c : cell R) (x y : R) : point :=
  if String.eqb name "affine" then
    (fst (v0 c) + (1 + x) / 2 * (fst (v1 c) - fst (v0 c)) + (1 + y) / 2 * (fst (v3 c) - fst (v0 c)),
     snd (v0 c) + (1 + x) / 2 * (snd (v1 c) - snd (v0 c)) + (1 + y) / 2 * (snd (v3 c) - snd (v0 c)))
  else
    let N0 := (1 - x) * (1 - y) / 4 in let N1 := (1 + x) * (1 - y) / 4 in
    let N2 := (1 + x) * (1 + y) / 4 in let N3 := (1 - x) * (1 + y) / 4 in
    (N0 * fst (v0 c) + N1 * fst (v1 c) + N2 * fst (v2 c) + N3 * fst (v3 c),
     N0 * snd (v0 c) + N1 * snd (v1 c) + N2 * snd (v2 c) + N3 * snd (v3 c)).

(* The documented names of test-function families *)
Definition family_of (s : string) : option family :=
  if orb (String.eqb s "legendre") (String.eqb s "jacobi") then Some FLegendre
  else if String.eqb s "legendre_special" then Some FLegendreSpecial
  else if String.eqb s "chebyshev_2" then Some FChebyshev2
  else if String.eqb s "jacobi_plain" then Some FJacobiPlain else None.

(* A configuration and cell the documentation allows *)
Record accepted (cf : config) (c : cell R) : Prop := {
  ac_cell : cf_cell_type cf = "quadrilateral"%string;
  ac_fe : (1 < cf_fe_order cf < 1000)%Z;
  ac_quad : (3 <= cf_quad_order cf <= 9999)%Z;
  ac_fam : In (cf_fe_type cf) ["legendre"; "jacobi"; "legendre_special"; "chebyshev_2"; "jacobi_plain"]%string;
  ac_qt : In (cf_quad_type cf) ["gauss-legendre"; "gauss-jacobi"]%string;
  ac_tr : cf_trafo cf = "bilinear"%string \/
          cf_trafo cf = "affine"%string /\ cross (v0 c) (v1 c) (v3 c) <> 0
}.

