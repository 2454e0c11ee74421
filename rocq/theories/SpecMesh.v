(* Contracts of the external functions used by the geometry, and the geometric
   notions its properties are stated in. *)
From Coq Require Import String ZArith Reals List Lra Sorted Permutation.
From Verif Require Import Num Py Transform Geometry SpecGeom.
Import ListNotations.
Local Open Scope R_scope.

(* t is the polar angle, in (-PI, PI], of the vector (x, y) *)
Definition is_angle (x y t : R) : Prop :=
  - PI < t <= PI /\ x = sqrt (x * x + y * y) * cos t /\ y = sqrt (x * x + y * y) * sin t.
(* ks lists the indices of l by increasing value *)
Definition sorts (l : list R) (ks : list nat) : Prop :=
  Permutation ks (seq 0 (length l)) /\ StronglySorted Rle (map (fun k => nth k l 0) ks).
(* numpy.arctan2 and numpy.argsort *)
Record numpy_ok (e : numpy R) : Prop := {
  arctan2_ok : forall x y, x <> 0 \/ y <> 0 -> is_angle x y (np_arctan2 e y x);
  argsort_ok : forall l, sorts l (np_argsort e l)
}.

Definition rotations (c : cell R) : list (cell R) :=
  [c; mkcell (v1 c) (v2 c) (v3 c) (v0 c); mkcell (v2 c) (v3 c) (v0 c) (v1 c); mkcell (v3 c) (v0 c) (v1 c) (v2 c)].
(* The axis-parallel rectangle, from its lower left corner, anticlockwise *)
Definition rect (a b c d : R) : cell R := mkcell (a, c) (b, c) (b, d) (a, d).
Definition interior (c : cell R) (p : point) : Prop :=
  0 < cross (v0 c) (v1 c) p /\ 0 < cross (v1 c) (v2 c) p /\ 0 < cross (v2 c) (v3 c) p /\ 0 < cross (v3 c) (v0 c) p.

(* A one-dimensional sample of [0, 1] *)
Definition in_unit (l : list R) : Prop := forall t, In t l -> 0 <= t <= 1.
(* Latin hypercube: each of the n equal parts of [0, 1) holds exactly one entry *)
Definition latin (n : nat) (l : list R) : Prop :=
  length l = n /\ forall k, (k < n)%nat ->
    exists! i, (i < n)%nat /\ INR k / INR n <= nth i l 0 < (INR k + 1) / INR n.
Definition sampler_ok (lhs1 : nat -> nat -> list R) : Prop :=
  forall k n, length (lhs1 k n) = n /\ in_unit (lhs1 k n).

(* Rows in strictly increasing lexicographic order *)
Fixpoint lex_lt (p q : list R) : Prop :=
  match p, q with
  | a :: p', b :: q' => a < b \/ (a = b /\ lex_lt p' q')
  | [], _ :: _ => True
  | _, [] => False
  end.
(* p lies on the segment from a to b *)
Definition on_segment (a b p : point) : Prop := exists t, 0 <= t <= 1 /\ p = seg a b t.

(* ---------- what a mesh file contains ---------- *)
(* vertex k of the file *)
Definition vertex (m : mesh_file R) (k : Z) (p : list R) : Prop :=
  (0 <= k)%Z /\ nth_error (mf_points m) (Z.to_nat k) = Some p.
(* the rows of all blocks of a kind, in file order *)
Definition rows_of (m : mesh_file R) (kind : string) : list (list Z) :=
  concat (map b_rows (filter (fun b => String.eqb (b_kind b) kind) (mf_blocks m))).
Definition has_block (m : mesh_file R) (kind : string) : Prop := exists b, In b (mf_blocks m) /\ b_kind b = kind.
Definition edges_of (m : mesh_file R) (edges : list (list R * list R)) : Prop :=
  has_block m "line" /\
  Forall2 (fun row ab => exists k l, row = [k; l] /\ vertex m k (fst ab) /\ vertex m l (snd ab)) (rows_of m "line") edges.
Definition point_of (p : list R) : point := (nth 0 p 0, nth 1 p 0).
Definition quads_of (m : mesh_file R) (quads : list (cell R)) : Prop :=
  has_block m "quad" /\
  Forall2 (fun row c => exists k0 k1 k2 k3 p0 p1 p2 p3, row = [k0; k1; k2; k3] /\
     vertex m k0 p0 /\ vertex m k1 p1 /\ vertex m k2 p2 /\ vertex m k3 p3 /\
     c = mkcell (point_of p0) (point_of p1) (point_of p2) (point_of p3)) (rows_of m "quad") quads.
(* the references of the first block of the file *)
Definition first_refs (m : mesh_file R) (tags : list Z) : Prop := exists b r, mf_blocks m = b :: r /\ b_refs b = tags.
Definition spatial (m : mesh_file R) : Prop := forall p, In p (mf_points m) -> length p = 3%nat.
(* The template of write_vtk: internal.vtk or external.vtk in the output folder *)
Definition template_file (g : geom R) : string :=
  (g_folder g ++ "/" ++ if String.eqb (g_method g) "internal" then "internal.vtk" else "external.vtk")%string.
(* First two coordinates of all points of a dictionary by tag *)
Definition plane_points (raw : list (Z * list (list R))) : list (Z * list (R * R)) := map (fun tp => (fst tp, map point_of (snd tp))) raw.
