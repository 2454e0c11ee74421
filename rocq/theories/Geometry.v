(* Geometry: fastvpinns/Geometry/geometry_2d.py.

   External libraries are parameters: numpy's arctan2 and argsort, the Latin
   hypercube sampler of pyDOE, the meshio readers/writers and gmsh.  The contracts
   assumed of them are stated where theorems need them (SpecMesh.v). *)
From Coq Require Import String Ascii ZArith List Bool Arith.
From Verif Require Import Num Py Jacobi Quadrature Basis Transform Space.
Import ListNotations.

Section Geometry.
Context {A : Type} `{Num A}.
Local Open Scope num_scope.

(* ---------- anticlockwise ordering ---------- *)
Record numpy := { np_arctan2 : A -> A -> A; np_argsort : list A -> list nat }.

Definition vertices (c : cell A) : list (A * A) := [v0 c; v1 c; v2 c; v3 c].
(* geometry_2d.py:140-147 and 280-287, one iteration *)
Definition sort_cell (e : numpy) (c : cell A) : result (cell A) :=
  let pts := vertices c in
  let cx := vmean (map fst pts) in let cy := vmean (map snd pts) in
  let angles := map (fun p => np_arctan2 e (snd p - cy) (fst p - cx)) pts in
  match map (fun k => nth k pts (n0, n0)) (np_argsort e angles) with
  | [a; b; c; d] => Ok (mkcell a b c d)
  | _ => Err ValueError
  end.

(* ---------- the object ---------- *)
Record geom := {
  g_method : string; g_ntx : Z; g_nty : Z; g_folder : string; g_optimized : bool;
  g_limits : option ((A * A) * (A * A));       (* x_limits, y_limits *)
  g_file : option string                        (* mesh_file_name *)
}.
(* geometry_2d.py:39-93 *)
Definition make_geometry (mesh_type method : string) (ntx nty : Z) (folder : string) (opt : bool) : result geom :=
  if negb (orb (String.eqb method "internal") (String.eqb method "external")) then Err ValueError
  else if negb (String.eqb mesh_type "quadrilateral") then Err ValueError
  else Ok {| g_method := method; g_ntx := ntx; g_nty := nty; g_folder := folder; g_optimized := opt; g_limits := None; g_file := None |}.

(* numpy.linspace with an integer count *)
Definition np_linspace (lo hi : A) (num : Z) : result (list A) :=
  if (num <? 0)%Z then Err ValueError else Ok (linspace lo hi (Z.to_nat num)).

(* ---------- internal mesh ---------- *)
(* geometry_2d.py:264-273 *)
Definition grid_cells (x y : list A) (nx ny : Z) : list (cell A) :=
  concat (map (fun i => map (fun j =>
      let xa := nth i x n0 in let xb := nth (i + 1) x n0 in
      let ya := nth j y n0 in let yb := nth (j + 1) y n0 in
      mkcell (xa, ya) (xb, ya) (xb, yb) (xa, yb))
    (seq 0 (Z.to_nat ny))) (seq 0 (Z.to_nat nx))).

(* geometry_2d.py:290, meshio.Mesh(points=cells.reshape(-1,2), cells=[("quad", cells.reshape(-1,4))]) *)
Record mesh_object := { mo_points : list (A * A); mo_quads : list (list A) }.
Definition mesh_of_cells (cells : list (cell A)) : mesh_object :=
  {| mo_points := concat (map vertices cells);
     mo_quads := concat (map (fun c => [[fst (v0 c); snd (v0 c); fst (v1 c); snd (v1 c)];
                                        [fst (v2 c); snd (v2 c); fst (v3 c); snd (v3 c)]]) cells) |}.

(* int(num_boundary_points / 4), geometry_2d.py:296; int() truncates towards zero.
   See FloatFacts.v for the float division. *)
Definition per_side (num : Z) : Z := Z.quot num 4.
(* geometry_2d.py:298-317; [lhs1 n] is the flattened result of lhs(1, n) *)
Definition temp_bd_func (lhs1 : nat -> list A) (start stop : A) (n : nat) : list A :=
  map (fun t => t * (stop - start) + start) (lhs1 n).
(* numpy.ones(n) * v *)
Definition np_full (n : Z) (v : A) : result (list A) :=
  if (n <? 0)%Z then Err ValueError else Ok (repeat v (Z.to_nat n)).
(* numpy.vstack([x, y]).T *)
Definition stack_points (x y : list A) : result (list (A * A)) :=
  if Nat.eqb (length x) (length y) then Ok (combine x y) else Err ValueError.
(* geometry_2d.py:320-337; [lhs1 k] is the k-th call of the sampler *)
Definition internal_boundary (lhs1 : nat -> nat -> list A) (xl yl : A * A) (num : Z) : result (bdict A) :=
  let n := per_side num in let m := Z.to_nat n in
  do yb <- np_full n (fst yl);
  do bottom <- stack_points (temp_bd_func (lhs1 0%nat) (fst xl) (snd xl) m) yb;
  do xr <- np_full n (snd xl);
  do rgt <- stack_points xr (temp_bd_func (lhs1 1%nat) (fst yl) (snd yl) m);
  do yt <- np_full n (snd yl);
  do top <- stack_points (temp_bd_func (lhs1 2%nat) (fst xl) (snd xl) m) yt;
  do xf <- np_full n (fst xl);
  do lft <- stack_points xf (temp_bd_func (lhs1 3%nat) (fst yl) (snd yl) m);
  Ok [(1000, bottom); (1001, rgt); (1002, top); (1003, lft)]%Z.

(* geometry_2d.py:226-346 without the vtk file (see below) *)
Definition generate_quad_mesh_internal (e : numpy) (lhs1 : nat -> nat -> list A)
    (xl yl : A * A) (nx ny num : Z) : result (list (cell A) * mesh_object * bdict A) :=
  do x <- np_linspace (fst xl) (snd xl) (nx + 1);
  do y <- np_linspace (fst yl) (snd yl) (ny + 1);
  do cells <- mapM (sort_cell e) (grid_cells x y nx ny);
  do bd <- internal_boundary lhs1 xl yl num;
  Ok (cells, mesh_of_cells cells, bd).

(* ---------- external mesh ---------- *)
(* What meshio returns for a .mesh file: points and the cell blocks in file order,
   each with its references (cell_data["medit:ref"]). *)
Record block := { b_kind : string; b_rows : list (list Z); b_refs : list Z }.
Record mesh_file := { mf_points : list (list A); mf_blocks : list block }.

(* mesh.cells_dict[kind] *)
Definition cells_dict (m : mesh_file) (kind : string) : result (list (list Z)) :=
  match filter (fun b => String.eqb (b_kind b) kind) (mf_blocks m) with
  | [] => Err KeyError
  | bs => Ok (concat (map b_rows bs))
  end.
(* numpy integer indexing: negative indices count from the end *)
Definition np_index {B} (l : list B) (k : Z) : result B :=
  let n := Z.of_nat (length l) in
  let k' := if (k <? 0)%Z then (k + n)%Z else k in
  if ((k' <? 0) || (n <=? k'))%Z then Err IndexError
  else match nth_error l (Z.to_nat k') with Some b => Ok b | None => Err IndexError end.
Definition xy (p : list A) : A * A := (nth 0 p n0, nth 1 p n0).
(* mesh.points[cells][:, :, 0:2], one cell *)
Definition quad_points (m : mesh_file) (row : list Z) : result (cell A) :=
  do ps <- mapM (np_index (mf_points m)) row;
  match ps with
  | [a; b; c; d] => Ok (mkcell (xy a) (xy b) (xy c) (xy d))
  | _ => Err ValueError
  end.
(* mesh.points[boundary_edges], one edge *)
Definition line_points (m : mesh_file) (row : list Z) : result (list A * list A) :=
  do ps <- mapM (np_index (mf_points m)) row;
  match ps with
  | [a; b] => Ok (a, b)
  | _ => Err ValueError
  end.

(* numpy.linspace(p1, p2, m + 1) for points, m >= 1 *)
Definition linspace_points (p1 p2 : list A) (m : nat) : list (list A) :=
  map (fun k => map2 (fun a b => a + nofnat k * ((b - a) / nofnat m)) p1 p2) (seq 0 (m + 1)).
(* geometry_2d.py:175-189, the new points of one edge; pow(2, L) + 1 is not an
   integer for L < 0 *)
Definition edge_points (lhs2 : nat -> list (A * A)) (method : string) (level : Z) (p1 p2 : list A) : result (list (list A)) :=
  if String.eqb method "uniform" then
    if (level <? 0)%Z then Err TypeError else Ok (linspace_points p1 p2 (2 ^ Z.to_nat level))
  else if String.eqb method "lhs" then
    if (level <? 0)%Z then Err TypeError
    else Ok (map (fun t => [fst t * (nth 0 p2 n0 - nth 0 p1 n0) + nth 0 p1 n0;
                            snd t * (nth 1 p2 n0 - nth 1 p1 n0) + nth 1 p1 n0]) (lhs2 (2 ^ Z.to_nat level + 1)%nat))
  else Err ValueError.

(* lexicographic order of rows *)
Fixpoint row_leb (p q : list A) : bool :=
  match p, q with
  | [], _ => true
  | _, [] => false
  | a :: p', b :: q' => if nltb a b then true else if nltb b a then false else row_leb p' q'
  end.
Fixpoint insert_row (p : list A) (l : list (list A)) : list (list A) :=
  match l with
  | [] => [p]
  | q :: r => if row_leb p q then (if row_leb q p then l else p :: l) else q :: insert_row p r
  end.
(* numpy.unique(rows, axis=0) *)
Definition unique_rows (l : list (list A)) : list (list A) := fold_right insert_row [] l.

(* geometry_2d.py:171-198; [lhs2 i] is the sampler call of edge i *)
Fixpoint boundary_loop (lhs2 : nat -> nat -> list (A * A)) (method : string) (level : Z) (tags : list Z)
    (i : nat) (edges : list (list A * list A)) (d : list (Z * list (list A))) : result (list (Z * list (list A))) :=
  match edges with
  | [] => Ok d
  | (p1, p2) :: r =>
      do new <- edge_points (lhs2 i) method level p1 p2;
      do tag <- np_index tags (Z.of_nat i);
      let d' := match dget Z.eqb d tag with
                | Ok prev => dset Z.eqb d tag (prev ++ new)
                | Err _ => dset Z.eqb d tag new
                end in
      boundary_loop lhs2 method level tags (S i) r d'
  end.

(* pathlib: the suffix of a file name (last path component) *)
Fixpoint last_dot (s : string) (i : nat) (best : option nat) : option nat :=
  match s with
  | EmptyString => best
  | String c r => last_dot r (S i) (if Ascii.eqb c "." then Some i else best)
  end.
Definition suffix (name : string) : string :=
  match last_dot name 0 None with
  | Some i => if andb (Nat.ltb 0 i) (Nat.ltb i (String.length name - 1))
              then substring i (String.length name - i) name else EmptyString
  | None => EmptyString
  end.

(* geometry_2d.py:95-224 without the vtk file; [file] is what meshio.read gives;
   refinement_level is not used by the code.  Line 160 reshapes the boundary
   coordinates to rows of 3 numbers. *)
Definition read_mesh (e : numpy) (lhs2 : nat -> nat -> list (A * A)) (file : string -> result mesh_file)
    (name : string) (level : Z) (method : string) (refinement_level : Z)
    : result (list (cell A) * list (Z * list (list A))) :=
  if negb (String.eqb (suffix name) ".mesh") then Err ValueError
  else
    do m <- file name;
    do quads <- cells_dict m "quad";
    do cells0 <- mapM (quad_points m) quads;
    do cells <- mapM (sort_cell e) cells0;
    do lines <- cells_dict m "line";
    do edges <- mapM (line_points m) lines;
    do _ <- (if Nat.eqb (fold_right (fun pq s => (length (fst pq) + length (snd pq) + s)%nat) 0%nat edges mod 3) 0
             then Ok tt else Err ValueError);
    do refs <- np_index (map b_refs (mf_blocks m)) 0;
    do d <- boundary_loop lhs2 method level refs 0 edges [];
    Ok (cells, map (fun tp => (fst tp, unique_rows (snd tp))) d).

(* fespace2d.py:359-361 uses the first two coordinates of each boundary point *)
Definition boundary_xy (d : list (Z * list (list A))) : bdict A :=
  map (fun tp => (fst tp, map xy (snd tp))) d.

(* ---------- test points ---------- *)
(* geometry_2d.py:418-447; [vtk] is meshio.read of external.vtk *)
Definition get_test_points (g : geom) (vtk : result (list (list A))) : result (list (A * A)) :=
  if String.eqb (g_method g) "internal" then
    match g_limits g with
    | None => Err TypeError
    | Some (xl, yl) =>
        do x <- np_linspace (fst xl) (snd xl) (g_ntx g);
        do y <- np_linspace (fst yl) (snd yl) (g_nty g);
        let (gx, gy) := meshgrid_flat x y in stack_points gx gy
    end
  else do pts <- vtk; Ok (map xy pts).

(* ---------- files ---------- *)
Definition files := list (string * string).           (* path, content *)
Definition newline : string := String (ascii_of_nat 10) EmptyString.
(* the lines of a text file, each with its newline; only the newline character
   ends a line (no translation of carriage returns) *)
Fixpoint lines (s : string) : list string :=
  match s with
  | EmptyString => []
  | String c r =>
      if Ascii.eqb c (ascii_of_nat 10) then String c EmptyString :: lines r
      else match lines r with
           | [] => [String c EmptyString]
           | l :: ls => String c l :: ls
           end
  end.
(* "POINT_DATA" in line.strip(); the searched word has no white space *)
Definition has_point_data (line : string) : bool :=
  match index 0 "POINT_DATA" line with Some _ => true | None => false end.
Fixpoint upto_point_data (ls : list string) : list string :=
  match ls with
  | [] => []
  | l :: r => l :: (if has_point_data l then [] else upto_point_data r)
  end.
Definition catl (l : list string) : string := fold_right String.append EmptyString l.
(* one data array: lines 489-493; [fmt] is the formatting of numpy.savetxt,
   with its newline *)
Definition vtk_column (fmt : A -> string) (name : string) (col : list A) : string :=
  catl (["SCALARS "%string; name; " float"%string; newline; "LOOKUP_TABLE default"%string; newline]
          ++ map fmt col ++ [newline])%list.
Definition template_path (g : geom) : string :=
  (g_folder g ++ "/" ++ (if String.eqb (g_method g) "internal" then "internal.vtk" else "external.vtk"))%string.
(* geometry_2d.py:449-493; the solution has [cols] columns; returns the outcome and
   the files afterwards *)
Definition write_vtk (fmt : A -> string) (g : geom) (fs : files) (solution : list (list A)) (cols : nat)
    (out : string) (names : list string) : result unit * files :=
  match dget String.eqb fs (template_path g) with
  | Err _ => (Err FileNotFoundError, fs)
  | Ok content =>
      if negb (Nat.eqb cols (length names)) then (Err ValueError, fs)
      else
        let head := catl (upto_point_data (lines content)) in
        let body := catl (map (fun i => vtk_column fmt (nth i names EmptyString) (map (fun row => nth i row n0) solution))
                              (seq 0 cols)) in
        (Ok tt, dset String.eqb fs out (head ++ body)%string)
  end.

(* geometry_2d.py:348-416: [vtk] is the content gmsh and meshio produce.  An internal
   geometry needs the limits, an external one a readable mesh file (meshio.read of
   "None" fails; its ReadError is represented by FileNotFoundError). *)
Definition generate_vtk_for_test (g : geom) (vtk : string) (fs : files) : result unit * files :=
  let ok := (Ok tt, dset String.eqb fs (template_path g) vtk) in
  if String.eqb (g_method g) "internal" then
    match g_limits g with None => (Err TypeError, fs) | Some _ => ok end
  else match g_file g with None => (Err FileNotFoundError, fs) | Some _ => ok end.

(* Calls on one geometry object together with the file system *)
Definition set_limits (g : geom) (l : (A * A) * (A * A)) : geom :=
  {| g_method := g_method g; g_ntx := g_ntx g; g_nty := g_nty g; g_folder := g_folder g;
     g_optimized := g_optimized g; g_limits := Some l; g_file := g_file g |}.
Definition set_file (g : geom) (name : string) : geom :=
  {| g_method := g_method g; g_ntx := g_ntx g; g_nty := g_nty g; g_folder := g_folder g;
     g_optimized := g_optimized g; g_limits := g_limits g; g_file := Some name |}.
(* geometry_2d.py:226-346 *)
Definition call_internal (e : numpy) (lhs1 : nat -> nat -> list A) (vtk : string) (g : geom) (fs : files)
    (xl yl : A * A) (nx ny num : Z) : result (list (cell A) * mesh_object * bdict A) * geom * files :=
  let g' := set_limits g (xl, yl) in
  match generate_quad_mesh_internal e lhs1 xl yl nx ny num with
  | Err x => (Err x, g', fs)
  | Ok r => if g_optimized g then (Ok r, g', fs)
            else let (x, fs') := generate_vtk_for_test g' vtk fs in ((do _ <- x; Ok r), g', fs')
  end.
(* geometry_2d.py:95-224 *)
Definition call_read (e : numpy) (lhs2 : nat -> nat -> list (A * A)) (file : string -> result mesh_file) (vtk : string)
    (g : geom) (fs : files) (name : string) (level : Z) (method : string) (refinement_level : Z)
    : result (list (cell A) * list (Z * list (list A))) * geom * files :=
  let g' := set_file g name in
  match read_mesh e lhs2 file name level method refinement_level with
  | Err x => (Err x, g', fs)
  | Ok r => let (x, fs') := generate_vtk_for_test g' vtk fs in ((do _ <- x; Ok r), g', fs')
  end.
End Geometry.
Arguments numpy A : clear implicits.
Arguments geom A : clear implicits.
Arguments mesh_object A : clear implicits.
Arguments mesh_file A : clear implicits.
