(* Properties C17-C24, C45-C48: meshes, boundary points, test points, files. *)
From Coq Require Import String ZArith List Arith Lia Reals Lra Sorted Permutation.
From Verif Require Import Num Py Transform Space Geometry SpecGeom SpecMesh TransformFacts TransformFacts2 AngleFacts MeshFacts FileFacts ExternalFacts.
Import ListNotations.
Local Open Scope R_scope.

(* C17 *)
Theorem C17_succeeds : forall e lhs1 x0 x1 y0 y1 nx ny num, numpy_ok e -> sampler_ok lhs1 -> (1 <= nx)%Z -> (1 <= ny)%Z -> (0 <= num)%Z ->
  x0 <> x1 -> y0 <> y1 -> exists r, generate_quad_mesh_internal e lhs1 (x0, x1) (y0, y1) nx ny num = Ok r.
Proof. intros. eexists. now apply internal_ok. Qed.
Theorem C17_tiling : forall e lhs1 x0 x1 y0 y1 nx ny num cells mo bd,
  numpy_ok e -> sampler_ok lhs1 -> (1 <= nx)%Z -> (1 <= ny)%Z -> (0 <= num)%Z ->
  generate_quad_mesh_internal e lhs1 (x0, x1) (y0, y1) nx ny num = Ok (cells, mo, bd) -> x0 < x1 -> y0 < y1 ->
  let n := Z.to_nat nx in let m := Z.to_nat ny in
  length cells = (n * m)%nat /\
  (* cell i * ny + j, from its lower left corner, anticlockwise *)
  (forall i j, (i < n)%nat -> (j < m)%nat -> forall d, nth (i * m + j) cells d =
     rect (x0 + INR i * (x1 - x0) / INR n) (x0 + (INR i + 1) * (x1 - x0) / INR n)
          (y0 + INR j * (y1 - y0) / INR m) (y0 + (INR j + 1) * (y1 - y0) / INR m)) /\
  (* cover, nothing outside, disjoint interiors, equal areas *)
  (forall p, x0 <= fst p <= x1 -> y0 <= snd p <= y1 -> exists c, In c cells /\ in_cell c p) /\
  (forall c p, In c cells -> in_cell c p -> x0 <= fst p <= x1 /\ y0 <= snd p <= y1) /\
  (forall k k' p d, (k < n * m)%nat -> (k' < n * m)%nat -> k <> k' -> interior (nth k cells d) p -> ~ interior (nth k' cells d) p) /\
  (forall c, In c cells -> convex_ccw c /\ parallelogram c /\ area c = (x1 - x0) * (y1 - y0) / (INR n * INR m)).
Proof.
  exact (fun e lhs1 x0 x1 y0 y1 nx ny num cells mo bd He Hs Hnx Hny Hnum Hr Hx Hy =>
    conj (tile_count e lhs1 x0 x1 y0 y1 nx ny num cells mo bd He Hs Hnx Hny Hnum Hr Hx Hy)
    (conj (tile_cell e lhs1 x0 x1 y0 y1 nx ny num cells mo bd He Hs Hnx Hny Hnum Hr Hx Hy)
    (conj (tile_cover e lhs1 x0 x1 y0 y1 nx ny num cells mo bd He Hs Hnx Hny Hnum Hr Hx Hy)
    (conj (tile_inside e lhs1 x0 x1 y0 y1 nx ny num cells mo bd He Hs Hnx Hny Hnum Hr Hx Hy)
    (conj (tile_disjoint e lhs1 x0 x1 y0 y1 nx ny num cells mo bd He Hs Hnx Hny Hnum Hr Hx Hy)
          (tile_area e lhs1 x0 x1 y0 y1 nx ny num cells mo bd He Hs Hnx Hny Hnum Hr Hx Hy)))))).
Qed.
(* neighbours share the end points of the common edge *)
Theorem C17_conforming : forall e lhs1 x0 x1 y0 y1 nx ny num cells mo bd,
  numpy_ok e -> sampler_ok lhs1 -> (1 <= nx)%Z -> (1 <= ny)%Z -> (0 <= num)%Z ->
  generate_quad_mesh_internal e lhs1 (x0, x1) (y0, y1) nx ny num = Ok (cells, mo, bd) -> x0 < x1 -> y0 < y1 ->
  let n := Z.to_nat nx in let m := Z.to_nat ny in let c i j := nth (i * m + j) cells unit_square in
  (forall i j, (i + 1 < n)%nat -> (j < m)%nat -> v1 (c i j) = v0 (c (i + 1)%nat j) /\ v2 (c i j) = v3 (c (i + 1)%nat j)) /\
  (forall i j, (i < n)%nat -> (j + 1 < m)%nat -> v3 (c i j) = v0 (c i (j + 1)%nat) /\ v2 (c i j) = v1 (c i (j + 1)%nat)).
Proof. exact tile_neighbours. Qed.
(* with limits given in decreasing order the cells are still anticlockwise *)
Theorem C17_reversed_limits : forall e lhs1 x0 x1 y0 y1 nx ny num cells mo bd,
  numpy_ok e -> sampler_ok lhs1 -> (1 <= nx)%Z -> (1 <= ny)%Z -> (0 <= num)%Z ->
  generate_quad_mesh_internal e lhs1 (x0, x1) (y0, y1) nx ny num = Ok (cells, mo, bd) -> x0 <> x1 -> y0 <> y1 ->
  length cells = (Z.to_nat nx * Z.to_nat ny)%nat /\ forall c, In c cells -> exists a b p q, a < b /\ p < q /\ c = rect a b p q.
Proof. exact tile_any_order. Qed.

(* C18 *)
Theorem C18_sides : forall lhs1 x0 x1 y0 y1 num, sampler_ok lhs1 -> (0 <= num)%Z ->
  let k := Z.to_nat (num / 4) in
  exists b r t l, internal_boundary lhs1 (x0, x1) (y0, y1) num = Ok [(1000, b); (1001, r); (1002, t); (1003, l)]%Z /\
    length b = k /\ length r = k /\ length t = k /\ length l = k /\
    (x0 <= x1 -> forall p, In p b \/ In p t -> x0 <= fst p <= x1) /\ (y0 <= y1 -> forall p, In p r \/ In p l -> y0 <= snd p <= y1) /\
    (forall p, In p b -> snd p = y0) /\ (forall p, In p r -> fst p = x1) /\ (forall p, In p t -> snd p = y1) /\ (forall p, In p l -> fst p = x0).
Proof. exact boundary_sides. Qed.
Theorem C18_stratified : forall lhs1 x0 x1 y0 y1 num, sampler_ok lhs1 -> (0 <= num)%Z -> (forall i n, latin n (lhs1 i n)) -> x0 < x1 -> y0 < y1 ->
  let k := Z.to_nat (num / 4) in
  exists b r t l, internal_boundary lhs1 (x0, x1) (y0, y1) num = Ok [(1000, b); (1001, r); (1002, t); (1003, l)]%Z /\
    (forall s j, In s [b; t] -> (j < k)%nat ->
       exists! q, (q < k)%nat /\ x0 + INR j / INR k * (x1 - x0) <= fst (nth q s (0, 0)) < x0 + (INR j + 1) / INR k * (x1 - x0)) /\
    (forall s j, In s [r; l] -> (j < k)%nat ->
       exists! q, (q < k)%nat /\ y0 + INR j / INR k * (y1 - y0) <= snd (nth q s (0, 0)) < y0 + (INR j + 1) / INR k * (y1 - y0)).
Proof. exact boundary_latin. Qed.
(* the mesh generator returns exactly these points *)
Theorem C18_returned : forall (e : numpy R) lhs1 x0 x1 y0 y1 nx ny num cells mo bd,
  generate_quad_mesh_internal e lhs1 (x0, x1) (y0, y1) nx ny num = Ok (cells, mo, bd) ->
  internal_boundary lhs1 (x0, x1) (y0, y1) num = Ok bd.
Proof. exact boundary_returned. Qed.
(* fewer than four boundary points give no boundary data at all *)
Theorem C18_too_few : forall lhs1 x0 x1 y0 y1 num bd, sampler_ok lhs1 -> (0 <= num < 4)%Z ->
  internal_boundary lhs1 (x0, x1) (y0, y1) num = Ok bd -> forall t pts, In (t, pts) bd -> pts = [].
Proof. exact boundary_too_few. Qed.

(* C19: point k of the edge from a to b is a + k / 2^L (b - a), coordinate by coordinate *)
Theorem C19_uniform : forall e lhs2 file name level rl m edges quads tags,
  (forall l, sorts l (np_argsort e l)) -> suffix name = ".mesh"%string -> file name = Ok m ->
  edges_of m edges -> quads_of m quads -> first_refs m tags -> (length edges <= length tags)%nat -> spatial m -> (0 <= level)%Z ->
  exists cells bd, read_mesh e lhs2 file name level "uniform" rl = Ok (cells, bd) /\
    NoDup (map fst bd) /\
    (forall t, In t (map fst bd) <-> exists j, (j < length edges)%nat /\ nth j tags 0%Z = t) /\
    (forall t rows, In (t, rows) bd -> StronglySorted lex_lt rows /\
       forall p, In p rows <-> exists j k, (j < length edges)%nat /\ nth j tags 0%Z = t /\ (k <= 2 ^ Z.to_nat level)%nat /\
         let (a, b) := nth j edges ([], []) in
         p = map2 (fun u v => u + INR k / 2 ^ Z.to_nat level * (v - u)) a b).
Proof. exact uniform_boundary. Qed.
(* every edge's end points are included *)
Theorem C19_ends : forall e lhs2 file name level rl m edges quads tags cells bd,
  (forall l, sorts l (np_argsort e l)) -> suffix name = ".mesh"%string -> file name = Ok m ->
  edges_of m edges -> quads_of m quads -> first_refs m tags -> (length edges <= length tags)%nat -> spatial m -> (0 <= level)%Z ->
  read_mesh e lhs2 file name level "uniform" rl = Ok (cells, bd) ->
  forall j a b, (j < length edges)%nat -> nth j edges ([], []) = (a, b) ->
  exists rows, In (nth j tags 0%Z, rows) bd /\ In a rows /\ In b rows.
Proof. exact uniform_ends. Qed.
Theorem C19_errors : forall e lhs2 file name level method rl m, (forall l, sorts l (np_argsort e l)) ->
  (suffix name <> ".mesh"%string -> @read_mesh R _ e lhs2 file name level method rl = Err ValueError) /\
  (suffix name = ".mesh"%string -> file name = Ok m -> ~ has_block m "quad" -> read_mesh e lhs2 file name level method rl = Err KeyError) /\
  (suffix name = ".mesh"%string -> file name = Ok m -> forall quads, quads_of m quads -> ~ has_block m "line" ->
     read_mesh e lhs2 file name level method rl = Err KeyError).
Proof.
  exact (fun e lhs2 file name level method rl m He => conj (wrong_suffix e lhs2 file name level method rl)
    (conj (fun Hn Hf => proj1 (missing_blocks e lhs2 file name level method rl m He Hn Hf))
          (fun Hn Hf => proj2 (missing_blocks e lhs2 file name level method rl m He Hn Hf)))).
Qed.

(* C20: holds for axis-parallel edges; on any other edge a sampled pair (s, t) gives a
   point of the edge only if s = t *)
Theorem C20_lhs_edge : forall lhs2 level p1 p2, (0 <= level)%Z -> exists l, edge_points lhs2 "lhs" level p1 p2 = Ok l /\
  map point_of l = map (fun st => box_point (point_of p1) (point_of p2) (fst st) (snd st)) (lhs2 (2 ^ Z.to_nat level + 1)%nat).
Proof. exact lhs_points. Qed.
Theorem C20_on_edge : forall a b s t, 0 <= s <= 1 -> 0 <= t <= 1 ->
  (fst a = fst b \/ snd a = snd b -> on_segment a b (box_point a b s t)) /\
  (fst a <> fst b -> snd a <> snd b -> (on_segment a b (box_point a b s t) <-> s = t)).
Proof. exact box_on_segment. Qed.
(* a whole run with a Latin hypercube sample *)
Theorem C20_lhs_refuted : forall e, (forall l, sorts l (np_argsort e l)) -> exists cells bd rows p,
  read_mesh e slanted_sample (fun _ => Ok slanted_file) "slanted.mesh" 0 "lhs" 0 = Ok (cells, bd) /\
  In (5%Z, rows) bd /\ In p rows /\ ~ on_segment (0, 0) (1, 1) (point_of p).
Proof. exact slanted_wrong. Qed.

(* C21 *)
Theorem C21_permutation : forall e c, (forall l, sorts l (np_argsort e l)) ->
  exists r, sort_cell e c = Ok r /\ Permutation (vertices r) (vertices c).
Proof. intros e c H. destruct (sort_cell_sorts e c H) as (r & E & P & _). now exists r. Qed.
Theorem C21_convex : forall e c0 c, numpy_ok e -> convex_ccw c0 -> Permutation (vertices c) (vertices c0) ->
  exists r, sort_cell e c = Ok r /\ In r (rotations c0) /\ convex_ccw r /\
    forall x y, in_square x y -> 0 < JacDet (RefMap "bilinear" r) x y.
Proof. exact sort_convex_jacobian. Qed.
Theorem C21_independent : forall e c c', (forall l, sorts l (np_argsort e l)) -> Permutation (vertices c) (vertices c') -> NoDup (vertices c) ->
  let gx := (fst (v0 c) + fst (v1 c) + fst (v2 c) + fst (v3 c)) / 4 in
  let gy := (snd (v0 c) + snd (v1 c) + snd (v2 c) + snd (v3 c)) / 4 in
  (forall p q, In p (vertices c) -> In q (vertices c) ->
     np_arctan2 e (snd p - gy) (fst p - gx) = np_arctan2 e (snd q - gy) (fst q - gx) -> p = q) ->
  sort_cell e c = sort_cell e c'.
Proof. exact (fun e c c' Hs P N Hd => sort_independent e c c' Hs P Hd N). Qed.
(* reading applies it to each cell of the file *)
Theorem C21_read : forall e lhs2 file name level rl m edges quads tags,
  (forall l, sorts l (np_argsort e l)) -> suffix name = ".mesh"%string -> file name = Ok m ->
  edges_of m edges -> quads_of m quads -> first_refs m tags -> (length edges <= length tags)%nat -> spatial m -> (0 <= level)%Z ->
  forall cells bd, read_mesh e lhs2 file name level "uniform" rl = Ok (cells, bd) ->
  Forall2 (fun c r => sort_cell e c = Ok r) quads cells.
Proof. exact read_cells. Qed.
Theorem C21_nonconvex_refuted : forall e, numpy_ok e -> exists r, sort_cell e dart = Ok r /\
  In r (rotations (mkcell (-10, 0) (10, 0) (1, 9) (0, 10))) /\ area dart = 10 /\ area r = 100.
Proof. exact dart_changed. Qed.

(* C22: the points are right, the connectivity is not *)
Theorem C22_points : forall (e : numpy R) lhs1 x0 x1 y0 y1 nx ny num cells mo bd,
  generate_quad_mesh_internal e lhs1 (x0, x1) (y0, y1) nx ny num = Ok (cells, mo, bd) ->
  forall c k d, (c < length cells)%nat -> (k < 4)%nat ->
  nth (c * 4 + k) (mo_points mo) d = nth k (vertices (nth c cells unit_square)) d.
Proof. exact mesh_points. Qed.
Theorem C22_connectivity_refuted : forall (e : numpy R) lhs1 x0 x1 y0 y1 nx ny num cells mo bd,
  generate_quad_mesh_internal e lhs1 (x0, x1) (y0, y1) nx ny num = Ok (cells, mo, bd) -> cells <> [] ->
  ~ exists idx : list (list nat), mo_quads mo = map (map INR) idx /\
      map (map (fun k => nth k (mo_points mo) (0, 0))) idx = map vertices cells.
Proof. exact connectivity_wrong. Qed.

(* C23 *)
Theorem C23_grid : forall (g : geom R) vtk xl yl, g_method g = "internal"%string -> g_limits g = Some (xl, yl) ->
  (0 <= g_ntx g)%Z -> (0 <= g_nty g)%Z ->
  let nx := Z.to_nat (g_ntx g) in let ny := Z.to_nat (g_nty g) in
  let coord (lo hi : R) n i := if Nat.eqb n 1 then lo else lo + INR i * (hi - lo) / (INR n - 1) in
  exists pts, get_test_points g vtk = Ok pts /\ length pts = (nx * ny)%nat /\
    forall i j, (i < nx)%nat -> (j < ny)%nat -> nth (j * nx + i) pts (0, 0) =
      (coord (fst xl) (snd xl) nx i, coord (fst yl) (snd yl) ny j).
Proof. exact test_points_internal. Qed.
Theorem C23_distinct : forall (g : geom R) vtk xl yl pts, g_method g = "internal"%string -> g_limits g = Some (xl, yl) ->
  (0 <= g_ntx g)%Z -> (0 <= g_nty g)%Z -> fst xl < snd xl -> fst yl < snd yl -> get_test_points g vtk = Ok pts ->
  NoDup pts /\ forall p, In p pts -> fst xl <= fst p <= snd xl /\ fst yl <= snd p <= snd yl.
Proof. exact test_points_distinct. Qed.
Theorem C23_too_early : forall (g : geom R) vtk, g_method g = "internal"%string -> g_limits g = None ->
  get_test_points g vtk = Err TypeError.
Proof. exact test_points_early. Qed.

(* C24 *)
Theorem C24_mismatch : forall (fmt : R -> string) g fs solution cols out names content,
  dget String.eqb fs (template_file g) = Ok content -> cols <> length names ->
  write_vtk fmt g fs solution cols out names = (Err ValueError, fs).
Proof. exact write_mismatch. Qed.
Theorem C24_content : forall (fmt : R -> string) g fs solution cols out names content,
  dget String.eqb fs (template_file g) = Ok content -> cols = length names ->
  exists head fs', write_vtk fmt g fs solution cols out names = (Ok tt, fs') /\
    (forall p, p <> out -> dget String.eqb fs' p = dget String.eqb fs p) /\
    dget String.eqb fs' out = Ok (head ++ catl (map (fun i =>
      "SCALARS " ++ nth i names "" ++ " float" ++ newline ++ "LOOKUP_TABLE default" ++ newline
      ++ catl (map fmt (map (fun row => nth i row 0) solution)) ++ newline) (seq 0 cols)))%string /\
    ((exists pre l post, lines content = (pre ++ l :: post)%list /\
        (forall x, In x pre -> ~ exists a b, x = (a ++ "POINT_DATA" ++ b)%string) /\
        (exists a b, l = (a ++ "POINT_DATA" ++ b)%string) /\ head = catl (pre ++ [l])%list) \/
     ((forall x, In x (lines content) -> ~ exists a b, x = (a ++ "POINT_DATA" ++ b)%string) /\ head = content)).
Proof. exact write_content. Qed.
Theorem C24_lines : forall s, catl (lines s) = s /\ forall l, In l (lines s) -> l <> ""%string /\
  forall a b, l = (a ++ newline ++ b)%string -> b = ""%string.
Proof. exact lines_spec. Qed.

(* C45 *)
Theorem C45_row_count_refuted : forall (fmt : R -> string) (g : geom R) fs out (a : R) k,
  exists fs', write_vtk fmt g ((template_file g, ("POINT_DATA 3" ++ newline)%string) :: fs) (repeat [a] k) 1 out ["u"%string] = (Ok tt, fs').
Proof. exact rows_unchecked. Qed.

(* C46: right when the edges come first ... *)
Theorem C46_edges_first : forall e lhs2 file name level rl m edges quads b r,
  (forall l, sorts l (np_argsort e l)) -> suffix name = ".mesh"%string -> file name = Ok m ->
  edges_of m edges -> quads_of m quads -> mf_blocks m = b :: r -> b_kind b = "line"%string -> (forall b', In b' r -> b_kind b' <> "line"%string) ->
  length (b_refs b) = length (b_rows b) -> spatial m -> (0 <= level)%Z ->
  forall cells bd, read_mesh e lhs2 file name level "uniform" rl = Ok (cells, bd) ->
  length edges = length (b_rows b) /\
  forall j u v, (j < length edges)%nat -> nth j edges ([], []) = (u, v) -> exists rows, In (nth j (b_refs b) 0%Z, rows) bd /\ In u rows /\ In v rows.
Proof. exact tags_first. Qed.
(* ... and wrong otherwise *)
Theorem C46_quads_first_refuted : forall e lhs2 tags, (forall l, sorts l (np_argsort e l)) -> length tags = 4%nat -> ~ In 77%Z tags ->
  let m := square_file [square_quads; square_lines tags] in
  edges_of m square_edges /\ quads_of m [square_cell] /\
  exists cells bd, read_mesh e lhs2 (fun _ => Ok m) "square.mesh" 0 "uniform" 0 = Ok (cells, bd) /\ map fst bd = [77%Z].
Proof. exact tag_order_refuted. Qed.

(* C47 *)
Theorem C47_planar_refuted : forall e lhs2 file name level method rl m edges quads, (forall l, sorts l (np_argsort e l)) ->
  suffix name = ".mesh"%string -> file name = Ok m -> edges_of m edges -> quads_of m quads ->
  (forall p, In p (mf_points m) -> length p = 2%nat) ->
  (length edges mod 3 <> 0)%nat -> read_mesh e lhs2 file name level method rl = Err ValueError.
Proof. exact planar_refused. Qed.
Theorem C47_refinement_ignored : forall (e : numpy R) lhs2 file name level method rl rl',
  @read_mesh R _ e lhs2 file name level method rl = read_mesh e lhs2 file name level method rl'.
Proof. exact level_ignored. Qed.

(* C48 *)
Theorem C48_internal : forall (e : numpy R) lhs1 vtk g fs xl yl nx ny num r g' fs', g_method g = "internal"%string -> g_optimized g = false ->
  call_internal e lhs1 vtk g fs xl yl nx ny num = (Ok r, g', fs') ->
  g_limits g' = Some (xl, yl) /\ template_file g' = template_file g /\ dget String.eqb fs' (template_file g) = Ok vtk /\
  (forall p, p <> template_file g -> dget String.eqb fs' p = dget String.eqb fs p).
Proof. exact internal_then_write. Qed.
Theorem C48_external : forall (e : numpy R) lhs2 file vtk g fs name level method rl r g' fs', g_method g = "external"%string ->
  call_read e lhs2 file vtk g fs name level method rl = (Ok r, g', fs') ->
  template_file g' = template_file g /\ dget String.eqb fs' (template_file g) = Ok vtk /\
  (forall p, p <> template_file g -> dget String.eqb fs' p = dget String.eqb fs p).
Proof. exact read_then_write. Qed.
Theorem C48_wrong_method : forall (e : numpy R) lhs1 lhs2 file vtk g fs,
  (g_method g = "internal"%string -> g_limits g = None -> forall name level method rl r g' fs',
     call_read e lhs2 file vtk g fs name level method rl <> (Ok r, g', fs')) /\
  (g_method g = "external"%string -> g_file g = None -> g_optimized g = false -> forall xl yl nx ny num r g' fs',
     call_internal e lhs1 vtk g fs xl yl nx ny num <> (Ok r, g', fs')).
Proof.
  exact (fun e lhs1 lhs2 file vtk g fs =>
    conj (fun Hm Hl name level method rl => wrong_reader e lhs2 file vtk g fs name level method rl Hm Hl)
         (fun Hm Hf Ho xl yl nx ny num => wrong_generator e lhs1 vtk g fs xl yl nx ny num Hm Hf Ho)).
Qed.
(* the optimized constructor option leaves write_vtk without its template *)
Theorem C48_optimized_refuted : forall (e : numpy R) lhs1 vtk g fs xl yl nx ny num r g' fs' fmt sol cols out names x,
  g_optimized g = true -> dget String.eqb fs (template_file g) = Err x ->
  call_internal e lhs1 vtk g fs xl yl nx ny num = (Ok r, g', fs') ->
  write_vtk fmt g' fs' sol cols out names = (Err FileNotFoundError, fs).
Proof. exact optimized_write. Qed.
Theorem C48_constructor : forall mesh_type method ntx nty folder opt,
  (exists g : geom R, make_geometry mesh_type method ntx nty folder opt = Ok g) <->
  (method = "internal" \/ method = "external")%string /\ mesh_type = "quadrilateral"%string.
Proof. exact make_geometry_iff. Qed.

(* ---------- the hypotheses can be met ---------- *)
Example C17_example : exists cells mo bd, numpy_ok numpy_R /\ sampler_ok mid_sampler /\ (forall i n, latin n (mid_sampler i n)) /\
  generate_quad_mesh_internal numpy_R mid_sampler (0, 2) (-1, 1) 3 2 9 = Ok (cells, mo, bd) /\ cells <> [].
Proof.
  destruct (C17_succeeds numpy_R mid_sampler 0 2 (-1) 1 3 2 9 numpy_R_ok mid_sampler_ok) as [[[cells mo] bd] E]; try lia; try (intro K; lra).
  exists cells, mo, bd. refine (conj numpy_R_ok (conj mid_sampler_ok (conj mid_sampler_latin (conj E _)))). intros ->.
  destruct (C17_tiling numpy_R mid_sampler 0 2 (-1) 1 3 2 9 [] mo bd numpy_R_ok mid_sampler_ok ltac:(lia) ltac:(lia) ltac:(lia) E ltac:(lra) ltac:(lra)) as [L _]. discriminate L.
Qed.
Example C17_reversed_example : exists r, generate_quad_mesh_internal numpy_R mid_sampler (2, 0) (1, -1) 3 2 9 = Ok r.
Proof. apply C17_succeeds; try lia; try (intro K; lra); [apply numpy_R_ok | apply mid_sampler_ok]. Qed.
Example C19_example : let m := square_file [square_lines [1; 2; 3; 4]%Z; square_quads] in
  (forall l, sorts l (np_argsort numpy_R l)) /\ suffix "square.mesh" = ".mesh"%string /\ edges_of m square_edges /\ quads_of m [square_cell] /\
  first_refs m [1; 2; 3; 4]%Z /\ spatial m /\ ~ has_block (square_file [square_quads]) "line" /\ quads_of (square_file [square_quads]) [square_cell].
Proof.
  intros m. destruct (square_ok [1; 2; 3; 4]%Z _ (or_introl eq_refl)) as (H1 & H2 & H3).
  refine (conj (argsort_ok _ numpy_R_ok) (conj eq_refl (conj H1 (conj H2 (conj _ (conj H3 (conj _ _))))))).
  - exists (square_lines [1; 2; 3; 4]%Z), [square_quads]. auto.
  - intros (b & [<- | []] & E). discriminate E.
  - destruct H2 as [_ F]. split; [exists square_quads; simpl; auto | exact F].
Qed.
Example C20_example : on_segment (0, 0) (2, 0) (box_point (0, 0) (2, 0) (1 / 4) (3 / 4)) /\ ~ on_segment (0, 0) (1, 1) (box_point (0, 0) (1, 1) (1 / 4) (3 / 4)).
Proof.
  split.
  - apply (proj1 (C20_on_edge (0, 0) (2, 0) (1 / 4) (3 / 4) ltac:(lra) ltac:(lra))). right. reflexivity.
  - intros H. apply (proj2 (C20_on_edge (0, 0) (1, 1) (1 / 4) (3 / 4) ltac:(lra) ltac:(lra))) in H; cbn; lra.
Qed.
Example C21_example : convex_ccw kite /\ Permutation (vertices (mkcell (v2 kite) (v0 kite) (v3 kite) (v1 kite))) (vertices kite) /\
  In (mkcell (v1 kite) (v2 kite) (v3 kite) (v0 kite)) (rotations kite).
Proof.
  refine (conj kite_convex (conj _ _)); [|cbn; auto].
  change (Permutation [v2 kite; v0 kite; v3 kite; v1 kite] [v0 kite; v1 kite; v2 kite; v3 kite]).
  apply Permutation_sym, (Permutation_cons_app [v2 kite] [v3 kite; v1 kite]). apply (Permutation_cons_app [v2 kite; v3 kite] []). apply Permutation_refl.
Qed.
Definition ex_geom : geom R :=
  {| g_method := "internal"; g_ntx := 3; g_nty := 2; g_folder := "out"; g_optimized := false; g_limits := Some ((0, 1), (0, 2)); g_file := None |}.
Example C23_example : exists pts, get_test_points ex_geom (Ok []) = Ok pts /\ length pts = 6%nat /\ nth 4 pts (0, 0) = (1 / 2, 2).
Proof.
  destruct (C23_grid ex_geom (Ok []) (0, 1) (0, 2) eq_refl eq_refl) as (pts & E & L & N); try (cbn; lia). exists pts. split; [exact E|]. split; [exact L|].
  specialize (N 1%nat 1%nat). cbn [g_ntx g_nty ex_geom] in N. change (Z.to_nat 3) with 3%nat in N. change (Z.to_nat 2) with 2%nat in N.
  simpl (1 * 3 + 1)%nat in N. rewrite N by lia. cbn. f_equal; field.
Qed.
Example C24_example : dget String.eqb [(template_file ex_geom, "x"%string)] (template_file ex_geom) = Ok "x"%string /\
  1%nat = length ["u"%string] /\ 2%nat <> length ["u"%string].
Proof. repeat split. discriminate. Qed.
Example C47_example : edges_of flat_file [([0; 0], [1; 0]); ([1; 0], [1; 1]); ([1; 1], [0; 1]); ([0; 1], [0; 0])] /\
  quads_of flat_file [square_cell] /\ (forall p, In p (mf_points flat_file) -> length p = 2%nat) /\ (4 mod 3 <> 0)%nat.
Proof. refine (conj (proj1 flat_ok) (conj (proj1 (proj2 flat_ok)) (conj (proj2 (proj2 flat_ok)) _))). discriminate. Qed.
Example C48_example : forall opt, exists g r g' fs', make_geometry "quadrilateral" "internal" 3 2 "out" opt = Ok g /\ g_limits g = None /\
  call_internal numpy_R mid_sampler "template"%string g [] (0, 1) (0, 1) 2 2 8 = (Ok r, g', fs').
Proof.
  intros opt. destruct (C17_succeeds numpy_R mid_sampler 0 1 0 1 2 2 8 numpy_R_ok mid_sampler_ok) as [r E]; try lia; try (intro K; lra).
  unfold call_internal. rewrite E. destruct opt; do 4 eexists; (split; [reflexivity|]); (split; reflexivity).
Qed.
Example C48_external_example : exists g r g' fs', make_geometry "quadrilateral" "external" 3 2 "out" false = Ok g /\ g_file g = None /\
  call_read numpy_R (fun _ _ => []) (fun _ => Ok (square_file [square_lines [1; 2; 3; 4]%Z; square_quads])) "template" g [] "square.mesh" 1 "uniform" 1
  = (Ok r, g', fs').
Proof.
  destruct C19_example as (He & Hn & H1 & H2 & H3 & H4 & _).
  destruct (C19_uniform numpy_R (fun _ _ => []) (fun _ => Ok (square_file [square_lines [1; 2; 3; 4]%Z; square_quads])) "square.mesh" 1 1 _ _ _ _
    He Hn eq_refl H1 H2 H3 ltac:(cbn; lia) H4 ltac:(lia)) as (cells & bd & E & _).
  unfold call_read. rewrite E. do 4 eexists. split; [reflexivity|]. split; reflexivity.
Qed.

Print Assumptions C17_succeeds.
Print Assumptions C17_tiling.
Print Assumptions C17_conforming.
Print Assumptions C17_reversed_limits.
Print Assumptions C18_sides.
Print Assumptions C18_stratified.
Print Assumptions C18_returned.
Print Assumptions C18_too_few.
Print Assumptions C19_uniform.
Print Assumptions C19_ends.
Print Assumptions C19_errors.
Print Assumptions C20_lhs_edge.
Print Assumptions C20_on_edge.
Print Assumptions C20_lhs_refuted.
Print Assumptions C21_permutation.
Print Assumptions C21_convex.
Print Assumptions C21_independent.
Print Assumptions C21_read.
Print Assumptions C21_nonconvex_refuted.
Print Assumptions C22_points.
Print Assumptions C22_connectivity_refuted.
Print Assumptions C23_grid.
Print Assumptions C23_distinct.
Print Assumptions C23_too_early.
Print Assumptions C24_mismatch.
Print Assumptions C24_content.
Print Assumptions C24_lines.
Print Assumptions C45_row_count_refuted.
Print Assumptions C46_edges_first.
Print Assumptions C46_quads_first_refuted.
Print Assumptions C47_planar_refuted.
Print Assumptions C47_refinement_ignored.
Print Assumptions C48_internal.
Print Assumptions C48_external.
Print Assumptions C48_wrong_method.
Print Assumptions C48_optimized_refuted.
Print Assumptions C48_constructor.
