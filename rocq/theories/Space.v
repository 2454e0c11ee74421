(* Model of FE/fespace2d.py: constructor, plot bookkeeping, Dirichlet data, getters,
   forcing vectors, sensor data. *)
From Coq Require Import String ZArith List Arith Bool.
From Verif Require Import Num Py Jacobi Quadrature Basis Transform Cell.
Import ListNotations.

Section Space.
Context {A : Type} `{Num A}.
Local Open Scope num_scope.

(* boundary_points: dict tag -> array of points; bound_function_dict: tag -> f(x, y).
   Simplification: boundary functions are total, pure and scalar-valued. *)
Definition bdict := list (Z * list (A * A)).
Definition bfun := list (Z * (A -> A -> A)).

(* Inner loop of fespace2d.py:357-365 for one tag. *)
Definition dirichlet_tag (bf : bfun) (tag : Z) (pts : list (A * A))
  : result (list ((A * A) * A)) :=
  mapM (fun p => do f <- dget Z.eqb bf tag; Ok (p, f (fst p) (snd p))) pts.

(* fespace2d.py:344-372; result (x, y), total_dirichlet_dofs = len(x) *)
Definition dirichlet_data (bp : bdict) (bf : bfun) : result (list (A * A) * list A) :=
  do rows <- mapM (fun tp => dirichlet_tag bf (fst tp) (snd tp)) bp;
  let r := concat rows in
  Ok (map fst r, map snd r).

(* fespace2d.py:374-398: vector-valued boundary functions, one component.  [f(x,y)] is
   a list; indexing past its end is IndexError.  Simplification: only components >= 0
   (a negative one would count from the end). *)
Definition bfunv := list (Z * (A -> A -> list A)).
Definition dirichlet_data_vector (bp : bdict) (bf : bfunv) (comp : nat)
  : result (list (A * A) * list A) :=
  do rows <- mapM (fun tp =>
      mapM (fun p => do f <- dget Z.eqb bf (fst tp);
                     match nth_error (f (fst p) (snd p)) comp with
                     | Some v => Ok (p, v)
                     | None => Err IndexError
                     end) (snd tp)) bp;
  let r := concat rows in
  Ok (map fst r, map snd r).

(* fespace2d.py:251-342, the bookkeeping only: 16 markers, indexed i + 1; each tag's
   coordinate arrays get their first point appended before being counted.
   Result (total_dofs, total_boundary_dofs). *)
Definition n_markers : nat := 16.
Fixpoint plot_boundary (i : nat) (bp : bdict) (acc : nat) : result nat :=
  match bp with
  | [] => Ok acc
  | (_, pts) :: r =>
      match pts with
      | [] => Err IndexError                                  (* x[0], line 321 *)
      | _ :: _ =>
          if Nat.ltb (i + 1) n_markers                        (* marker_list[i + 1], 326 *)
          then plot_boundary (S i) r (acc + (length pts + 1))
          else Err IndexError
      end
  end.
Definition generate_plot (cells : list (cell_data A)) (bp : bdict) : result (nat * nat) :=
  do b <- plot_boundary 0 bp 0;
  Ok (fold_left (fun acc c => acc + length (cd_actual c)) cells 0, b)%nat.

Record space := {
  sp_cells : list (cell_data A);
  sp_total_dofs : nat;
  sp_total_boundary_dofs : nat;
  sp_total_dirichlet_dofs : nat;
  sp_dirichlet : list (A * A) * list A
}.

(* fespace2d.py:208-224: number of columns of basis_at_quad *)
Definition ncols (m : mat A) : nat := match m with [] => 0 | r :: _ => length r end.

(* fespace2d.py:185-249: the loop, and the IndexError of line 238 without cells *)
Definition set_finite_elements (o : quad_oracle A) (cf : config) (cells : list (cell A))
  : result (list (cell_data A) * nat) :=
  do cs <- mapM (make_cell o cf) cells;
  match cs with
  | [] => Err IndexError
  | _ => Ok (cs, fold_left (fun acc c => acc + ncols (cd_val c)) cs 0)%nat
  end.

(* fespace2d.py:97-183 *)
Definition make_space (o : quad_oracle A) (cf : config) (cells : list (cell A))
  (bp : bdict) (bf : bfun) (plot : bool) : result space :=
  if String.eqb (cf_cell_type cf) "triangle" then Err ValueError      (* 134-137 *)
  else
    do cd <- set_finite_elements o cf cells;                          (* 154 *)
    let '(cs, dof) := cd in
    do pl <- (if plot then generate_plot cs bp else Ok (dof, 0%nat)); (* 157-158 *)
    do dd <- dirichlet_data bp bf;                                    (* 162 *)
    Ok {| sp_cells := cs; sp_total_dofs := fst pl; sp_total_boundary_dofs := snd pl;
          sp_total_dirichlet_dofs := length (fst dd); sp_dirichlet := dd |}.

(* The range check of every getter, e.g. fespace2d.py:412-415 *)
Definition cell_at (cs : list (cell_data A)) (i : Z) : result (cell_data A) :=
  if orb (i >=? Z.of_nat (length cs))%Z (i <? 0)%Z then Err ValueError
  else match nth_error cs (Z.to_nat i) with Some c => Ok c | None => Err IndexError end.

(* fespace2d.py:400-551 *)
Definition get_shape_function_val (s : space) (i : Z) : result (mat A) :=
  do c <- cell_at (sp_cells s) i; Ok (cd_val c).
Definition get_shape_function_grad_x (s : space) (i : Z) : result (mat A) :=
  do c <- cell_at (sp_cells s) i; Ok (cd_gradx c).
Definition get_shape_function_grad_x_ref (s : space) (i : Z) : result (mat A) :=
  do c <- cell_at (sp_cells s) i; Ok (cd_gradx_ref c).
Definition get_shape_function_grad_y (s : space) (i : Z) : result (mat A) :=
  do c <- cell_at (sp_cells s) i; Ok (cd_grady c).
Definition get_shape_function_grad_y_ref (s : space) (i : Z) : result (mat A) :=
  do c <- cell_at (sp_cells s) i; Ok (cd_grady_ref c).
Definition get_quadrature_actual_coordinates (s : space) (i : Z) : result (list (A * A)) :=
  do c <- cell_at (sp_cells s) i; Ok (cd_actual c).
Definition get_quadrature_weights (s : space) (i : Z) : result (list A) :=
  do c <- cell_at (sp_cells s) i; Ok (cd_mult c).

(* The double loop of fespace2d.py:592-605: row i, quadrature point q; val starts at 0
   and accumulates from the left. Result has shape (n_shape_functions, 1). *)
Definition forcing_entry (row : list A) (pts : list (A * A)) (f : A -> A -> A) : A :=
  fold_left (fun val vq => val + fst vq * f (fst (snd vq)) (snd (snd vq)))
            (combine row pts) n0.
Definition forcing_values (c : cell_data A) (f : A -> A -> A) : mat A :=
  map (fun i => [forcing_entry (nth i (cd_val c) []) (cd_actual c) f]) (seq 0 (cd_nsf c)).
(* fespace2d.py:553-609 *)
Definition get_forcing_function_values (s : space) (f : A -> A -> A) (i : Z) : result (mat A) :=
  do c <- cell_at (sp_cells s) i; Ok (forcing_values c f).

(* fespace2d.py:611-641: f gets the coordinate columns and returns one array per
   component; basis_at_quad * f_values broadcasts each row against it. *)
Definition forcing_values_vector (c : cell_data A) (f : list A -> list A -> list (list A))
  (comp : nat) : result (mat A) :=
  match nth_error (f (map fst (cd_actual c)) (map snd (cd_actual c))) comp with
  | None => Err IndexError
  | Some fv => mapM (fun row => do p <- bcast_mul row fv; Ok [vsum p]) (cd_val c)
  end.
Definition get_forcing_function_values_vector (s : space)
  (f : list A -> list A -> list (list A)) (i : Z) (comp : nat) : result (mat A) :=
  do c <- cell_at (sp_cells s) i; forcing_values_vector c f comp.

(* fespace2d.py:668: int(num_points * 0.9) for num_points >= 0. Simplification: floor of
   9 n / 10 (see FloatFacts.v for the binary64 value). *)
Definition sensor_count (n : nat) : nat := n * 9 / 10.

Definition nmin (x y : A) : A := if nleb x y then x else y.
Definition nmax (x y : A) : A := if nleb x y then y else x.
(* np.min / np.max: ValueError on an empty array *)
Definition vmin (l : list A) : result A :=
  match l with [] => Err ValueError | x :: r => Ok (fold_left nmin r x) end.
Definition vmax (l : list A) : result A :=
  match l with [] => Err ValueError | x :: r => Ok (fold_left nmax r x) end.

(* fespace2d.py:643-688. [lhs2 n] is pyDOE's lhs(2, samples=n). *)
Definition get_sensor_data (mesh_points : list (A * A)) (lhs2 : nat -> list (A * A))
  (exact : A -> A -> A) (num_points : nat) : result (list (A * A) * list A) :=
  do x_min <- vmin (map fst mesh_points);
  do x_max <- vmax (map fst mesh_points);
  do y_min <- vmin (map snd mesh_points);
  do y_max <- vmax (map snd mesh_points);
  let pts := map (fun p => (x_min + (x_max - x_min) * fst p, y_min + (y_max - y_min) * snd p))
                 (lhs2 (sensor_count num_points)) in
  Ok (pts, map (fun p => exact (fst p) (snd p)) pts).

(* fespace2d.py:690-723. [rows] are the first three columns of the csv file, [idx] the
   result of np.random.randint(0, len(rows), num_points) (ValueError when the file has no
   row and num_points > 0). *)
Definition get_sensor_data_external (rows : list (A * A * A)) (idx : nat -> nat -> list nat)
  (num_points : nat) : result (list (A * A) * list A) :=
  match rows, num_points with
  | [], S _ => Err ValueError
  | _, _ =>
      let ii := idx (length rows) num_points in
      do sel <- mapM (fun i => match nth_error rows i with
                               | Some r => Ok r | None => Err IndexError end) ii;
      Ok (map fst sel, map snd sel)
  end.

End Space.
Arguments space : clear implicits.
Arguments bdict : clear implicits.
Arguments bfun : clear implicits.
Arguments bfunv : clear implicits.
