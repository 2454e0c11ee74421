(* Specification vocabulary for C54-C56: the weak form, and similarities of the plane. *)
From Coq Require Import String ZArith List Permutation Reals.
From Coquelicot Require Import Coquelicot.
From Verif Require Import Num Py Basis Transform Cell Space Tensor Physics Spec SpecGeom SpecPde SpecTrain.
Import ListNotations.
Local Open Scope R_scope.

(* The left side a forward loss is for:  - div (a grad u) + b . grad u + g u *)
Inductive equation : pyfun R -> list (string * R) -> R -> R -> R -> R -> Prop :=
| eqn_poisson : forall d eps, has d "eps" eps -> equation pde_loss_poisson d eps 0 0 0
| eqn_cd2d : forall d eps b_x b_y c, has d "eps" eps -> has d "b_x" b_x -> has d "b_y" b_y -> has d "c" c ->
    equation pde_loss_cd2d d eps b_x b_y c
| eqn_helmholtz : forall d eps k, has d "eps" eps -> has d "k" k -> equation pde_loss_helmholtz d (- eps) 0 0 (k ^ 2).

(* Test function r of a cell against the equation: [val], [gx], [gy] are its tables (multiplied by
   the quadrature multipliers), [pts] the quadrature points; u and its gradient are U and G. *)
Definition weak_res (a : point -> R) (bx bn g : R) (U : point -> R) (G : point -> point) (f : R -> R -> R)
  (val gx gy : mat R) (pts : list (R * R)) (r : nat) : R :=
  Sum (fun q => let p := nth q pts (0, 0) in
    a p * (entry gx r q * fst (G p) + entry gy r q * snd (G p))
    + entry val r q * (bx * fst (G p) + bn * snd (G p) + g * U p - f (fst p) (snd p))) (length pts).

(* Every test function of every cell, as the getters of the space give them, is annihilated *)
Definition weak_solution (s : space R) (C T : nat) (a : point -> R) (bx bn g : R) (U : point -> R) (G : point -> point) (f : R -> R -> R) : Prop :=
  forall c val gx gy pts, (c < C)%nat -> get_shape_function_val s (Z.of_nat c) = Ok val ->
    get_shape_function_grad_x s (Z.of_nat c) = Ok gx -> get_shape_function_grad_y s (Z.of_nat c) = Ok gy ->
    get_quadrature_actual_coordinates s (Z.of_nat c) = Ok pts ->
    forall r, (r < T)%nat -> weak_res a bx bn g U G f val gx gy pts r = 0.
(* U has the prescribed value at every boundary point *)
Definition boundary_match (bp : bdict R) (bf : bfun R) (U : point -> R) : Prop :=
  forall tag pts p b, In (tag, pts) bp -> In p pts -> dget Z.eqb bf tag = Ok b -> U p = b (fst p) (snd p).
(* U has the given value at every given point *)
Definition data_match (data : list (R * R) * mat R) (U : point -> R) : Prop :=
  forall i, (i < length (fst data))%nat -> U (nth i (fst data) (0, 0)) = entry (snd data) i 0.

(* A similarity: rotation (e = 1) or reflection (e = -1), scaling, translation.
   (x, y) -> (p x - e r y + a, r x + e p y + b); lengths are multiplied by sqrt (p^2 + r^2). *)
Record similarity := mksim { sm_p : R; sm_r : R; sm_e : R; sm_a : R; sm_b : R }.
Definition sim_ok (S : similarity) : Prop := (sm_e S = 1 \/ sm_e S = -1) /\ sm_p S ^ 2 + sm_r S ^ 2 <> 0.
Definition sq_factor (S : similarity) : R := sm_p S ^ 2 + sm_r S ^ 2.
(* the linear part, and the map *)
Definition turn (S : similarity) (v : point) : point :=
  (sm_p S * fst v - sm_e S * sm_r S * snd v, sm_r S * fst v + sm_e S * sm_p S * snd v).
Definition move (S : similarity) (v : point) : point := (fst (turn S v) + sm_a S, snd (turn S v) + sm_b S).
Definition move_cell (S : similarity) (c : cell R) : cell R :=
  mkcell (move S (v0 c)) (move S (v1 c)) (move S (v2 c)) (move S (v3 c)).
(* The same function seen in the new coordinates: U' at the moved point is U at the point, and the
   gradients correspond (grad' = A grad / factor). *)
Definition moved_net (S : similarity) (U : point -> R) (G : point -> point) (U' : point -> R) (G' : point -> point) : Prop :=
  forall v, U' (move S v) = U v /\ (sq_factor S * fst (G' (move S v)), sq_factor S * snd (G' (move S v))) = turn S (G v).
(* Boundary points and boundary functions in the new coordinates *)
Definition moved_bp (S : similarity) (bp : bdict R) : bdict R := map (fun tp => (fst tp, map (move S) (snd tp))) bp.
Definition moved_bf (S : similarity) (bf bf' : bfun R) : Prop := forall tag b, dget Z.eqb bf tag = Ok b ->
  exists b', dget Z.eqb bf' tag = Ok b' /\ forall v, b' (fst (move S v)) (snd (move S v)) = b (fst v) (snd v).

(* ---------- C57: numbering of the vertices of a cell ---------- *)
(* start at the next vertex *)
Definition shifted (c : cell R) : cell R := mkcell (v1 c) (v2 c) (v3 c) (v0 c).
(* c' lists the corners of c in the same cyclic order or in the opposite one *)
Inductive same_polygon : cell R -> cell R -> Prop :=
| sp_same : forall c, same_polygon c c
| sp_shifted : forall c c', same_polygon c c' -> same_polygon c (shifted c')
| sp_reversed : forall c c', same_polygon c c' -> same_polygon c (reversed c').
(* The same cells in any order, each with its vertices listed from any corner in either direction *)
Definition same_mesh (cells cells' : list (cell R)) : Prop :=
  exists l, Permutation cells l /\ Forall2 same_polygon l cells'.

(* ---------- C58-C60: exact integrals ---------- *)
(* The weak form of the equation with test function Ph, pulled back to the reference square by the
   map F: the gradient of Ph in the plane is the transposed inverse of the Jacobian matrix of F
   times its gradient on the square, and areas are multiplied by |J|. *)
Definition weak_integrand (f : R -> R -> R) (U : point -> R) (G : point -> point) (a : point -> R) (bx bn g : R)
  (F : R -> R -> point) (Ph : R -> R -> R) (x y : R) : R :=
  let A := Dx (fun s t => fst (F s t)) x y in let B := Dx (fun s t => snd (F s t)) x y in
  let C := Dy (fun s t => fst (F s t)) x y in let D := Dy (fun s t => snd (F s t)) x y in
  let J := A * D - C * B in let p := F x y in
  Rabs J * (a p * ((Dx Ph x y * D - Dy Ph x y * B) / J * fst (G p) + (Dy Ph x y * A - Dx Ph x y * C) / J * snd (G p))
            + Ph x y * (bx * fst (G p) + bn * snd (G p) + g * U p - f (fst p) (snd p))).
(* the residual with exact integrals, and the loss with exact integrals *)
Definition exact_res f U G a bx bn g (tr : string) (fam : family) (c : cell R) (i j : nat) : R :=
  Int2 (weak_integrand f U G a bx bn g (RefMap tr c) (Phi fam i j)) (-1) 1 (-1) 1.
Definition exact_loss f U G a bx bn g (tr : string) (fam : family) (k : nat) (cells : list (cell R)) : R :=
  fold_right (fun c acc => Sum (fun i => Sum (fun j => exact_res f U G a bx bn g tr fam c i j ^ 2) k) k / INR (k * k) + acc) 0 cells.
(* h is continuous at every point of every cell *)
Definition continuous_on (tr : string) (cells : list (cell R)) (h : R -> R -> R) : Prop :=
  forall c x y, In c cells -> in_square x y -> continuity_2d_pt h (fst (RefMap tr c x y)) (snd (RefMap tr c x y)).
Definition continuous_data tr cells (f : R -> R -> R) (U : point -> R) (G : point -> point) (a : point -> R) : Prop :=
  continuous_on tr cells f /\ continuous_on tr cells (fun x y => U (x, y)) /\ continuous_on tr cells (fun x y => fst (G (x, y))) /\
  continuous_on tr cells (fun x y => snd (G (x, y))) /\ continuous_on tr cells (fun x y => a (x, y)).
(* F is within eps of a polynomial of degree < d in each variable, everywhere on the square *)
Definition near_poly (eps : R) (d : nat) (F : R -> R -> R) : Prop :=
  exists co, forall x y, in_square x y -> Rabs (F x y - Poly2 co d x y) <= eps.
(* h is continuously differentiable at every point of every cell *)
Definition C1_on (tr : string) (cells : list (cell R)) (h : R -> R -> R) : Prop :=
  (forall c x y, In c cells -> in_square x y -> differentiable_pt h (fst (RefMap tr c x y)) (snd (RefMap tr c x y))) /\
  continuous_on tr cells (Dx h) /\ continuous_on tr cells (Dy h).
(* - div (a grad u) + b . grad u + g u = f at every point of every cell *)
Definition strong_solution (tr : string) (cells : list (cell R)) (u a : R -> R -> R) (bx bn g : R) (f : R -> R -> R) : Prop :=
  forall c x y, In c cells -> in_square x y -> let X := fst (RefMap tr c x y) in let Y := snd (RefMap tr c x y) in
  - (Dx (fun s t => a s t * Dx u s t) X Y + Dy (fun s t => a s t * Dy u s t) X Y) + bx * Dx u X Y + bn * Dy u X Y + g * u X Y = f X Y.
(* On the cells U is u, G its gradient and A the diffusion coefficient a *)
Definition represents (tr : string) (cells : list (cell R)) (u a : R -> R -> R) (U : point -> R) (G : point -> point) (A : point -> R) : Prop :=
  forall c x y, In c cells -> in_square x y -> let p := RefMap tr c x y in
  U p = on_points u p /\ G p = gradient u p /\ A p = on_points a p.
(* Every integrand of the weak form is within eps of a polynomial the quadrature integrates exactly *)
Definition integrands_near (eps : R) (cf : config) (cells : list (cell R)) (fam : family) f U G a bx bn g : Prop :=
  forall c i j, In c cells -> (i < Z.to_nat (cf_fe_order cf))%nat -> (j < Z.to_nat (cf_fe_order cf))%nat ->
  near_poly eps (exactness (cf_quad_type cf) (Z.to_nat (cf_quad_order cf))) (weak_integrand f U G a bx bn g (RefMap (cf_trafo cf) c) (Phi fam i j)).
(* ... and the error this allows in the root of the loss *)
Definition loss_close (eps : R) (cf : config) (cells : list (cell R)) (fam : family) f U G a bx bn g (pde : R) : Prop :=
  Rabs (sqrt pde - sqrt (exact_loss f U G a bx bn g (cf_trafo cf) fam (Z.to_nat (cf_fe_order cf)) cells)) <= 8 * eps * sqrt (INR (length cells)).
