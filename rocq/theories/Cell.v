(* Model of FE/fe2d_setup_main.py and FE/FE2D_Cell.py. *)
From Coq Require Import String ZArith List Arith.
From Verif Require Import Num Py Jacobi Quadrature Basis Transform.
Import ListNotations.

(* The configuration strings and integers given to Fespace2D / FE2D_Cell. *)
Record config := {
  cf_cell_type : string;
  cf_fe_order : Z;
  cf_fe_type : string;
  cf_quad_order : Z;
  cf_quad_type : string;
  cf_trafo : string
}.

(* fe2d_setup_main.py:38-79: None is the implicit return after the print of line 79. *)
Definition assign_basis_function (cf : config) : result (option family) :=
  if orb (cf_fe_order cf <=? 1)%Z (cf_fe_order cf >=? 1000)%Z then Err ValueError
  else if String.eqb (cf_cell_type cf) "quadrilateral" then
    if orb (String.eqb (cf_fe_type cf) "legendre") (String.eqb (cf_fe_type cf) "jacobi")
    then Ok (Some FLegendre)
    else if String.eqb (cf_fe_type cf) "legendre_special" then Ok (Some FLegendreSpecial)
    else if String.eqb (cf_fe_type cf) "chebyshev_2" then Ok (Some FChebyshev2)
    else if String.eqb (cf_fe_type cf) "jacobi_plain" then Ok (Some FJacobiPlain)
    else Err ValueError
  else Ok None.

(* fe2d_setup_main.py:58, 61, 65, 69: the argument fe_order**2 *)
Definition num_shape_functions (cf : config) : nat := Z.to_nat (cf_fe_order cf ^ 2).

Section Cell.
Context {A : Type} `{Num A}.
Local Open Scope num_scope.

(* fe2d_setup_main.py:81-105 *)
Definition assign_quadrature_rules (o : quad_oracle A) (cf : config)
  : result (list A * list A * list A) :=
  if String.eqb (cf_cell_type cf) "quadrilateral" then
    if (cf_quad_order cf <? 3)%Z then Err ValueError
    else if andb (cf_quad_order cf >=? 2)%Z (cf_quad_order cf <=? 9999)%Z
    then quad2d o (cf_quad_order cf) (cf_quad_type cf)
    else Err ValueError
  else Err ValueError.

(* fe2d_setup_main.py:107-134 *)
Definition assign_fe_transformation (cf : config) (c : cell A) : result (trafo A) :=
  if String.eqb (cf_cell_type cf) "quadrilateral" then
    if String.eqb (cf_trafo cf) "affine" then Ok (TAffine (affine_set_cell c))
    else if String.eqb (cf_trafo cf) "bilinear" then Ok (TBilinear (bilinear_set_cell c))
    else Err ValueError
  else Err ValueError.

(* The attributes of FE2D_Cell that other code reads. *)
Record cell_data := {
  cd_coords0 : cell A;              (* cell_coordinates *)
  cd_nsf : nat;                     (* basis_function.num_shape_functions *)
  cd_weight : list A; cd_xi : list A; cd_eta : list A;
  cd_jacobian : list A;             (* jacobian.flatten() *)
  cd_mult : list A;
  cd_val : mat A; cd_gradx : mat A; cd_grady : mat A;
  cd_gradx_ref : mat A; cd_grady_ref : mat A;
  cd_gradxx : mat A; cd_gradxy : mat A; cd_gradyy : mat A;
  cd_actual : list (A * A);         (* quad_actual_coordinates *)
  cd_forcing : mat A                (* forcing_at_quad *)
}.

(* basis * mult with mult of length N_quad: FE2D_Cell.py:213-218 *)
Definition mat_mult (m : mat A) (mult : list A) : mat A := map (fun row => vmul row mult) m.

(* FE2D_Cell.py:26-105 (constructor) with 121-289 inlined in call order. *)
Definition make_cell (o : quad_oracle A) (cf : config) (c : cell A) : result cell_data :=
  do fam_setup <- assign_basis_function cf;              (* 76-82: FE2DSetupMain.__init__ *)
  do ofam <- assign_basis_function cf;                   (* 85, 121-127 *)
  do wxe <- assign_quadrature_rules o cf;                (* 88, 129-135 *)
  let '(w, xi, eta) := wxe in
  do t <- assign_fe_transformation cf c;                 (* 91, 146-150 *)
  let jac := t_jacobian t xi eta in                      (* 153-155 *)
  do mult <- bcast_mul w jac;                            (* 94, 230 *)
  match ofam with
  | None => Err AttributeError                           (* basis_function is None *)
  | Some fam =>
      let nsf := num_shape_functions cf in
      let val := b_value fam nsf xi eta in               (* 178 *)
      let gxr := b_gradx fam nsf xi eta in               (* 181 *)
      let gyr := b_grady fam nsf xi eta in               (* 182 *)
      let '(gx, gy) := t_derivative t gxr gyr xi eta in  (* 184-189 *)
      let gxxr := b_gradxx fam nsf xi eta in             (* 195-197 *)
      let gxyr := b_gradxy fam nsf xi eta in
      let gyyr := b_gradyy fam nsf xi eta in
      do s <- t_second t gxxr gxyr gyyr;                 (* 200-204 *)
      let '(gxx, gxy, gyy) := s in
      Ok {| cd_coords0 := c; cd_nsf := nsf;
            cd_weight := w; cd_xi := xi; cd_eta := eta;
            cd_jacobian := jac; cd_mult := mult;
            cd_val := mat_mult val mult;                 (* 213-218 *)
            cd_gradx := mat_mult gx mult; cd_grady := mat_mult gy mult;
            cd_gradx_ref := gxr; cd_grady_ref := gyr;
            cd_gradxx := mat_mult gxx mult; cd_gradxy := mat_mult gxy mult;
            cd_gradyy := mat_mult gyy mult;
            cd_actual := map2 (t_orig t) xi eta;         (* 242-246 *)
            cd_forcing := zeros2 nsf 1 |}                (* 268-289 *)
  end.

End Cell.
Arguments cell_data : clear implicits.
