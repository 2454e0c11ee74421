(* Model of the problem definitions shipped in examples/: exact solution, right-hand side,
   boundary functions and coefficients of each file.  Float literals such as 0.3 are read as the
   real numbers they denote, and numpy's sin, cos, exp, tanh, cosh and pi as the real functions. *)
From Coq Require Import String ZArith List Reals.
From Verif Require Import Py Nets.
Import ListNotations.
Local Open Scope R_scope.

Record problem := {
  pb_exact : R -> R -> R;                    (* exact_solution *)
  pb_rhs : R -> R -> R;                      (* rhs, the forcing_function of the space *)
  pb_bound : list (Z * (R -> R -> R));       (* get_boundary_function_dict *)
  pb_params : list (string * R) }.           (* get_bilinear_params_dict *)

(* val = 0.0; return np.ones_like(x) * val *)
Definition zero_side (x y : R) : R := 1 * 0.
Definition sides (bottom right top left : R -> R -> R) : list (Z * (R -> R -> R)) :=
  [(1000, bottom); (1001, right); (1002, top); (1003, left)]%Z.

(* examples/forward_problems_2d/uniform_mesh/poisson_2d/sin_cos.py:8-89, the same text in
   examples/optuna_examples/sin_cos.py:8-89 *)
Definition uniform_poisson : problem :=
  let omega := 4 * PI in
  {| pb_exact x y := -1 * sin (omega * x) * sin (omega * y);
     pb_rhs x y := -2 * omega ^ 2 * (sin (omega * x) * sin (omega * y));
     pb_bound := sides zero_side zero_side zero_side zero_side;
     pb_params := [("eps", 1)]%string |}.

(* examples/forward_problems_2d/hard_boundary_constraints/poisson_2d/sin_cos.py:8-85;
   three of the boundary functions return the float 0.0 *)
Definition hard_poisson : problem :=
  let omega := 4 * PI in
  {| pb_exact x y := -1 * sin (omega * x) * sin (omega * y);
     pb_rhs x y := -2 * omega ^ 2 * (sin (omega * x) * sin (omega * y));
     pb_bound := sides (fun _ _ => 0) (fun _ _ => 0) zero_side (fun _ _ => 0);
     pb_params := [("eps", 1)]%string |}.

(* examples/forward_problems_2d/complex_mesh/poisson2d/sin_cos.py:8-64 *)
Definition circle_poisson : problem :=
  let omega := 2 * PI in
  {| pb_exact x y := -1 * sin (omega * x) * sin (omega * y);
     pb_rhs x y := -2 * omega ^ 2 * (sin (omega * x) * sin (omega * y));
     pb_bound := [(1000%Z, fun x y => -1 * sin (omega * x) * sin (omega * y))];
     pb_params := [("eps", 1)]%string |}.

(* examples/forward_problems_2d/complex_mesh/USA/sin_cos.py:7-63 *)
Definition usa_poisson : problem :=
  let omega := 2 * PI in
  {| pb_exact x y := -1 * sin (omega * x) * sin (omega * y);
     pb_rhs x y := -2 * omega ^ 2 * (sin (omega * x) * sin (omega * y));
     pb_bound := [(1000%Z, fun x y => -1 * sin (omega * x) * sin (omega * y))];
     pb_params := [("eps", 1)]%string |}.

(* rhs of both helmholtz_example.py files: term1 + term2 + term3 + term4 *)
Definition helmholtz_exact (x y : R) : R := (x + y) * sin (PI * x) * sin (PI * y).
Definition helmholtz_rhs (x y : R) : R :=
  2 * PI * cos (PI * y) * sin (PI * x) + 2 * PI * cos (PI * x) * sin (PI * y)
  + (x + y) * sin (PI * x) * sin (PI * y) + -2 * PI ^ 2 * (x + y) * sin (PI * x) * sin (PI * y).
(* examples/forward_problems_2d/uniform_mesh/helmholtz_2d/helmholtz_example.py:8-83 *)
Definition uniform_helmholtz : problem :=
  {| pb_exact := helmholtz_exact; pb_rhs := helmholtz_rhs;
     pb_bound := sides helmholtz_exact helmholtz_exact helmholtz_exact helmholtz_exact;
     pb_params := [("k", 1); ("eps", 1)]%string |}.
(* examples/forward_problems_2d/complex_mesh/helmholtz2d/helmholtz_example.py:8-60 *)
Definition circle_helmholtz : problem :=
  {| pb_exact := helmholtz_exact; pb_rhs := helmholtz_rhs;
     pb_bound := [(1000%Z, helmholtz_exact)];
     pb_params := [("k", 1); ("eps", 1)]%string |}.

(* examples/forward_problems_2d/complex_mesh/cd2d/cd2d_example.py:8-61 *)
Definition circle_cd : problem :=
  {| pb_exact x y := cos (x ^ 2 + y ^ 2);
     pb_rhs x y := 4 * x ^ 2 * cos (x ^ 2 + y ^ 2) - 2 * x * sin (x ^ 2 + y ^ 2)
       + 4 * y ^ 2 * cos (x ^ 2 + y ^ 2) + 4 * sin (x ^ 2 + y ^ 2);
     pb_bound := [(1000%Z, fun x y => cos (x ^ 2 + y ^ 2))];
     pb_params := [("eps", 1); ("b_x", 1); ("b_y", 0); ("c", 0)]%string |}.

(* examples/forward_problems_2d/complex_mesh/cd2d_gear/cd2d_gear_example.py:9-65 *)
Definition gear_cd : problem :=
  {| pb_exact x y := 1 * 0;
     pb_rhs x y := 50 * sin x + cos x;
     pb_bound := [(1000%Z, fun _ _ => 0); (1001%Z, fun _ _ => 0)];
     pb_params := [("eps", 1); ("b_x", 1 / 10); ("b_y", 0); ("c", 0)]%string |}.

(* examples/inverse_problems_2d/const_inverse_poisson2d/inverse_uniform.py:9-118 *)
Definition EPS : R := 3 / 10.
Definition inverse_exact (x y : R) : R := sin x * tanh x * exp (-1 * EPS * x ^ 2) * 10.
Definition inverse_poisson : problem :=
  {| pb_exact := inverse_exact;
     pb_rhs X y :=
       - EPS * (40 * X * EPS * (tanh X ^ 2 - 1) * sin X - 40 * X * EPS * cos X * tanh X
                + 10 * EPS * (4 * X ^ 2 * EPS - 2) * sin X * tanh X + 20 * (tanh X ^ 2 - 1) * sin X * tanh X
                - 20 * (tanh X ^ 2 - 1) * cos X - 10 * sin X * tanh X) * exp (-1 * X ^ 2 * EPS);
     pb_bound := sides inverse_exact inverse_exact inverse_exact inverse_exact;
     pb_params := [("eps", EPS)]%string |}.
(* get_inverse_params_dict (initial guess, lines 101-108), get_inverse_params_actual_dict (111-118) *)
Definition inverse_guess : list (string * R) := [("eps", 2)]%string.
Definition inverse_actual : list (string * R) := [("eps", EPS)]%string.

(* examples/inverse_problems_2d/domain_inverse_cd2d/USA/cd2d_inverse_usa_example.py:9-83 *)
Definition usa_inverse : problem :=
  {| pb_exact x y := exp (- (1 / 10) * y) * cos x;
     pb_rhs x y := (- (1 / 10) * x * sin (x * y) * cos x - y * sin x * sin (x * y)
                    + 199 / 100 * cos x * cos (x * y)) * exp (- (1 / 10) * y) * sin x;
     pb_bound := [(1000%Z, fun x y => exp (- (1 / 10) * y) * cos x)];
     pb_params := [("eps", 20); ("b_x", 0); ("b_y", 0); ("c", 0)]%string |}.
Definition usa_actual (x y : R) : list (string * R) := [("eps", sin x * cos (x * y))]%string.

(* examples/inverse_problems_2d/domain_inverse_cd2d/circle/cd2d_inverse_circle_example.py:9-71 *)
Definition circle_inverse : problem :=
  {| pb_exact x y := 1 * 0;
     pb_rhs x y := 10 * 1;
     pb_bound := [(1000%Z, fun x y => 1 * 0)];
     pb_params := [("eps", 1 / 10); ("b_x", 1); ("b_y", 0); ("c", 0)]%string |}.
Definition circle_actual (x y : R) : list (string * R) := [("eps", 1 / 2 * (sin x + cos y))]%string.

(* The limits in the input files of the examples with an internal mesh:
   uniform_mesh/poisson_2d/input.yaml, uniform_mesh/helmholtz_2d/input.yaml and
   hard_boundary_constraints/poisson_2d/input.yaml lines 13-16;
   const_inverse_poisson2d/input_inverse.yaml:7-10 *)
Definition unit_limits : (R * R) * (R * R) := ((0, 1), (0, 1)).
Definition inverse_limits : (R * R) * (R * R) := ((-1, 1), (-1, 1)).

(* examples/forward_problems_2d/hard_boundary_constraints/poisson_2d/main_poisson2d_hard.py,
   apply_hard_boundary_constraints: the ansatz is a column, the product is entrywise *)
Definition ansatz (p : R * R) : R :=
  tanh (4 * PI * fst p) * tanh (4 * PI * snd p) * tanh (4 * PI * (fst p - 1)) * tanh (4 * PI * (snd p - 1)).
Definition ansatz_constraint : constraint :=
  fun b y => map2 (fun p row => map (Rmult (ansatz p)) row) b y.
