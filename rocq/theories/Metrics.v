(* Model of utils/compute_utils.py. *)
From Coq Require Import ZArith List Arith Bool Reals.
From Verif Require Import Num Py.
Import ListNotations.
Local Open Scope R_scope.

(* A numpy array: shape and row-major data. *)
Record ndarray := { a_shape : list nat; a_data : list R }.
(* a.flatten() *)
Definition flatten (a : ndarray) : ndarray := {| a_shape := [length (a_data a)]; a_data := a_data a |}.

(* A numpy float that may have left the reals: numpy only warns. *)
Inductive npfloat := Fin (r : R) | PosInf | NaN.

(* u - v of flattened arrays, with numpy broadcasting *)
Definition np_subtract (u v : list R) : result (list R) :=
  if Nat.eqb (length u) (length v) then Ok (map2 Rminus u v)
  else match u, v with
       | _, [c] => Ok (map (fun x => x - c) u)
       | [c], _ => Ok (map (fun x => c - x) v)
       | _, _ => Err ValueError
       end.
Definition np_square (l : list R) : list R := map (fun x => x * x) l.
Definition np_abs (l : list R) : list R := map Rabs l.
(* np.mean: nan and a warning for the empty array *)
Definition np_mean (l : list R) : npfloat := match l with [] => NaN | _ => Fin (vmean l) end.
(* np.max: ValueError for the empty array *)
Definition np_max (l : list R) : result npfloat :=
  match l with [] => Err ValueError | a :: r => Ok (Fin (fold_left Rmax r a)) end.
(* np.sqrt of a non-negative number *)
Definition np_sqrt (x : npfloat) : npfloat := match x with Fin r => Fin (sqrt r) | _ => x end.
(* x / y for non-negative x, y *)
Definition np_divide (x y : npfloat) : npfloat :=
  match x, y with
  | NaN, _ | _, NaN => NaN
  | Fin a, Fin b => if Req_EM_T b 0 then (if Req_EM_T a 0 then NaN else PosInf) else Fin (a / b)
  | PosInf, Fin _ => PosInf
  | Fin _, PosInf => Fin 0
  | PosInf, PosInf => NaN
  end.

(* compute_utils.py:18-42 *)
Definition compute_l2_error (u v : ndarray) : result npfloat :=
  let u := flatten u in let v := flatten v in
  do d <- np_subtract (a_data u) (a_data v);
  Ok (np_sqrt (np_mean (np_square d))).
(* compute_utils.py:45-68 *)
Definition compute_l1_error (u v : ndarray) : result npfloat :=
  let u := flatten u in let v := flatten v in
  do d <- np_subtract (a_data u) (a_data v);
  Ok (np_mean (np_abs d)).
(* compute_utils.py:71-95 *)
Definition compute_linf_error (u v : ndarray) : result npfloat :=
  let u := flatten u in let v := flatten v in
  do d <- np_subtract (a_data u) (a_data v);
  np_max (np_abs d).
(* compute_utils.py:98-124 *)
Definition compute_l2_error_relative (u v : ndarray) : result npfloat :=
  let u := flatten u in let v := flatten v in
  do e <- compute_l2_error u v;
  Ok (np_divide e (np_sqrt (np_mean (np_square (a_data u))))).
(* compute_utils.py:127-153 *)
Definition compute_linf_error_relative (u v : ndarray) : result npfloat :=
  let u := flatten u in let v := flatten v in
  do e <- compute_linf_error u v;
  do m <- np_max (np_abs (a_data u));
  Ok (np_divide e m).
(* compute_utils.py:156-182 *)
Definition compute_l1_error_relative (u v : ndarray) : result npfloat :=
  let u := flatten u in let v := flatten v in
  do e <- compute_l1_error u v;
  Ok (np_divide e (np_mean (np_abs (a_data u)))).
(* compute_utils.py:185-224 *)
Definition compute_errors_combined (u v : ndarray)
  : result (npfloat * npfloat * npfloat * npfloat * npfloat * npfloat) :=
  let u := flatten u in let v := flatten v in
  do l2 <- compute_l2_error u v;
  do linf <- compute_linf_error u v;
  do l2r <- compute_l2_error_relative u v;
  do linfr <- compute_linf_error_relative u v;
  do l1 <- compute_l1_error u v;
  do l1r <- compute_l1_error_relative u v;
  Ok (l2, linf, l2r, linfr, l1, l1r).
