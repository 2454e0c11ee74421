(* Model of FE/fespace2d.py:400-641 with mutable arrays: every array attribute of a cell
   and every array handed to the caller is an object in a heap, so sharing is visible. *)
From Coq Require Import String ZArith List Arith Bool.
From Verif Require Import Num Py Jacobi Quadrature Basis Transform Cell Space.
Import ListNotations.

Section Heap.
Context {A : Type} `{Num A}.

Inductive arr := AMat (m : mat A) | AVec (v : list A) | APts (p : list (A * A)).

(* The array attributes of FE2D_Cell read by the getters. *)
Inductive attr := AtVal | AtGradX | AtGradXRef | AtGradY | AtGradYRef | AtCoord | AtMult.

(* One cell: address of each array attribute; forcing_at_quad; the number of shape
   functions; the user's forcing function, called with scalars (fespace2d.py:598) or with
   arrays (fespace2d.py:632).  The array version receives views of
   quad_actual_coordinates (fespace2d.py:628-629), so besides its result the model
   records the contents of the two views when it returns. *)
Record hcell := {
  hc_addr : attr -> nat;
  hc_forcing : nat;
  hc_nsf : nat;
  hc_f : A -> A -> A;
  hc_fv : list A -> list A -> list (list A) * (list A * list A)
}.

Record hstate := {
  hs_mem : nat -> arr;      (* contents; addresses >= hs_next are free *)
  hs_next : nat;
  hs_cells : list hcell;
  hs_user : list nat        (* addresses the caller has received *)
}.

(* What the caller can do. *)
Inductive op :=
| OGet (a : attr) (i : Z)               (* one of the seven getters *)
| OForce (i : Z)                        (* get_forcing_function_values *)
| OForceVec (i : Z) (comp : nat)        (* get_forcing_function_values_vector *)
| OWrite (k : nat) (c : arr).           (* overwrite the k-th array received *)

Definition upd (m : nat -> arr) (x : nat) (v : arr) : nat -> arr :=
  fun y => if Nat.eqb y x then v else m y.

(* numpy .copy(): a fresh object handed to the caller *)
Definition give (st : hstate) (v : arr) : hstate :=
  {| hs_mem := upd (hs_mem st) (hs_next st) v; hs_next := S (hs_next st);
     hs_cells := hs_cells st; hs_user := hs_user st ++ [hs_next st] |}.

Fixpoint set_nth {X} (l : list X) (n : nat) (x : X) : list X :=
  match l, n with
  | [], _ => []
  | _ :: r, O => x :: r
  | a :: r, S m => a :: set_nth r m x
  end.

Definition as_mat (v : arr) : mat A := match v with AMat m => m | _ => [] end.
Definition as_pts (v : arr) : list (A * A) := match v with APts p => p | _ => [] end.

(* The range check, e.g. fespace2d.py:412-415 *)
Definition hcell_at (st : hstate) (i : Z) : result (nat * hcell) :=
  if orb (i >=? Z.of_nat (length (hs_cells st)))%Z (i <? 0)%Z then Err ValueError
  else match nth_error (hs_cells st) (Z.to_nat i) with
       | Some c => Ok (Z.to_nat i, c) | None => Err IndexError end.

(* store a new array in forcing_at_quad and hand a copy to the caller:
   fespace2d.py:607-609, 639-641 *)
Definition store_forcing (st : hstate) (i : nat) (c : hcell) (v : arr) : hstate :=
  let a := hs_next st in
  give {| hs_mem := upd (hs_mem st) a v; hs_next := S a;
          hs_cells := set_nth (hs_cells st) i
            {| hc_addr := hc_addr c; hc_forcing := a; hc_nsf := hc_nsf c; hc_f := hc_f c; hc_fv := hc_fv c |};
          hs_user := hs_user st |} v.

(* Effect and observed result of one action. *)
Definition step (st : hstate) (o : op) : hstate * result arr :=
  match o with
  | OGet a i =>
      match hcell_at st i with
      | Err e => (st, Err e)
      | Ok (_, c) => let v := hs_mem st (hc_addr c a) in (give st v, Ok v)
      end
  | OForce i =>
      match hcell_at st i with
      | Err e => (st, Err e)
      | Ok (n, c) =>
          let b := as_mat (hs_mem st (hc_addr c AtVal)) in
          let pts := as_pts (hs_mem st (hc_addr c AtCoord)) in
          let v := AMat (map (fun r => [forcing_entry (nth r b []) pts (hc_f c)]) (seq 0 (hc_nsf c))) in
          (store_forcing st n c v, Ok v)
      end
  | OForceVec i comp =>
      match hcell_at st i with
      | Err e => (st, Err e)
      | Ok (n, c) =>
          let pts := as_pts (hs_mem st (hc_addr c AtCoord)) in
          let '(fv, (xs, ys)) := hc_fv c (map fst pts) (map snd pts) in
          let st' := {| hs_mem := upd (hs_mem st) (hc_addr c AtCoord) (APts (combine xs ys));
                        hs_next := hs_next st; hs_cells := hs_cells st; hs_user := hs_user st |} in
          match nth_error fv comp with
          | None => (st', Err IndexError)
          | Some f =>
              match mapM (fun row => do p <- bcast_mul row f; Ok [vsum p])
                         (as_mat (hs_mem st' (hc_addr c AtVal))) with
              | Err e => (st', Err e)
              | Ok m => (store_forcing st' n c (AMat m), Ok (AMat m))
              end
          end
      end
  | OWrite k v =>
      match nth_error (hs_user st) k with
      | None => (st, Err IndexError)
      | Some a => ({| hs_mem := upd (hs_mem st) a v; hs_next := hs_next st;
                      hs_cells := hs_cells st; hs_user := hs_user st |}, Ok v)
      end
  end.

Definition run (st : hstate) (h : list op) : hstate := fold_left (fun s o => fst (step s o)) h st.
Definition observe (st : hstate) (o : op) : result arr := snd (step st o).

(* Initial heap of a space: eight fresh objects per cell (FE2D_Cell.py:178-218, 230, 246,
   289 create new arrays), nothing handed out. *)
Definition attr_index (a : attr) : nat :=
  match a with AtVal => 0 | AtGradX => 1 | AtGradXRef => 2 | AtGradY => 3 | AtGradYRef => 4
             | AtCoord => 5 | AtMult => 6 end.
Definition cell_arr (c : cell_data A) (a : attr) : arr :=
  match a with
  | AtVal => AMat (cd_val c) | AtGradX => AMat (cd_gradx c) | AtGradXRef => AMat (cd_gradx_ref c)
  | AtGradY => AMat (cd_grady c) | AtGradYRef => AMat (cd_grady_ref c)
  | AtCoord => APts (cd_actual c) | AtMult => AVec (cd_mult c)
  end.
Definition all_attrs := [AtVal; AtGradX; AtGradXRef; AtGradY; AtGradYRef; AtCoord; AtMult].
Definition cell_objects (c : cell_data A) : list arr := map (cell_arr c) all_attrs ++ [AMat (cd_forcing c)].
Definition load (s : space A) (f : A -> A -> A)
  (fv : list A -> list A -> list (list A) * (list A * list A)) : hstate :=
  {| hs_mem := fun x => nth x (concat (map cell_objects (sp_cells s))) (AVec []);
     hs_next := 8 * length (sp_cells s);
     hs_cells := map (fun ic => {| hc_addr := fun a => 8 * fst ic + attr_index a; hc_forcing := 8 * fst ic + 7;
                                   hc_nsf := cd_nsf (snd ic); hc_f := f; hc_fv := fv |})
                     (combine (seq 0 (length (sp_cells s))) (sp_cells s));
     hs_user := [] |}.

End Heap.
Arguments arr : clear implicits.
Arguments op : clear implicits.
Arguments hstate : clear implicits.
Arguments hcell : clear implicits.
