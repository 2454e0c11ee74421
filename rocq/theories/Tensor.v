(* TensorFlow operations on tensors of rank 1, 2 and 3 as nested lists (row-major).
   Simplifications: exact arithmetic; a rank-2 tensor without rows has no columns
   either; the error raised for incompatible shapes is InvalidArgumentError (graph
   tracing may report the same mismatch as ValueError). *)
From Coq Require Import String ZArith List Arith Bool.
From Verif Require Import Num Py Basis.
Import ListNotations.

(* Broadcasting along one axis: equal lengths, or one of them 1. *)
Definition bcastM {X Y Z} (f : X -> Y -> result Z) (l : list X) (m : list Y) : result (list Z) :=
  if Nat.eqb (length l) (length m) then mapM (fun p => f (fst p) (snd p)) (combine l m)
  else match l, m with
       | [x], _ => mapM (f x) m
       | _, [y] => mapM (fun x => f x y) l
       | _, _ => Err InvalidArgumentError
       end.

Section Tensor.
Context {A : Type} `{Num A}.
Local Open Scope num_scope.

(* Elementwise binary operators on rank-1 and rank-2 tensors *)
Definition bc1 (f : A -> A -> A) : list A -> list A -> result (list A) :=
  bcastM (fun x y => Ok (f x y)).
Definition bc2 (f : A -> A -> A) : mat A -> mat A -> result (mat A) := bcastM (bc1 f).
(* scalar (rank 0) times rank 2 *)
Definition mscale (c : A) (m : mat A) : mat A := map (map (fun x => c * x)) m.

(* tf.linalg.matvec(a, b): a of shape (B, M, N), b of shape (B, N); inner dimension must
   agree, the batch dimension broadcasts. *)
Definition mat_vec (m : mat A) (v : list A) : result (list A) :=
  mapM (fun row => if Nat.eqb (length row) (length v) then Ok (dot row v)
                   else Err InvalidArgumentError) m.
Definition matvec (a : list (mat A)) (b : mat A) : result (mat A) := bcastM mat_vec a b.

(* tf.transpose of a rank-2 tensor *)
Definition width {X} (m : list (list X)) : nat := match m with [] => 0 | r :: _ => length r end.
Definition transpose (m : mat A) : mat A :=
  map (fun j => map (fun row => nth j row n0) m) (seq 0 (width m)).

(* tf.square *)
Definition msquare (m : mat A) : mat A := map (map (fun x => x * x)) m.
(* tf.reduce_mean(m, axis=0): mean of each column.  (An empty column gives nan in
   TensorFlow; statements about means require at least one row.) *)
Definition reduce_mean0 (m : mat A) : list A := map vmean (transpose m).

(* tf.stack(list, axis=0) of rank-2 tensors: all shapes equal *)
Definition same_shape {X Y} (m : list (list X)) (m' : list (list Y)) : bool :=
  Nat.eqb (length m) (length m') && forallb (fun p => Nat.eqb (fst p) (snd p))
    (combine (map (@length X) m) (map (@length Y) m')).
Definition stack0 (l : list (mat A)) : result (list (mat A)) :=
  match l with
  | [] => Err ValueError
  | m :: r => if forallb (same_shape m) r then Ok l else Err InvalidArgumentError
  end.
(* tf.concat(list, axis=1) of rank-2 tensors: equal numbers of rows *)
Definition concat1 (l : list (mat A)) : result (mat A) :=
  match l with
  | [] => Err ValueError
  | m :: r =>
      if forallb (fun m' => Nat.eqb (length m') (length m)) r
      then Ok (map (fun i => concat (map (fun m' => nth i m' []) l)) (seq 0 (length m)))
      else Err InvalidArgumentError
  end.
(* tf.reshape(list of (n, 2) tensors, [-1, 2]): packing needs equal shapes *)
Definition pack_points (l : list (list (A * A))) : result (list (A * A)) :=
  match l with
  | [] => Ok []
  | m :: r => if forallb (fun m' => Nat.eqb (length m') (length m)) r then Ok (concat l)
              else Err InvalidArgumentError
  end.

(* tf.reshape(v, [-1, 1]) *)
Definition as_column (v : list A) : mat A := map (fun x => [x]) v.
(* m[:, j]: IndexError (ValueError while tracing) past the last column *)
Definition column (m : mat A) (j : nat) : result (list A) :=
  mapM (fun row => match nth_error row j with Some x => Ok x | None => Err IndexError end) m.

End Tensor.
