(* Python values used by the model: exceptions as results, and the numpy helpers
   on lists (1D arrays are lists, 2D arrays are lists of rows). *)
From Coq Require Import ZArith List Bool Arith Lia.
From Verif Require Import Num.
Import ListNotations.

Inductive exn :=
| ValueError | TypeError | KeyError | IndexError | ZeroDivisionError
| LinAlgError | UnboundLocalError | AttributeError | FileNotFoundError
| InvalidArgumentError | NameError | OverflowError.

Inductive result (A : Type) := Ok (a : A) | Err (e : exn).
Arguments Ok {A} a.
Arguments Err {A} e.

Definition bind {A B} (r : result A) (f : A -> result B) : result B :=
  match r with Ok a => f a | Err e => Err e end.
Notation "'do' x <- r ; b" := (bind r (fun x => b))
  (at level 200, x binder, r at level 100, b at level 200).

Definition is_ok {A} (r : result A) : bool := match r with Ok _ => true | Err _ => false end.

(* A Python [for] loop that appends the result of each iteration, stopping at the
   first exception. *)
Fixpoint mapM {A B} (f : A -> result B) (l : list A) : result (list B) :=
  match l with
  | [] => Ok []
  | a :: r => do b <- f a; do bs <- mapM f r; Ok (b :: bs)
  end.

Fixpoint map2 {A B C} (f : A -> B -> C) (l : list A) (m : list B) : list C :=
  match l, m with
  | a :: l', b :: m' => f a b :: map2 f l' m'
  | _, _ => []
  end.

Section Arrays.
Context {A : Type} `{Num A}.
Local Open Scope num_scope.

Definition vadd := map2 (@nadd A _).
Definition vsub := map2 (@nsub A _).
Definition vmul := map2 (@nmul A _).
Definition vdiv := map2 (@ndiv A _).
Definition vscale (c : A) := map (nmul c).

Definition vsum (l : list A) : A := fold_right nadd n0 l.
Definition dot (l m : list A) : A := vsum (vmul l m).
Definition vmean (l : list A) : A := vsum l / nofnat (length l).

(* numpy.zeros((r, c)) *)
Definition zeros2 (r c : nat) : list (list A) := repeat (repeat n0 c) r.

(* a[lo:hi, :] = block with hi - lo = len(block) *)
Definition set_rows (lo : nat) (block a : list (list A)) : list (list A) :=
  firstn lo a ++ block ++ skipn (lo + length block) a.

(* numpy broadcasting of a product of two 1D arrays *)
Definition bcast_mul (l m : list A) : result (list A) :=
  if Nat.eqb (length l) (length m) then Ok (vmul l m)
  else match l, m with
       | _, [c] => Ok (map (fun x => x * c) l)
       | [c], _ => Ok (map (fun x => c * x) m)
       | _, _ => Err ValueError
       end.

(* numpy.linspace(lo, hi, num) for num >= 0 *)
Definition linspace (lo hi : A) (num : nat) : list A :=
  match num with
  | O => []
  | S O => [lo]
  | S (S _ as m) => map (fun i => lo + nofnat i * ((hi - lo) / nofnat m)) (seq 0 num)
  end.

(* numpy.meshgrid(x, y), default indexing, each output flattened *)
Definition meshgrid_flat (x y : list A) : list A * list A :=
  (concat (map (fun _ => x) y), concat (map (fun b => map (fun _ => b) x) y)).

(* numpy.outer(x, y).flatten() *)
Definition outer_flat (x y : list A) : list A :=
  concat (map (fun a => map (fun b => a * b) y) x).

End Arrays.

(* tf.reshape(flat, [rows, cols]) of a flat tensor, row-major *)
Fixpoint chunks {A} (rows cols : nat) (l : list A) : list (list A) :=
  match rows with
  | O => []
  | S r => firstn cols l :: chunks r cols (skipn cols l)
  end.

Definition reshape {A} (rows cols : nat) (l : list A) : result (list (list A)) :=
  if Nat.eqb (rows * cols) (length l) then Ok (chunks rows cols l)
  else Err InvalidArgumentError.

(* Python dictionaries: association lists in insertion order. *)
Section Dict.
Context {K V : Type} (keqb : K -> K -> bool).
Fixpoint dget (d : list (K * V)) (k : K) : result V :=
  match d with
  | [] => Err KeyError
  | (k', v) :: r => if keqb k k' then Ok v else dget r k
  end.
Fixpoint dset (d : list (K * V)) (k : K) (v : V) : list (K * V) :=
  match d with
  | [] => [(k, v)]
  | (k', v') :: r => if keqb k k' then (k', v) :: r else (k', v') :: dset r k v
  end.
End Dict.
