(* Model of the network side of model/model.py, model_hard.py, model_inverse.py and
   model_inverse_domain.py: constructor checks, learning rate, layers, call, gradients,
   configuration.  Over the reals: activations are arbitrary real functions.
   Keras and TensorFlow are modelled from their documentation: Dense, Attention,
   ExponentialDecay, GradientTape.  Weights are arbitrary (the initial values are random
   and the optimizer is in Optim.v). *)
From Coq Require Import String ZArith List Arith Bool Reals.
From Coquelicot Require Import Coquelicot.
From Verif Require Import Num Py Basis Tensor Train.
Import ListNotations.
Local Open Scope R_scope.

Inductive kind := Standard | Hard | Inverse | Domain.

(* ---------- learning rate ---------- *)
(* Values of learning_rate_dict *)
Inductive lrval := LNum (r : R) | LBool (b : bool).
Definition lrdict := list (string * lrval).
Definition truthy (v : lrval) : bool :=
  match v with LBool b => b | LNum r => if Req_EM_T r 0 then false else true end.
(* True and False are the numbers 1 and 0 *)
Definition lnum (v : lrval) : R := match v with LNum r => r | LBool true => 1 | LBool false => 0 end.
(* The keys are read whether or not the scheduler is used; "staircase" is read by
   model_hard.py:156 and model_inverse.py:147 only and its value is not used. *)
Definition reads_staircase (k : kind) : bool := match k with Hard | Inverse => true | _ => false end.
(* tf.keras.optimizers.schedules.ExponentialDecay with staircase=True at a step *)
Definition exponential_decay (lr0 steps rate : R) (t : nat) : R :=
  lr0 * powerRZ rate (Int_part (INR t / steps)).
(* model/model.py:129-144, model_hard.py:150-166, model_inverse.py:141-157,
   model_inverse_domain.py:126-141 *)
Definition learning_rate (k : kind) (d : lrdict) : result (nat -> R) :=
  do lr0 <- dget String.eqb d "initial_learning_rate"%string;
  do use <- dget String.eqb d "use_lr_scheduler"%string;
  do steps <- dget String.eqb d "decay_steps"%string;
  do rate <- dget String.eqb d "decay_rate"%string;
  do _ <- (if reads_staircase k then dget String.eqb d "staircase"%string else Ok lr0);
  Ok (if truthy use then exponential_decay (lnum lr0) (lnum steps) (lnum rate) else fun _ => lnum lr0).

(* ---------- layers ---------- *)
(* keras Dense(units): a units argument that is not positive is refused *)
Definition dense (units : Z) (act : bool) : result (nat * bool) :=
  if (units <=? 0)%Z then Err ValueError else Ok (Z.to_nat units, act).
(* model/model.py:151-171: units and activation flag of every layer *)
Definition layer_plan (dims : list Z) : result (list (nat * bool)) :=
  do hidden <- mapM (fun d => dense (nth (d + 1) dims 0%Z) true) (seq 0 (length dims - 2));
  do out <- match dims with [] => Err IndexError | _ => dense (last dims 0%Z) false end;
  Ok (hidden ++ [out]).
(* model/model.py:178-179, build: kernel shapes, layer after layer *)
Fixpoint kernel_shapes (n : nat) (plan : list (nat * bool)) : list (nat * nat) :=
  match plan with [] => [] | (u, _) :: r => (n, u) :: kernel_shapes u r end.
Definition input_width (dims : list Z) : result nat :=
  match dims with
  | [] => Err IndexError
  | d :: _ => if (d <? 0)%Z then Err ValueError else Ok (Z.to_nat d)
  end.

(* The constructor up to the point where the model is built; [dtype_ok] is
   isinstance(tensor_dtype, tf.DType), [n_cells] params_dict["n_cells"] if present.
   Result: learning rate, plan, kernel shapes.
   model_inverse_domain.py:143-148 builds the model once before the layers exist: its call
   then reads self.attention_layer, which is not set yet. *)
Definition construct (k : kind) (dtype_ok : bool) (n_cells : option nat) (lr : lrdict) (dims : list Z)
  (attention : bool) : result ((nat -> R) * list (nat * bool) * list (nat * nat)) :=
  if negb dtype_ok then Err TypeError else
  match n_cells with
  | None => Err KeyError
  | Some _ =>
      do rate <- learning_rate k lr;
      do _ <- match k with
              | Domain => do n <- input_width dims; if attention then Err AttributeError else Ok n
              | _ => Ok 0%nat
              end;
      do plan <- layer_plan dims;
      do n <- input_width dims;
      Ok (rate, plan, kernel_shapes n plan)
  end.

(* ---------- call ---------- *)
Record net := {
  n_act : R -> R;                          (* the activation *)
  n_attention : bool;                      (* use_attention *)
  n_layers : list (bool * (mat R * list R))  (* activation flag, kernel, bias *)
}.
(* keras Dense: activation(x @ kernel + bias), one row *)
Definition dense_row (f : R -> R) (kernel : mat R) (bias x : list R) : list R :=
  map (fun j => f (vsum (map2 nmul x (map (fun row => nth j row 0) kernel)) + nth j bias 0)) (seq 0 (length bias)).
Definition act_of (nt : net) (b : bool) : R -> R := if b then n_act nt else fun v => v.
(* keras Attention()([x, x]) on a rank-2 tensor: softmax(x x^T) x; dropout and masks are off *)
Definition softmax (l : list R) : list R := map (fun v => exp v / vsum (map exp l)) l.
Definition attention (w : nat) (X : mat R) : mat R :=
  map (fun q => let p := softmax (map (fun k => vsum (map2 nmul q k)) X) in
                map (fun j => vsum (map2 (fun a row => a * nth j row 0) p X)) (seq 0 w)) X.
(* A batch of width w through the layers; Dense refuses an input whose last dimension is not
   the number of rows of its kernel *)
Fixpoint run_layers (f : bool -> R -> R) (ls : list (bool * (mat R * list R))) (w : nat) (X : mat R) : result (mat R) :=
  match ls with
  | [] => Ok X
  | (a, (kernel, bias)) :: r =>
      if negb (w =? length kernel)%nat then Err ValueError
      else run_layers f r (length bias) (map (dense_row (f a) kernel bias) X)
  end.
Definition rows_of_points (b : list (R * R)) : mat R := map (fun p => [fst p; snd p]) b.
(* model/model.py:187-206 (the same in the inverse models) *)
Definition call (nt : net) (b : list (R * R)) : result (mat R) :=
  let X := rows_of_points b in
  run_layers (act_of nt) (n_layers nt) 2 (if n_attention nt then attention 2 X else X).
(* model/model_hard.py:85-88, 208-228; the constraint receives the whole batch *)
Definition constraint := list (R * R) -> mat R -> mat R.
Definition default_constraint : constraint := fun _ y => y.
Definition call_hard (hc : option constraint) (nt : net) (b : list (R * R)) : result (mat R) :=
  do y <- call nt b;
  Ok (match hc with Some f => f b y | None => default_constraint b y end).

(* ---------- gradients ---------- *)
(* tape.gradient(target, x): partial derivatives of the sum of the entries of the target.
   Trusted: automatic differentiation computes derivatives. *)
Definition total (sel : option nat) (Y : mat R) : R :=
  match sel with
  | None => vsum (map vsum Y)
  | Some j => vsum (map (fun row => nth j row 0) Y)
  end.
Definition upd {T} (l : list T) (r : nat) (v : T) : list T := firstn r l ++ v :: skipn (S r) l.
Definition value (r : result (mat R)) : mat R := match r with Ok y => y | Err _ => [] end.
Definition tape_gradient (f : list (R * R) -> result (mat R)) (sel : option nat) (b : list (R * R)) : list (R * R) :=
  map (fun r => let p := nth r b (0, 0) in
    (Derive (fun t => total sel (value (f (upd b r (t, snd p))))) (fst p),
     Derive (fun t => total sel (value (f (upd b r (fst p, t))))) (snd p))) (seq 0 (length b)).
Definition network_of (nt : net) : network R := {| nn_out := call nt; nn_grad := tape_gradient (call nt) |}.
Definition hard_network (hc : option constraint) (nt : net) : network R :=
  {| nn_out := call_hard hc nt; nn_grad := tape_gradient (call_hard hc nt) |}.

(* ---------- configuration ---------- *)
(* Python values stored in a configuration; [CObj] is any other object *)
Inductive cfgval := CNone | CBool (b : bool) | CStr (s : string) | CFun (f : constraint) | CObj (id : Z).
Definition kwargs := list (string * cfgval).
(* Parameters of the four constructors with their defaults, in order:
   model/model.py:49-62, model_hard.py:62-76, model_inverse.py:39-55, model_inverse_domain.py:39-54 *)
Definition signature (k : kind) : list (string * option cfgval) :=
  ([("layer_dims"%string, None); ("learning_rate_dict"%string, None); ("params_dict"%string, None); ("loss_function"%string, None);
    ("input_tensors_list"%string, None); ("orig_factor_matrices"%string, None); ("force_function_list"%string, None)]
   ++ match k with Inverse => [("sensor_list"%string, None); ("inverse_params_dict"%string, None)] | Domain => [("sensor_list"%string, None)] | _ => [] end
   ++ [("tensor_dtype"%string, None); ("use_attention"%string, Some (CBool false)); ("activation"%string, Some (CStr "tanh"%string));
       ("hessian"%string, Some (CBool false))]
   ++ match k with Hard => [("hard_constraint_function"%string, Some CNone)] | _ => [] end).
(* A constructor call with keyword arguments kw: the attributes, each named like its parameter.  An unknown or missing name is
   a TypeError.  (model_hard.py stores the default constraint for None: [the_constraint].) *)
Definition instantiate (k : kind) (kw : kwargs) : result kwargs :=
  if negb (forallb (fun n => existsb (String.eqb n) (map fst (signature k))) (map fst kw)) then Err TypeError
  else mapM (fun pd => match dget String.eqb kw (fst pd), snd pd with
                       | Ok v, _ => Ok (fst pd, v)
                       | Err _, Some d => Ok (fst pd, d)
                       | Err _, None => Err TypeError
                       end) (signature k).
(* model/model.py:208-235, model_hard.py:230-256, model_inverse.py:218-249,
   model_inverse_domain.py:210-239: the names written by get_config.
   Simplification: the configuration of the Keras base class is empty. *)
Definition config_names (k : kind) : list string :=
  (["learning_rate_dict"%string; "loss_function"%string; "input_tensors_list"%string; "orig_factor_matrices"%string; "force_function_list"%string;
    "params_dict"%string; "use_attention"%string; "activation"%string; "hessian"%string; "layer_dims"%string; "tensor_dtype"%string]
   ++ match k with Inverse => ["sensor_list"%string; "inverse_params_dict"%string] | Domain => ["sensor_list"%string] | _ => [] end).
Definition get_config (k : kind) (attrs : kwargs) : result kwargs :=
  mapM (fun n => do v <- dget String.eqb attrs n; Ok (n, v)) (config_names k).
(* Model.from_config(config) *)
Definition from_config (k : kind) (config : kwargs) : result kwargs := instantiate k config.
(* The constraint used by call *)
Definition the_constraint (attrs : kwargs) : option constraint :=
  match dget String.eqb attrs "hard_constraint_function"%string with Ok (CFun f) => Some f | _ => None end.
