(* Properties C36-C39, C44, C49: networks, gradients, hard constraints, learning rates. *)
From Coq Require Import String ZArith List Arith Lia Reals Lra.
From Coquelicot Require Import Coquelicot.
From Verif Require Import Num Py Tensor Train Spec SpecTrain Nets NetFacts.
Import ListNotations.
Local Open Scope R_scope.

(* C36: [network_of nt] without attention, [chain nt n]: the kernels fit together, 2 inputs, n outputs.
   A row's output is what the network returns for that row alone, its gradient the gradient there. *)
Theorem C36_rows : forall nt n, n_attention nt = false -> chain nt n ->
  exists F : R * R -> list R, (forall p, nn_out (network_of nt) [p] = Ok [F p]) /\ (forall p, length (F p) = n) /\
    forall b, nn_out (network_of nt) b = Ok (map F b) /\
      nn_grad (network_of nt) None b = map (grad (fun p => vsum (F p))) b /\
      forall j, nn_grad (network_of nt) (Some j) b = map (grad (fun p => nth j (F p) 0)) b.
Proof. exact plain_general. Qed.
Theorem C36_pointwise : forall nt, n_attention nt = false -> chain nt 1 ->
  exists U, (forall p, nn_out (network_of nt) [p] = Ok [[U p]]) /\
    pointwise (network_of nt) U (fun p => (Derive (fun t => U (t, snd p)) (fst p), Derive (fun t => U (fst p, t)) (snd p))) /\
    ((forall v, ex_derive (n_act nt) v) -> forall p, ex_derive (fun t => U (t, snd p)) (fst p) /\ ex_derive (fun t => U (fst p, t)) (snd p)).
Proof. exact plain_pointwise. Qed.
Theorem C36_pointwise_domain : forall nt, n_attention nt = false -> chain nt 2 ->
  exists U E, (forall p, nn_out (network_of nt) [p] = Ok [[U p; E p]]) /\
    pointwise2 (network_of nt) U E (fun p => (Derive (fun t => U (t, snd p)) (fst p), Derive (fun t => U (fst p, t)) (snd p))) /\
    ((forall v, ex_derive (n_act nt) v) -> partials U /\ partials E).
Proof. exact plain_pointwise2. Qed.
(* with attention both the output and the gradient of a row depend on the other rows *)
Theorem C36_attention_refuted : n_attention att_net = true /\ chain att_net 1 /\ (forall v, ex_derive (n_act att_net) v) /\
  (forall s, nn_out (network_of att_net) [(s, 0)] = Ok [[s]]) /\
  nn_out (network_of att_net) [(0, 0); (1, 0)] = Ok [[1 / 2]; [exp 1 / (1 + exp 1)]] /\
  exists own other, (forall s, nn_out (network_of att_net) [(s, 0); (1, 0)] = Ok [[own s]; [other s]]) /\ ex_derive own 0 /\
    fst (nth 0 (nn_grad (network_of att_net) None [(0, 0); (1, 0)]) (0, 0)) = Derive own 0 + 1 / (1 + exp 1) ^ 2.
Proof. exact att_wrong. Qed.

(* C37 *)
Theorem C37_boundary : forall (hc : constraint) (g : R * R -> list R) (bd : R * R -> Prop),
  (forall b y r, length y = length b -> (r < length b)%nat -> bd (nth r b (0, 0)) -> nth r (hc b y) [] = g (nth r b (0, 0))) ->
  (* every network: all weights, hence after any number of training steps *)
  forall nt b y r, nn_out (hard_network (Some hc) nt) b = Ok y -> (r < length b)%nat -> bd (nth r b (0, 0)) -> nth r y [] = g (nth r b (0, 0)).
Proof. exact hard_boundary. Qed.
Theorem C37_default : forall nt b sel, nn_out (hard_network None nt) b = nn_out (network_of nt) b /\
  nn_grad (hard_network None nt) sel b = nn_grad (network_of nt) sel b.
Proof. exact hard_default. Qed.
(* the residual uses the gradient of the constrained function *)
Theorem C37_gradient : forall (h : R * R -> R -> R) nt, n_attention nt = false -> chain nt 1 ->
  let hc : constraint := fun b y => map2 (fun p row => map (h p) row) b y in
  exists U, (forall p, nn_out (network_of nt) [p] = Ok [[U p]]) /\
    pointwise (hard_network (Some hc) nt) (fun p => h p (U p))
      (fun p => (Derive (fun t => h (t, snd p) (U (t, snd p))) (fst p), Derive (fun t => h (fst p, t) (U (fst p, t))) (snd p))).
Proof. exact hard_pointwise. Qed.

(* C38 *)
Theorem C38_schedule : forall k d lr0 steps rate f,
  dget String.eqb d "initial_learning_rate"%string = Ok (LNum lr0) -> dget String.eqb d "use_lr_scheduler"%string = Ok (LBool true) ->
  dget String.eqb d "decay_steps"%string = Ok (LNum steps) -> dget String.eqb d "decay_rate"%string = Ok (LNum rate) ->
  learning_rate k d = Ok f -> 0 < steps ->
  (forall t, exists m : nat, INR m <= INR t / steps < INR m + 1 /\ f t = lr0 * rate ^ m) /\
  (forall n, (1 <= n)%nat -> steps = INR n -> forall t, f t = lr0 * rate ^ (t / n)) /\
  (0 <= lr0 -> 0 <= rate <= 1 -> forall s t, (s <= t)%nat -> f t <= f s).
Proof.
  exact (fun k d lr0 steps rate f H0 H1 H2 H3 Hf Hs =>
    conj (rate_on k d lr0 steps rate _ f H0 H1 H2 H3 Hf eq_refl Hs)
    (conj (fun n => rate_nat k d lr0 steps rate _ f H0 H1 H2 H3 Hf n eq_refl)
          (rate_decreasing k d lr0 steps rate _ f H0 H1 H2 H3 Hf eq_refl Hs))).
Qed.
Theorem C38_constant : forall k d lr0 steps rate use f,
  dget String.eqb d "initial_learning_rate"%string = Ok (LNum lr0) -> dget String.eqb d "use_lr_scheduler"%string = Ok use ->
  dget String.eqb d "decay_steps"%string = Ok (LNum steps) -> dget String.eqb d "decay_rate"%string = Ok (LNum rate) ->
  learning_rate k d = Ok f -> use = LBool false \/ use = LNum 0 -> forall t, f t = lr0.
Proof. exact rate_off. Qed.
Theorem C38_keys : forall k d,
  let needed := (["initial_learning_rate"; "use_lr_scheduler"; "decay_steps"; "decay_rate"]%string
                 ++ match k with Hard | Inverse => ["staircase"%string] | _ => [] end)%list in
  ((forall n, In n needed -> exists v, dget String.eqb d n = Ok v) -> exists f, learning_rate k d = Ok f) /\
  (forall n, In n needed -> (forall v, dget String.eqb d n <> Ok v) -> learning_rate k d = Err KeyError).
Proof. exact lr_keys. Qed.
Theorem C38_staircase_ignored : forall k d d', (forall n, n <> "staircase"%string -> dget String.eqb d n = dget String.eqb d' n) ->
  (exists v, dget String.eqb d "staircase"%string = Ok v) -> (exists v, dget String.eqb d' "staircase"%string = Ok v) ->
  learning_rate k d = learning_rate k d'.
Proof. exact staircase_ignored. Qed.

(* C39 *)
Theorem C39_layers : forall dims, (2 <= length dims)%nat -> (forall u, In u dims -> (1 <= u)%Z) ->
  let m := length dims in let dim i := Z.to_nat (nth i dims 0%Z) in
  forall k n lr f att, learning_rate k lr = Ok f -> (k = Domain -> att = false) ->
  construct k true (Some n) lr dims att =
  Ok (f, map (fun i => (dim (i + 1)%nat, (i <? m - 2)%nat)) (seq 0 (m - 1)), map (fun i => (dim i, dim (i + 1)%nat)) (seq 0 (m - 1))).
Proof. exact construct_ok. Qed.
Theorem C39_weights : forall dims, (2 <= length dims)%nat -> (forall u, In u dims -> (1 <= u)%Z) ->
  let m := length dims in let dim i := Z.to_nat (nth i dims 0%Z) in
  forall k n lr att f plan shapes, construct k true (Some n) lr dims att = Ok (f, plan, shapes) ->
  length plan = (m - 1)%nat /\
  fold_right (fun s acc => fst s * snd s + snd s + acc)%nat 0%nat shapes = fold_right (fun i acc => (dim i + 1) * dim (i + 1) + acc)%nat 0%nat (seq 0 (m - 1)).
Proof. exact weight_count. Qed.
Theorem C39_forward : forall dims nt, (2 <= length dims)%nat -> nth 0 dims 0%Z = 2%Z -> widths dims nt ->
  let m := length dims in let dim i := Z.to_nat (nth i dims 0%Z) in
  n_attention nt = false -> forall p, exists vals : nat -> list R, vals 0%nat = [fst p; snd p] /\
  (forall i, (i < m)%nat -> length (vals i) = dim i) /\
  (forall i j d, (i < m - 1)%nat -> (j < dim (i + 1))%nat -> let '(_, (kernel, bias)) := nth i (n_layers nt) d in
    let z := Sum (fun k => nth k (vals i) 0 * entry kernel k j) (dim i) + nth j bias 0 in
    nth j (vals (S i)) 0 = if (i <? m - 2)%nat then n_act nt z else z) /\
  nn_out (network_of nt) [p] = Ok [vals (m - 1)%nat].
Proof. exact forward. Qed.
Theorem C39_chain : forall dims nt, (2 <= length dims)%nat -> nth 0 dims 0%Z = 2%Z -> widths dims nt ->
  chain nt (Z.to_nat (nth (length dims - 1) dims 0%Z)).
Proof. exact widths_chain. Qed.
Theorem C39_errors : (forall k n lr f att, learning_rate k lr = Ok f -> construct k true (Some n) lr [] att = Err IndexError) /\
  (forall dims u, (2 <= length dims)%nat -> In u (tl dims) -> (u <= 0)%Z -> layer_plan dims = Err ValueError) /\
  (forall k n lr dims att, construct k false n lr dims att = Err TypeError) /\
  (forall k lr dims att, construct k true None lr dims att = Err KeyError).
Proof. exact (conj empty_dims (conj plan_refused (conj (fun _ _ _ _ _ => eq_refl) (fun _ _ _ _ => eq_refl)))). Qed.

(* C44 *)
Theorem C44_roundtrip : forall k kw attrs, k <> Hard -> instantiate k kw = Ok attrs ->
  exists c, get_config k attrs = Ok c /\ from_config k c = Ok attrs.
Proof. exact config_roundtrip. Qed.
Theorem C44_arguments : forall k kw attrs, instantiate k kw = Ok attrs ->
  (forall n v, dget String.eqb kw n = Ok v -> dget String.eqb attrs n = Ok v) /\
  (forall n d, In (n, d) [("use_attention", CBool false); ("activation", CStr "tanh"); ("hessian", CBool false)]%string -> ~ In n (map fst kw) -> dget String.eqb attrs n = Ok d).
Proof. exact arguments. Qed.
Theorem C44_hard : forall kw attrs, instantiate Hard kw = Ok attrs ->
  exists c attrs', get_config Hard attrs = Ok c /\ from_config Hard c = Ok attrs' /\
    (forall n, n <> "hard_constraint_function"%string -> dget String.eqb attrs' n = dget String.eqb attrs n) /\
    dget String.eqb attrs' "hard_constraint_function"%string = Ok CNone.
Proof. exact config_hard. Qed.
Theorem C44_hard_refuted : exists kw attrs c attrs' nt b, instantiate Hard kw = Ok attrs /\ get_config Hard attrs = Ok c /\ from_config Hard c = Ok attrs' /\
  chain nt 1 /\ nn_out (hard_network (the_constraint attrs) nt) b = Ok [[0]] /\ nn_out (hard_network (the_constraint attrs') nt) b = Ok [[1]].
Proof. exact config_loses. Qed.

(* C49 *)
Theorem C49_attention : forall k n lr dims att f, k <> Domain -> learning_rate k lr = Ok f -> (2 <= length dims)%nat -> (forall u, In u dims -> (1 <= u)%Z) ->
  exists r, construct k true (Some n) lr dims att = Ok r.
Proof. exact attention_ok. Qed.
Theorem C49_domain_refuted : forall n lr dims f, learning_rate Domain lr = Ok f -> (2 <= length dims)%nat -> (forall u, In u dims -> (1 <= u)%Z) ->
  construct Domain true (Some n) lr dims true = Err AttributeError.
Proof. exact domain_attention. Qed.

(* ---------- the hypotheses can be met ---------- *)
Definition ex_net : net := {| n_act := fun v => v * v; n_attention := false;
  n_layers := [(true, ([[1; 0; 2]; [0; 1; -1]], [0; 0; 1])); (false, ([[1]; [2]; [3]], [5]))] |}.
Definition ex_lr : lrdict :=
  [("initial_learning_rate", LNum (1 / 100)); ("use_lr_scheduler", LBool true); ("decay_steps", LNum 10); ("decay_rate", LNum (9 / 10)); ("staircase", LBool false)]%string.
Example C36_example : widths [2; 3; 1]%Z ex_net /\ chain ex_net 1 /\ (forall v, ex_derive (n_act ex_net) v).
Proof.
  assert (W : widths [2; 3; 1]%Z ex_net).
  { split; [reflexivity|]. intros i d Hi. cbn in Hi. destruct i as [|[|i]]; [| |lia]; cbn; (split; [reflexivity|]); (split; [|reflexivity]);
      (split; [reflexivity|]); intros row Hr; cbn in Hr; repeat destruct Hr as [<- | Hr]; try reflexivity; destruct Hr. }
  split; [exact W|]. split; [apply (C39_chain [2; 3; 1]%Z ex_net); [cbn; lia | reflexivity | exact W]|].
  intros v. cbn. auto_derive. exact I.
Qed.
Example C37_example : let hc : constraint := fun b y => map2 (fun p row => map (fun v => fst p * (1 - fst p) * v + snd p) row) b y in
  exists y, nn_out (hard_network (Some hc) ex_net) [(0, 3); (1 / 2, 2)] = Ok y /\ nth 0 y [] = [3].
Proof. eexists. split; [reflexivity|]. cbn. f_equal. ring. Qed.
Example C38_example : forall k, exists f, learning_rate k ex_lr = Ok f /\ f 25%nat = 1 / 100 * (9 / 10) ^ 2.
Proof.
  intros k. destruct (proj1 (C38_keys k ex_lr)) as [f E].
  { intros n Hn. destruct k; cbn in Hn; repeat destruct Hn as [<- | Hn]; try destruct Hn; eexists; reflexivity. }
  exists f. split; [exact E|].
  destruct (C38_schedule k ex_lr (1 / 100) 10 (9 / 10) f eq_refl eq_refl eq_refl eq_refl E ltac:(lra)) as [H _]. destruct (H 25%nat) as (m & B & ->).
  assert (m = 2%nat) as ->; [|reflexivity].
  replace (INR 25) with 25 in B by (rewrite INR_IZR_INZ; reflexivity).
  destruct m as [|[|[|m]]]; auto; exfalso; rewrite ?S_INR in B; pose proof (pos_INR m) as P || idtac; simpl INR in B; lra.
Qed.
Example C39_example : forall k, exists f, learning_rate k ex_lr = Ok f.
Proof. intros k. destruct (C38_example k) as (f & E & _). now exists f. Qed.
Example C44_example : exists attrs, instantiate Inverse
  [("layer_dims", CObj 1); ("learning_rate_dict", CObj 2); ("params_dict", CObj 3); ("loss_function", CObj 4); ("input_tensors_list", CObj 5);
   ("orig_factor_matrices", CObj 6); ("force_function_list", CObj 7); ("sensor_list", CObj 9); ("inverse_params_dict", CObj 10); ("tensor_dtype", CObj 8);
   ("activation", CStr "sin")]%string = Ok attrs.
Proof. eexists. reflexivity. Qed.

Print Assumptions C36_rows.
Print Assumptions C36_pointwise.
Print Assumptions C36_pointwise_domain.
Print Assumptions C36_attention_refuted.
Print Assumptions C37_boundary.
Print Assumptions C37_default.
Print Assumptions C37_gradient.
Print Assumptions C38_schedule.
Print Assumptions C38_constant.
Print Assumptions C38_keys.
Print Assumptions C38_staircase_ignored.
Print Assumptions C39_layers.
Print Assumptions C39_weights.
Print Assumptions C39_forward.
Print Assumptions C39_chain.
Print Assumptions C39_errors.
Print Assumptions C44_roundtrip.
Print Assumptions C44_arguments.
Print Assumptions C44_hard.
Print Assumptions C44_hard_refuted.
Print Assumptions C49_attention.
Print Assumptions C49_domain_refuted.
