(* From the space to the training step (C30), and examples. *)
From Coq Require Import String ZArith List Arith Lia Bool Reals Lra.
From Verif Require Import Num Py PyFacts Jacobi Quadrature Basis Transform Cell Space Tensor Data Physics Train RCalc PolyFacts ListFacts
  Spec SpecGeom TransformFacts CellFacts2 SpaceFacts TransformFacts2 ForcingFacts TensorFacts SpecTrain PhysicsFacts DataFacts TrainFacts.
Import ListNotations.
Local Open Scope R_scope.

Lemma dirichlet_input_shape : forall (bp : bdict R) (bf : bfun R) dir, get_dirichlet_input bp bf = Ok dir ->
  has_shape (snd dir) (length (fst dir)) 1 /\ dirichlet_data bp bf = Ok (fst dir, map (fun r => nth 0 r 0) (snd dir)).
Proof.
  intros bp bf dir H. unfold get_dirichlet_input in H. destruct (dirichlet_data bp bf) as [[x y]|] eqn:E; [|discriminate].
  cbn [bind fst snd] in H. injection H as <-. cbn [fst snd]. destruct (dirichlet_rows bp bf x y E) as (_ & L & _).
  unfold as_column. split.
  - split; [now rewrite map_length|]. intros row Hr. apply in_map_iff in Hr. destruct Hr as (a & <- & _). reflexivity.
  - rewrite map_map. cbn [nth]. now rewrite map_id.
Qed.

Section Pipeline.
Variables (o : quad_oracle R) (cf : config) (cells : list (cell R)) (bp : bdict R) (bf : bfun R) (plot : bool)
  (s : space R) (f : R -> R -> R) (h : handler R) (dir sensor : list (R * R) * mat R) (loss : pyfun R) (nc : nat).
Hypothesis Ho : lengths_ok o (Z.to_nat (cf_quad_order cf)).
Hypothesis Hs : make_space o cf cells bp bf plot = Ok s.
Hypothesis Hh : make_handler s f true = Ok h.
Hypothesis Hd : get_dirichlet_input bp bf = Ok dir.
Let n := Z.to_nat (cf_quad_order cf).
Let k := Z.to_nat (cf_fe_order cf).

Lemma pipeline_fits : fst dir <> [] -> model_fits (model_of h dir sensor loss nc) (length cells) (k * k) (n * n).
Proof.
  intros Hne. destruct (handler_spec o cf cells bp bf plot s Ho Hs f) as (h' & E & S1 & S2 & S3 & L & SF & _).
  rewrite Hh in E. injection E as <-. destruct (space_sizes o cf cells bp bf plot s Ho Hs) as (HC & HT & HQ).
  constructor; cbn [model_of m_val m_gx m_gy m_x m_force m_dir_in m_dir_act]; auto. now apply (dirichlet_input_shape bp bf).
Qed.
(* the table handed to the loss: entry (c, q) is the network at quadrature point q of cell c *)
Lemma pipeline_points : forall U c q, (c < length cells)%nat -> (q < n * n)%nat ->
  exists pts, get_quadrature_actual_coordinates s (Z.of_nat c) = Ok pts /\
    entry (at_points U (h_x h) (length cells) (n * n)) c q = U (nth q pts (0, 0)).
Proof.
  intros U c q Hc Hq. destruct (handler_spec o cf cells bp bf plot s Ho Hs f) as (h' & E & _ & _ & _ & _ & _ & P).
  rewrite Hh in E. injection E as <-. destruct (P c Hc) as (_ & _ & _ & (pts & E1 & _ & E2) & _).
  exists pts. split; [exact E1|]. unfold at_points. rewrite mk_entry by auto. now rewrite E2.
Qed.
End Pipeline.

(* ---------- examples ---------- *)
(* two cells, one test function, two points *)
Definition ex_V : list (mat R) := [[[1; 2]]; [[3; 4]]].
Definition ex_F : mat R := [[1; 2]].
Definition ex_u : mat R := [[1; 0]; [0; 1]].
Lemma ex_fits : fits ex_V ex_V ex_V ex_u ex_u ex_u ex_F 2 1 2.
Proof.
  assert (S : shape3 ex_V 2 1 2).
  { split; [reflexivity|]. intros m [<-|[<-|[]]]; (split; [reflexivity|]); intros row [<-|[]]; reflexivity. }
  constructor; auto; try (split; [reflexivity|]; intros row Hr; simpl in Hr; repeat destruct Hr as [<-|Hr]; try reflexivity; destruct Hr).
Qed.
Definition ex_net (a b c : R) : network R :=
  {| nn_out := fun l => Ok (map (fun p => [a * fst p + b * snd p + c]) l);
     nn_grad := fun _ l => map (fun _ => (a, b)) l |}.
Lemma ex_net_pointwise : forall a b c, pointwise (ex_net a b c) (fun p => a * fst p + b * snd p + c) (fun _ => (a, b)).
Proof. intros a b c l. split; reflexivity. Qed.
Definition ex_net2 (a b c e : R) : network R :=
  {| nn_out := fun l => Ok (map (fun p => [a * fst p + b * snd p + c; e]) l);
     nn_grad := fun _ l => map (fun _ => (a, b)) l |}.
Lemma ex_net2_pointwise : forall a b c e, pointwise2 (ex_net2 a b c e) (fun p => a * fst p + b * snd p + c) (fun _ => e) (fun _ => (a, b)).
Proof. intros a b c e l. split; reflexivity. Qed.

Lemma ex_pipeline : forall loss, exists o s h dir,
  oracle_ok o (Z.to_nat (cf_quad_order (kite_cf "bilinear"))) /\
  make_space o (kite_cf "bilinear") [unit_square; kite] [(7%Z, [(0, 0); (1, 0)])] [(7%Z, fun x y => x + y)] false = Ok s /\
  make_handler s (fun x y => x * y) true = Ok h /\
  get_dirichlet_input [(7%Z, [(0, 0); (1, 0)])] [(7%Z, fun x y => x + y)] = Ok dir /\ fst dir = [(0, 0); (1, 0)] /\
  model_fits (model_of h dir dir loss 2) 2 16 25 /\ sensors_fit (model_of h dir dir loss 2).
Proof.
  intros loss. destruct (kite_space "bilinear" (or_introl eq_refl)) as (o & s & Ho & Hs).
  destruct (handler_spec o _ _ _ _ _ s (oracle_lengths _ _ Ho) Hs (fun x y => x * y)) as (h & Eh & _).
  destruct (get_dirichlet_input [(7%Z, [(0, 0); (1, 0)])] [(7%Z, fun x y => x + y)]) as [dir|] eqn:Ed; [|discriminate].
  exists o, s, h, dir. pose proof Ed as Ed'. cbn in Ed'. injection Ed' as E. 
  refine (conj Ho (conj Hs (conj Eh (conj eq_refl (conj _ (conj _ _)))))).
  - now rewrite <- E.
  - apply (pipeline_fits o (kite_cf "bilinear") [unit_square; kite] _ _ false s (fun x y => x * y) h dir dir loss 2 (oracle_lengths _ _ Ho) Hs Eh Ed).
    rewrite <- E. discriminate.
  - split; cbn [model_of m_sensor_in m_sensor_act]; [rewrite <- E; discriminate | exact (proj1 (dirichlet_input_shape _ _ _ Ed))].
Qed.
Lemma ex_value : exists l,
  call_kw pde_loss_poisson (args ex_V ex_V ex_V ex_u ex_u ex_u ex_F ++ bparams (Some [("eps"%string, 2)])) = Ok l /\
  nth 0 l 0 = 9 /\ nth 1 l 0 = 196.
Proof.
  destruct (poisson_spec _ _ _ _ _ _ _ _ _ _ ex_fits [("eps"%string, 2)] 2 eq_refl) as (l & E & L & H).
  exists l. split; [exact E|]. split; [rewrite (proj1 (H 0%nat ltac:(lia))) | rewrite (proj1 (H 1%nat ltac:(lia)))]; unfold mean_sq, entry3, entry; simpl; field.
Qed.

(* ---------- parameter dictionaries (C30) ---------- *)
Lemma params_keep : forall {V W} (conv : V -> W) (d : list (string * V)),
  map fst (params_as_tensors conv d) = map fst d /\ map snd (params_as_tensors conv d) = map conv (map snd d) /\
  forall k, dget String.eqb (params_as_tensors conv d) k = match dget String.eqb d k with Ok v => Ok (conv v) | Err e => Err e end.
Proof.
  intros V W conv d. unfold params_as_tensors. rewrite !map_map. split; [|split; [reflexivity|]].
  - apply map_ext. reflexivity.
  - intros k. induction d as [|[k' v] d IH]; [reflexivity|]. cbn. destruct (String.eqb k k'); [reflexivity | exact IH].
Qed.
