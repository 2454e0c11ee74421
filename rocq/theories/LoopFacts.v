(* Facts for C77-C78. *)
From Coq Require Import String ZArith List Arith Bool Reals Lra Lia Classical FunctionalExtensionality Permutation.
From Coquelicot Require Import Coquelicot.
From Verif Require CellFacts2 ProblemFacts PipelineFacts.
From Verif Require Import Num Py Jacobi Quadrature Basis Transform Cell Space Tensor Data Physics Train Geometry Nets Metrics Problems Driver DriverInverse Optim Loop
  Spec SpecGeom SpecTrain SpecMesh SpecWeak SpecDriver SpecDriverInverse SpecScript SpecRound SpecShape SpecOptim SpecLoop
  ListFacts NetFacts JetFacts OptimFacts AdamFacts DriverFacts DriverInverseFacts ScriptFacts.
Import ListNotations.
Local Open Scope R_scope.

(* ---------- runs and their losses ---------- *)
Lemma rate_start : forall k d lr0 steps rate, dget String.eqb d "initial_learning_rate"%string = Ok (LNum lr0) ->
  dget String.eqb d "decay_steps"%string = Ok (LNum steps) -> learning_rate k d = Ok rate -> rate 0%nat = lr0.
Proof.
  intros k d lr0 steps rate H0 H2 H. unfold learning_rate in H. rewrite H0, H2 in H. cbn [bind] in H.
  destruct (dget _ _ "use_lr_scheduler"%string) as [use|]; [|discriminate]. cbn [bind] in H. destruct (dget _ _ "decay_rate"%string) as [r|]; [|discriminate]. cbn [bind] in H.
  destruct (if reads_staircase k then _ else _); [|discriminate]. cbn [bind lnum] in H. injection H as <-. destruct (truthy use); [|reflexivity].
  unfold exponential_decay. cbn [INR]. unfold Rdiv. rewrite Rmult_0_l.
  replace (Int_part 0) with 0%Z; [cbn; ring|]. destruct (base_Int_part 0) as [A B]. assert (A' : IZR (Int_part 0) < IZR 1) by (cbn; lra). assert (B' : IZR (-1) < IZR (Int_part 0)) by (cbn; lra).
  apply lt_IZR in A', B'. lia.
Qed.
Section History.
Variables (rate : nat -> R) (f : list R -> result (losses R)) (w0 : list R).
Let x := variables_at (Ok rate) f w0.
Lemma x_length : forall t, length (x t) = length w0.
Proof.
  intros t. unfold x, variables_at. destruct (trained rate f w0 t) as [[st y]|] eqn:E; [|reflexivity]. now destruct (trained_lengths _ _ _ _ _ _ E) as (_ & _ & _ & D).
Qed.
(* while the steps succeed, x t is the state of the optimizer *)
Lemma steps_trained : forall n, (forall t, (t < n)%nat -> exists L, f (x t) = Ok L) -> forall t, (t <= n)%nat -> exists st, trained rate f w0 t = Ok (st, x t).
Proof.
  intros n H. induction t as [|t IH]; intros Ht; [cbn; eauto|]. destruct (IH ltac:(lia)) as (st & E). destruct (H t ltac:(lia)) as (L & EL).
  unfold x, variables_at. cbn [trained]. rewrite E. cbn [bind]. unfold train_once. cbn [fst snd]. rewrite EL. cbn [bind snd].
  destruct (apply_gradients _ _ _ _) as [st' w']. eexists. reflexivity.
Qed.
End History.
Lemma x_start : forall rate f w0, variables_at rate f w0 0 = w0.
Proof. intros [r|] f w0; reflexivity. Qed.

Lemma learns_intro : forall (writes : lrdict -> list (list R) -> Prop) k f w0, differentiable_at f w0 ->
  (forall d l, writes d l -> exists rate, learning_rate k d = Ok rate /\ forall t, (t < length l)%nat -> exists L, f (variables_at (Ok rate) f w0 t) = Ok L /\ nth t l [] = l_total L) ->
  learns f w0 writes.
Proof.
  intros writes k f w0 HD HP. destruct (differentiable_total f w0 w0 HD eq_refl) as (a & L0 & E0 & T0).
  split.
  - intros Z d l Hl. destruct (HP d l Hl) as (rate & _ & Ht). exists a. intros t Hlt. destruct (Ht t Hlt) as (L & EL & ->).
    destruct (stationary_run rate f w0 L0 E0 Z t) as (st & Et). unfold variables_at in EL. rewrite Et in EL. cbn [snd] in EL. congruence.
  - intros N. destruct (first_step f w0 HD N) as (eta & He & Hs). exists eta. split; auto. intros d lr0 l (H0 & steps & H2 & Hst) Hlr Hl Hn.
    destruct (HP d l Hl) as (rate & Hr & Ht). pose proof (rate_start k d lr0 steps rate H0 H2 Hr) as R0.
    destruct (Ht 0%nat ltac:(lia)) as (L & EL & El). cbn [variables_at trained snd] in EL. rewrite E0 in EL. injection EL as <-.
    assert (E1 : train_once rate f (adam_init (length w0), w0) = Ok (L0, apply_gradients rate (adam_init (length w0)) (gradients f w0) w0)) by (unfold train_once; cbn [fst snd]; rewrite E0; reflexivity).
    destruct (apply_gradients rate (adam_init (length w0)) (gradients f w0) w0) as [st w'] eqn:Ew.
    destruct (Hs rate L0 st w' ltac:(rewrite R0; exact Hlr) E1) as (a' & b & A & (L1 & B1 & B2) & Hlt).
    destruct (Ht 1%nat ltac:(lia)) as (L1' & EL1 & El1). unfold variables_at in EL1. cbn [trained bind] in EL1. rewrite E1 in EL1. cbn [bind snd] in EL1. rewrite B1 in EL1. injection EL1 as <-.
    exists a', b. rewrite El, El1. auto.
Qed.

(* ---------- networks ---------- *)
Lemma starts_chain : forall dims outs nt, starts dims outs nt -> NetFacts.chain nt (Z.to_nat outs).
Proof. intros dims outs nt [L I O W A]. rewrite <- O. now apply (widths_chain dims nt). Qed.
Lemma starts_pointwise : forall sc dims nt w, starts dims 1 nt -> (length (weights_of nt) <= length w)%nat ->
  (sc_kind sc = Hard -> sc_constraint sc = None \/ exists h : R * R -> R -> R, sc_constraint sc = Some (fun b y => map2 (fun p row => map (h p) row) b y)) ->
  exists U G, pointwise (the_network sc (with_weights nt w)) U G.
Proof.
  intros sc dims nt w S Hw Hh. pose proof (starts_chain _ _ _ S) as C. pose proof (st_attention _ _ _ S) as A. change (Z.to_nat 1) with 1%nat in C.
  rewrite <- (listed_nth w). pose proof (filled_pointwise nt (length w) (fun k => nth k w 0) A C Hw) as P. unfold the_network.
  destruct (sc_kind sc); try (do 2 eexists; exact P). destruct (Hh eq_refl) as [-> | [h ->]].
  - do 2 eexists. intros b. destruct (hard_default (with_weights nt (listed (length w) (fun k => nth k w 0))) b None) as [-> ->]. apply P.
  - do 2 eexists. exact (filled_hard nt (length w) (fun k => nth k w 0) h A C Hw).
Qed.
Lemma pde_constraint : forall sc d al bx bn g hard, script_pde sc d al bx bn g hard ->
  sc_kind sc = Hard -> sc_constraint sc = None \/ exists h : R * R -> R -> R, sc_constraint sc = Some (fun b y => map2 (fun p row => map (h p) row) b y).
Proof. intros sc d al bx bn g hard H. destruct H; intros K; try discriminate. right. exists (fun p v => ansatz p * v). reflexivity. Qed.
Lemma forward_weights_at : forall sc pb i nt m t, exists x, length x = length (weights_of nt) /\ forward_weights sc pb i nt m t = with_weights nt x.
Proof.
  intros sc pb i nt m t. unfold forward_weights, from_model. destruct m as [m|].
  - eexists. split; [|reflexivity]. destruct (learning_rate _ _) as [rate|]; [apply x_length | reflexivity].
  - exists (weights_of nt). split; auto. symmetry. apply with_own_weights.
Qed.
Lemma forward_pointwise : forall sc pb i nt m d al bx bn g hard, script_pde sc d al bx bn g hard -> starts (layer_dims sc i) 1 nt ->
  forall t, exists U G, pointwise (the_network sc (forward_weights sc pb i nt m t)) U G.
Proof.
  intros sc pb i nt m d al bx bn g hard Hs Hn t. destruct (forward_weights_at sc pb i nt m t) as (x & Lx & ->).
  eapply starts_pointwise; [exact Hn | lia | eapply pde_constraint; eauto].
Qed.

(* ---------- forward scripts ---------- *)
Lemma params_id : forall l : list (string * R), params_as_tensors (fun r => r) l = l.
Proof. intros l. unfold params_as_tensors. rewrite <- (map_id l) at 2. apply map_ext. now intros []. Qed.
Lemma model_ready : forall o pb sc i cells bd m, oracle_ok o (Z.to_nat (i_quad_order i)) -> build o pb sc i cells bd = Ok m -> concat (map snd bd) <> [] ->
  model_fits m (length cells) (Z.to_nat (i_fe_order i) * Z.to_nat (i_fe_order i)) (Z.to_nat (i_quad_order i) * Z.to_nat (i_quad_order i)) /\ m_cells m = length cells /\ m_loss m = sc_loss sc.
Proof.
  intros o pb sc i cells bd m Ho Hb Hp. destruct (build_parts o pb sc i cells bd m Hb) as (s & h & dir & Es & Eh & Ed & ->).
  destruct (boundary_gap _ _ _ Ed) as (data & D1 & D2 & _). split; [|split; reflexivity].
  apply (PipelineFacts.pipeline_fits o (space_config i) cells _ _ _ s (pb_rhs pb) h dir ([], []) (sc_loss sc) _ (CellFacts2.oracle_lengths _ _ Ho) Es Eh Ed).
  rewrite <- D2, (proj1 D1). exact Hp.
Qed.
Lemma ansatz_partials : partials ansatz.
Proof.
  intros [x y]. unfold ansatz. cbn [fst snd]. assert (T : forall z, ex_derive tanh z) by (intros z; eexists; apply ProblemFacts.is_derive_tanh).
  split; auto_derive; repeat split; apply T.
Qed.
Lemma ansatz_form : ansatz_constraint = (fun b y => map2 (fun p row => map (fun v => ansatz p * v + 0) row) b y).
Proof.
  unfold ansatz_constraint. apply functional_extensionality. intros b. apply functional_extensionality. intros y.
  f_equal. apply functional_extensionality. intros p. apply functional_extensionality. intros row. apply map_ext. intros v. ring.
Qed.
Lemma zero_partials : partials (fun _ => 0).
Proof. intros p. split; apply ex_derive_const. Qed.
Lemma forward_trains : forall o pb sc i cells bd m nt al bx bn g hard, oracle_ok o (Z.to_nat (i_quad_order i)) -> build o pb sc i cells bd = Ok m -> concat (map snd bd) <> [] ->
  script_pde sc (pb_params pb) al bx bn g hard -> starts (layer_dims sc i) 1 nt -> twice (n_act nt) ->
  exists C T Q, trains m C T Q nt (i_beta i) (forward_at sc pb i m nt) (length (weights_of nt)).
Proof.
  intros o pb sc i cells bd m nt al bx bn g hard Ho Hb Hp Hs Hn Ha. destruct (model_ready o pb sc i cells bd m Ho Hb Hp) as (F & Hc & Hl).
  pose proof (starts_chain _ _ _ Hn) as Ch. change (Z.to_nat 1) with 1%nat in Ch.
  do 3 eexists. split; [exact F|]. split; [exact Hc|]. split; [exact (st_attention _ _ _ Hn)|]. split; [exact Ha|].
  unfold forward_at. rewrite params_id. revert Hl. generalize (pb_params pb) Hs. clear Hs. intros dd Hs Hl.
  destruct Hs; cbn [sc_loss main_uniform_poisson main_hard_poisson main_complex_poisson main_complex_cd main_uniform_helmholtz main_complex_helmholtz] in Hl.
  - eapply (tr_standard m nt (i_beta i) (@pde_loss_poisson R)); eauto. constructor; eassumption.
  - unfold train_step, the_network. cbn [sc_kind sc_constraint main_hard_poisson]. rewrite ansatz_form.
    eapply (tr_hard m nt (i_beta i) (@pde_loss_poisson R)); eauto; [constructor; eassumption | apply ansatz_partials | apply zero_partials].
  - eapply (tr_standard m nt (i_beta i) (@pde_loss_poisson R)); eauto. constructor; eassumption.
  - eapply (tr_standard m nt (i_beta i) (@pde_loss_cd2d R)); eauto. constructor; eassumption.
  - eapply (tr_standard m nt (i_beta i) (@pde_loss_helmholtz R)); eauto. constructor; eassumption.
  - eapply (tr_standard m nt (i_beta i) (@pde_loss_helmholtz R)); eauto. constructor; eassumption.
Qed.
Lemma construct_rate : forall k b n d dims a x, construct k b n d dims a = Ok x -> exists rate, learning_rate k d = Ok rate.
Proof. intros k b n d dims a x H. unfold construct in H. destruct (negb b); [discriminate|]. destruct n; [|discriminate]. destruct (learning_rate k d); [eauto | discriminate]. Qed.
Lemma build_rate : forall o pb sc i cells bd m, build o pb sc i cells bd = Ok m -> exists rate, learning_rate (sc_kind sc) (i_rates i) = Ok rate.
Proof.
  intros o pb sc i cells bd m H. unfold build in H. destruct (make_space _ _ _ _ _ _); [|discriminate]. cbn [bind] in H. destruct (make_handler _ _ _); [|discriminate]. cbn [bind] in H.
  destruct (get_dirichlet_input _ _); [|discriminate]. cbn [bind] in H. destruct (construct _ _ _ _ _ _) eqn:E; [|discriminate]. eapply construct_rate; eauto.
Qed.
(* the dictionary of learning rates decides whether the model is built, not which *)
Lemma build_same : forall o pb sc i d d' cells bd m m', build o pb sc (with_rates i d) cells bd = Ok m -> build o pb sc (with_rates i d') cells bd = Ok m' -> m = m'.
Proof.
  intros o pb sc i d d' cells bd m m' H H'. destruct (build_parts _ _ _ _ _ _ _ H) as (s & h & dir & E1 & E2 & E3 & ->). destruct (build_parts _ _ _ _ _ _ _ H') as (s' & h' & dir' & E1' & E2' & E3' & ->).
  change (space_config (with_rates i d)) with (space_config (with_rates i d')) in E1. change (i_mesh_plot (with_rates i d)) with (i_mesh_plot (with_rates i d')) in E1.
  rewrite E1 in E1'. injection E1' as <-. rewrite E2 in E2'. injection E2' as <-. rewrite E3 in E3'. injection E3' as <-. reflexivity.
Qed.
Lemma own_exact : forall pb sc i weights m r, reports pb sc i weights m r -> reports_against (exact_values pb (r_points r)) pb sc i weights m r.
Proof.
  intros pb sc i weights m r [H1 H2 H3 H4 H5 H6 H7 [H8 H9] H10 H11 H12]. unfold exact_values. constructor; auto.
  - rewrite map_length. auto.
  - intros k Hk. rewrite map_length in Hk. rewrite H10 by exact Hk. now rewrite H6.
  - now rewrite <- H6.
  - rewrite <- H6. exact H12.
Qed.
(* the losses a forward script writes *)
Lemma forward_history : forall exact sc pb i nt m rate r, learning_rate (sc_kind sc) (i_rates i) = Ok rate -> reports_against exact pb sc i (forward_weights sc pb i nt (Ok m)) m r ->
  forall t, (t < length (r_loss r))%nat -> exists L, forward_at sc pb i m nt (variables_at (Ok rate) (forward_at sc pb i m nt) (weights_of nt) t) = Ok L /\ nth t (r_loss r) [] = l_total L.
Proof.
  intros exact sc pb i nt m rate r Hr R t Ht. rewrite (ra_losses _ _ _ _ _ _ _ R) in Ht. destruct (ra_loss _ _ _ _ _ _ _ R t Ht) as (L & EL & ->). exists L. split; [|reflexivity].
  unfold forward_weights, from_model in EL. rewrite Hr in EL. unfold forward_at at 1. rewrite params_id. exact EL.
Qed.
Lemma forward_learns : forall o pb sc i cells bd nt m al bx bn g hard (writes : lrdict -> list (list R) -> Prop), oracle_ok o (Z.to_nat (i_quad_order i)) -> concat (map snd bd) <> [] ->
  script_pde sc (pb_params pb) al bx bn g hard -> starts (layer_dims sc i) 1 nt -> twice (n_act nt) -> build o pb sc i cells bd = Ok m ->
  (forall d l, writes d l -> exists exact m r, build o pb sc (with_rates i d) cells bd = Ok m /\ reports_against exact pb sc (with_rates i d) (forward_weights sc pb (with_rates i d) nt (Ok m)) m r /\ r_loss r = l) ->
  learns (forward_at sc pb i m nt) (weights_of nt) writes.
Proof.
  intros o pb sc i cells bd nt m al bx bn g hard writes Ho Hp Hs Hn Ha Eb HP. destruct (forward_trains o pb sc i cells bd m nt al bx bn g hard Ho Eb Hp Hs Hn Ha) as (C & T & Q & Tr).
  apply (learns_intro writes (sc_kind sc)); [eapply trains_differentiable; eauto|].
  intros d l Hl. destruct (HP d l Hl) as (exact & m' & r & Eb' & R & <-). rewrite <- (build_same o pb sc i (i_rates i) d cells bd m m' ltac:(destruct i; exact Eb) Eb') in R. destruct (build_rate _ _ _ _ _ _ _ Eb') as (rate & Hr).
  exists rate. split; [exact Hr|]. exact (forward_history exact sc pb (with_rates i d) nt m rate r Hr R).
Qed.
Lemma solved_variables : forall m C T Q nt beta f n w rate t, trains m C T Q nt beta f n -> length w = n -> 0 <= beta -> total_is (f w) 0 -> variables_at rate f w t = w.
Proof.
  intros m C T Q nt beta f n w [rate|] t H Hw Hb Hz; [|reflexivity]. destruct (solved m C T Q nt beta f n w H Hw Hb Hz) as [_ K]. destruct (K rate t) as (st & E). unfold variables_at. now rewrite E.
Qed.
Lemma forward_solved : forall exact o pb sc i cells bd nt al bx bn g hard m r, oracle_ok o (Z.to_nat (i_quad_order i)) -> concat (map snd bd) <> [] ->
  script_pde sc (pb_params pb) al bx bn g hard -> starts (layer_dims sc i) 1 nt -> twice (n_act nt) -> 0 <= i_beta i -> build o pb sc i cells bd = Ok m ->
  reports_against exact pb sc i (forward_weights sc pb i nt (Ok m)) m r -> nth 0 (r_loss r) [] = [0] ->
  (forall t, (t < length (r_loss r))%nat -> nth t (r_loss r) [] = [0]) /\ answers sc (fun _ => nt) (r_points r) 0 (r_pred r).
Proof.
  intros exact o pb sc i cells bd nt al bx bn g hard m r Ho Hp Hs Hn Ha Hb Eb R H0. destruct (forward_trains o pb sc i cells bd m nt al bx bn g hard Ho Eb Hp Hs Hn Ha) as (C & T & Q & Tr).
  destruct (build_rate _ _ _ _ _ _ _ Eb) as (rate & Hr). pose proof (forward_history exact sc pb i nt m rate r Hr R) as Hh.
  assert (L1 : (0 < length (r_loss r))%nat) by (rewrite (ra_losses _ _ _ _ _ _ _ R); pose proof (ra_epochs _ _ _ _ _ _ _ R); lia).
  assert (Z : total_is (forward_at sc pb i m nt (weights_of nt)) 0). { destruct (Hh 0%nat L1) as (L & EL & E). exists L. rewrite x_start in EL. split; [exact EL | congruence]. }
  assert (V : forall t, variables_at (Ok rate) (forward_at sc pb i m nt) (weights_of nt) t = weights_of nt) by (intros t; eapply solved_variables; eauto). split.
  - intros t Ht. destruct (Hh t Ht) as (L & EL & ->). rewrite V in EL. destruct Z as (L' & EL' & E). congruence.
  - destruct (ra_pred _ _ _ _ _ _ _ R) as (y & Ey & E). exists y. split; [|exact E]. unfold forward_weights, from_model in Ey. rewrite Hr, V, with_own_weights in Ey. exact Ey.
Qed.

Lemma internal_trained : forall e lhs1 o template vtk pb sc i nt fs r, train_internal e lhs1 o template vtk pb sc i nt fs = Ok r ->
  exists cells mo bd m, generate_quad_mesh_internal e lhs1 (i_xlim i) (i_ylim i) (i_ncx i) (i_ncy i) (i_nb i) = Ok (cells, mo, bd) /\ build o pb sc i cells bd = Ok m /\
    reports pb sc i (forward_weights sc pb i nt (Ok m)) m r.
Proof.
  intros e lhs1 o template vtk pb sc i nt fs r H. unfold train_internal in H. destruct (internal_reports _ _ _ _ _ _ _ _ _ _ _ H) as (cells & mo & bd & m & E1 & E2 & R & _).
  exists cells, mo, bd, m. split; [exact E1|]. split; [exact E2|]. unfold internal_model in R. rewrite E1 in R. cbn [bind] in R. rewrite E2 in R. exact R.
Qed.
Lemma external_trained : forall e lhs2 o file template vtk fmt pb sc i nt fs r, train_external e lhs2 o file template vtk fmt pb sc i nt fs = Ok r ->
  exists cells raw m, read_mesh e lhs2 file (i_mesh_file i) (i_level i) (i_sampling i) (sc_refinement sc i) = Ok (cells, raw) /\ build o pb sc i cells (boundary_xy raw) = Ok m /\
    reports pb sc i (forward_weights sc pb i nt (Ok m)) m r.
Proof.
  intros e lhs2 o file template vtk fmt pb sc i nt fs r H. unfold train_external in H. destruct (external_files _ _ _ _ _ _ _ _ _ _ _ _ _ H) as (cells & raw & m & rows & head & E1 & E2 & R & _).
  exists cells, raw, m. split; [exact E1|]. split; [exact E2|]. unfold external_model in R. rewrite E1 in R. cbn [bind fst snd] in R. rewrite E2 in R. exact R.
Qed.
Lemma raw_points : forall raw : list (Z * list (list R)), concat (map snd raw) <> [] -> concat (map snd (boundary_xy raw)) <> [].
Proof.
  intros raw Hp K. apply Hp. unfold boundary_xy in K. clear Hp. induction raw as [|[t l] raw IH]; [reflexivity|]. cbn in *. apply app_eq_nil in K. destruct K as [K1 K2].
  rewrite IH by exact K2. destruct l; [reflexivity | discriminate].
Qed.

(* ---------- the theorems on forward scripts ---------- *)
Lemma internal_own_runs : forall e lhs1 o template vtk pb sc i nt fs al bx bn g hard, numpy_ok e -> sampler_ok lhs1 -> oracle_ok o (Z.to_nat (i_quad_order i)) ->
  good_settings sc i -> i_method i = "internal"%string -> fst (i_xlim i) < snd (i_xlim i) -> fst (i_ylim i) < snd (i_ylim i) ->
  (1 <= i_ncx i)%Z /\ (1 <= i_ncy i)%Z -> (4 <= i_nb i)%Z -> (2 <= i_ntx i)%Z /\ (2 <= i_nty i)%Z ->
  (forall t, In t [1000; 1001; 1002; 1003]%Z -> In t (map fst (pb_bound pb))) -> script_pde sc (pb_params pb) al bx bn g hard -> starts (layer_dims sc i) 1 nt ->
  (1 <= i_epochs i)%Z -> i_update i <> 0%Z -> exists r, train_internal e lhs1 o template vtk pb sc i nt fs = Ok r.
Proof.
  intros e lhs1 o template vtk pb sc i nt fs al bx bn g hard He Hl Ho Hg Hm Hx Hy Hc Hb Ht Htags Hs Hn H1 H2.
  destruct (internal_outcome e lhs1 o template vtk pb sc i (forward_weights sc pb i nt (internal_model e lhs1 o pb sc i)) fs al bx bn g He Hl Ho Hg Hm Hx Hy Hc Hb Ht Htags
    (proj1 (script_equation _ _ _ _ _ _ _ Hs)) (forward_pointwise sc pb i nt _ _ al bx bn g hard Hs Hn)) as (K & _). exact (K H1 H2).
Qed.
Lemma internal_learns : forall e lhs1 o pb sc i nt m al bx bn g hard, numpy_ok e -> sampler_ok lhs1 -> oracle_ok o (Z.to_nat (i_quad_order i)) ->
  fst (i_xlim i) < snd (i_xlim i) -> fst (i_ylim i) < snd (i_ylim i) -> (1 <= i_ncx i)%Z /\ (1 <= i_ncy i)%Z -> (4 <= i_nb i)%Z ->
  script_pde sc (pb_params pb) al bx bn g hard -> starts (layer_dims sc i) 1 nt -> twice (n_act nt) -> internal_model e lhs1 o pb sc i = Ok m ->
  learns (forward_at sc pb i m nt) (weights_of nt) (fun d l => exists template vtk fs r, train_internal e lhs1 o template vtk pb sc (with_rates i d) nt fs = Ok r /\ r_loss r = l).
Proof.
  intros e lhs1 o pb sc i nt m al bx bn g hard He Hl Ho Hx Hy Hc Hb Hs Hn Ha Hm. unfold internal_model in Hm.
  destruct (generate_quad_mesh_internal e lhs1 (i_xlim i) (i_ylim i) (i_ncx i) (i_ncy i) (i_nb i)) as [[[cells mo] bd]|] eqn:Em; [|discriminate]. cbn [bind] in Hm.
  destruct (internal_cells e lhs1 i cells mo bd He Hl Hx Hy Hc Hb Em) as [_ Hp].
  eapply (forward_learns o pb sc i cells bd nt m al bx bn g hard); eauto. intros d l (template & vtk & fs & r & H & E).
  destruct (internal_trained _ _ _ _ _ _ _ _ _ _ _ H) as (cells' & mo' & bd' & m' & E1 & E2 & R). cbn [with_rates i_xlim i_ylim i_ncx i_ncy i_nb] in E1. rewrite Em in E1. injection E1 as <- <- <-. apply own_exact in R. eauto 6.
Qed.
Lemma internal_solved : forall e lhs1 o template vtk pb sc i nt fs r al bx bn g hard, numpy_ok e -> sampler_ok lhs1 -> oracle_ok o (Z.to_nat (i_quad_order i)) ->
  fst (i_xlim i) < snd (i_xlim i) -> fst (i_ylim i) < snd (i_ylim i) -> (1 <= i_ncx i)%Z /\ (1 <= i_ncy i)%Z -> (4 <= i_nb i)%Z ->
  script_pde sc (pb_params pb) al bx bn g hard -> starts (layer_dims sc i) 1 nt -> twice (n_act nt) -> 0 <= i_beta i ->
  train_internal e lhs1 o template vtk pb sc i nt fs = Ok r -> nth 0 (r_loss r) [] = [0] ->
  (forall t, (t < length (r_loss r))%nat -> nth t (r_loss r) [] = [0]) /\ answers sc (fun _ => nt) (r_points r) 0 (r_pred r).
Proof.
  intros e lhs1 o template vtk pb sc i nt fs r al bx bn g hard He Hl Ho Hx Hy Hc Hb Hs Hn Ha Hbe H H0.
  destruct (internal_trained _ _ _ _ _ _ _ _ _ _ _ H) as (cells & mo & bd & m & E1 & E2 & R). destruct (internal_cells e lhs1 i cells mo bd He Hl Hx Hy Hc Hb E1) as [_ Hp].
  apply own_exact in R. eapply forward_solved; eauto.
Qed.
Lemma external_own_runs : forall e lhs2 o file template rows fmt pb sc i nt fs al bx bn g hard mf edges quads tags,
  oracle_ok o (Z.to_nat (i_quad_order i)) -> good_settings sc i -> i_method i = "external"%string ->
  (forall l, sorts l (np_argsort e l)) -> suffix (i_mesh_file i) = ".mesh"%string -> file (i_mesh_file i) = Ok mf ->
  edges_of mf edges -> quads_of mf quads -> first_refs mf tags -> (length edges <= length tags)%nat -> spatial mf ->
  i_sampling i = "uniform"%string -> (0 <= i_level i)%Z -> edges <> [] -> quads <> [] ->
  (exists ts, (length ts <= 15)%nat /\ forall j, (j < length edges)%nat -> In (nth j tags 0%Z) ts /\ In (nth j tags 0%Z) (map fst (pb_bound pb))) ->
  rows <> [] -> script_pde sc (pb_params pb) al bx bn g hard -> starts (layer_dims sc i) 1 nt ->
  (1 <= i_epochs i)%Z -> i_update i <> 0%Z -> exists r, train_external e lhs2 o file template (Ok rows) fmt pb sc i nt fs = Ok r.
Proof.
  intros e lhs2 o file template rows fmt pb sc i nt fs al bx bn g hard mf edges quads tags Ho Hg Hm Hso Hsu Hf H1 H2 H3 H4 H5 H6 H7 H8 H9 H10 H11 Hs Hn H12 H13.
  eapply external_file_runs; eauto; [exact (proj1 (script_equation _ _ _ _ _ _ _ Hs)) | eapply forward_pointwise; eauto].
Qed.
Lemma refinement_rates : forall sc d al bx bn g hard i r, script_pde sc d al bx bn g hard -> sc_refinement sc (with_rates i r) = sc_refinement sc i.
Proof. intros sc d al bx bn g hard i r H. destruct H; reflexivity. Qed.
Lemma external_learns : forall e lhs2 o file pb sc i nt m al bx bn g hard cells raw, oracle_ok o (Z.to_nat (i_quad_order i)) ->
  read_mesh e lhs2 file (i_mesh_file i) (i_level i) (i_sampling i) (sc_refinement sc i) = Ok (cells, raw) -> concat (map snd raw) <> [] ->
  script_pde sc (pb_params pb) al bx bn g hard -> starts (layer_dims sc i) 1 nt -> twice (n_act nt) -> external_model e lhs2 o file pb sc i = Ok m ->
  learns (forward_at sc pb i m nt) (weights_of nt) (fun d l => exists template vtk fmt fs r, train_external e lhs2 o file template vtk fmt pb sc (with_rates i d) nt fs = Ok r /\ r_loss r = l).
Proof.
  intros e lhs2 o file pb sc i nt m al bx bn g hard cells raw Ho Em Hp Hs Hn Ha Hm. apply raw_points in Hp. unfold external_model in Hm. rewrite Em in Hm. cbn [bind fst snd] in Hm.
  eapply (forward_learns o pb sc i cells _ nt m al bx bn g hard); eauto. intros d l (template & vtk & fmt & fs & r & H & E).
  destruct (external_trained _ _ _ _ _ _ _ _ _ _ _ _ _ H) as (cells' & raw' & m' & E1 & E2 & R). rewrite (refinement_rates sc _ _ _ _ _ _ i d Hs) in E1.
  cbn [with_rates i_mesh_file i_level i_sampling] in E1. rewrite Em in E1. injection E1 as <- <-. apply own_exact in R. eauto 6.
Qed.
Lemma external_solved : forall e lhs2 o file template vtk fmt pb sc i nt fs r al bx bn g hard cells raw, oracle_ok o (Z.to_nat (i_quad_order i)) ->
  read_mesh e lhs2 file (i_mesh_file i) (i_level i) (i_sampling i) (sc_refinement sc i) = Ok (cells, raw) -> concat (map snd raw) <> [] ->
  script_pde sc (pb_params pb) al bx bn g hard -> starts (layer_dims sc i) 1 nt -> twice (n_act nt) -> 0 <= i_beta i ->
  train_external e lhs2 o file template vtk fmt pb sc i nt fs = Ok r -> nth 0 (r_loss r) [] = [0] ->
  (forall t, (t < length (r_loss r))%nat -> nth t (r_loss r) [] = [0]) /\ answers sc (fun _ => nt) (r_points r) 0 (r_pred r).
Proof.
  intros e lhs2 o file template vtk fmt pb sc i nt fs r al bx bn g hard cells raw Ho Em Hp Hs Hn Ha Hbe H H0. apply raw_points in Hp.
  destruct (external_trained _ _ _ _ _ _ _ _ _ _ _ _ _ H) as (cells' & raw' & m & E1 & E2 & R). rewrite Em in E1. injection E1 as <- <-. apply own_exact in R. eapply forward_solved; eauto.
Qed.

(* ---------- the inverse script for a coefficient ---------- *)
Lemma build_inverse_same : forall o pb k loss i d d' cells bd sd m m', build_inverse o pb k loss (with_rates i d) cells bd (Ok sd) = Ok m ->
  build_inverse o pb k loss (with_rates i d') cells bd (Ok sd) = Ok m' -> m = m'.
Proof.
  intros o pb k loss i d d' cells bd sd m m' H H'. destruct (inverse_parts _ _ _ _ _ _ _ _ _ H) as (s & h & dir & E1 & E2 & E3 & ->).
  destruct (inverse_parts _ _ _ _ _ _ _ _ _ H') as (s' & h' & dir' & E1' & E2' & E3' & ->).
  change (space_config (with_rates i d)) with (space_config (with_rates i d')) in E1.
  rewrite E1 in E1'. injection E1' as <-. rewrite E2 in E2'. injection E2' as <-. rewrite E3 in E3'. injection E3' as <-. reflexivity.
Qed.
Lemma build_inverse_rate : forall o pb k loss i cells bd sd m, build_inverse o pb k loss i cells bd sd = Ok m -> exists rate, learning_rate k (i_rates i) = Ok rate.
Proof.
  intros o pb k loss i cells bd sd m H. unfold build_inverse in H. destruct (make_space _ _ _ _ _ _); [|discriminate]. cbn [bind] in H. destruct (make_handler _ _ _); [|discriminate]. cbn [bind] in H.
  destruct (get_dirichlet_input _ _); [|discriminate]. cbn [bind] in H. destruct sd; [|discriminate]. cbn [bind] in H. destruct (construct _ _ _ _ _ _) eqn:E; [|discriminate]. eapply construct_rate; eauto.
Qed.
Lemma inverse_ready : forall o pb k loss i cells bd sd m, oracle_ok o (Z.to_nat (i_quad_order i)) -> build_inverse o pb k loss i cells bd (Ok sd) = Ok m -> concat (map snd bd) <> [] ->
  model_fits m (length cells) (Z.to_nat (i_fe_order i) * Z.to_nat (i_fe_order i)) (Z.to_nat (i_quad_order i) * Z.to_nat (i_quad_order i)) /\ m_cells m = length cells /\ m_loss m = loss /\
  m_sensor_in m = fst sd /\ m_sensor_act m = snd sd.
Proof.
  intros o pb k loss i cells bd sd m Ho Hb Hp. destruct (inverse_parts _ _ _ _ _ _ _ _ _ Hb) as (s & h & dir & Es & Eh & Ed & ->).
  destruct (boundary_gap _ _ _ Ed) as (data & D1 & D2 & _). split; [|repeat split].
  apply (PipelineFacts.pipeline_fits o (space_config i) cells _ _ _ s (pb_rhs pb) h dir sd loss _ (CellFacts2.oracle_lengths _ _ Ho) Es Eh Ed).
  rewrite <- D2, (proj1 D1). exact Hp.
Qed.
(* the model that a finished run has built *)
Lemma const_built : forall e lhs1 lhs2 lhs o file template vtk fmt times pb i sensors weights params fs r,
  run_const e lhs1 lhs2 lhs o file template vtk fmt times pb i sensors weights params fs = Ok r ->
  exists cells mo bd m V, generate_quad_mesh_internal e lhs1 (i_xlim i) (i_ylim i) (i_ncx i) (i_ncy i) (i_nb i) = Ok (cells, mo, bd) /\
    get_sensor_data (mo_points mo) lhs (pb_exact pb) sensors = Ok (m_sensor_in m, V) /\ m_sensor_act m = map (fun v => [v]) V /\
    build_inverse o pb Inverse pde_loss_poisson_inverse i cells bd (Ok (m_sensor_in m, m_sensor_act m)) = Ok m /\ const_reports pb i weights params m r /\
    const_model e lhs1 lhs2 lhs o file template pb i sensors fs = Ok m.
Proof.
  intros e lhs1 lhs2 lhs o file template vtk fmt times pb i sensors weights params fs r H.
  destruct (const_reports_ok _ _ _ _ _ _ _ _ _ _ _ _ _ _ _ _ _ H) as (M & cells & mo & bd & m & V & Em & Es & Ea & Eb & R & _).
  exists cells, mo, bd, m, V. do 5 (split; [assumption|]). unfold run_const in H. unfold const_model.
  destruct (make_mesh _ _ _ _ _ _ _) as [[[[[cells' bd'] mp'] g] fs']|] eqn:Ek; [|discriminate]. cbn [bind] in H |- *.
  apply mesh_inv in Ek. destruct Ek as (_ & _ & _ & _ & _ & [(_ & _ & mo' & -> & Em') | (K & _)]); [|congruence].
  rewrite Em in Em'. injection Em' as <- <- <-. replace (const_sensors pb i (mo_points mo) lhs sensors) with (Ok (m_sensor_in m, m_sensor_act m)); [exact Eb|].
  unfold const_sensors, handler_sensor_data. rewrite M. cbn [String.eqb Ascii.eqb Bool.eqb]. rewrite Es. cbn [bind fst snd]. rewrite Ea. reflexivity.
Qed.
Lemma const_model_inv : forall e lhs1 lhs2 lhs o file template pb i sensors fs m, i_method i = "internal"%string -> const_model e lhs1 lhs2 lhs o file template pb i sensors fs = Ok m ->
  exists cells mo bd V, generate_quad_mesh_internal e lhs1 (i_xlim i) (i_ylim i) (i_ncx i) (i_ncy i) (i_nb i) = Ok (cells, mo, bd) /\
    get_sensor_data (mo_points mo) lhs (pb_exact pb) sensors = Ok (m_sensor_in m, V) /\ m_sensor_act m = map (fun v => [v]) V /\
    build_inverse o pb Inverse pde_loss_poisson_inverse i cells bd (Ok (m_sensor_in m, m_sensor_act m)) = Ok m.
Proof.
  intros e lhs1 lhs2 lhs o file template pb i sensors fs m M H. unfold const_model in H.
  destruct (make_mesh _ _ _ _ _ _ _) as [[[[[cells bd] mp] g] fs']|] eqn:Ek; [|discriminate]. cbn [bind] in H.
  apply mesh_inv in Ek. destruct Ek as (_ & _ & _ & _ & _ & [(_ & _ & mo & -> & Em) | (K & _)]); [|congruence].
  pose proof H as H'. apply build_inv in H'. destruct H' as (sd & Es & E1 & E2). rewrite Es in H. unfold const_sensors, handler_sensor_data in Es. rewrite M in Es. cbn [String.eqb Ascii.eqb Bool.eqb] in Es.
  destruct (get_sensor_data (mo_points mo) lhs (pb_exact pb) sensors) as [[P V]|] eqn:Eg; [|discriminate]. cbn [bind fst snd] in Es. injection Es as <-. cbn [fst snd] in E1, E2.
  exists cells, mo, bd, V. rewrite E1, E2. auto.
Qed.
Lemma const_history : forall pb i nt ip m rate r, learning_rate Inverse (i_rates i) = Ok rate -> let x := const_variables pb i nt ip (Ok m) in
  const_reports pb i (fun t => with_weights nt (x t)) (fun t => params_at nt ip (x t)) m r ->
  x = variables_at (Ok rate) (const_at pb i m nt ip) (variables nt ip) /\
  forall t, (t < length (c_loss r))%nat -> exists L, const_at pb i m nt ip (x t) = Ok L /\ nth t (c_loss r) [] = l_total L.
Proof.
  intros pb i nt ip m rate r Hr x R. split; [unfold x, const_variables, from_model; now rewrite Hr|].
  intros t Ht. rewrite (cr_losses _ _ _ _ _ _ R) in Ht. destruct (cr_loss _ _ _ _ _ _ R t Ht) as (L & EL & ->). exists L. split; [|reflexivity].
  unfold const_at, inverse_at. rewrite params_of_eq. exact EL.
Qed.
Lemma sensors_const : forall mp lhs exact sensors P V, (forall m, length (lhs m) = m) -> (2 <= sensors)%nat -> get_sensor_data mp lhs exact sensors = Ok (P, V) ->
  P <> [] /\ has_shape (map (fun v : R => [v]) V) (length P) 1.
Proof.
  intros mp lhs exact sensors P V Hl Hs H. apply SensorFacts.sensor_inv in H. destruct H as (x0 & x1 & y0 & y1 & _ & _ & _ & _ & EP & EV).
  assert (LP : length P = (sensors * 9 / 10)%nat) by (rewrite EP, map_length, Hl; reflexivity).
  assert (1 <= sensors * 9 / 10)%nat by (apply Nat.div_le_lower_bound; lia). split; [intros ->; cbn [length] in LP; lia|].
  split; [rewrite map_length, EV; apply map_length|]. intros row Hr. apply in_map_iff in Hr. destruct Hr as (v & <- & _). reflexivity.
Qed.

Section ConstScript.
Variables (e : numpy R) (lhs1 : nat -> nat -> list R) (lhs2 : nat -> nat -> list (R * R)) (lhs : nat -> list (R * R)) (o : quad_oracle R)
  (file : string -> result (mesh_file R)) (pb : problem) (i : settings) (sensors : nat) (nt : net) (ip : list (string * R)).
(* no step moves the coefficient by more than 7.3 times the learning rate *)
Lemma const_moves : forall template vtk fmt times fs r rate e0, learning_rate Inverse (i_rates i) = Ok rate -> has ip "eps" e0 ->
  train_const e lhs1 lhs2 lhs o file template vtk fmt times pb i sensors nt ip fs = Ok r -> forall t, (t < length (c_params r))%nat ->
  Rabs (nth t (c_params r) 0 - match t with O => e0 | S u => nth u (c_params r) 0 end) <= 73 / 10 * Rabs (rate t).
Proof.
  intros template vtk fmt times fs r rate e0 Hr He H t Ht. unfold train_const in H. destruct (const_built _ _ _ _ _ _ _ _ _ _ _ _ _ _ _ _ _ H) as (cells & mo & bd & m & V & _ & _ & _ & _ & R & Em).
  rewrite Em in R. destruct (const_history pb i nt ip m rate r Hr R) as [Ex Hh]. destruct (cr_params _ _ _ _ _ _ R) as [Lp Hp]. rewrite (cr_losses _ _ _ _ _ _ R) in Hh. rewrite Lp in Ht.
  set (x := const_variables pb i nt ip (Ok m)) in *. rewrite Ex in Hp, Hh.
  destruct (steps_trained rate (const_at pb i m nt ip) (variables nt ip) (Z.to_nat (i_epochs i))) with (t := t) as (st & T1); [|lia|].
  { intros u Hu. destruct (Hh u Hu) as (L & EL & _). eauto. }
  destruct (steps_trained rate (const_at pb i m nt ip) (variables nt ip) (Z.to_nat (i_epochs i))) with (t := S t) as (st' & T2); [|lia|].
  { intros u Hu. destruct (Hh u Hu) as (L & EL & _). eauto. }
  assert (B : has (params_at nt ip (variables_at (Ok rate) (const_at pb i m nt ip) (variables nt ip) t)) "eps" (match t with O => e0 | S u => nth u (c_params r) 0 end)).
  { destruct t as [|u]; [rewrite x_start, own_params; exact He | apply Hp; lia]. }
  exact (coefficient_step rate m nt (i_beta i) (params_of pb) ip (variables nt ip) t st _ st' _ "eps" _ _ eq_refl T1 T2 B (Hp t Ht)).
Qed.
Lemma const_reach : forall template vtk fmt times fs r rate e0, learning_rate Inverse (i_rates i) = Ok rate -> has ip "eps" e0 ->
  train_const e lhs1 lhs2 lhs o file template vtk fmt times pb i sensors nt ip fs = Ok r -> forall t, (t < length (c_params r))%nat ->
  Rabs (nth t (c_params r) 0 - e0) <= 73 / 10 * Sum (fun k => Rabs (rate k)) (S t).
Proof.
  intros template vtk fmt times fs r rate e0 Hr He H t. pose proof (const_moves template vtk fmt times fs r rate e0 Hr He H) as M.
  induction t as [|t IH]; intros Ht; cbn [Sum]; [specialize (M 0%nat Ht); cbn in M; lra|]. specialize (IH ltac:(lia)). specialize (M (S t) Ht). cbv beta iota in M. cbn [Sum] in IH.
  replace (nth (S t) (c_params r) 0 - e0) with ((nth (S t) (c_params r) 0 - nth t (c_params r) 0) + (nth t (c_params r) 0 - e0)) by ring.
  pose proof (Rabs_triang (nth (S t) (c_params r) 0 - nth t (c_params r) 0) (nth t (c_params r) 0 - e0)). lra.
Qed.
Lemma const_schedule : forall template vtk fmt times fs r lr0 n q e0, 
  dget String.eqb (i_rates i) "initial_learning_rate"%string = Ok (LNum lr0) -> dget String.eqb (i_rates i) "use_lr_scheduler"%string = Ok (LBool true) ->
  dget String.eqb (i_rates i) "decay_steps"%string = Ok (LNum (INR n)) -> dget String.eqb (i_rates i) "decay_rate"%string = Ok (LNum q) -> (1 <= n)%nat -> 0 <= q < 1 -> has ip "eps" e0 ->
  train_const e lhs1 lhs2 lhs o file template vtk fmt times pb i sensors nt ip fs = Ok r -> forall t, (t < length (c_params r))%nat ->
  Rabs (nth t (c_params r) 0 - e0) <= 73 / 10 * (Rabs lr0 * (INR n / (1 - q))).
Proof.
  intros template vtk fmt times fs r lr0 n q e0 H0 H1 H2 H3 Hn Hq He H t Ht. pose proof H as H'. unfold train_const in H'.
  destruct (const_built _ _ _ _ _ _ _ _ _ _ _ _ _ _ _ _ _ H') as (cells & mo & bd & m & V & _ & _ & _ & Eb & _). destruct (build_inverse_rate _ _ _ _ _ _ _ _ _ Eb) as (rate & Hr).
  pose proof (const_reach template vtk fmt times fs r rate e0 Hr He H t Ht). pose proof (schedule_below Inverse (i_rates i) lr0 n q rate H0 H1 H2 H3 Hr Hn Hq (S t)). lra.
Qed.

Lemma const_variables_length : forall m t, length (const_variables pb i nt ip m t) = length (variables nt ip).
Proof. intros [m|] t; [|reflexivity]. unfold const_variables, from_model. destruct (learning_rate _ _); [apply x_length | reflexivity]. Qed.
Lemma eps_found : forall w, length w = length (variables nt ip) -> In "eps"%string (map fst ip) -> exists v, has (params_at nt ip w) "eps" v.
Proof.
  intros w Hw Hi. destruct (eps_position ip Hi) as (k & Hk & He). eexists. apply He. rewrite skipn_length, Hw. unfold variables. rewrite app_length, map_length. lia.
Qed.
Lemma const_own_runs : forall template vtk fmt fs, numpy_ok e -> sampler_ok lhs1 -> (forall m, length (lhs m) = m) -> oracle_ok o (Z.to_nat (i_quad_order i)) ->
  good_inverse Inverse i -> i_method i = "internal"%string -> fst (i_xlim i) < snd (i_xlim i) -> fst (i_ylim i) < snd (i_ylim i) ->
  (1 <= i_ncx i)%Z /\ (1 <= i_ncy i)%Z -> (4 <= i_nb i)%Z -> (2 <= i_ntx i)%Z /\ (2 <= i_nty i)%Z -> (2 <= sensors)%nat ->
  (forall t, In t [1000; 1001; 1002; 1003]%Z -> In t (map fst (pb_bound pb))) -> starts (i_architecture i) 1 nt -> In "eps"%string (map fst ip) -> i_update i <> 0%Z ->
  exists r, train_const e lhs1 lhs2 lhs o file template vtk fmt (Ok tt) pb i sensors nt ip fs = Ok r.
Proof.
  intros template vtk fmt fs He Hl Hlh Ho Hg Hm Hx Hy Hc Hb Ht Hs Htags Hn Hi Hu. unfold train_const. apply const_runs; auto.
  - intros t. apply eps_found; auto. apply const_variables_length.
  - intros t. set (x := const_variables _ _ _ _ _ t). assert (Lx : length x = length (variables nt ip)) by apply const_variables_length.
    rewrite <- (listed_nth x). do 2 eexists. apply filled_pointwise; [exact (st_attention _ _ _ Hn) | exact (starts_chain _ _ _ Hn)|]. rewrite Lx. unfold variables. rewrite app_length. lia.
Qed.
Hypothesis Hk : In "eps"%string (map fst ip).
Hypothesis Hn : starts (i_architecture i) 1 nt.
Hypothesis Ha : twice (n_act nt).
Hypothesis Ho : oracle_ok o (Z.to_nat (i_quad_order i)).
Hypothesis Hlh : forall m, length (lhs m) = m.
Hypothesis Hs : (2 <= sensors)%nat.
Lemma const_trains : forall d cells mo bd m V, concat (map snd bd) <> [] -> get_sensor_data (mo_points mo) lhs (pb_exact pb) sensors = Ok (m_sensor_in m, V) -> m_sensor_act m = map (fun v => [v]) V ->
  build_inverse o pb Inverse pde_loss_poisson_inverse (with_rates i d) cells bd (Ok (m_sensor_in m, m_sensor_act m)) = Ok m ->
  exists C T Q, trains m C T Q nt (i_beta i) (const_at pb i m nt ip) (length (variables nt ip)).
Proof.
  intros d cells mo bd m V Hp Es Ea Eb. destruct (inverse_ready o pb Inverse _ (with_rates i d) cells bd _ m Ho Eb Hp) as (F & Fc & Fl & _).
  destruct (sensors_const _ _ _ _ _ _ Hlh Hs Es) as [S1 S2]. do 3 eexists. split; [exact F|]. split; [exact Fc|]. split; [exact (st_attention _ _ _ Hn)|]. split; [exact Ha|].
  apply tr_inverse; auto; [split; [exact S1 | rewrite Ea; exact S2] | exact (starts_chain _ _ _ Hn)].
Qed.
Hypothesis He : numpy_ok e.
Hypothesis Hl : sampler_ok lhs1.
Hypothesis Hx : fst (i_xlim i) < snd (i_xlim i).
Hypothesis Hy : fst (i_ylim i) < snd (i_ylim i).
Hypothesis Hc : (1 <= i_ncx i)%Z /\ (1 <= i_ncy i)%Z.
Hypothesis Hb : (4 <= i_nb i)%Z.
Lemma const_learns : forall template0 fs0 m, i_method i = "internal"%string -> const_model e lhs1 lhs2 lhs o file template0 pb i sensors fs0 = Ok m ->
  learns (const_at pb i m nt ip) (variables nt ip)
    (fun d l => exists template vtk fmt times fs r, train_const e lhs1 lhs2 lhs o file template vtk fmt times pb (with_rates i d) sensors nt ip fs = Ok r /\ c_loss r = l).
Proof.
  intros template0 fs0 m M Hm. destruct (const_model_inv _ _ _ _ _ _ _ _ _ _ _ _ M Hm) as (cells & mo & bd & V & Em & Es & Ea & Eb).
  destruct (internal_cells e lhs1 i cells mo bd He Hl Hx Hy Hc Hb Em) as [_ Hp].
  assert (Eb0 : build_inverse o pb Inverse pde_loss_poisson_inverse (with_rates i (i_rates i)) cells bd (Ok (m_sensor_in m, m_sensor_act m)) = Ok m) by (destruct i; exact Eb).
  destruct (const_trains (i_rates i) cells mo bd m V Hp Es Ea Eb0) as (C & T & Q & Tr).
  apply (learns_intro _ Inverse); [eapply trains_differentiable; eauto|].
  intros d l (tp & vtk & fmt & tm & fs & r & H & <-). unfold train_const in H. destruct (const_built _ _ _ _ _ _ _ _ _ _ _ _ _ _ _ _ _ H) as (cells' & mo' & bd' & m' & V' & Em' & Es' & Ea' & Eb' & R & Ek).
  cbn [with_rates i_xlim i_ylim i_ncx i_ncy i_nb] in Em'. rewrite Em in Em'. injection Em' as <- <- <-. rewrite Es in Es'. injection Es' as Q1 Q2. rewrite <- Q1, Ea', <- Q2, <- Ea in Eb'.
  destruct (build_inverse_rate _ _ _ _ _ _ _ _ _ Eb') as (rate & Hr). rewrite <- (build_inverse_same _ _ _ _ _ _ _ _ _ _ _ _ Eb0 Eb') in *.
  rewrite Ek in R. destruct (const_history pb (with_rates i d) nt ip m rate r Hr R) as [Ex Hh]. exists rate. split; [exact Hr|]. rewrite Ex in Hh. exact Hh.
Qed.
Lemma const_solved : forall template vtk fmt times fs r e0, 0 <= i_beta i -> has ip "eps" e0 -> train_const e lhs1 lhs2 lhs o file template vtk fmt times pb i sensors nt ip fs = Ok r ->
  nth 0 (c_loss r) [] = [0] -> (forall t, (t < length (c_loss r))%nat -> nth t (c_loss r) [] = [0]) /\ (forall t, (t < length (c_params r))%nat -> nth t (c_params r) 0 = e0) /\
  exists pred, answers1 (fun _ => nt) (c_points r) 0 pred /\ stored i (c_pred r) pred.
Proof.
  intros template vtk fmt times fs r e0 Hbe He0 H H0. pose proof H as H'. unfold train_const in H'. destruct (const_built _ _ _ _ _ _ _ _ _ _ _ _ _ _ _ _ _ H') as (cells & mo & bd & m & V & Em & Es & Ea & Eb & R & Ek).
  destruct (internal_cells e lhs1 i cells mo bd He Hl Hx Hy Hc Hb Em) as [_ Hp].
  assert (Eb' : build_inverse o pb Inverse pde_loss_poisson_inverse (with_rates i (i_rates i)) cells bd (Ok (m_sensor_in m, m_sensor_act m)) = Ok m) by exact Eb.
  destruct (const_trains (i_rates i) cells mo bd m V Hp Es Ea Eb') as (C & T & Q & Tr). destruct (build_inverse_rate _ _ _ _ _ _ _ _ _ Eb) as (rate & Hr).
  rewrite Ek in R. destruct (const_history pb i nt ip m rate r Hr R) as [Ex Hh]. rewrite Ex in *.
  assert (L0 : (0 < length (c_loss r))%nat) by (destruct (c_loss r); [discriminate | cbn; lia]).
  assert (Z : total_is (const_at pb i m nt ip (variables nt ip)) 0). { destruct (Hh 0%nat L0) as (L & EL & E). exists L. rewrite x_start in EL. split; [exact EL | congruence]. }
  assert (X : forall t, variables_at (Ok rate) (const_at pb i m nt ip) (variables nt ip) t = variables nt ip) by (intros t; eapply solved_variables; eauto). split; [|split].
  - intros t Ht. destruct (Hh t Ht) as (L & EL & ->). rewrite X in EL. destruct Z as (L' & EL' & E). congruence.
  - intros t Ht. destruct (cr_params _ _ _ _ _ _ R) as [Lp Hq]. rewrite Lp in Ht. specialize (Hq t Ht). cbv beta in Hq. rewrite X, own_params in Hq. unfold has in *. congruence.
  - destruct (cr_pred _ _ _ _ _ _ R) as (pred & (A1 & y & A2 & A3) & S & _). exists pred. split; [|exact S]. split; [exact A1|]. exists y. split; [|exact A3].
    rewrite X in A2. unfold variables in A2. now rewrite with_extra in A2.
Qed.
End ConstScript.

(* ---------- the scripts for a coefficient on the whole domain ---------- *)
Lemma domain_sensors_same : forall ds i i' mp mp' g g' vtk csv ch n, i_method i = "external"%string -> i_method i' = "external"%string ->
  g_method g = i_method i -> g_method g' = i_method i' -> domain_sensors ds i mp g vtk csv ch n = domain_sensors ds i' mp' g' vtk csv ch n.
Proof.
  intros ds i i' mp mp' g g' vtk csv ch n M M' G G'. unfold domain_sensors, get_test_points, handler_sensor_data. rewrite G, G', M, M'. reflexivity.
Qed.
Lemma domain_built : forall e lhs1 lhs2 ch o file csv template vtk fmt times ds i sensors weights fs r, i_method i = "external"%string ->
  run_domain e lhs1 lhs2 ch o file csv template vtk fmt times ds i sensors weights fs = Ok r ->
  exists cells raw mp g m eps, read_mesh e lhs2 file (i_mesh_file i) (i_level i) (i_sampling i) 0 = Ok (cells, raw) /\ g_method g = i_method i /\
    domain_sensors ds i mp g vtk csv ch sensors = Ok (m_sensor_in m, m_sensor_act m) /\ get_test_points g vtk = Ok (d_points r) /\
    build_inverse o (ds_problem ds) Domain pde_loss_cd2d_inverse_domain i cells (boundary_xy raw) (Ok (m_sensor_in m, m_sensor_act m)) = Ok m /\
    domain_reports ds i weights m eps r /\ domain_model e lhs1 lhs2 ch o file csv template vtk ds i sensors fs = Ok m.
Proof.
  intros e lhs1 lhs2 ch o file csv template vtk fmt times ds i sensors weights fs r M H.
  destruct (domain_reports_ok _ _ _ _ _ _ _ _ _ _ _ _ _ _ _ _ _ H) as (cells & bd & mp & g & m & eps & Eb & Es & Et & _ & [(K & _) | (_ & raw & -> & Er)] & G & _ & _ & R & _); [congruence|].
  exists cells, raw, mp, g, m, eps. do 6 (split; [assumption|]). unfold run_domain in H. unfold domain_model.
  destruct (make_mesh _ _ _ _ _ _ _) as [[[[[cells' bd'] mp'] g'] fs']|] eqn:Ek; [|discriminate]. cbn [bind] in H |- *.
  apply mesh_inv in Ek. destruct Ek as (_ & _ & G' & _ & _ & [(K & _) | (_ & raw' & -> & Er')]); [congruence|].
  rewrite Er in Er'. injection Er' as <- <-. rewrite (domain_sensors_same ds i i mp' mp g' g) by assumption. rewrite Es. exact Eb.
Qed.
Lemma domain_model_inv : forall e lhs1 lhs2 ch o file csv template vtk ds i sensors fs m, i_method i = "external"%string -> domain_model e lhs1 lhs2 ch o file csv template vtk ds i sensors fs = Ok m ->
  exists cells raw mp g, read_mesh e lhs2 file (i_mesh_file i) (i_level i) (i_sampling i) 0 = Ok (cells, raw) /\ g_method g = i_method i /\
    domain_sensors ds i mp g vtk csv ch sensors = Ok (m_sensor_in m, m_sensor_act m) /\
    build_inverse o (ds_problem ds) Domain pde_loss_cd2d_inverse_domain i cells (boundary_xy raw) (Ok (m_sensor_in m, m_sensor_act m)) = Ok m.
Proof.
  intros e lhs1 lhs2 ch o file csv template vtk ds i sensors fs m M H. unfold domain_model in H.
  destruct (make_mesh _ _ _ _ _ _ _) as [[[[[cells bd] mp] g] fs']|] eqn:Ek; [|discriminate]. cbn [bind] in H.
  apply mesh_inv in Ek. destruct Ek as (_ & _ & G & _ & _ & [(K & _) | (_ & raw & -> & Er)]); [congruence|].
  pose proof H as H'. apply build_inv in H'. destruct H' as ([P V] & Es & E1 & E2). cbn [fst snd] in E1, E2. rewrite Es in H. exists cells, raw, mp, g. rewrite E1, E2. auto.
Qed.
Lemma domain_history : forall ds i nt m rate r eps, learning_rate Domain (i_rates i) = Ok rate ->
  domain_reports ds i (domain_weights ds i nt (Ok m)) m eps r ->
  let x := variables_at (Ok rate) (domain_at m nt (i_beta i) (Some (pb_params (ds_problem ds)))) (weights_of nt) in
  (forall t, domain_weights ds i nt (Ok m) t = with_weights nt (x t)) /\
  forall t, (t < length (d_loss r))%nat -> exists L, domain_at m nt (i_beta i) (Some (pb_params (ds_problem ds))) (x t) = Ok L /\ nth t (d_loss r) [] = l_total L.
Proof.
  intros ds i nt m rate r eps Hr R x. assert (E : forall t, domain_weights ds i nt (Ok m) t = with_weights nt (x t)).
  { intros t. unfold domain_weights, from_model, x. rewrite Hr, params_of_eq. reflexivity. }
  split; [exact E|]. intros t Ht. destruct (do_losses _ _ _ _ _ _ R) as [Ll _]. rewrite Ll in Ht. destruct (do_loss _ _ _ _ _ _ R t Ht) as (L & EL & -> & _). exists L. split; [|reflexivity].
  rewrite E in EL. exact EL.
Qed.

Section DomainScript.
Variables (e : numpy R) (lhs1 : nat -> nat -> list R) (lhs2 : nat -> nat -> list (R * R)) (ch : chance) (o : quad_oracle R)
  (file : string -> result (mesh_file R)) (csv : result (list (R * R * R))) (rows : list (list R)) (ds : domain_script) (i : settings) (sensors : nat) (nt : net).
Variables (b_x b_y c : R).
Hypothesis Hn : starts (i_architecture i) 2 nt.
Hypothesis Hbx : has (pb_params (ds_problem ds)) "b_x" b_x.
Hypothesis Hby : has (pb_params (ds_problem ds)) "b_y" b_y.
Hypothesis Hc : has (pb_params (ds_problem ds)) "c" c.
Hypothesis Ho : oracle_ok o (Z.to_nat (i_quad_order i)).
Hypothesis Hm : i_method i = "external"%string.
Hypothesis Hrows : rows <> [].
Hypothesis Hs : (1 <= sensors)%nat.
Hypothesis Hd : (ds_file ds = false /\ forall l, Permutation (ch_shuffle ch l) l) \/
   (ds_file ds = true /\ exists srows, csv = Ok srows /\ length srows = length rows /\
      length (ch_index ch (length srows) sensors) = sensors /\ forall j, In j (ch_index ch (length srows) sensors) -> (j < length srows)%nat).
Lemma domain_own_runs : forall template fmt fs mf edges quads tags, good_inverse Domain i ->
  (forall l, sorts l (np_argsort e l)) -> suffix (i_mesh_file i) = ".mesh"%string -> file (i_mesh_file i) = Ok mf ->
  edges_of mf edges -> quads_of mf quads -> first_refs mf tags -> (length edges <= length tags)%nat -> spatial mf ->
  i_sampling i = "uniform"%string -> (0 <= i_level i)%Z -> edges <> [] -> quads <> [] ->
  (forall j, (j < length edges)%nat -> In (nth j tags 0%Z) (map fst (pb_bound (ds_problem ds)))) -> (forall x y, exists v, has (ds_actual ds x y) "eps" v) ->
  (1 <= i_epochs i)%Z -> i_update i <> 0%Z -> exists r, train_domain e lhs1 lhs2 ch o file csv template (Ok rows) fmt (Ok tt) ds i sensors nt fs = Ok r.
Proof.
  intros template fmt fs mf edges quads tags Hg H1 H2 H3 H4 H5 H6 H7 H8 H9 H10 H11 H12 H13 H14 H15 H16. unfold train_domain. eapply domain_file_runs; eauto.
  intros t. set (m := domain_model _ _ _ _ _ _ _ _ _ _ _ _ _).
  assert (Ew : exists w, length w = length (weights_of nt) /\ domain_weights ds i nt m t = with_weights nt w).
  { destruct m as [m|]; unfold domain_weights, from_model; [|exists (weights_of nt); split; [reflexivity|now rewrite with_own_weights]].
    destruct (learning_rate _ _); eexists; (split; [|reflexivity]); [apply x_length | reflexivity]. }
  destruct Ew as (w & Lw & ->). rewrite <- (listed_nth w). do 3 eexists. apply filled_pointwise2; [exact (st_attention _ _ _ Hn) | exact (starts_chain _ _ _ Hn) | lia].
Qed.
Hypothesis Ha : twice (n_act nt).
Variables (cells : list (cell R)) (raw : list (Z * list (list R))).
Hypothesis Er : read_mesh e lhs2 file (i_mesh_file i) (i_level i) (i_sampling i) 0 = Ok (cells, raw).
Hypothesis Hp : concat (map snd raw) <> [].
Lemma domain_sensors_fit : forall mp g P V pts, g_method g = i_method i -> domain_sensors ds i mp g (Ok rows) csv ch sensors = Ok (P, V) -> get_test_points g (Ok rows) = Ok pts ->
  P <> [] /\ has_shape V (length P) 1.
Proof.
  intros mp g P V pts G H Ht. destruct Hd as [[Hf Hperm] | (Hf & srows & Ec & Ls & Hi1 & Hi2)].
  - destruct (usa_sensors _ _ _ _ _ _ _ _ _ _ _ Hf Hperm H Ht) as (L & _ & ->). unfold get_test_points in Ht. rewrite G, Hm in Ht. cbn [String.eqb Ascii.eqb Bool.eqb bind] in Ht. injection Ht as <-.
    rewrite map_length in L. assert (1 <= length rows)%nat by (destruct rows; [now destruct Hrows | cbn; lia]). split; [intros ->; cbn [length] in L; lia|].
    split; [apply map_length|]. intros row Hr. apply in_map_iff in Hr. destruct Hr as (p & <- & _). reflexivity.
  - assert (Hne : srows <> []) by (intros ->; destruct rows; [now destruct Hrows | discriminate]).
    destruct (file_sensors _ _ _ _ _ _ _ _ _ _ _ Hf Hm Ec Hne (conj Hi1 Hi2) H) as (L & S & _). split; [intros ->; cbn [length] in L; lia | rewrite L; exact S].
Qed.
Lemma domain_trains : forall d mp g m pts, g_method g = i_method i -> domain_sensors ds i mp g (Ok rows) csv ch sensors = Ok (m_sensor_in m, m_sensor_act m) -> get_test_points g (Ok rows) = Ok pts ->
  build_inverse o (ds_problem ds) Domain pde_loss_cd2d_inverse_domain (with_rates i d) cells (boundary_xy raw) (Ok (m_sensor_in m, m_sensor_act m)) = Ok m ->
  exists C T Q, trains m C T Q nt (i_beta i) (domain_at m nt (i_beta i) (Some (pb_params (ds_problem ds)))) (length (weights_of nt)).
Proof.
  intros d mp g m pts G Es Et Eb. destruct (inverse_ready o (ds_problem ds) Domain _ (with_rates i d) cells _ _ m Ho Eb (raw_points _ Hp)) as (F & Fc & Fl & _).
  destruct (domain_sensors_fit _ _ _ _ _ G Es Et) as [S1 S2]. do 3 eexists. split; [exact F|]. split; [exact Fc|]. split; [exact (st_attention _ _ _ Hn)|]. split; [exact Ha|].
  eapply tr_domain; eauto; [split; assumption | exact (starts_chain _ _ _ Hn)].
Qed.
Lemma domain_learns : forall template0 fs0 m, domain_model e lhs1 lhs2 ch o file csv template0 (Ok rows) ds i sensors fs0 = Ok m ->
  learns (domain_at m nt (i_beta i) (Some (pb_params (ds_problem ds)))) (weights_of nt)
    (fun d l => exists template fmt times fs r, train_domain e lhs1 lhs2 ch o file csv template (Ok rows) fmt times ds (with_rates i d) sensors nt fs = Ok r /\ d_loss r = l).
Proof.
  intros template0 fs0 m H0. destruct (domain_model_inv _ _ _ _ _ _ _ _ _ _ _ _ _ _ Hm H0) as (cells0 & raw0 & mp0 & g0 & Er0 & G0 & Es0 & Eb1). rewrite Er in Er0. injection Er0 as <- <-.
  assert (Eb0 : build_inverse o (ds_problem ds) Domain pde_loss_cd2d_inverse_domain (with_rates i (i_rates i)) cells (boundary_xy raw) (Ok (m_sensor_in m, m_sensor_act m)) = Ok m) by exact Eb1. clear Eb1.
  assert (Et0 : get_test_points g0 (Ok rows) = Ok (map xy rows)) by (unfold get_test_points; rewrite G0, Hm; reflexivity).
  destruct (domain_trains (i_rates i) mp0 g0 m _ G0 Es0 Et0 Eb0) as (C & T & Q & Tr).
  apply (learns_intro _ Domain); [eapply trains_differentiable; eauto|].
  intros d l (tp & fmt & tm & fs & r & H & <-). unfold train_domain in H. destruct (domain_built _ _ _ _ _ _ _ _ _ _ _ _ (with_rates i d) _ _ _ _ Hm H) as (cells1 & raw1 & mp1 & g1 & m1 & eps1 & Er1 & G1 & Es1 & Et1 & Eb1 & R & Ek).
  cbn [with_rates i_mesh_file i_level i_sampling] in Er1. rewrite Er in Er1. injection Er1 as <- <-.
  rewrite (domain_sensors_same ds (with_rates i d) i mp1 mp0 g1 g0) in Es1 by assumption. rewrite Es0 in Es1. injection Es1 as Q1 Q2. rewrite <- Q1, <- Q2 in Eb1.
  destruct (build_inverse_rate _ _ _ _ _ _ _ _ _ Eb1) as (rate & Hr). rewrite <- (build_inverse_same _ _ _ _ _ _ _ _ _ _ _ _ Eb0 Eb1) in *.
  rewrite Ek in R. destruct (domain_history ds (with_rates i d) nt m rate r eps1 Hr R) as [_ Hh]. exists rate. split; [exact Hr | exact Hh].
Qed.
Lemma domain_solved : forall template fmt times fs r, 0 <= i_beta i -> train_domain e lhs1 lhs2 ch o file csv template (Ok rows) fmt times ds i sensors nt fs = Ok r ->
  nth 0 (d_loss r) [] = [0] -> (forall t, (t < length (d_loss r))%nat -> nth t (d_loss r) [] = [0]) /\
  exists pred inv, answers2 (fun _ => nt) (d_points r) 0 pred inv /\ stored i (d_pred r) pred /\ stored i (d_inv r) inv.
Proof.
  intros template fmt times fs r Hbe H H0. unfold train_domain in H. destruct (domain_built _ _ _ _ _ _ _ _ _ _ _ _ i _ _ _ _ Hm H) as (cells1 & raw1 & mp & g & m & eps & Er1 & G & Es & Et & Eb & R & Ek).
  rewrite Er in Er1. injection Er1 as <- <-. destruct (domain_trains (i_rates i) mp g m _ G Es Et Eb) as (C & T & Q & Tr). destruct (build_inverse_rate _ _ _ _ _ _ _ _ _ Eb) as (rate & Hr).
  rewrite Ek in R. destruct (domain_history ds i nt m rate r eps Hr R) as [Ew Hh]. set (f := domain_at _ _ _ _) in *.
  assert (L0 : (0 < length (d_loss r))%nat) by (destruct (d_loss r); [discriminate | cbn; lia]).
  assert (Z : total_is (f (weights_of nt)) 0). { destruct (Hh 0%nat L0) as (L & EL & E). exists L. rewrite x_start in EL. split; [exact EL | congruence]. }
  assert (X : forall t, variables_at (Ok rate) f (weights_of nt) t = weights_of nt) by (intros t; eapply solved_variables; eauto). split.
  - intros t Ht. destruct (Hh t Ht) as (L & EL & ->). rewrite X in EL. destruct Z as (L' & EL' & E). congruence.
  - destruct (do_pred _ _ _ _ _ _ R) as (pred & inv & (A1 & A2 & y & A3 & A4) & S1 & _ & S2 & _). exists pred, inv. split; [|auto]. split; [exact A1|]. split; [exact A2|]. exists y. split; [|exact A4].
    rewrite Ew, X, with_own_weights in A3. exact A3.
Qed.
End DomainScript.
Lemma has_key : forall (d : list (string * R)) k v, has d k v -> In k (map fst d).
Proof. induction d as [|[a b] d IH]; intros k v H; unfold has in *; cbn in H |- *; [discriminate|]. destruct (String.eqb_spec k a) as [-> | N]; [now left|]. right. eapply IH; exact H. Qed.
