(* The hyperparameter search as a whole. *)
From Coq Require Import String ZArith List Arith Lia Bool Reals Lra.
From Verif Require Import Num Py PyFacts Jacobi Quadrature Basis Transform Cell Space Tensor Data Physics Train Geometry Nets Metrics Tuner Optim Loop
  ListFacts Spec SpecGeom SpecTrain SpecMesh SpecOptim PhysicsFacts TrainFacts NetFacts MetricFacts TunerFacts JetFacts OptimFacts AdamFacts LoopFacts Study SpecStudy.
From Verif Require Driver DriverFacts.
Import ListNotations.
Local Open Scope R_scope.

(* ---------- shapes survive training ---------- *)
Definition sh {T} (l : bool * (list (list T) * list T)) : bool * (list nat * nat) := (fst l, (map (@length T) (fst (snd l)), length (snd (snd l)))).
Lemma fill_rows_shape : forall (k : mat R) (w : list R), (length (concat k) <= length w)%nat -> map (@length R) (fill_rows k w) = map (@length R) k.
Proof.
  induction k as [|row r IH]; intros w H; [reflexivity|]. cbn [fill_rows map concat] in *. rewrite app_length in H.
  rewrite firstn_length_le by lia. f_equal. apply IH. rewrite skipn_length. lia.
Qed.
Lemma fill_shapes : forall ls (w : list R), (length (concat (map layer_weights ls)) <= length w)%nat -> map sh (fill_layers ls w) = map sh ls.
Proof.
  induction ls as [|[a [k b]] r IH]; intros w H; [reflexivity|]. cbn [fill_layers map concat layer_weights fst snd] in *. unfold layer_weights in H at 1. cbn [fst snd] in H.
  rewrite !app_length in H. rewrite IH by (rewrite !skipn_length; lia). f_equal. unfold sh. cbn [fst snd].
  rewrite fill_rows_shape by lia. rewrite firstn_length_le by (rewrite skipn_length; lia). reflexivity.
Qed.
Lemma shape_iff : forall (k : mat R) r c, has_shape k r c <-> map (@length R) k = repeat c r.
Proof.
  intros k r c. split.
  - intros [<- H]. induction k as [|x k IH]; [reflexivity|]. cbn. f_equal; [apply H; now left | apply IH; intros; apply H; now right].
  - intros H. split.
    + rewrite <- (map_length (@length R) k), H. apply repeat_length.
    + intros row Hin. apply (in_map (@length R)) in Hin. rewrite H in Hin. now apply repeat_spec in Hin.
Qed.
Lemma widths_shape : forall dims nt nt', map sh (n_layers nt') = map sh (n_layers nt) -> widths dims nt -> widths dims nt'.
Proof.
  intros dims nt nt' E [L H].
  assert (EL : length (n_layers nt') = length (n_layers nt)) by (apply (f_equal (@length _)) in E; now rewrite !map_length in E).
  split; [exact (eq_trans EL L)|]. intros i d Hi. specialize (H i d Hi).
  assert (En : sh (nth i (n_layers nt') d) = sh (nth i (n_layers nt) d)) by (pose proof (f_equal (fun l => nth i l (sh d)) E) as En; cbv beta in En; rewrite (map_nth sh) in En; etransitivity; [exact En | apply (map_nth sh)]).
  destruct (nth i (n_layers nt') d) as [f' [k' b']]. destruct (nth i (n_layers nt) d) as [f [k b]]. unfold sh in En. cbn [fst snd] in En. injection En as -> Ek Eb.
  destruct H as (A & B & C). refine (conj A (conj _ _)); [|congruence]. apply shape_iff. apply shape_iff in B. congruence.
Qed.
Lemma widths_filled : forall dims nt w, widths dims nt -> (length (weights_of nt) <= length w)%nat -> widths dims (with_weights nt w).
Proof. intros dims nt w H Hw. refine (widths_shape dims nt _ _ H). exact (fill_shapes (n_layers nt) w Hw). Qed.

(* ---------- one trial ---------- *)
Lemma trial_weights_at : forall pb s nt m t, exists x, length x = length (weights_of nt) /\ trial_weights pb s nt m t = with_weights nt x.
Proof.
  intros pb s nt m t. unfold trial_weights, from_model. destruct m as [m|].
  - eexists. split; [|reflexivity]. destruct (learning_rate _ _) as [rate|]; [apply x_length | reflexivity].
  - exists (weights_of nt). split; auto. symmetry. apply with_own_weights.
Qed.
Lemma trial_widths : forall pb s nt m, fresh s nt -> forall t, widths (architecture s) (trial_weights pb s nt m t) /\ n_attention (trial_weights pb s nt m t) = false.
Proof.
  intros pb s nt m [W A _] t. destruct (trial_weights_at pb s nt m t) as (x & Lx & ->). split; [apply widths_filled; auto; lia | exact A].
Qed.
Lemma value : forall e lhs1 o pb d n, can_run e lhs1 o pb d -> let s := d_suggestion d in let nt := d_net d in
  exists m rate st x pts U,
    (exists cells mo bd sp h dir,
       generate_quad_mesh_internal e lhs1 (0, 1) (0, 1) (s_nx s) (s_ny s) (s_nb s) = Ok (cells, mo, bd) /\
       make_space o {| cf_cell_type := "quadrilateral"; cf_fe_order := s_fe_order s; cf_fe_type := s_fe_type s; cf_quad_order := s_quad_order s; cf_quad_type := s_quad_type s; cf_trafo := "bilinear" |}
         cells bd (pb_bound pb) false = Ok sp /\
       make_handler sp (pb_rhs pb) true = Ok h /\ get_dirichlet_input bd (pb_bound pb) = Ok dir /\ m = model_of h dir ([], []) pde_loss_poisson (length cells)) /\
    (forall t, rate t = s_lr s * s_rate s ^ (t / Z.to_nat (s_steps s))) /\
    (let f := standard_at m nt 10 (Some (pb_params pb)) in
     trains m (Z.to_nat (s_nx s) * Z.to_nat (s_ny s)) (Z.to_nat (s_fe_order s) * Z.to_nat (s_fe_order s)) (Z.to_nat (s_quad_order s) * Z.to_nat (s_quad_order s)) nt 10 f (length (weights_of nt)) /\
     trained rate f (weights_of nt) n = Ok (st, x)) /\
    nn_out (network_of (with_weights nt x)) pts = Ok (map (fun p => [U p]) pts) /\
    length pts = (Z.to_nat 100 * Z.to_nat 100)%nat /\
    (forall i j, (i < Z.to_nat 100)%nat -> (j < Z.to_nat 100)%nat -> nth (j * Z.to_nat 100 + i) pts (0, 0) = (INR i / 99, INR j / 99)) /\
    train_trial e lhs1 o pb n d =
    compute_l2_error_relative {| a_shape := [length pts]; a_data := map (fun p => pb_exact pb (fst p) (snd p)) pts |}
                              {| a_shape := [length pts]; a_data := map U pts |}.
Proof.
  intros e lhs1 o pb d n (He & Hl & Ho & Hs & Hb & (eps & Hp) & Hf) s nt. fold s in Ho, Hs, Hf. fold nt in Hf.
  destruct (trial_setup e lhs1 o pb s He Hl Ho Hs Hb) as (cells & mo & bd & sp & h & dir & E1 & E2 & E3 & E4 & F).
  set (m := model_of h dir ([], []) pde_loss_poisson (length cells)) in *.
  assert (Em : trial_model e lhs1 o pb s = Ok m) by (unfold trial_model; rewrite E1; cbn [bind]; rewrite E2; cbn [bind]; rewrite E3; cbn [bind]; rewrite E4; reflexivity).
  destruct (learning_rate Standard (tuner_rates s)) as [rate|] eqn:Er; [|discriminate].
  assert (Rt : forall t, rate t = s_lr s * s_rate s ^ (t / Z.to_nat (s_steps s))).
  { pose proof (ss_steps s Hs) as B. refine (rate_nat Standard (tuner_rates s) (s_lr s) (IZR (s_steps s)) (s_rate s) (LBool true) rate eq_refl eq_refl eq_refl eq_refl Er _ eq_refl _ _); [lia|].
    rewrite INR_IZR_INZ, Z2Nat.id by lia. reflexivity. }
  set (f := standard_at m nt 10 (Some (pb_params pb))).
  assert (TC : length cells = (Z.to_nat (s_nx s) * Z.to_nat (s_ny s))%nat).
  { pose proof (ss_nx s Hs). pose proof (ss_ny s Hs). pose proof (ss_nb s Hs). apply (MeshFacts.tile_count e lhs1 0 1 0 1 (s_nx s) (s_ny s) (s_nb s) cells mo bd He Hl); auto; try lia; lra. }
  assert (T : trains m (Z.to_nat (s_nx s) * Z.to_nat (s_ny s)) (Z.to_nat (s_fe_order s) * Z.to_nat (s_fe_order s)) (Z.to_nat (s_quad_order s) * Z.to_nat (s_quad_order s)) nt 10 f (length (weights_of nt))).
  { rewrite <- TC. refine (conj F (conj eq_refl (conj (fr_attention _ _ Hf) (conj _ _)))); [rewrite (fr_act _ _ Hf); exact twice_tanh|].
    unfold f. eapply tr_standard; [reflexivity | econstructor; exact Hp |].
    pose proof (widths_chain (architecture s) nt (arch_len s) eq_refl (fr_widths _ _ Hf)) as C. unfold NetFacts.chain in *. cbv beta zeta in C. rewrite (arch_last s) in C. exact C. }
  destruct (run_total rate f (weights_of nt) (trains_differentiable _ _ _ _ _ _ _ _ _ T eq_refl) n) as [[st x] Ex].
  destruct (trial e lhs1 o pb (trial_weights pb s nt (trial_model e lhs1 o pb s)) s eps n He Hl Ho Hs Hb Hp (trial_widths pb s nt _ Hf)) as (pts & U & P1 & P2 & P3 & P4).
  exists m, rate, st, x, pts, U. refine (conj (ex_intro _ cells (ex_intro _ mo (ex_intro _ bd (ex_intro _ sp (ex_intro _ h (ex_intro _ dir (conj E1 (conj E2 (conj E3 (conj E4 eq_refl)))))))))) (conj Rt (conj (conj T Ex) (conj _ (conj P2 (conj P3 P4)))))).
  rewrite Em in P1. unfold trial_weights, from_model in P1. rewrite params_same, Er in P1. unfold variables_at in P1. fold f in P1. rewrite Ex in P1. exact P1.
Qed.

(* ---------- values of trials ---------- *)
Lemma grid_size : (0 < Z.to_nat 100)%nat. Proof. lia. Qed.
Lemma value_kind : forall e lhs1 o pb d n, can_run e lhs1 o pb d ->
  (nonzero_on_grid (pb_exact pb) -> exists r, train_trial e lhs1 o pb n d = Ok (Fin r) /\ 0 <= r) /\
  (zero_on_grid (pb_exact pb) -> train_trial e lhs1 o pb n d = Ok NaN \/ train_trial e lhs1 o pb n d = Ok PosInf).
Proof.
  intros e lhs1 o pb d n H. destruct (value e lhs1 o pb d n H) as (m & rate & st & x & pts & U & _ & _ & _ & _ & Lp & P & ->). pose proof grid_size as G.
  set (u := {| a_shape := _; a_data := map (fun p => pb_exact pb (fst p) (snd p)) pts |}). set (v := {| a_shape := _; a_data := map U pts |}).
  assert (C : comparable u v). { split; cbn; [now rewrite !map_length|]. intros E. apply map_eq_nil in E. rewrite E in Lp. cbn [length] in Lp. nia. }
  split.
  - intros (i & j & Hi & Hj & N). destruct (relative_value u v C) as (b2 & _ & _ & B & _ & _ & _ & _ & _ & -> & _).
    + exists (pb_exact pb (INR i / 99) (INR j / 99)). split; auto. cbn. apply in_map_iff. exists (INR i / 99, INR j / 99). split; auto. rewrite <- (P i j Hi Hj). apply nth_In. nia.
    + eexists. split; [reflexivity|]. apply Rmult_le_pos; [apply l2_nonneg | left; now apply Rinv_0_lt_compat].
  - intros Hz. destruct (relative_zero_exact u v C) as (-> & _).
    + intros y Hy. cbn in Hy. apply in_map_iff in Hy. destruct Hy as (p & <- & Hp). destruct (In_nth pts p (0, 0) Hp) as (k & Hk & Ek).
      assert (B1 : (k mod Z.to_nat 100 < Z.to_nat 100)%nat) by (apply Nat.mod_upper_bound; lia).
      assert (B2 : (k / Z.to_nat 100 < Z.to_nat 100)%nat) by (apply Nat.div_lt_upper_bound; lia).
      pose proof (P _ _ B1 B2) as E. rewrite Nat.mul_comm, <- Nat.div_mod in E by lia. rewrite Ek in E. rewrite E. cbn [fst snd]. now apply Hz.
    + destruct (list_eq_dec _ _ _); auto.
Qed.
Lemma trial_never_raises : forall e lhs1 o pb d n, can_run e lhs1 o pb d -> exists v, train_trial e lhs1 o pb n d = Ok v.
Proof.
  intros e lhs1 o pb d n H. destruct (value e lhs1 o pb d n H) as (m & rate & st & x & pts & U & _ & _ & _ & _ & Lp & P & ->). pose proof grid_size as G.
  set (u := {| a_shape := _; a_data := map (fun p => pb_exact pb (fst p) (snd p)) pts |}). set (v := {| a_shape := _; a_data := map U pts |}).
  assert (C : comparable u v). { split; cbn; [now rewrite !map_length|]. intros E. apply map_eq_nil in E. rewrite E in Lp. cbn [length] in Lp. nia. }
  destruct (relative_eq u v C) as (-> & _). eauto.
Qed.

(* ---------- the best trial ---------- *)
Lemma less_true : forall a b, less a b = true -> not_above a b.
Proof. intros [x| |] [y| |]; cbn; try discriminate; auto. destruct (Rlt_dec x y); [lra | discriminate]. Qed.
Lemma less_false : forall a b, a <> NaN -> b <> NaN -> less a b = false -> not_above b a.
Proof. intros [x| |] [y| |]; cbn; try congruence; auto. destruct (Rlt_dec x y); [discriminate | lra]. Qed.
Lemma above_refl : forall a, a <> NaN -> not_above a a.
Proof. intros [x| |]; cbn; auto; lra. Qed.
Lemma above_trans : forall a b c, not_above a b -> not_above b c -> not_above a c.
Proof. intros [x| |] [y| |] [z| |]; cbn; try tauto; lra. Qed.
Lemma best_of_spec : forall l b, stored_ok l -> (forall v ps, b = Some (v, ps) -> v <> NaN) ->
  match best_of l b with
  | None => b = None /\ forall v ps, ~ In (Complete v ps) l
  | Some (v, ps) => (b = Some (v, ps) \/ In (Complete v ps) l) /\ v <> NaN /\
      (forall v0 ps0, b = Some (v0, ps0) -> not_above v v0) /\ forall v' ps', In (Complete v' ps') l -> not_above v v'
  end.
Proof.
  induction l as [|t l IH]; intros b Hl Hb.
  - cbn. destruct b as [[v ps]|]; [|auto]. refine (conj (or_introl eq_refl) (conj (Hb _ _ eq_refl) (conj _ _))); [|intros ? ? []].
    intros v0 ps0 E. injection E as <- <-. apply above_refl. exact (Hb _ _ eq_refl).
  - assert (Hl' : stored_ok l) by (intros v ps Hin; apply (Hl v ps); now right). destruct t as [v ps|]; cbn [best_of].
    + assert (Nv : v <> NaN) by (apply (Hl v ps); now left).
      set (b' := match b with Some b0 => if less v (fst b0) then Some (v, ps) else b | None => Some (v, ps) end).
      assert (Hb' : forall v0 ps0, b' = Some (v0, ps0) -> v0 <> NaN).
      { intros v0 ps0. unfold b'. destruct b as [[w qs]|]; [destruct (less v (fst (w, qs)))|]; intros E; injection E as <- <-; auto. exact (Hb _ _ eq_refl). }
      assert (K : exists v0 ps0, b' = Some (v0, ps0) /\ not_above v0 v /\ (b = Some (v0, ps0) \/ (v0 = v /\ ps0 = ps)) /\ forall w qs, b = Some (w, qs) -> not_above v0 w).
      { unfold b'. destruct b as [[w qs]|]; [destruct (less v (fst (w, qs))) eqn:E; cbn [fst] in E|]; do 2 eexists; (split; [reflexivity|]).
        - split; [now apply above_refl|]. split; [auto|]. intros w' qs' E'. injection E' as <- <-. now apply less_true.
        - split; [apply less_false; auto; exact (Hb _ _ eq_refl)|]. split; [auto|]. intros w' qs' E'. injection E' as <- <-. apply above_refl. exact (Hb _ _ eq_refl).
        - split; [now apply above_refl|]. split; [auto|]. discriminate. }
      destruct K as (v0 & ps0 & E0 & K1 & K2 & K3). specialize (IH b' Hl' Hb'). rewrite E0 in IH |- *.
      destruct (best_of l (Some (v0, ps0))) as [[w qs]|]; [|destruct IH; discriminate]. destruct IH as (I1 & I2 & I3 & I4). pose proof (I3 _ _ eq_refl) as I3'.
      refine (conj _ (conj I2 (conj _ _))).
      * destruct I1 as [I1 | I1]; [|right; now right]. injection I1 as <- <-. destruct K2 as [K2 | [-> ->]]; [now left | right; now left].
      * intros w' qs' E'. eapply above_trans; [exact I3' | eauto].
      * intros v' ps' [E' | Hin]; [|eauto]. injection E' as <- <-. eapply above_trans; eauto.
    + specialize (IH b Hl' Hb). destruct (best_of l b) as [[w qs]|].
      * destruct IH as (I1 & I2 & I3 & I4). refine (conj _ (conj I2 (conj I3 _))); [destruct I1; auto; right; now right|]. intros v' ps' [E|Hin]; [discriminate | eauto].
      * destruct IH as (I1 & I2). split; auto. intros v ps [E|Hin]; [discriminate | eapply I2; eauto].
Qed.
Lemma best_of_app : forall l l' b, best_of (l ++ l') b = best_of l' (best_of l b).
Proof. induction l as [|[v ps|] l IH]; intros l' b; cbn; auto. Qed.

(* ---------- the study ---------- *)
Section Study.
Variables (e : numpy R) (lhs1 : nat -> nat -> list R) (o : quad_oracle R) (pb : problem) (n : nat).
Lemma news_values : forall gpus draws k news,
  mapM (fun kd => do v <- objective_wrapper gpus (fun _ => train_trial e lhs1 o pb n (snd kd)) (fst kd); Ok (tell v (params (d_suggestion (snd kd)))))
    (combine (seq k (length draws)) draws) = Ok news ->
  Forall2 (fun d t => exists v, train_trial e lhs1 o pb n d = Ok v /\ t = tell v (params (d_suggestion d))) draws news.
Proof.
  intros gpus. induction draws as [|d ds IH]; intros k news H.
  - cbn in H. injection H as <-. constructor.
  - cbn [length seq combine mapM snd fst] in H. unfold objective_wrapper in H at 1. destruct (gpu_id k gpus) as [id|]; [|discriminate]. cbn [bind] in H.
    destruct (train_trial e lhs1 o pb n d) as [v|] eqn:E; [|discriminate]. cbn [bind] in H.
    destruct (mapM _ _) as [r|] eqn:Er; [|discriminate]. cbn [bind] in H. injection H as <-. constructor; eauto.
Qed.
Lemma news_run : forall gpus draws k, (1 <= gpus)%nat -> (forall d, In d draws -> exists v, train_trial e lhs1 o pb n d = Ok v) -> exists news,
  mapM (fun kd => do v <- objective_wrapper gpus (fun _ => train_trial e lhs1 o pb n (snd kd)) (fst kd); Ok (tell v (params (d_suggestion (snd kd)))))
    (combine (seq k (length draws)) draws) = Ok news.
Proof.
  intros gpus draws k Hg H. apply mapM_ok. intros [j d] Hin. apply in_combine_r in Hin. cbn [fst snd]. unfold objective_wrapper.
  destruct (gpu_ok j gpus Hg) as (i & -> & _). cbn [bind]. destruct (H d Hin) as [v ->]. cbn [bind]. eauto.
Qed.
Lemma news_in : forall draws news, Forall2 (fun d t => exists v, train_trial e lhs1 o pb n d = Ok v /\ t = tell v (params (d_suggestion d))) draws news ->
  (forall v ps, In (Complete v ps) news -> v <> NaN /\ exists d, In d draws /\ train_trial e lhs1 o pb n d = Ok v /\ ps = params (d_suggestion d)) /\
  (forall d, In d draws -> exists v, train_trial e lhs1 o pb n d = Ok v /\ (v = NaN \/ In (Complete v (params (d_suggestion d))) news)).
Proof.
  intros draws news H. induction H as [|d t ds ts (v & E & ->) H [I1 I2]]; [split; intros; contradiction|]. split.
  - intros w ps [K | K].
    + assert (w = v /\ v <> NaN /\ ps = params (d_suggestion d)) as (-> & N & ->) by (destruct v; cbn in K; try discriminate; injection K as <- <-; repeat split; discriminate).
      split; auto. exists d. cbn. auto.
    + destruct (I1 w ps K) as (N & d' & D). split; auto. exists d'. cbn. tauto.
  - intros d' [<- | K].
    + exists v. split; auto. destruct v; [right; now left | right; now left | now left].
    + destruct (I2 d' K) as (w & E' & D). exists w. split; auto. destruct D; [now left | right; now right].
Qed.
End Study.

(* ---------- what a trial records ---------- *)
Lemma dget_skip : forall (l r : list (string * pval)) k, (forall k', In k' (map fst l) -> String.eqb k k' = false) -> dget String.eqb (l ++ r) k = dget String.eqb r k.
Proof.
  induction l as [|[k' v] l IH]; intros r k H; [reflexivity|]. cbn [app dget]. rewrite (H k') by now left. apply IH. intros k'' K. apply H. now right.
Qed.
Lemma layer_get : forall (ls : list Z) r k0 k, (k < length ls)%nat ->
  dget String.eqb (combine (map layer_name (seq k0 (length ls))) (map PInt ls) ++ r) (layer_name (k0 + k)) = Ok (PInt (nth k ls 0%Z)).
Proof.
  induction ls as [|z ls IH]; intros r k0 k H; [cbn in H; lia|]. cbn [length seq map combine app dget]. destruct k as [|k].
  - rewrite Nat.add_0_r, String.eqb_refl. reflexivity.
  - destruct (String.eqb_spec (layer_name (k0 + S k)) (layer_name k0)) as [E|E].
    + unfold layer_name in E. apply DriverFacts.app_cancel in E. apply DriverFacts.decimal_inj in E. lia.
    + replace (k0 + S k)%nat with (S k0 + k)%nat by lia. apply (IH r (S k0) k). cbn in H. lia.
Qed.
Lemma layer_keys : forall ls k', In k' (map fst (combine (map layer_name (seq 0 (length ls))) (map PInt ls))) -> exists k, k' = layer_name k.
Proof.
  intros ls k' H. apply in_map_iff in H. destruct H as ([a b] & <- & H). apply in_combine_l in H. apply in_map_iff in H. destruct H as (k & <- & _). cbn. eauto.
Qed.
Lemma params_describe : forall s, describes (params s) s.
Proof.
  intros s. constructor; try reflexivity.
  - intros k Hk. change (String.append "layer_" _) with (layer_name k). unfold params.
    rewrite dget_skip.
    + exact (layer_get (s_layers s) _ 0 k Hk).
    + intros k' H. cbn in H. repeat destruct H as [<- | H]; try reflexivity. destruct H.
  - unfold params. rewrite dget_skip, dget_skip; [reflexivity | |].
    + intros k' H. destruct (layer_keys _ _ H) as [k ->]. reflexivity.
    + intros k' H. cbn in H. repeat destruct H as [<- | H]; try reflexivity. destruct H.
  - unfold params. rewrite dget_skip, dget_skip; [reflexivity | |].
    + intros k' H. destruct (layer_keys _ _ H) as [k ->]. reflexivity.
    + intros k' H. cbn in H. repeat destruct H as [<- | H]; try reflexivity. destruct H.
  - unfold params. rewrite dget_skip, dget_skip; [reflexivity | |].
    + intros k' H. destruct (layer_keys _ _ H) as [k ->]. reflexivity.
    + intros k' H. cbn in H. repeat destruct H as [<- | H]; try reflexivity. destruct H.
Qed.
Lemma describes_inj : forall ps s s', describes ps s -> describes ps s' -> s = s'.
Proof.
  intros ps s s' [A1 A2 A3 A4 A5 A6 A7 A8 A9 A10 A11 A12] [B1 B2 B3 B4 B5 B6 B7 B8 B9 B10 B11 B12].
  rewrite A1 in B1. rewrite A2 in B2. rewrite A3 in B3. rewrite A4 in B4. rewrite A5 in B5. rewrite A6 in B6. rewrite A7 in B7. rewrite A8 in B8.
  rewrite A10 in B10. rewrite A11 in B11. rewrite A12 in B12. injection B8 as B8. apply Nat2Z.inj in B8.
  assert (L : s_layers s = s_layers s').
  { apply (nth_ext _ _ 0%Z 0%Z B8). intros k Hk. pose proof (A9 k Hk) as P. rewrite (B9 k) in P by lia. congruence. }
  destruct s, s'; cbn in *. congruence.
Qed.

(* ---------- as stated ---------- *)
Lemma best : forall cpus gpus n_jobs e lhs1 o pb n stored draws ps, stored_ok stored -> tune cpus gpus n_jobs e lhs1 o pb n stored draws = Ok ps ->
  exists v, v <> NaN /\
    (In (Complete v ps) stored \/ exists d, In d draws /\ train_trial e lhs1 o pb n d = Ok v /\ describes ps (d_suggestion d)) /\
    (forall v' ps', In (Complete v' ps') stored -> not_above v v') /\
    (forall d, In d draws -> exists v', train_trial e lhs1 o pb n d = Ok v' /\ (v' = NaN \/ not_above v v')).
Proof.
  intros cpus gpus n_jobs e lhs1 o pb n stored draws ps Hs H. unfold tune in H. destruct (tuner_jobs _ _ _); [|discriminate]. cbn [bind] in H.
  destruct (mapM _ _) as [news|] eqn:En; [|discriminate]. cbn [bind] in H. apply news_values in En. destruct (news_in e lhs1 o pb n draws news En) as [N1 N2].
  assert (Ha : stored_ok (stored ++ news)) by (intros v qs Hin; apply in_app_or in Hin; destruct Hin as [Hin | Hin]; [exact (Hs v qs Hin) | apply (N1 v qs Hin)]).
  unfold best_trial in H. pose proof (best_of_spec (stored ++ news) None Ha ltac:(discriminate)) as B. destruct (best_of _ _) as [[v qs]|]; [|discriminate].
  cbn [bind snd] in H. injection H as ->. destruct B as (B1 & B2 & _ & B4). exists v. split; [exact B2|]. split; [|split].
  - destruct B1 as [B1 | B1]; [discriminate|]. apply in_app_or in B1. destruct B1 as [B1 | B1]; [now left|]. right. destruct (N1 v ps B1) as (_ & d & D1 & D2 & ->).
    exists d. refine (conj D1 (conj D2 (params_describe _))).
  - intros v' ps' Hin. apply (B4 v' ps'). apply in_or_app. now left.
  - intros d Hd. destruct (N2 d Hd) as (v' & E & [-> | Hin]); [exists NaN; auto|]. exists v'. split; auto. right. apply (B4 v' (params (d_suggestion d))). apply in_or_app. now right.
Qed.
Definition can_start (cpus gpus : nat) (n_jobs : Z) : Prop := (1 <= gpus)%nat /\ (1 <= n_jobs \/ n_jobs = -1)%Z.
Lemma jobs_start : forall cpus gpus n_jobs, can_start cpus gpus n_jobs -> exists k, tuner_jobs cpus gpus n_jobs = Ok k.
Proof.
  intros cpus gpus n_jobs [G J]. unfold tuner_jobs, optimize_jobs, requested_jobs. destruct (Z.eqb_spec (Z.min (Z.of_nat gpus) n_jobs) (-1)); [eauto|].
  destruct (Z.leb_spec (Z.min (Z.of_nat gpus) n_jobs) 0); [lia | eauto].
Qed.
Lemma tune_unfold : forall cpus gpus n_jobs e lhs1 o pb n stored draws, can_start cpus gpus n_jobs -> (forall d, In d draws -> can_run e lhs1 o pb d) ->
  exists news, Forall2 (fun d t => exists v, train_trial e lhs1 o pb n d = Ok v /\ t = tell v (params (d_suggestion d))) draws news /\
    tune cpus gpus n_jobs e lhs1 o pb n stored draws = (do b <- best_trial (stored ++ news); Ok (snd b)).
Proof.
  intros cpus gpus n_jobs e lhs1 o pb n stored draws Hc Hd. destruct (jobs_start _ _ _ Hc) as [k Ek].
  destruct (news_run e lhs1 o pb n gpus draws (length stored) (proj1 Hc) (fun d H => trial_never_raises e lhs1 o pb d n (Hd d H))) as [news En].
  exists news. split; [eapply news_values; exact En|]. unfold tune. rewrite Ek. cbn [bind]. rewrite En. reflexivity.
Qed.
Lemma runs : forall cpus gpus n_jobs e lhs1 o pb n stored draws, (1 <= gpus)%nat -> (1 <= n_jobs \/ n_jobs = -1)%Z -> stored_ok stored ->
  (forall d, In d draws -> can_run e lhs1 o pb d) -> nonzero_on_grid (pb_exact pb) -> draws <> [] ->
  exists ps, tune cpus gpus n_jobs e lhs1 o pb n stored draws = Ok ps /\
    (In ps (flat_map (fun t => match t with Complete _ ps => [ps] | Failed => [] end) stored) \/ exists s, in_search_space s /\ describes ps s).
Proof.
  intros cpus gpus n_jobs e lhs1 o pb n stored draws Hg Hj Hs Hd Hz Hn.
  destruct (tune_unfold cpus gpus n_jobs e lhs1 o pb n stored draws (conj Hg Hj) Hd) as (news & F & Et).
  destruct (news_in e lhs1 o pb n draws news F) as [N1 N2].
  assert (Ha : stored_ok (stored ++ news)) by (intros v qs Hin; apply in_app_or in Hin; destruct Hin as [Hin | Hin]; [exact (Hs v qs Hin) | apply (N1 v qs Hin)]).
  pose proof (best_of_spec (stored ++ news) None Ha ltac:(discriminate)) as B. unfold best_trial in Et. destruct (best_of (stored ++ news) None) as [[v qs]|].
  - cbn [bind snd] in Et. exists qs. split; [exact Et|]. destruct B as ([B1 | B1] & _); [discriminate|]. apply in_app_or in B1. destruct B1 as [B1 | B1].
    + left. apply in_flat_map. exists (Complete v qs). split; [exact B1 | now left].
    + right. destruct (N1 v qs B1) as (_ & d & D1 & _ & ->). exists (d_suggestion d). split; [apply (Hd d D1) | apply params_describe].
  - exfalso. destruct B as [_ B]. destruct draws as [|d ds]; [congruence|]. destruct (N2 d (or_introl eq_refl)) as (v & E & K).
    destruct (proj1 (value_kind e lhs1 o pb d n (Hd d (or_introl eq_refl))) Hz) as (r & E' & _). rewrite E in E'. injection E' as ->. destruct K as [K | K]; [discriminate|].
    apply (B (Fin r) (params (d_suggestion d))). apply in_or_app. now right.
Qed.
Lemma best_kept : forall l v ps, (forall v' ps', In (Complete v' ps') l -> less v' v = false) -> best_of l (Some (v, ps)) = Some (v, ps).
Proof.
  induction l as [|[v' ps'|] l IH]; intros v ps H; cbn; [reflexivity | |].
  - rewrite (H v' ps') by now left. apply IH. intros v'' ps'' K. apply (H v'' ps''). now right.
  - apply IH. intros v'' ps'' K. apply (H v'' ps''). now right.
Qed.
Lemma stale : forall cpus gpus n_jobs e lhs1 o pb n ps stored draws, (1 <= gpus)%nat -> (1 <= n_jobs \/ n_jobs = -1)%Z -> 
  (forall d, In d draws -> can_run e lhs1 o pb d) -> nonzero_on_grid (pb_exact pb) -> (forall v' ps', In (Complete v' ps') stored -> not_above (Fin 0) v') ->
  tune cpus gpus n_jobs e lhs1 o pb n (Complete (Fin 0) ps :: stored) draws = Ok ps.
Proof.
  intros cpus gpus n_jobs e lhs1 o pb n ps stored draws Hg Hj Hd Hz Hs.
  destruct (tune_unfold cpus gpus n_jobs e lhs1 o pb n (Complete (Fin 0) ps :: stored) draws (conj Hg Hj) Hd) as (news & F & ->).
  destruct (news_in e lhs1 o pb n draws news F) as [N1 _]. unfold best_trial. cbn [app best_of]. rewrite best_kept; [reflexivity|].
  intros v' ps' Hin. apply in_app_or in Hin. destruct Hin as [Hin | Hin].
  - pose proof (Hs v' ps' Hin) as K. destruct v'; cbn in K |- *; auto. destruct (Rlt_dec _ _); [lra | reflexivity].
  - destruct (N1 v' ps' Hin) as (_ & d & D1 & D2 & _). destruct (proj1 (value_kind e lhs1 o pb d n (Hd d D1)) Hz) as (r & E' & P). rewrite D2 in E'. injection E' as ->.
    cbn. destruct (Rlt_dec _ _); [lra | reflexivity].
Qed.
Lemma blind : forall cpus gpus n_jobs e lhs1 o pb n d draws, (1 <= gpus)%nat -> (1 <= n_jobs \/ n_jobs = -1)%Z ->
  (forall d', In d' (d :: draws) -> can_run e lhs1 o pb d') -> zero_on_grid (pb_exact pb) -> train_trial e lhs1 o pb n d <> Ok NaN ->
  exists ps, tune cpus gpus n_jobs e lhs1 o pb n [] (d :: draws) = Ok ps /\ describes ps (d_suggestion d).
Proof.
  intros cpus gpus n_jobs e lhs1 o pb n d draws Hg Hj Hd Hz Hn.
  destruct (tune_unfold cpus gpus n_jobs e lhs1 o pb n [] (d :: draws) (conj Hg Hj) Hd) as (news & F & ->).
  inversion F as [|? ? ? ts (v & E & ->) F' ]. subst. destruct (news_in e lhs1 o pb n draws ts F') as [N1 _].
  destruct (proj2 (value_kind e lhs1 o pb d n (Hd d (or_introl eq_refl))) Hz) as [K | K]; [congruence|]. rewrite K in E. injection E as <-.
  exists (params (d_suggestion d)). split; [|apply params_describe]. unfold best_trial. cbn [app best_of tell]. rewrite best_kept; [reflexivity|].
  intros v' ps' Hin. destruct (N1 v' ps' Hin) as (_ & d' & D1 & D2 & _). destruct (proj2 (value_kind e lhs1 o pb d' n (Hd d' (or_intror D1))) Hz) as [E | E]; rewrite D2 in E; injection E as ->; reflexivity.
Qed.
Lemma no_gpu : forall cpus n_jobs e lhs1 o pb n stored draws, 
  ((0 <= n_jobs)%Z -> tune cpus 0 n_jobs e lhs1 o pb n stored draws = Err ValueError) /\
  (draws <> [] -> tune cpus 0 (-1) e lhs1 o pb n stored draws = Err ZeroDivisionError).
Proof.
  intros. split; intros H; unfold tune.
  - rewrite jobs_none by exact H. reflexivity.
  - rewrite jobs_default. destruct draws; [congruence|]. reflexivity.
Qed.
Lemma nothing : forall cpus gpus n_jobs e lhs1 o pb n stored draws, (1 <= gpus)%nat -> (1 <= n_jobs \/ n_jobs = -1)%Z -> (forall v ps, ~ In (Complete v ps) stored) ->
  (forall d, In d draws -> train_trial e lhs1 o pb n d = Ok NaN) -> tune cpus gpus n_jobs e lhs1 o pb n stored draws = Err ValueError.
Proof.
  intros cpus gpus n_jobs e lhs1 o pb n stored draws Hg Hj Hs Hd. destruct (jobs_start cpus gpus n_jobs (conj Hg Hj)) as [k Ek].
  destruct (news_run e lhs1 o pb n gpus draws (length stored) Hg (fun d H => ex_intro _ NaN (Hd d H))) as [news En]. unfold tune. rewrite Ek. cbn [bind]. rewrite En. cbn [bind].
  destruct (news_in e lhs1 o pb n draws news (news_values e lhs1 o pb n _ _ _ _ En)) as [N1 _].
  assert (A : forall v ps, ~ In (Complete v ps) (stored ++ news)).
  { intros v ps Hin. apply in_app_or in Hin. destruct Hin as [Hin | Hin]; [exact (Hs v ps Hin)|]. destruct (N1 v ps Hin) as (N & d & D1 & D2 & _). rewrite (Hd d D1) in D2. congruence. }
  unfold best_trial. assert (B : best_of (stored ++ news) None = None); [|now rewrite B].
  clear -A. induction (stored ++ news) as [|[v ps|] l IH]; cbn; [reflexivity | exfalso; apply (A v ps); now left | apply IH; intros v ps H; apply (A v ps); now right].
Qed.
