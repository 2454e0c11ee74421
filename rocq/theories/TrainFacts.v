(* The training step (C30, C34, C35). *)
From Coq Require Import String ZArith List Arith Lia Bool Reals Lra.
From Verif Require Import Num Py PyFacts Basis Tensor Data Physics Train RCalc PolyFacts ListFacts Spec TensorFacts SpecTrain
  PhysicsFacts.
Import ListNotations.
Local Open Scope R_scope.

Lemma concat_singletons : forall {X Y} (f : X -> Y) l, concat (map (fun p => [f p]) l) = map f l.
Proof. induction l; simpl; congruence. Qed.

Lemma last_dim_shape : forall t C T Q, shape3 t C T Q -> (0 < C)%nat -> (0 < T)%nat -> last_dim t = Q.
Proof.
  intros t C T Q [L H] HC HT. destruct t as [|m t]; [simpl in L; lia|]. destruct (H m (or_introl eq_refl)) as [Lm Hm].
  destruct m as [|r m]; [simpl in Lm; lia|]. simpl. apply Hm. now left.
Qed.

Lemma predictions_ok : forall m C T Q U G, model_fits m C T Q -> m_cells m = C ->
  predictions m (map U (m_x m)) (map G (m_x m)) =
  Ok (at_points U (m_x m) C Q, at_points (fun p => fst (G p)) (m_x m) C Q, at_points (fun p => snd (G p)) (m_x m) C Q).
Proof.
  intros m C T Q U G Hm Hc. destruct Hm as [HV HGx HGy Hx HF HC HT HQ _ _]. unfold predictions.
  rewrite (last_dim_shape _ _ _ _ HV HC HT), (last_dim_shape _ _ _ _ HGx HC HT), (last_dim_shape _ _ _ _ HGy HC HT), Hc.
  rewrite !map_map. rewrite !reshape_ok by (rewrite map_length; auto). cbn [bind].
  assert (E : forall f : R * R -> R, mk C Q (fun i j => nth (i * Q + j) (map f (m_x m)) 0) = at_points f (m_x m) C Q).
  { intros f. apply mk_ext. intros i j Hi Hj. apply nth_map_lt. rewrite Hx. nia. }
  rewrite !E. reflexivity.
Qed.
Lemma predictions_err : forall m C T Q vals grads, model_fits m C T Q -> length vals = (C * Q)%nat -> length grads = (C * Q)%nat ->
  m_cells m <> C -> predictions m vals grads = Err InvalidArgumentError.
Proof.
  intros m C T Q vals grads Hm Lv Lg Hc. destruct Hm as [HV HGx HGy Hx HF HC HT HQ _ _]. unfold predictions.
  rewrite (last_dim_shape _ _ _ _ HGx HC HT). rewrite reshape_err; auto. rewrite map_length, Lg. nia.
Qed.

Lemma data_loss_ok : forall U pts vals, pts <> [] -> has_shape vals (length pts) 1 ->
  data_loss (map (fun p => [U p]) pts) vals = Ok [misfit U pts vals].
Proof.
  intros U pts vals Hp Hv. assert (0 < length pts)%nat by (destruct pts; simpl; [congruence | lia]).
  unfold data_loss. set (D := length pts) in *.
  assert (E : map (fun p => [U p]) pts = mk D 1 (fun i _ => U (nth i pts (0, 0)))).
  { unfold mk. rewrite (tab_of pts (0, 0)) at 1. rewrite tab_map. reflexivity. }
  rewrite E, (mk_of _ _ _ Hv), bc2_mk. cbn [bind]. rewrite msquare_mk, reduce_mean0_mk by auto. unfold tab. cbn [seq map].
  unfold misfit. fold D. apply (f_equal Ok). f_equal. f_equal. change Sum with rsum. apply rsum_ext. intros i Hi.
  rewrite mk_entry by (auto; lia). to_R. ring.
Qed.

Definition dict_arg (k : string) (d : pdict R) : list (string * pyval R) := [(k, VDict d)].

Lemma base_args : forall m u ux uy bp, base_kwargs m u ux uy bp =
  args (m_val m) (m_gx m) (m_gy m) u ux uy (m_force m) ++ [("bilinear_params"%string, VDict bp)].
Proof. reflexivity. Qed.

Section Steps.
Variables (m : model R) (nn : network R) (C T Q : nat) (beta : R) (bp : pdict R).
Hypothesis Hm : model_fits m C T Q.

Section One.
Variables (U : R * R -> R) (G : R * R -> R * R).
Hypothesis Hn : pointwise nn U G.
Let u := at_points U (m_x m) C Q.
Let ux := at_points (fun p => fst (G p)) (m_x m) C Q.
Let uy := at_points (fun p => snd (G p)) (m_x m) C Q.
Let kw := (args (m_val m) (m_gx m) (m_gy m) u ux uy (m_force m) ++ [("bilinear_params"%string, VDict bp)]).

Lemma standard_ok : m_cells m = C -> train_standard m nn beta bp =
  match call_kw (m_loss m) kw with
  | Err e => Err e
  | Ok cells => let pde := Sum (fun c => nth c cells 0) (length cells) in
      let bd := misfit U (m_dir_in m) (m_dir_act m) in
      Ok {| l_pde := pde; l_dirichlet := [bd]; l_sensor := []; l_total := [pde + beta * bd] |}
  end.
Proof.
  intros Hc. unfold train_standard. rewrite (proj1 (Hn (m_dir_in m))), (proj1 (Hn (m_x m))), (proj2 (Hn (m_x m))). cbn [bind].
  rewrite concat_singletons, (predictions_ok m C T Q) by auto. cbn [bind]. rewrite base_args. fold u ux uy. fold kw.
  destruct (call_kw (m_loss m) kw) as [cells|e]; [|reflexivity]. cbn [bind].
  rewrite data_loss_ok by apply Hm. cbn [bind map]. to_R. rewrite Rplus_0_l, vsum_rsum. reflexivity.
Qed.
Lemma hard_ok : m_cells m = C -> train_hard m nn beta bp =
  match call_kw (m_loss m) kw with
  | Err e => Err e
  | Ok cells => let pde := Sum (fun c => nth c cells 0) (length cells) in
      Ok {| l_pde := pde; l_dirichlet := [0]; l_sensor := []; l_total := [pde] |}
  end.
Proof.
  intros Hc. unfold train_hard. rewrite (proj1 (Hn (m_x m))), (proj2 (Hn (m_x m))). cbn [bind].
  rewrite concat_singletons, (predictions_ok m C T Q) by auto. cbn [bind]. rewrite base_args. fold u ux uy. fold kw.
  destruct (call_kw (m_loss m) kw) as [cells|e]; [|reflexivity]. cbn [bind].
  to_R. rewrite Rplus_0_l, vsum_rsum. reflexivity.
Qed.
Lemma inverse_ok : forall ip, sensors_fit m -> m_cells m = C -> train_inverse m nn beta bp ip =
  match call_kw (m_loss m) (kw ++ [("inverse_params_dict"%string, VDict ip)]) with
  | Err e => Err e
  | Ok cells => let pde := Sum (fun c => nth c cells 0) (length cells) in
      let bd := misfit U (m_dir_in m) (m_dir_act m) in
      let sd := misfit U (m_sensor_in m) (m_sensor_act m) in
      Ok {| l_pde := pde; l_dirichlet := [bd]; l_sensor := [sd]; l_total := [pde + beta * bd + 10 * sd] |}
  end.
Proof.
  intros ip [Hs1 Hs2] Hc. unfold train_inverse.
  rewrite (proj1 (Hn (m_dir_in m))), (proj1 (Hn (m_sensor_in m))), (proj1 (Hn (m_x m))), (proj2 (Hn (m_x m))). cbn [bind].
  rewrite concat_singletons, (predictions_ok m C T Q) by auto. cbn [bind]. rewrite base_args. fold u ux uy. fold kw.
  destruct (call_kw (m_loss m) _) as [cells|e]; [|reflexivity]. cbn [bind].
  rewrite data_loss_ok by apply Hm. cbn [bind]. rewrite data_loss_ok by auto. cbn [bind]. unfold inverse_total. cbn [map].
  to_R. rewrite Rplus_0_l, vsum_rsum. reflexivity.
Qed.

(* a wrong number of cells is refused *)
Lemma wrong_cells : m_cells m <> C ->
  train_standard m nn beta bp = Err InvalidArgumentError /\ train_hard m nn beta bp = Err InvalidArgumentError /\
  (forall ip, train_inverse m nn beta bp ip = Err InvalidArgumentError).
Proof.
  intros Hc. unfold train_standard, train_hard, train_inverse.
  rewrite (proj1 (Hn (m_dir_in m))), (proj1 (Hn (m_x m))), (proj2 (Hn (m_x m))), (proj1 (Hn (m_sensor_in m))). cbn [bind].
  rewrite concat_singletons, (predictions_err m C T Q) by (rewrite ?map_length; auto; apply Hm). auto.
Qed.
End One.

Section Two.
Variables (U E : R * R -> R) (G : R * R -> R * R).
Hypothesis Hn : pointwise2 nn U E G.
Let u := at_points U (m_x m) C Q.
Let e := at_points E (m_x m) C Q.
Let ux := at_points (fun p => fst (G p)) (m_x m) C Q.
Let uy := at_points (fun p => snd (G p)) (m_x m) C Q.
Let kw := (args (m_val m) (m_gx m) (m_gy m) u ux uy (m_force m) ++
  [("bilinear_params"%string, VDict bp); ("inverse_params_list"%string, VList [e])]).

Lemma column0 : forall b, column (map (fun p => [U p; E p]) b) 0 = Ok (map U b).
Proof. intros. unfold column. rewrite mapM_map. apply mapM_pure. Qed.
Lemma column1 : forall b, column (map (fun p => [U p; E p]) b) 1 = Ok (map E b).
Proof. intros. unfold column. rewrite mapM_map. apply mapM_pure. Qed.

Lemma domain_ok : sensors_fit m -> m_cells m = C -> train_inverse_domain m nn beta bp =
  match call_kw (m_loss m) kw with
  | Err e => Err e
  | Ok cells => let pde := Sum (fun c => nth c cells 0) (length cells) in
      let bd := misfit U (m_dir_in m) (m_dir_act m) in
      let sd := misfit U (m_sensor_in m) (m_sensor_act m) in
      Ok {| l_pde := pde; l_dirichlet := [bd]; l_sensor := [sd]; l_total := [pde + beta * bd + 10 * sd] |}
  end.
Proof.
  intros [Hs1 Hs2] Hc. unfold train_inverse_domain.
  rewrite (proj1 (Hn (m_dir_in m))), (proj1 (Hn (m_sensor_in m))), (proj1 (Hn (m_x m))), (proj2 (Hn (m_x m))). cbn [bind].
  rewrite !column0, column1. cbn [bind].
  rewrite (predictions_ok m C T Q) by auto. cbn [bind].
  pose proof Hm as [HV HGx HGy Hx HF HC HT HQ _ _].
  rewrite (last_dim_shape _ _ _ _ HV HC HT), Hc, reshape_ok by (rewrite map_length; auto). cbn [bind]. rewrite base_args.
  replace (mk C Q (fun i j => nth (i * Q + j) (map E (m_x m)) 0)) with e.
  2:{ apply mk_ext. intros i j Hi Hj. symmetry. apply (nth_map_lt E). rewrite Hx. nia. }
  fold u ux uy. rewrite <- app_assoc. cbn [app]. 
  match goal with |- bind (call_kw _ ?k) _ = _ => change k with kw end.
  destruct (call_kw (m_loss m) kw) as [cells|er]; [|reflexivity]. cbn [bind].
  unfold as_column. rewrite !map_map.
  rewrite data_loss_ok by apply Hm. cbn [bind]. rewrite data_loss_ok by auto. cbn [bind]. unfold inverse_total. cbn [map].
  to_R. rewrite Rplus_0_l, vsum_rsum. reflexivity.
Qed.
Lemma wrong_cells2 : m_cells m <> C -> train_inverse_domain m nn beta bp = Err InvalidArgumentError.
Proof.
  intros Hc. unfold train_inverse_domain.
  rewrite (proj1 (Hn (m_dir_in m))), (proj1 (Hn (m_sensor_in m))), (proj1 (Hn (m_x m))), (proj2 (Hn (m_x m))). cbn [bind].
  rewrite !column0, column1. cbn [bind].
  rewrite (predictions_err m C T Q) by (rewrite ?map_length; auto; apply Hm). auto.
Qed.
End Two.
End Steps.

Lemma at_points_fits : forall m C T Q U Ux Uy, model_fits m C T Q ->
  fits (m_val m) (m_gx m) (m_gy m) (at_points U (m_x m) C Q) (at_points Ux (m_x m) C Q) (at_points Uy (m_x m) C Q) (m_force m) C T Q.
Proof. intros m C T Q U Ux Uy H. destruct H. constructor; auto; apply mk_shape. Qed.

(* ---------- signs ---------- *)
Lemma misfit_nonneg : forall U pts vals, 0 <= misfit U pts vals.
Proof. intros. apply (mean_sq_nonneg (length pts) (fun i => U (nth i pts (0, 0)) - entry vals i 0)). Qed.
Lemma misfit_zero : forall U pts vals, pts <> [] ->
  (misfit U pts vals = 0 <-> forall i, (i < length pts)%nat -> U (nth i pts (0, 0)) = entry vals i 0).
Proof.
  intros U pts vals H. unfold misfit. fold (mean_sq (length pts) (fun i => U (nth i pts (0, 0)) - entry vals i 0)).
  rewrite mean_sq_zero by (destruct pts; simpl; [congruence | lia]).
  split; intros E i Hi; specialize (E i Hi); lra.
Qed.

Lemma mean_square_nonneg : forall (m : mat R) x, In x (mean_square m) -> 0 <= x.
Proof.
  intros m x H. unfold mean_square, reduce_mean0 in H. apply in_map_iff in H. destruct H as (col & <- & H).
  unfold transpose in H. apply in_map_iff in H. destruct H as (j & <- & _). unfold vmean. rewrite nofnat_R. to_R.
  set (col := map _ _). assert (0 <= vsum col).
  { apply vsum_nonneg. intros a Ha. unfold col in Ha. apply in_map_iff in Ha. destruct Ha as (row & <- & Hr).
    unfold msquare in Hr. apply in_map_iff in Hr. destruct Hr as (row0 & <- & _).
    destruct (Nat.lt_ge_cases j (length row0)).
    - rewrite nth_map_lt with (d' := 0) by auto. to_R. nra.
    - rewrite nth_overflow by (rewrite map_length; auto). to_R. lra. }
  destruct (length col) eqn:E.
  - destruct col; [|discriminate]. rewrite vsum_nil. unfold Rdiv. lra.
  - apply Rmult_le_pos; auto. apply Rlt_le, Rinv_0_lt_compat, lt_0_INR. lia.
Qed.

Ltac inv_bind :=
  repeat match goal with
  | H : Err _ = Ok _ |- _ => discriminate
  | H : bind ?r _ = Ok _ |- _ => let E := fresh "E" in destruct r eqn:E; cbn [bind] in H; [|discriminate]
  end.

Definition forward_losses : list (pyfun R) := [pde_loss_poisson; pde_loss_cd2d; pde_loss_helmholtz].
Definition shipped_losses : list (pyfun R) :=
  forward_losses ++ [pde_loss_poisson_inverse; pde_loss_cd2d_inverse; pde_loss_cd2d_inverse_domain].

Lemma shipped_nonneg : forall f kw l x, In f shipped_losses -> call_kw f kw = Ok l -> In x l -> 0 <= x.
Proof.
  intros f kw l x Hf Hl Hx. unfold call_kw in Hl. destruct (_ && _); [|discriminate].
  simpl in Hf.
  repeat match type of Hf with _ \/ _ => destruct Hf as [<- | Hf] end; [..|destruct Hf];
  cbn [pf_body pde_loss_poisson pde_loss_cd2d pde_loss_helmholtz pde_loss_poisson_inverse pde_loss_cd2d_inverse
    pde_loss_cd2d_inverse_domain forward_fun] in Hl; unfold with_base in Hl; inv_bind;
  unfold loss_poisson, loss_cd2d, loss_helmholtz, loss_poisson_inverse, loss_cd2d_inverse, loss_cd2d_inverse_domain, cd_tail in Hl;
  try (match type of Hl with match ?ls with _ => _ end = _ => destruct ls; [discriminate|] end);
  inv_bind; injection Hl as <-; eapply mean_square_nonneg; eauto.
Qed.

Lemma data_loss_nonneg : forall p a l x, data_loss p a = Ok l -> In x l -> (0 : R) <= x.
Proof.
  intros p a l x H Hx. unfold data_loss in H. inv_bind. injection H as <-. eapply mean_square_nonneg. exact Hx.
Qed.
Lemma vsum_cells_nonneg : forall f kw cells, In f shipped_losses -> call_kw f kw = Ok cells -> 0 <= (n0 + vsum cells)%num.
Proof.
  intros f kw cells Hf Hc. to_R. rewrite Rplus_0_l. apply vsum_nonneg. intros a Ha. eapply shipped_nonneg; eauto.
Qed.
Lemma bcastM_in : forall {X Y Z} (f : X -> Y -> Z) l m r z, bcastM (fun x y => Ok (f x y)) l m = Ok r -> In z r ->
  exists x y, In x l /\ In y m /\ z = f x y.
Proof.
  intros X Y Z f l m r z H Hz. unfold bcastM in H.
  assert (P : forall {U} (g : U -> Z) k, mapM (fun p => Ok (g p)) k = Ok r -> exists p, In p k /\ z = g p).
  { intros U0 g k E. rewrite mapM_pure in E. injection E as <-. apply in_map_iff in Hz. destruct Hz as (p & <- & Hp). eauto. }
  destruct (Nat.eqb (length l) (length m)).
  - apply (P _ (fun p => f (fst p) (snd p))) in H. destruct H as ((x, y) & Hp & ->).
    exists x, y. split; [eapply in_combine_l; eauto|]. split; [eapply in_combine_r; eauto | reflexivity].
  - destruct l as [|x [|x' l]]; destruct m as [|y [|y' m]]; try discriminate.
    all: try (apply (P _ (f x)) in H; destruct H as (p & Hp & ->); exists x, p; simpl; auto; fail).
    all: try (injection H as <-; destruct Hz; fail).
    apply (P _ (fun x0 => f x0 y)) in H. destruct H as (p & Hp & ->). exists p, y. simpl; auto.
Qed.

(* every reported loss is non-negative, whatever the tensors *)
Definition all_nonneg (L : losses R) : Prop :=
  0 <= l_pde L /\ (forall x, In x (l_dirichlet L) -> 0 <= x) /\ (forall x, In x (l_sensor L) -> 0 <= x) /\
  (forall x, In x (l_total L) -> l_pde L <= x).
Lemma step_nonneg : forall m nn beta bp L, In (m_loss m) shipped_losses -> 0 <= beta ->
  (train_standard m nn beta bp = Ok L -> all_nonneg L) /\
  (train_hard m nn beta bp = Ok L -> all_nonneg L) /\
  (forall ip, train_inverse m nn beta bp ip = Ok L -> all_nonneg L) /\
  (train_inverse_domain m nn beta bp = Ok L -> all_nonneg L).
Proof.
  intros m nn beta bp L Hf Hb.
  assert (Hbb : forall pde bl x, (forall b, In b bl -> 0 <= b) -> In x (map (fun b : R => (pde + beta * b)%num) bl) -> pde <= x).
  { intros pde bl x Hp Hx. apply in_map_iff in Hx. destruct Hx as (b & <- & Hbl). to_R. specialize (Hp b Hbl). nra. }
  assert (Hi : forall pde bl sl tot x, (forall b, In b bl -> 0 <= b) -> (forall b, In b sl -> 0 <= b) ->
     inverse_total pde beta bl sl = Ok tot -> In x tot -> pde <= x).
  { intros pde bl sl tot x H1 H2 Ht Hx. unfold inverse_total, bc1 in Ht. eapply bcastM_in in Ht; [|exact Hx].
    destruct Ht as (y & z & Hy & Hz & ->). apply Hbb in Hy; auto. apply in_map_iff in Hz. destruct Hz as (s & <- & Hs).
    specialize (H2 s Hs). to_R. lra. }
  split; [|split; [|split]].
  - intros H. unfold train_standard in H. inv_bind. destruct a1 as [[u ux] uy]. inv_bind. injection H as <-.
    assert (D : forall x, In x a2 -> 0 <= x) by (intros; eapply data_loss_nonneg; eauto). pose proof (vsum_cells_nonneg _ _ _ Hf E2).
    unfold all_nonneg; cbn [l_pde l_dirichlet l_sensor l_total]. refine (conj _ (conj _ (conj _ _))); auto; [intros x [] | intros; eapply Hbb; eauto].
  - intros H. unfold train_hard in H. inv_bind. destruct a0 as [[u ux] uy]. inv_bind. injection H as <-.
    pose proof (vsum_cells_nonneg _ _ _ Hf E1). unfold all_nonneg; cbn [l_pde l_dirichlet l_sensor l_total].
    split; [auto|]. split; [intros x [<- | []]; to_R; lra|]. split; [intros x []|]. intros x [<- | []]. lra.
  - intros ip H. unfold train_inverse in H. inv_bind. destruct a2 as [[u ux] uy]. inv_bind. injection H as <-.
    pose proof (vsum_cells_nonneg _ _ _ Hf E3). unfold all_nonneg; cbn [l_pde l_dirichlet l_sensor l_total].
    repeat match goal with E : data_loss _ _ = Ok ?l |- _ =>
      assert (forall x, In x l -> 0 <= x) by (intros; eapply data_loss_nonneg; [exact E | assumption]); clear E end.
    refine (conj _ (conj _ (conj _ _))); auto. intros y Hy.
    match goal with K : inverse_total _ _ _ _ = Ok _ |- _ => eapply Hi; [ | | exact K | exact Hy]; assumption end.
  - intros H. unfold train_inverse_domain in H. inv_bind. destruct a6 as [[u ux] uy]. inv_bind. injection H as <-.
    match goal with E : call_kw _ _ = Ok _ |- _ => pose proof (vsum_cells_nonneg _ _ _ Hf E) end.
    unfold all_nonneg; cbn [l_pde l_dirichlet l_sensor l_total].
    repeat match goal with E : data_loss _ _ = Ok ?l |- _ =>
      assert (forall x, In x l -> 0 <= x) by (intros; eapply data_loss_nonneg; [exact E | assumption]); clear E end.
    refine (conj _ (conj _ (conj _ _))); auto. intros y Hy.
    match goal with K : inverse_total _ _ _ _ = Ok _ |- _ => eapply Hi; [ | | exact K | exact Hy]; assumption end.
Qed.

(* ---------- zero loss ---------- *)
Lemma Sum_nonneg_zero : forall f n, (forall i, (i < n)%nat -> 0 <= f i) -> (Sum f n = 0 <-> forall i, (i < n)%nat -> f i = 0).
Proof.
  intros f n. induction n; simpl; intros Hp; [split; auto; intros; lia|].
  assert (0 <= Sum f n) by (apply rsum_nonneg; intros; apply Hp; lia). assert (0 <= f n) by (apply Hp; lia).
  split.
  - intros E. assert (Sum f n = 0) by lra. assert (f n = 0) by lra. pose proof (proj1 (IHn ltac:(intros; apply Hp; lia)) H1).
    intros i Hi. destruct (Nat.eq_dec i n); [subst; auto | auto with arith].
    match goal with K : forall i, _ -> _ = 0 |- _ => apply K; lia end.
  - intros E. rewrite (E n) by lia. rewrite (proj2 (IHn ltac:(intros; apply Hp; lia))); [lra|]. intros; apply E; lia.
Qed.

(* ---------- which loss can be called by which model (C34) ---------- *)
Section Accept.
Variables (m : model R) (nn : network R) (C T Q : nat) (beta : R).
Hypothesis Hm : model_fits m C T Q.
Hypothesis Hc : m_cells m = C.
Variables (U E : R * R -> R) (G : R * R -> R * R).

Lemma forward_accepted : forall d eps b_x b_y c k, pointwise nn U G ->
  has d "eps" eps -> has d "b_x" b_x -> has d "b_y" b_y -> has d "c" c -> has d "k" k -> In (m_loss m) forward_losses ->
  (exists L, train_standard m nn beta (Some d) = Ok L) /\ (exists L, train_hard m nn beta (Some d) = Ok L).
Proof.
  intros d eps b_x b_y c k Hn He Hx Hy Hcc Hk Hl.
  erewrite standard_ok, hard_ok by eauto. 
  set (u := at_points U (m_x m) C Q). set (ux := at_points (fun p => fst (G p)) (m_x m) C Q). set (uy := at_points (fun p => snd (G p)) (m_x m) C Q).
  assert (Hf : fits (m_val m) (m_gx m) (m_gy m) u ux uy (m_force m) C T Q) by now apply at_points_fits.
  assert (X : exists l, call_kw (m_loss m) (args (m_val m) (m_gx m) (m_gy m) u ux uy (m_force m) ++ bparams (Some d)) = Ok l).
  { destruct Hl as [<- | [<- | [<- | []]]].
    - destruct (poisson_spec _ _ _ _ _ _ _ _ _ _ Hf d eps He) as (l & El & _). eauto.
    - destruct (cd2d_spec _ _ _ _ _ _ _ _ _ _ Hf d eps b_x b_y c He Hx Hy Hcc) as (l & El & _). eauto.
    - destruct (helmholtz_spec _ _ _ _ _ _ _ _ _ _ Hf d eps k He Hk) as (l & El & _). eauto. }
  destruct X as [l X]. unfold bparams in X. rewrite X. eauto.
Qed.
Lemma inverse_accepted : forall bp ip eps, pointwise nn U G -> sensors_fit m -> has ip "eps" eps -> m_loss m = pde_loss_poisson_inverse ->
  exists L, train_inverse m nn beta bp (Some ip) = Ok L.
Proof.
  intros bp ip eps Hn Hs He Hl. erewrite inverse_ok by eauto.
  set (u := at_points U (m_x m) C Q). set (ux := at_points (fun p => fst (G p)) (m_x m) C Q). set (uy := at_points (fun p => snd (G p)) (m_x m) C Q).
  assert (Hf : fits (m_val m) (m_gx m) (m_gy m) u ux uy (m_force m) C T Q) by now apply at_points_fits.
  destruct (poisson_inverse_spec _ _ _ _ _ _ _ _ _ _ Hf bp ip eps He) as (l & El & _).
  unfold bparams, iparams in El. rewrite Hl, <- app_assoc. cbn [app] in *. rewrite El. eauto.
Qed.
Lemma domain_accepted : forall d b_x b_y c, pointwise2 nn U E G -> sensors_fit m ->
  has d "b_x" b_x -> has d "b_y" b_y -> has d "c" c -> m_loss m = pde_loss_cd2d_inverse_domain ->
  exists L, train_inverse_domain m nn beta (Some d) = Ok L.
Proof.
  intros d b_x b_y c Hn Hs Hx Hy Hcc Hl. erewrite domain_ok by eauto.
  set (u := at_points U (m_x m) C Q). set (ux := at_points (fun p => fst (G p)) (m_x m) C Q). set (uy := at_points (fun p => snd (G p)) (m_x m) C Q).
  assert (Hf : fits (m_val m) (m_gx m) (m_gy m) u ux uy (m_force m) C T Q) by now apply at_points_fits.
  destruct (domain_spec _ _ _ _ _ _ _ _ _ _ Hf d (at_points E (m_x m) C Q) b_x b_y c) as (l & El & _); auto.
  { apply mk_shape. }
  unfold bparams, plist in El. rewrite Hl.
  match goal with |- context [call_kw ?f ?k] => replace (call_kw f k) with (Ok l) by (symmetry; exact El) end. eauto.
Qed.
End Accept.

(* cd2d_inverse with the inverse model: never *)
Lemma cd2d_inverse_uncallable : forall (m : model R) nn beta bp ip L, m_loss m = pde_loss_cd2d_inverse -> train_inverse m nn beta bp ip <> Ok L.
Proof.
  intros m nn beta bp ip L Hl H. unfold train_inverse in H. inv_bind. destruct a2 as [[u ux] uy]. inv_bind.
  rewrite Hl in E3. discriminate E3.
Qed.
Lemma cd2d_inverse_type_error : forall m nn C T Q U G beta bp ip, model_fits m C T Q -> pointwise nn U G -> sensors_fit m ->
  m_cells m = C -> m_loss m = pde_loss_cd2d_inverse -> train_inverse m nn beta bp ip = Err TypeError.
Proof. intros. erewrite inverse_ok by eauto. rewrite H3. reflexivity. Qed.
(* every other wrong pairing is refused as well *)
Lemma wrong_pairing : forall m nn beta bp L,
  (In (m_loss m) [pde_loss_poisson_inverse; pde_loss_cd2d_inverse; pde_loss_cd2d_inverse_domain] ->
     train_standard m nn beta bp <> Ok L /\ train_hard m nn beta bp <> Ok L) /\
  (In (m_loss m) (forward_losses ++ [pde_loss_cd2d_inverse; pde_loss_cd2d_inverse_domain]) ->
     forall ip, train_inverse m nn beta bp ip <> Ok L) /\
  (In (m_loss m) (forward_losses ++ [pde_loss_poisson_inverse; pde_loss_cd2d_inverse]) ->
     train_inverse_domain m nn beta bp <> Ok L).
Proof.
  intros m nn beta bp L. split; [|split].
  - intros Hl. split; intros H.
    + unfold train_standard in H. inv_bind. destruct a1 as [[u ux] uy]. inv_bind. simpl in Hl.
      destruct Hl as [Hl | [Hl | [Hl | []]]]; rewrite <- Hl in E2; discriminate E2.
    + unfold train_hard in H. inv_bind. destruct a0 as [[u ux] uy]. inv_bind. simpl in Hl.
      destruct Hl as [Hl | [Hl | [Hl | []]]]; rewrite <- Hl in E1; discriminate E1.
  - intros Hl ip H. unfold train_inverse in H. inv_bind. destruct a2 as [[u ux] uy]. inv_bind. simpl in Hl.
    destruct Hl as [Hl | [Hl | [Hl | [Hl | [Hl | []]]]]]; rewrite <- Hl in E3; discriminate E3.
  - intros Hl H. unfold train_inverse_domain in H. inv_bind. destruct a6 as [[u ux] uy]. inv_bind. simpl in Hl.
    match goal with K : call_kw _ _ = Ok _ |- _ => destruct Hl as [Hl | [Hl | [Hl | [Hl | [Hl | []]]]]]; rewrite <- Hl in K; discriminate K end.
Qed.
(* ... by a TypeError, when the tensors fit *)
Lemma wrong_pairing_type : forall m nn C T Q beta bp, model_fits m C T Q -> m_cells m = C ->
  (forall U G, pointwise nn U G -> In (m_loss m) [pde_loss_poisson_inverse; pde_loss_cd2d_inverse; pde_loss_cd2d_inverse_domain] ->
     train_standard m nn beta bp = Err TypeError /\ train_hard m nn beta bp = Err TypeError) /\
  (forall U G ip, pointwise nn U G -> sensors_fit m -> In (m_loss m) (forward_losses ++ [pde_loss_cd2d_inverse; pde_loss_cd2d_inverse_domain]) ->
     train_inverse m nn beta bp ip = Err TypeError) /\
  (forall U E G, pointwise2 nn U E G -> sensors_fit m -> In (m_loss m) (forward_losses ++ [pde_loss_poisson_inverse; pde_loss_cd2d_inverse]) ->
     train_inverse_domain m nn beta bp = Err TypeError).
Proof.
  intros m nn C T Q beta bp Hm Hc. split; [|split].
  - intros U G Hp Hl. simpl in Hl. split; [erewrite standard_ok by eauto | erewrite hard_ok by eauto];
      destruct Hl as [Hl | [Hl | [Hl | []]]]; rewrite <- Hl; reflexivity.
  - intros U G ip Hp Hs Hl. simpl in Hl. erewrite inverse_ok by eauto. destruct Hl as [Hl | [Hl | [Hl | [Hl | [Hl | []]]]]]; rewrite <- Hl; reflexivity.
  - intros U E G Hp Hs Hl. simpl in Hl. erewrite domain_ok by eauto. destruct Hl as [Hl | [Hl | [Hl | [Hl | [Hl | []]]]]]; rewrite <- Hl; reflexivity.
Qed.

Lemma zero_total : forall U pts vals spts svals beta cells, 0 < beta -> pts <> [] -> spts <> [] ->
  (forall c, (c < length cells)%nat -> 0 <= nth c cells 0) ->
  let pde := Sum (fun c => nth c cells 0) (length cells) in
  let bd := misfit U pts vals in let sd := misfit U spts svals in
  let fits_bd := forall i, (i < length pts)%nat -> U (nth i pts (0, 0)) = entry vals i 0 in
  let fits_sd := forall i, (i < length spts)%nat -> U (nth i spts (0, 0)) = entry svals i 0 in
  let solved := forall c, (c < length cells)%nat -> nth c cells 0 = 0 in
  (pde + beta * bd = 0 <-> solved /\ fits_bd) /\ (pde + beta * bd + 10 * sd = 0 <-> solved /\ fits_bd /\ fits_sd) /\
  (pde = 0 <-> solved).
Proof.
  intros U pts vals spts svals beta cells Hb Hp Hsp Hc pde bd sd fits_bd fits_sd solved.
  assert (P : 0 <= pde) by (apply rsum_nonneg; auto).
  assert (B : 0 <= bd) by apply misfit_nonneg. assert (S : 0 <= sd) by apply misfit_nonneg.
  assert (ZP : pde = 0 <-> solved) by (apply Sum_nonneg_zero; auto).
  assert (ZB : bd = 0 <-> fits_bd) by (apply misfit_zero; auto).
  assert (ZS : sd = 0 <-> fits_sd) by (apply misfit_zero; auto).
  rewrite <- ZP, <- ZB, <- ZS. assert (0 <= beta * bd) by nra.
  split; [|split; [|tauto]].
  - split; [intros E; assert (pde = 0) by lra; split; [lra | nra] | intros [-> ->]; lra].
  - split; [intros E; assert (pde = 0) by lra; assert (sd = 0) by lra; repeat split; auto; nra | intros (-> & -> & ->); lra].
Qed.
