(* The scripts of examples/inverse_problems_2d. *)
From Coq Require Import String Ascii ZArith List Arith Lia Bool Reals Lra Sorted Permutation.
From Verif Require Import Num Py PyFacts Jacobi Quadrature Basis Transform Cell Space Tensor Data Physics Train Geometry Nets Metrics Problems Driver DriverInverse
  RCalc PolyFacts ListFacts Spec SpecGeom SpecTrain SpecMesh SpecWeak SpecDriver SpecDriverInverse QuadFacts CellFacts2 SpaceFacts SensorFacts TensorFacts PhysicsFacts DataFacts
  TrainFacts PipelineFacts MeshFacts FileFacts ExternalFacts NetFacts MetricFacts WeakFacts ShapeFacts DriverFacts.
Import ListNotations.
Local Open Scope R_scope.

(* ---------- the loop ---------- *)
Section HistFacts.
Context {E X : Type}.
Variables (step : nat -> result E) (rep : nat -> E -> files -> result (X * files)) (n upd : Z).
Notation dueb := (dueb n upd).
Inductive chain : list nat -> files -> list X -> files -> Prop :=
| ChainNil : forall fs, chain [] fs [] fs
| ChainCons : forall t ts fs s x fs1 xs fs2, step t = Ok s -> rep t s fs = Ok (x, fs1) -> chain ts fs1 xs fs2 -> chain (t :: ts) fs (x :: xs) fs2.
Lemma hist_inv : forall l h h', hist_loop step rep n upd h l = Ok h' -> (l <> [] -> upd <> 0%Z) /\
  exists ss xs, hy_steps h' = hy_steps h ++ ss /\ hy_reports h' = hy_reports h ++ xs /\ Forall2 (fun t s => step t = Ok s) l ss /\
    chain (filter dueb l) (hy_files h) xs (hy_files h').
Proof.
  induction l as [|t l IH]; intros h h' H; cbn [hist_loop] in H.
  - injection H as <-. split; [congruence|]. exists [], []. rewrite !app_nil_r. repeat split; constructor.
  - unfold hist_epoch in H. destruct (step t) as [s|] eqn:Es; [|discriminate]. cbn [bind] in H.
    unfold report_due in H. destruct (Z.eqb_spec upd 0) as [|Hu]; [discriminate|]. cbn [bind] in H. fold (dueb t) in H. split; [auto|]. cbn [filter].
    destruct (dueb t).
    + destruct (rep t s (hy_files h)) as [[x fs1]|] eqn:Er; [|discriminate]. cbn [bind fst snd] in H.
      apply IH in H. destruct H as (_ & ss & xs & E1 & E2 & F & C). cbn [hy_steps hy_reports hy_files] in E1, E2, C. rewrite <- app_assoc in E1, E2.
      exists (s :: ss), (x :: xs). refine (conj E1 (conj E2 (conj _ _))); econstructor; eauto.
    + cbn [bind] in H. apply IH in H. destruct H as (_ & ss & xs & E1 & E2 & F & C). cbn [hy_steps hy_reports hy_files] in E1, E2, C. rewrite <- app_assoc in E1.
      exists (s :: ss), xs. refine (conj E1 (conj E2 (conj _ C))). constructor; auto.
Qed.
Lemma chain_reports : forall ts fs xs fs', chain ts fs xs fs' -> Forall2 (fun t x => exists s f f1, step t = Ok s /\ rep t s f = Ok (x, f1)) ts xs.
Proof. induction 1; constructor; eauto 6. Qed.
Lemma epochs_inv : forall fs h, run_epochs step rep n upd fs = Ok h -> (forall d, length (hy_steps h) = Z.to_nat n /\
    forall t, (t < Z.to_nat n)%nat -> step t = Ok (nth t (hy_steps h) d)) /\ ((1 <= n)%Z -> upd <> 0%Z) /\
    chain (filter dueb (seq 0 (Z.to_nat n))) fs (hy_reports h) (hy_files h).
Proof.
  intros fs h H. unfold run_epochs in H. apply hist_inv in H. destruct H as (Hu & ss & xs & E1 & E2 & F & C).
  cbn [hy_steps hy_reports hy_files app] in E1, E2, C. split; [|split].
  - intros d. rewrite E1. destruct (Forall2_nth2 _ _ _ 0%nat d F) as [L P]. rewrite seq_length in L, P. split; [exact L|]. intros t Ht. specialize (P t Ht).
    now rewrite seq_nth in P by exact Ht.
  - intros H1. apply Hu. destruct (Z.to_nat n) eqn:Z0; [lia | discriminate].
  - rewrite E2. exact C.
Qed.
(* the reports: one for every due epoch, the last after the last epoch *)
Lemma chain_last : forall fs xs fs', chain (filter dueb (seq 0 (Z.to_nat n))) fs xs fs' -> (1 <= n)%Z -> upd <> 0%Z ->
  exists xs' x s f f1, xs = xs' ++ [x] /\ step (Z.to_nat n - 1)%nat = Ok s /\ rep (Z.to_nat n - 1)%nat s f = Ok (x, f1).
Proof.
  intros fs xs fs' C Hn Hu. apply chain_reports in C.
  assert (Es : seq 0 (Z.to_nat n) = seq 0 (Z.to_nat n - 1) ++ [(Z.to_nat n - 1)%nat]) by (replace (Z.to_nat n) with (S (Z.to_nat n - 1)) at 1 by lia; rewrite seq_S; reflexivity).
  rewrite Es, filter_app in C. cbn [filter] in C.
  assert (Dl : dueb (Z.to_nat n - 1) = true) by (apply dueb_spec; [exact Hu | right; lia]). rewrite Dl in C.
  apply Forall2_app_inv_l in C. destruct C as (xs' & l2 & _ & C & ->). inversion C as [|? x ? ? (s & f & f1 & A & B) Ht]; subst. inversion Ht; subst. exists xs', x, s, f, f1. auto.
Qed.
(* the loop comes to its end if every step and every report does *)
Lemma hist_runs : forall (Inv : files -> Prop) fs, upd <> 0%Z -> Inv fs -> (forall t, exists s, step t = Ok s) ->
  (forall t s f, step t = Ok s -> Inv f -> exists x f1, rep t s f = Ok (x, f1) /\ Inv f1) ->
  exists h, run_epochs step rep n upd fs = Ok h /\ Inv (hy_files h).
Proof.
  intros Inv fs Hu H0 Hs Hr. unfold run_epochs.
  assert (G : forall l h, Inv (hy_files h) -> exists h', hist_loop step rep n upd h l = Ok h' /\ Inv (hy_files h')).
  { induction l as [|t l IH]; intros h Hi; cbn [hist_loop]; [eauto|]. unfold hist_epoch. destruct (Hs t) as (s & Es). rewrite Es. cbn [bind].
    unfold report_due. destruct (Z.eqb_spec upd 0); [contradiction|]. cbn [bind]. destruct (orb _ _); [|cbn [bind]; apply IH, Hi].
    destruct (Hr t s (hy_files h) Es Hi) as (x & f1 & -> & Hi'). cbn [bind fst snd]. apply IH. exact Hi'. }
  apply G. exact H0.
Qed.
Lemma hist_empty : forall fs, (n <= 0)%Z -> run_epochs step rep n upd fs = Ok {| hy_steps := []; hy_reports := []; hy_files := fs |}.
Proof. intros fs H. unfold run_epochs. replace (Z.to_nat n) with 0%nat by lia. reflexivity. Qed.
End HistFacts.

(* the curves of values per report *)
Lemma curve_of : forall {E X} step (rep : nat -> E -> files -> result (X * files)) i fs xs fs' (f : X -> npfloat) (P : nat -> npfloat -> Prop),
  ((1 <= i_epochs i)%Z -> i_update i <> 0%Z) -> chain step rep (filter (dueb (i_epochs i) (i_update i)) (seq 0 (Z.to_nat (i_epochs i)))) fs xs fs' ->
  (forall t s fs x fs', rep t s fs = Ok (x, fs') -> P t (f x)) -> curve i (map f xs) P.
Proof.
  intros E X step rep i fs xs fs' f P Hu C HP. destruct (Z_lt_le_dec (i_epochs i) 1) as [Z0|Z1].
  - exists []. replace (Z.to_nat (i_epochs i)) with 0%nat in * by lia. cbn in C. inversion C; subst. refine (conj (SSorted_nil _) (conj _ (conj eq_refl _))).
    + intros t. split; [intros [] | intros [K _]; lia].
    + intros k K. cbn in K. lia.
  - specialize (Hu Z1). exists (filter (dueb (i_epochs i) (i_update i)) (seq 0 (Z.to_nat (i_epochs i)))). refine (conj (filter_sorted _ _ (seq_sorted _ _)) (conj _ _)).
    + intros t. rewrite filter_In, in_seq, dueb_spec by auto. intuition lia.
    + apply chain_reports in C. assert (F : Forall2 P (filter (dueb (i_epochs i) (i_update i)) (seq 0 (Z.to_nat (i_epochs i)))) (map f xs)).
      { clear -C HP. induction C as [|t x ts xs (s & f0 & f1 & A & B) F IH]; cbn [map]; constructor; eauto. }
      destruct (Forall2_nth2 _ _ _ 0%nat NaN F) as [L Q]. auto.
Qed.

(* ---------- files and plots ---------- *)
Lemma names_cols : forall fmt (names : list string) (cols : list (list R)), length names = length cols ->
  map (fun i => vtk_column fmt (nth i names EmptyString) (nth i cols [])) (seq 0 (length cols)) = map2 (data_array fmt) names cols.
Proof.
  intros fmt names. induction names as [|a names IH]; intros [|c cols] H; try discriminate; [reflexivity|].
  cbn [length seq map map2 nth]. rewrite vtk_column_eq. f_equal. rewrite <- seq_shift, map_map. cbn [nth]. apply IH. now injection H.
Qed.
Lemma column_back : forall (cols : list (list R)) len i, (i < length cols)%nat -> length (nth i cols []) = len ->
  map (fun row => nth i row 0) (map (fun k => map (fun c => nth k c 0) cols) (seq 0 len)) = nth i cols [].
Proof.
  intros cols len i Hi Hl. rewrite map_map. apply nth_ext with (d := 0) (d' := 0); [now rewrite map_length, seq_length|].
  intros k Hk. rewrite map_length, seq_length in Hk. rewrite nth_seq_map by exact Hk. rewrite Nat.add_0_l.
  exact (nth_map_lt (fun c : list R => nth k c 0) cols i 0 [] Hi).
Qed.
Section Columns.
Variables (fmt : R -> string) (g : geom R) (content : string).
Lemma write_columns_ok : forall cols path names fs, (forall c, In c cols -> length c = length (nth 0 cols [])) -> length names = length cols ->
  dget String.eqb fs (template_path g) = Ok content ->
  write_columns fmt g cols path names fs = Ok (dset String.eqb fs path (the_head content ++ catl (map2 (data_array fmt) names cols))%string).
Proof.
  intros cols path names fs Hc Hn Ht. unfold write_columns.
  assert (F : forallb (fun c => Nat.eqb (length c) (length (nth 0 cols []))) cols = true) by (apply forallb_forall; intros c H; apply Nat.eqb_eq; auto).
  rewrite F. cbn [negb]. unfold write_vtk. rewrite Ht, Hn, Nat.eqb_refl. cbn [negb bind]. do 4 f_equal. rewrite <- (names_cols fmt names cols Hn). apply map_ext_in. intros i Hi.
  apply in_seq in Hi. f_equal. apply column_back; [lia|]. apply Hc, nth_In. lia.
Qed.
Lemma write_columns_inv : forall cols path names fs fs', write_columns fmt g cols path names fs = Ok fs' -> forall c, In c cols -> length c = length (nth 0 cols []).
Proof.
  intros cols path names fs fs' H c Hc. unfold write_columns in H. destruct (forallb _ cols) eqn:F; [|discriminate]. rewrite forallb_forall in F. apply Nat.eqb_eq. auto.
Qed.
End Columns.
Lemma plot_all_inv : forall i pts zs, plot_all i pts zs = Ok tt -> zs <> [] -> length pts = (Z.to_nat (i_ntx i) * Z.to_nat (i_nty i))%nat /\ forall z, In z zs -> length z = length pts.
Proof.
  intros i pts. induction zs as [|z zs IH]; intros H Hne; [congruence|]. cbn [plot_all] in H.
  destruct (contour_args _ _ pts z) as [a|] eqn:Ec; [|discriminate]. cbn [bind] in H. destruct (plot_contour a); [|discriminate]. cbn [bind] in H.
  apply contour_inv in Ec. split; [apply Ec|]. intros z' [<- | Hz]; [apply Ec|]. destruct zs; [destruct Hz|]. apply (IH H ltac:(discriminate)). exact Hz.
Qed.
Lemma plot_all_ok : forall i, (2 <= i_ntx i)%Z /\ (2 <= i_nty i)%Z -> forall pts zs, length pts = (Z.to_nat (i_ntx i) * Z.to_nat (i_nty i))%nat -> (forall z, In z zs -> length z = length pts) ->
  plot_all i pts zs = Ok tt.
Proof.
  intros i Ht pts. induction zs as [|z zs IH]; intros L H; [reflexivity|]. cbn [plot_all].
  destruct (contour_plots i Ht pts z L (H z ltac:(now left))) as (a & -> & Ea). cbn [bind]. rewrite Ea. cbn [bind]. apply IH; auto. intros z' Hz. apply H. now right.
Qed.
Lemma stored_of : forall i l m, i_method i = "internal"%string \/ i_method i = "external"%string -> saved_table i l = Ok m -> stored i m l.
Proof.
  intros i l m Hm H. unfold saved_table in H. split; intros E; rewrite E in H; cbn in H.
  - intros nx ny. unfold np_reshape in H. destruct (Nat.eqb_spec (Z.to_nat (i_ntx i) * Z.to_nat (i_nty i)) (length l)) as [L|]; [|discriminate]. injection H as <-.
    refine (conj (chunks_shape _ _ _ L) (conj (eq_sym L) _)). intros a b Ha Hb. unfold entry. now apply chunks_row.
  - now injection H as <-.
Qed.
Lemma sub_gap : forall u v d, length u = length v -> np_subtract u v = Ok d -> np_abs d = gap u v.
Proof.
  intros u v d L H. unfold np_subtract in H. rewrite L, Nat.eqb_refl in H. injection H as <-. unfold gap.
  clear L. revert v. induction u as [|x l IH]; intros [|y p]; cbn; auto. f_equal. apply IH.
Qed.
Lemma sub_ok : forall u v, length u = length v -> exists d, np_subtract u v = Ok d /\ np_abs d = gap u v.
Proof.
  intros u v L. exists (map2 Rminus u v). assert (E : np_subtract u v = Ok (map2 Rminus u v)) by (unfold np_subtract; now rewrite L, Nat.eqb_refl).
  split; [exact E|]. now apply sub_gap.
Qed.
Lemma gap_length : forall u v, length u = length v -> length (gap u v) = length u.
Proof. intros u v L. unfold gap. rewrite map2_length. lia. Qed.
Lemma errors_ok : forall u v : list R, u <> [] -> length v = length u -> exists errs, compute_errors_combined (arr u) (arr v) = Ok errs.
Proof.
  intros u v Hu L. assert (Cm : comparable (arr u) (arr v)) by (split; cbn; auto).
  rewrite combined_eq, (l2_eq _ _ Cm), (linf_eq _ _ Cm), (l1_eq _ _ Cm). destruct (relative_eq _ _ Cm) as (R1 & R2 & R3). rewrite R1, R2, R3. cbn [bind]. eauto.
Qed.
Lemma params_of_eq : forall pb, params_of pb = Some (pb_params pb).
Proof. intros pb. unfold params_of, params_as_tensors. f_equal. rewrite <- (map_id (pb_params pb)) at 2. apply map_ext. now intros []. Qed.

(* ---------- the mesh ---------- *)
Lemma geometry_fields : forall i (g : geom R), make_geometry (i_mesh_type i) (i_method i) (i_ntx i) (i_nty i) (i_output_path i) false = Ok g ->
  g = {| g_method := i_method i; g_ntx := i_ntx i; g_nty := i_nty i; g_folder := i_output_path i; g_optimized := false; g_limits := None; g_file := None |} /\
  (i_method i = "internal"%string \/ i_method i = "external"%string).
Proof.
  intros i g Eg. unfold make_geometry in Eg. destruct (String.eqb_spec (i_method i) "internal") as [M1|M1]; cbn [orb negb] in Eg.
  - destruct (negb _); [discriminate|]. injection Eg as <-. auto.
  - destruct (String.eqb_spec (i_method i) "external") as [M2|M2]; cbn [negb] in Eg; [|discriminate]. destruct (negb _); [discriminate|]. injection Eg as <-. auto.
Qed.
Lemma mesh_inv : forall e lhs1 lhs2 file template i fs cells bd mp g fs', make_mesh e lhs1 lhs2 file template i fs = Ok (cells, bd, mp, g, fs') ->
  fs' = dset String.eqb fs (template_path g) template /\ g_folder g = i_output_path i /\ g_method g = i_method i /\ g_ntx g = i_ntx i /\ g_nty g = i_nty i /\
  ((i_method i = "internal"%string /\ g_limits g = Some (i_xlim i, i_ylim i) /\ exists mo, mp = mo_points mo /\ generate_quad_mesh_internal e lhs1 (i_xlim i) (i_ylim i) (i_ncx i) (i_ncy i) (i_nb i) = Ok (cells, mo, bd)) \/
   (i_method i = "external"%string /\ exists raw, bd = boundary_xy raw /\ read_mesh e lhs2 file (i_mesh_file i) (i_level i) (i_sampling i) 0 = Ok (cells, raw))).
Proof.
  intros e lhs1 lhs2 file template i fs cells bd mp g fs' H. unfold make_mesh in H.
  destruct (check_dtype (i_dtype i)); [|discriminate]. cbn [bind] in H.
  destruct (make_geometry (i_mesh_type i) (i_method i) (i_ntx i) (i_nty i) (i_output_path i) false) as [g0|] eqn:Eg; [|discriminate]. cbn [bind] in H.
  apply geometry_fields in Eg. destruct Eg as [-> M].
  destruct M as [M|M]; rewrite M in *; cbn [String.eqb Ascii.eqb Bool.eqb] in H.
  - unfold call_internal in H. destruct (generate_quad_mesh_internal e lhs1 (i_xlim i) (i_ylim i) (i_ncx i) (i_ncy i) (i_nb i)) as [[[cells' mo] bd']|] eqn:Em; [|discriminate].
    cbn [g_optimized] in H. unfold set_limits in H. cbn [g_method g_ntx g_nty g_folder g_optimized g_file] in H.
    unfold generate_vtk_for_test in H. cbn [g_method g_limits String.eqb Ascii.eqb Bool.eqb bind] in H. injection H as <- <- <- <- <-.
    cbn [g_folder g_method g_ntx g_nty g_limits]. refine (conj eq_refl (conj eq_refl (conj eq_refl (conj eq_refl (conj eq_refl _))))). left. refine (conj eq_refl (conj eq_refl _)). eauto.
  - unfold call_read in H. destruct (read_mesh e lhs2 file (i_mesh_file i) (i_level i) (i_sampling i) 0) as [[cells' raw]|] eqn:Em; [|discriminate].
    unfold set_file in H. cbn [g_method g_ntx g_nty g_folder g_optimized g_limits] in H.
    unfold generate_vtk_for_test in H. cbn [g_method g_file String.eqb Ascii.eqb Bool.eqb bind fst snd] in H. injection H as <- <- <- <- <-.
    cbn [g_folder g_method g_ntx g_nty]. refine (conj eq_refl (conj eq_refl (conj eq_refl (conj eq_refl (conj eq_refl _))))). right. refine (conj eq_refl _). eauto.
Qed.
Lemma build_inv : forall o pb k loss i cells bd sensors m, build_inverse o pb k loss i cells bd sensors = Ok m ->
  exists sd, sensors = Ok sd /\ m_sensor_in m = fst sd /\ m_sensor_act m = snd sd.
Proof.
  intros o pb k loss i cells bd sensors m H. unfold build_inverse in H. destruct (make_space _ _ _ _ _ _) as [sp|]; [|discriminate]. cbn [bind] in H.
  destruct (make_handler _ _ _) as [h|]; [|discriminate]. cbn [bind] in H. destruct (get_dirichlet_input _ _) as [dir|]; [|discriminate]. cbn [bind] in H.
  destruct sensors as [sd|]; [|discriminate]. cbn [bind] in H. destruct (construct _ _ _ _ _ _) as [c|]; [|discriminate]. cbn [bind] in H. injection H as <-.
  exists sd. auto.
Qed.

(* ---------- the constant-parameter script ---------- *)
Lemma const_external : forall e lhs1 lhs2 lhs o file template vtk fmt times pb i sensors weights params fs, i_method i = "external"%string ->
  forall r, run_const e lhs1 lhs2 lhs o file template vtk fmt times pb i sensors weights params fs <> Ok r.
Proof.
  intros e lhs1 lhs2 lhs o file template vtk fmt times pb i sensors weights params fs Hm r H. unfold run_const in H.
  destruct (make_mesh _ _ _ _ _ _ _) as [[[[[cells bd] mp] g] fs']|]; [|discriminate]. cbn [bind] in H.
  destruct (build_inverse _ _ _ _ _ _ _ _) as [m|] eqn:Eb; [|discriminate]. apply build_inv in Eb. destruct Eb as (sd & Es & _).
  unfold const_sensors, handler_sensor_data in Es. rewrite Hm in Es. discriminate.
Qed.
Lemma predict_inv : forall weights pts t pred, predict_all weights pts t = Ok pred -> length pred = length pts -> answers1 weights pts t pred.
Proof.
  intros weights pts t pred H L. split; [exact L|]. unfold predict_all in H. destruct (nn_out _ pts) as [y|]; [|discriminate]. cbn [bind] in H. injection H as <-. eauto.
Qed.
Lemma const_reports_ok : forall e lhs1 lhs2 lhs o file template vtk fmt times pb i sensors weights params fs r,
  run_const e lhs1 lhs2 lhs o file template vtk fmt times pb i sensors weights params fs = Ok r ->
  i_method i = "internal"%string /\ exists cells mo bd m V, generate_quad_mesh_internal e lhs1 (i_xlim i) (i_ylim i) (i_ncx i) (i_ncy i) (i_nb i) = Ok (cells, mo, bd) /\
    get_sensor_data (mo_points mo) lhs (pb_exact pb) sensors = Ok (m_sensor_in m, V) /\ m_sensor_act m = map (fun v => [v]) V /\
    build_inverse o pb Inverse pde_loss_poisson_inverse i cells bd (Ok (m_sensor_in m, m_sensor_act m)) = Ok m /\ const_reports pb i weights params m r /\
    length (c_points r) = (Z.to_nat (i_ntx i) * Z.to_nat (i_nty i))%nat /\
    (forall j k, (j < Z.to_nat (i_ntx i))%nat -> (k < Z.to_nat (i_nty i))%nat ->
       nth (k * Z.to_nat (i_ntx i) + j) (c_points r) (0, 0) =
       (grid_coord (fst (i_xlim i)) (snd (i_xlim i)) (Z.to_nat (i_ntx i)) j, grid_coord (fst (i_ylim i)) (snd (i_ylim i)) (Z.to_nat (i_nty i)) k)) /\
    c_files r = dset String.eqb fs (i_output_path i ++ "/internal.vtk")%string template.
Proof.
  intros e lhs1 lhs2 lhs o file template vtk fmt times pb i sensors weights params fs r H0. pose proof H0 as H. unfold run_const in H.
  destruct (make_mesh _ _ _ _ _ _ _) as [[[[[cells bd] mp] g] fs']|] eqn:Em; [|discriminate]. cbn [bind] in H.
  apply mesh_inv in Em. destruct Em as (-> & G1 & G2 & G3 & G4 & [(M & G5 & mo & -> & Em) | (M & _)]).
  2:{ exfalso. exact (const_external _ _ _ _ _ _ _ _ _ _ _ _ _ _ _ _ M _ H0). }
  split; [exact M|]. rewrite M in H. cbn [String.eqb Ascii.eqb Bool.eqb] in H.
  destruct (build_inverse _ _ _ _ _ _ _ _) as [m|] eqn:Eb; [|discriminate]. cbn [bind] in H.
  destruct (get_test_points g vtk) as [pts|] eqn:Ep; [|discriminate]. cbn [bind] in H.
  set (exact := at_all (pb_exact pb) pts) in *. assert (Le : length exact = length pts) by apply map_length.
  destruct (plot_all i pts [exact]) as [[]|] eqn:Epl; [|discriminate]. cbn [bind] in H. apply plot_all_inv in Epl; [|discriminate]. destruct Epl as [Lp _].
  destruct (run_epochs _ _ _ _ _) as [h|] eqn:Eh; [|discriminate]. cbn [bind] in H.
  destruct (predict_all weights pts (Z.to_nat (i_epochs i))) as [pred|] eqn:Epr; [|discriminate]. cbn [bind] in H.
  destruct (compute_errors_combined (arr exact) (arr pred)) as [errs|] eqn:Ee; [|discriminate]. cbn [bind] in H.
  destruct (np_subtract exact pred) as [d|] eqn:Ed; [|discriminate]. cbn [bind] in H.
  unfold show_const at 1 in H. rewrite M in H. cbn [String.eqb Ascii.eqb Bool.eqb] in H.
  destruct (plot_all i pts [pred; np_abs d]) as [[]|] eqn:Epl; [|discriminate]. cbn [bind] in H. apply plot_all_inv in Epl; [|discriminate]. destruct Epl as [_ Lz].
  assert (Lpr : length pred = length pts) by (apply Lz; now left).
  destruct times as [[]|]; [|discriminate]. cbn [bind] in H.
  destruct (saved_table i pred) as [sp|] eqn:Sp; [|discriminate]. cbn [bind] in H.
  destruct (saved_table i (np_abs d)) as [se|] eqn:Se; [|discriminate]. cbn [bind] in H. injection H as <-.
  pose proof (build_inv _ _ _ _ _ _ _ _ _ Eb) as ([P Vm] & Es & S1 & S2). cbn [fst snd] in S1, S2.
  pose proof Es as Es'. unfold const_sensors, handler_sensor_data in Es. rewrite M in Es. cbn [String.eqb Ascii.eqb Bool.eqb] in Es.
  destruct (get_sensor_data (mo_points mo) lhs (pb_exact pb) sensors) as [[P' V]|] eqn:Eg; [|discriminate]. cbn [bind fst snd] in Es. injection Es as <- <-.
  exists cells, mo, bd, m, V. rewrite S1. refine (conj Em (conj Eg (conj S2 (conj _ _)))).
  { rewrite S2. rewrite Es' in Eb. exact Eb. }
  cbn [c_points c_files]. pose proof (sub_gap _ _ _ (eq_trans Le (eq_sym Lpr)) Ed) as Eg'.
  destruct (epochs_inv _ _ _ _ _ _ Eh) as (HS & Hu & C).
  assert (Rep : forall t s f x f1, const_due fmt g i weights pts exact t s f = Ok (x, f1) -> f1 = f /\ exists pred, answers1 weights pts (S t) pred /\ compute_l1_error (arr exact) (arr pred) = Ok x).
  { clear -M. intros t s f x f1 H. unfold const_due in H. destruct (predict_all weights pts (S t)) as [pred|] eqn:Epr; [|discriminate]. cbn [bind] in H.
    destruct (compute_errors_combined _ _) as [errs|] eqn:Ee; [|discriminate]. cbn [bind] in H.
    destruct (as_float _); [|discriminate]. destruct (as_float _); [|discriminate]. destruct (as_float _); [|discriminate]. cbn [bind] in H.
    destruct errs as [[[[[q1 q2] q3] q4] q5] q6]. destruct (np_subtract exact pred) as [dd|] eqn:Ed; [|discriminate]. cbn [bind] in H.
    unfold show_const in H. rewrite M in H. cbn [String.eqb Ascii.eqb Bool.eqb] in H.
    destruct (plot_all _ _ _) as [[]|] eqn:Ep; [|discriminate]. cbn [bind] in H. injection H as <- <-. split; [reflexivity|].
    apply plot_all_inv in Ep; [|discriminate]. exists pred. split; [apply predict_inv; auto; apply Ep; now left|]. now apply combined_l1 in Ee. }
  split; [|split; [exact Lp|split]].
  - constructor; cbn [c_loss c_params c_test c_errors c_pred c_exact c_error c_saved c_points]; auto.
    + rewrite map_length. apply (HS ({| l_pde := 0; l_dirichlet := []; l_sensor := []; l_total := [] |}, 0)).
    + intros t Ht. destruct (HS ({| l_pde := 0; l_dirichlet := []; l_sensor := []; l_total := [] |}, 0)) as [L Q]. specialize (Q t Ht). unfold const_step in Q. rewrite params_of_eq in Q.
      destruct (train_inverse _ _ _ _ _) as [Lo|] eqn:Et; [|discriminate]. cbn [bind] in Q. destruct (dget _ _ _) as [v|]; [|discriminate]. cbn [bind] in Q. injection Q as Q.
      exists Lo. split; [reflexivity|]. erewrite (nth_map_lt _ _ t _ _) by (rewrite L; exact Ht). rewrite <- Q. reflexivity.
    + split; [rewrite map_length; apply (HS ({| l_pde := 0; l_dirichlet := []; l_sensor := []; l_total := [] |}, 0))|].
      intros t Ht. destruct (HS ({| l_pde := 0; l_dirichlet := []; l_sensor := []; l_total := [] |}, 0)) as [L Q]. specialize (Q t Ht). unfold const_step in Q.
      destruct (train_inverse _ _ _ _ _) as [Lo|] eqn:Et; [|discriminate]. cbn [bind] in Q. destruct (dget _ _ _) as [v|] eqn:Ev; [|discriminate]. cbn [bind] in Q. injection Q as Q.
      unfold has. rewrite Ev. f_equal. erewrite (nth_map_lt _ _ t _ _) by (rewrite L; exact Ht). rewrite <- Q. reflexivity.
    + exists pred. split; [now apply predict_inv|]. split; [apply stored_of; auto|]. split; [|exact Ee]. rewrite <- Eg'. apply stored_of; auto.
    + rewrite <- (map_id (hy_reports h)). eapply curve_of; [exact Hu | exact C|]. intros t s f x f1 K. now apply Rep in K.
  - intros j k Hj Hk. destruct (test_points_internal g vtk (i_xlim i) (i_ylim i)) as (pts' & Ep' & _ & Q); try congruence; try lia.
    rewrite Ep in Ep'. injection Ep' as <-. rewrite G3, G4 in Q. now apply Q.
  - assert (K : forall ts f xs f', chain (const_step pb i m weights params) (const_due fmt g i weights pts exact) ts f xs f' -> f' = f).
    { induction 1 as [|? ? ? ? ? ? ? ? ? B ? IH]; [reflexivity|]. apply Rep in B. destruct B as [-> _]. exact IH. }
    rewrite (K _ _ _ _ C). f_equal. unfold template_path. rewrite G1, G2, M. reflexivity.
Qed.

(* ---------- the domain scripts ---------- *)
Lemma column_nth : forall (y : mat R) j v, column y j = Ok v -> length v = length y /\ forall k, (k < length y)%nat -> nth_error (nth k y []) j = Some (nth k v 0).
Proof.
  intros y j v H. unfold column in H. split; [now apply mapM_length in H|]. intros k Hk.
  pose proof (mapM_nth _ _ _ k [] 0 H Hk) as E. cbv beta in E. destruct (nth_error (nth k y []) j); [|discriminate]. now injection E as <-.
Qed.
(* what one report of a domain script contains *)
Definition domain_content (weights : nat -> net) (pts : list (R * R)) (exact eps : list R) (t : nat) (x : domain_state) : Prop :=
  answers2 weights pts (S t) (dr_pred x) (dr_inv x) /\ length exact = length pts /\ compute_errors_combined (arr exact) (arr (dr_pred x)) = Ok (dr_errors x) /\
  compute_errors_combined (arr eps) (arr (dr_inv x)) = Ok (dr_inverse x) /\ dr_error x = gap exact (dr_pred x) /\ dr_inverror x = gap eps (dr_inv x).
Lemma due_inv : forall fmt g i weights pts exact eps t L f x f1, i_method i = "internal"%string \/ i_method i = "external"%string ->
  length eps = length pts -> (i_method i = "internal"%string -> length exact = length pts) ->
  domain_due fmt g i weights pts exact eps t L f = Ok (x, f1) -> domain_content weights pts exact eps t x /\
  (i_method i = "internal"%string -> f1 = f) /\
  (i_method i = "external"%string -> forall content, dget String.eqb f (template_path g) = Ok content ->
     f1 = dset String.eqb f (vtk_path i t) (domain_text fmt (the_head content) exact eps (dr_pred x) (dr_inv x))).
Proof.
  intros fmt g i weights pts exact eps t L f x f1 M Lep Lex H. unfold domain_due in H.
  destruct (nn_out _ pts) as [y|] eqn:Ey; [|discriminate]. cbn [bind] in H.
  destruct (column y 0) as [pred|] eqn:E0; [|discriminate]. cbn [bind] in H. destruct (column y 1) as [inv|] eqn:E1; [|discriminate]. cbn [bind] in H.
  destruct (compute_errors_combined (arr exact) (arr pred)) as [errs|] eqn:Ee; [|discriminate]. cbn [bind] in H.
  destruct (compute_errors_combined (arr eps) (arr inv)) as [ierrs|] eqn:Ei; [|discriminate]. cbn [bind] in H.
  destruct (as_float _); [|discriminate]. destruct (as_float _); [|discriminate]. destruct (as_float _); [|discriminate]. cbn [bind] in H.
  destruct (np_subtract exact pred) as [d|] eqn:Ed; [|discriminate]. cbn [bind] in H. destruct (np_subtract eps inv) as [di|] eqn:Edi; [|discriminate]. cbn [bind] in H.
  destruct (column_nth _ _ _ E0) as [L0 N0]. destruct (column_nth _ _ _ E1) as [L1 N1].
  assert (G : length pred = length pts -> length exact = length pts ->
    domain_content weights pts exact eps t {| dr_errors := errs; dr_inverse := ierrs; dr_pred := pred; dr_inv := inv; dr_error := np_abs d; dr_inverror := np_abs di |}).
  { intros Lpr Lx. assert (Ly : length y = length pts) by congruence. rewrite Ly in N0, N1. assert (Li : length inv = length pts) by congruence. unfold domain_content. cbn [dr_pred dr_inv dr_error dr_inverror dr_errors dr_inverse].
    refine (conj _ (conj Lx (conj Ee (conj Ei (conj _ _))))); [|exact (sub_gap _ _ _ (eq_trans Lx (eq_sym Lpr)) Ed)|exact (sub_gap _ _ _ (eq_trans Lep (eq_sym Li)) Edi)].
    refine (conj Lpr (conj Li _)). exists y. refine (conj Ey (conj Ly _)). intros k Hk. auto. }
  destruct M as [M|M]; rewrite M in *; cbn [String.eqb Ascii.eqb Bool.eqb] in H.
  - destruct (plot_all _ _ _) as [[]|] eqn:Ep; [|discriminate]. cbn [bind] in H. injection H as <- <-. apply plot_all_inv in Ep; [|discriminate].
    split; [apply G; [apply Ep; now left | auto]|]. split; [auto | discriminate].
  - destruct (write_columns _ _ _ _ _ _) as [fs'|] eqn:Ew; [|discriminate]. cbn [bind] in H. injection H as <- <-.
    pose proof (write_columns_inv _ _ _ _ _ _ _ Ew) as Q. cbn [nth] in Q.
    pose proof (Q exact ltac:(simpl; tauto)) as Q1. pose proof (Q inv ltac:(simpl; tauto)) as Q2. pose proof (Q eps ltac:(simpl; tauto)) as Q3.
    assert (Lpr : length pred = length pts) by congruence. assert (Lx : length exact = length pts) by congruence.
    split; [now apply G|]. split; [discriminate|]. intros _ content Hc. rewrite (write_columns_ok fmt g content) in Ew; auto. injection Ew as <-.
    cbn [dr_pred dr_inv]. f_equal. unfold domain_text. f_equal. rewrite (sub_gap exact pred d ltac:(congruence) Ed), (sub_gap eps inv di ltac:(congruence) Edi).
    unfold vtk_names6, catl. cbn [map2 fold_right]. now rewrite append_nil_r.
Qed.
Lemma domain_chain_files : forall fmt g i weights pts exact eps step ts f xs f' content, i_method i = "external"%string -> g_folder g = i_output_path i ->
  length eps = length pts -> chain step (domain_due fmt g i weights pts exact eps) ts f xs f' -> NoDup ts -> dget String.eqb f (template_path g) = Ok content ->
  dget String.eqb f' (template_path g) = Ok content /\
  (forall t, In t ts -> exists pred inv, answers2 weights pts (S t) pred inv /\ dget String.eqb f' (vtk_path i t) = Ok (domain_text fmt (the_head content) exact eps pred inv)) /\
  (forall q, (forall t, In t ts -> q <> vtk_path i t) -> dget String.eqb f' q = dget String.eqb f q).
Proof.
  intros fmt g i weights pts exact eps step ts f xs f' content M Hf Le C. induction C as [f | t ts f s x f1 xs f2 Es Er C IH]; intros Nd Hc.
  - split; [exact Hc|]. split; [intros t [] | auto].
  - inversion Nd as [|? ? Nt Nd']; subst. apply due_inv in Er; auto; [|rewrite M; discriminate]. destruct Er as (D & _ & F). specialize (F M content Hc). subst f1.
    destruct IH as (A & B & Cq); [auto | |].
    { rewrite dget_set. destruct (String.eqb_spec (template_path g) (vtk_path i t)) as [K|_]; [now apply path_template in K | exact Hc]. }
    split; [exact A|]. split.
    + intros t' [<- | Ht]; [|auto]. exists (dr_pred x), (dr_inv x). split; [apply D|]. rewrite Cq.
      * now rewrite dget_set, String.eqb_refl.
      * intros t' Ht' K. apply path_inj in K. now subst t'.
    + intros q Hq. rewrite Cq by (intros t' Ht'; apply Hq; now right). rewrite dget_set.
      destruct (String.eqb_spec q (vtk_path i t)) as [K|_]; [|reflexivity]. exfalso. now apply (Hq t (or_introl eq_refl)).
Qed.
Lemma actual_inv : forall ds pts eps, actual_eps ds pts = Ok eps -> length eps = length pts /\
  forall k, (k < length pts)%nat -> has (ds_actual ds (fst (nth k pts (0, 0))) (snd (nth k pts (0, 0)))) "eps" (nth k eps 0).
Proof.
  intros ds pts eps H. unfold actual_eps in H. split; [now apply mapM_length in H|]. intros k Hk. exact (mapM_nth _ _ _ k (0, 0) 0 H Hk).
Qed.
Lemma head_fact : forall content, head_of content (the_head content).
Proof.
  intros content. set (g := {| g_method := "internal"; g_ntx := 0%Z; g_nty := 0%Z; g_folder := ""; g_optimized := false; g_limits := @None ((R * R) * (R * R)); g_file := None |}).
  assert (G : forall fs, dget String.eqb fs (template_path g) = Ok content -> head_of content (the_head content)).
  2:{ apply (G [(template_path g, content)]). reflexivity. }
  intros fs Hc. destruct (write_content (fun _ => ""%string) g fs [] 0 "x" [] content Hc eq_refl) as (head' & fs0 & Ew & _ & Ec & Hh).
  assert (Hd : head' = the_head content).
  { unfold write_vtk in Ew. rewrite Hc in Ew. cbn [length Nat.eqb negb seq map] in Ew. injection Ew as <-. rewrite dget_dset_same in Ec. injection Ec as Ec.
    cbn [seq map] in Ec. change (catl []) with ""%string in Ec. rewrite !append_nil_r in Ec. symmetry. exact Ec. }
  rewrite <- Hd. exact Hh.
Qed.
Lemma domain_reports_ok : forall e lhs1 lhs2 ch o file csv template vtk fmt times ds i sensors weights fs r,
  run_domain e lhs1 lhs2 ch o file csv template vtk fmt times ds i sensors weights fs = Ok r ->
  exists cells bd mp g m eps,
    build_inverse o (ds_problem ds) Domain pde_loss_cd2d_inverse_domain i cells bd (Ok (m_sensor_in m, m_sensor_act m)) = Ok m /\
    domain_sensors ds i mp g vtk csv ch sensors = Ok (m_sensor_in m, m_sensor_act m) /\ get_test_points g vtk = Ok (d_points r) /\ domain_exact ds csv (d_points r) = Ok (d_exact r) /\
    ((i_method i = "internal"%string /\ g_limits g = Some (i_xlim i, i_ylim i) /\ exists mo, mp = mo_points mo /\ generate_quad_mesh_internal e lhs1 (i_xlim i) (i_ylim i) (i_ncx i) (i_ncy i) (i_nb i) = Ok (cells, mo, bd)) \/
     (i_method i = "external"%string /\ exists raw, bd = boundary_xy raw /\ read_mesh e lhs2 file (i_mesh_file i) (i_level i) (i_sampling i) 0 = Ok (cells, raw))) /\
    g_method g = i_method i /\ g_ntx g = i_ntx i /\ g_nty g = i_nty i /\
    domain_reports ds i weights m eps r /\
    (i_method i = "internal"%string -> d_files r = dset String.eqb fs (i_output_path i ++ "/internal.vtk")%string template) /\
    (i_method i = "external"%string -> exists head, head_of template head /\ dget String.eqb (d_files r) (i_output_path i ++ "/external.vtk")%string = Ok template /\
       (forall t, (t < Z.to_nat (i_epochs i))%nat -> due (i_epochs i) (i_update i) t -> exists pred inv, answers2 weights (d_points r) (S t) pred inv /\
          dget String.eqb (d_files r) (vtk_path i t) = Ok (domain_text fmt head (d_exact r) eps pred inv)) /\
       (forall q, q <> (i_output_path i ++ "/external.vtk")%string -> (forall t, (t < Z.to_nat (i_epochs i))%nat -> due (i_epochs i) (i_update i) t -> q <> vtk_path i t) ->
          dget String.eqb (d_files r) q = dget String.eqb fs q)).
Proof.
  intros e lhs1 lhs2 ch o file csv template vtk fmt times ds i sensors weights fs r H. unfold run_domain in H.
  destruct (make_mesh _ _ _ _ _ _ _) as [[[[[cells bd] mp] g] fs']|] eqn:Em; [|discriminate]. cbn [bind] in H.
  apply mesh_inv in Em. destruct Em as (-> & G1 & G2 & G3 & G4 & GM).
  assert (M : i_method i = "internal"%string \/ i_method i = "external"%string) by (destruct GM as [[M _]|[M _]]; auto).
  destruct (build_inverse _ _ _ _ _ _ _ _) as [m|] eqn:Eb; [|discriminate]. cbn [bind] in H.
  destruct (get_test_points g vtk) as [pts|] eqn:Ep; [|discriminate]. cbn [bind] in H.
  destruct (domain_exact ds csv pts) as [exact|] eqn:Ex; [|discriminate]. cbn [bind] in H.
  destruct (if String.eqb (i_method i) "internal" then plot_all i pts [exact] else Ok tt) as [u|] eqn:Epl; [|discriminate]. cbn [bind] in H.
  assert (Lin : i_method i = "internal"%string -> length exact = length pts).
  { intros K. rewrite K in Epl. cbn [String.eqb Ascii.eqb Bool.eqb] in Epl. destruct u. apply plot_all_inv in Epl; [|discriminate]. apply Epl. now left. }
  destruct (actual_eps ds pts) as [eps|] eqn:Eep; [|discriminate]. cbn [bind] in H. apply actual_inv in Eep. destruct Eep as [Lep Hep].
  destruct (run_epochs _ _ _ _ _) as [h|] eqn:Eh; [|discriminate]. cbn [bind] in H.
  destruct (epochs_inv _ _ _ _ _ _ Eh) as (HS & Hu & C).
  assert (He : (1 <= i_epochs i)%Z).
  { destruct (Z_lt_le_dec (i_epochs i) 1) as [Z0|Z1]; [|exact Z1]. rewrite hist_empty in Eh by lia. injection Eh as <-. discriminate. }
  specialize (Hu He). destruct (chain_last _ _ _ _ _ _ _ C He Hu) as (xs & x & s & f & f1 & Er & Es & Ed).
  apply due_inv in Ed; auto. destruct Ed as ((DA & DL & DE & DI & DG & DG') & _). replace (S (Z.to_nat (i_epochs i) - 1)) with (Z.to_nat (i_epochs i)) in DA by lia.
  rewrite Er, rev_app_distr in H. cbn [rev app] in H.
  destruct times as [[]|]; [|discriminate]. cbn [bind] in H.
  destruct (saved_table i (dr_pred x)) as [sp|] eqn:S1; [|discriminate]. cbn [bind] in H. destruct (saved_table i (dr_error x)) as [se|] eqn:S2; [|discriminate]. cbn [bind] in H.
  destruct (saved_table i (dr_inv x)) as [si|] eqn:S3; [|discriminate]. cbn [bind] in H. destruct (saved_table i (dr_inverror x)) as [sie|] eqn:S4; [|discriminate]. cbn [bind] in H.
  injection H as <-. pose proof (build_inv _ _ _ _ _ _ _ _ _ Eb) as ([P V] & Esn & Q1 & Q2). cbn [fst snd] in Q1, Q2.
  exists cells, bd, mp, g, m, eps. cbn [d_points d_exact d_files]. rewrite Q1, Q2. rewrite Esn in Eb.
  refine (conj Eb (conj Esn (conj Ep (conj Ex (conj GM (conj G2 (conj G3 (conj G4 (conj _ (conj _ _)))))))))).
  - constructor; cbn [d_loss d_sensor d_test d_itest d_errors d_pred d_exact d_error d_inv d_inverror d_saved d_points]; auto.
    + split; rewrite map_length; apply (HS {| l_pde := 0; l_dirichlet := []; l_sensor := []; l_total := [] |}).
    + intros t Ht. destruct (HS {| l_pde := 0; l_dirichlet := []; l_sensor := []; l_total := [] |}) as [L Q]. specialize (Q t Ht). unfold domain_step in Q. rewrite params_of_eq in Q.
      eexists. split; [exact Q|]. split; erewrite (nth_map_lt _ _ t _ _) by (rewrite L; exact Ht); reflexivity.
    + exists (dr_pred x), (dr_inv x). rewrite <- DG, <- DG'. refine (conj DA (conj _ (conj _ (conj _ (conj _ DE))))); apply stored_of; auto.
    + rewrite <- Er. eapply curve_of; [intro; exact Hu | exact C|]. intros t s0 f0 x0 f2 K. apply due_inv in K; auto. destruct K as ((A & _ & B & _) & _).
      exists (dr_pred x0), (dr_inv x0). split; [exact A|]. unfold l1_of. destruct (dr_errors x0) as [[[[[a b] c] d] v] w]. now apply combined_l1 in B.
    + rewrite <- Er. eapply curve_of; [intro; exact Hu | exact C|]. intros t s0 f0 x0 f2 K. apply due_inv in K; auto. destruct K as ((A & _ & _ & B & _) & _).
      exists (dr_pred x0), (dr_inv x0). split; [exact A|]. unfold l1_of. destruct (dr_inverse x0) as [[[[[a b] c] d] v] w]. now apply combined_l1 in B.
  - intros K.
    assert (Q : forall ts f xs f', chain (domain_step ds i m weights) (domain_due fmt g i weights pts exact eps) ts f xs f' -> f' = f).
    { induction 1 as [|? ? ? ? ? ? ? ? ? B ? IH]; [reflexivity|]. apply due_inv in B; auto. destruct B as (_ & B & _). rewrite (B K) in *. exact IH. }
    rewrite (Q _ _ _ _ C). f_equal. unfold template_path. rewrite G1, G2, K. reflexivity.
  - intros K. exists (the_head template). split; [apply head_fact|].
    assert (Et : template_path g = (i_output_path i ++ "/external.vtk")%string) by (unfold template_path; rewrite G1, G2, K; reflexivity).
    destruct (domain_chain_files _ _ _ _ _ _ _ _ _ _ _ _ template K G1 Lep C) as (A & B & Cq); [apply NoDup_filter, seq_NoDup | apply dget_dset_same|].
    rewrite Et in A, Cq. split; [exact A|]. split.
    + intros t Ht Dt. apply B. apply filter_In. split; [apply in_seq; lia | now apply dueb_spec].
    + intros q N1 N2. rewrite Cq, dget_set.
      * destruct (String.eqb_spec q (i_output_path i ++ "/external.vtk")%string); [contradiction | reflexivity].
      * intros t Ht. apply filter_In in Ht. destruct Ht as [Ht Dt]. apply N2; [apply in_seq in Ht; lia | now apply dueb_spec].
Qed.

(* ---------- sensors ---------- *)
Lemma usa_sensors : forall ds i mp g vtk csv ch n P V pts, ds_file ds = false -> (forall l, Permutation (ch_shuffle ch l) l) ->
  domain_sensors ds i mp g vtk csv ch n = Ok (P, V) -> get_test_points g vtk = Ok pts ->
  length P = Nat.min n (length pts) /\ (exists rest, Permutation (P ++ rest) pts) /\ V = map (fun p => [pb_exact (ds_problem ds) (fst p) (snd p)]) P.
Proof.
  intros ds i mp g vtk csv ch n P V pts Hf Hs H Hp. unfold domain_sensors in H. rewrite Hf, Hp in H. cbn [bind] in H. injection H as <- <-. split; [|split].
  - rewrite firstn_length, (Permutation_length (Hs pts)). reflexivity.
  - exists (skipn n (ch_shuffle ch pts)). now rewrite firstn_skipn.
  - unfold at_all, as_column. now rewrite map_map.
Qed.
Lemma file_sensors : forall ds i mp g vtk csv rows ch n P V, ds_file ds = true -> i_method i = "external"%string -> csv = Ok rows -> rows <> [] ->
  (length (ch_index ch (length rows) n) = n /\ forall j, In j (ch_index ch (length rows) n) -> (j < length rows)%nat) ->
  domain_sensors ds i mp g vtk csv ch n = Ok (P, V) -> length P = n /\ has_shape V n 1 /\ forall j, (j < n)%nat -> In (nth j P (0, 0), entry V j 0) rows.
Proof.
  intros ds i mp g vtk csv rows ch n P V Hf Hm -> Hr Hi H. unfold domain_sensors in H. rewrite Hf, Hm in H. cbn [bind] in H.
  destruct (handler_sensors [] (ch_lhs ch) (fun _ _ => 0) rows (ch_index ch) n "external") as (_ & K & _). destruct (K eq_refl Hr Hi) as (P' & M & E & L & S & Q).
  unfold handler_sensor_data in *. cbn [String.eqb Ascii.eqb Bool.eqb] in *. rewrite H in E. injection E as <- <-. auto.
Qed.

(* ---------- the scripts come to their end ---------- *)
Section Runs.
Variables (e : numpy R) (lhs1 : nat -> nat -> list R) (lhs2 : nat -> nat -> list (R * R)) (o : quad_oracle R) (file : string -> result (mesh_file R)).
Variables (template : string) (fmt : R -> string) (i : settings) (fs : files).
Lemma dtype_ok : In (i_dtype i) ["float32"; "float64"]%string -> check_dtype (i_dtype i) = Ok tt.
Proof. intros [<- | [<- | []]]; reflexivity. Qed.
Lemma build_inverse_ok : forall pb k loss cells bd sd, oracle_ok o (Z.to_nat (i_quad_order i)) -> good_inverse k i -> cells <> [] ->
  (forall tag pts, In (tag, pts) bd -> pts <> [] /\ In tag (map fst (pb_bound pb))) -> bd <> [] ->
  exists m, build_inverse o pb k loss i cells bd (Ok sd) = Ok m /\ m_cells m = length cells /\ m_loss m = loss /\ m_sensor_in m = fst sd /\ m_sensor_act m = snd sd /\
    model_fits m (length cells) (Z.to_nat (i_fe_order i) * Z.to_nat (i_fe_order i)) (Z.to_nat (i_quad_order i) * Z.to_nat (i_quad_order i)).
Proof.
  intros pb k loss cells bd sd Ho [D1 D2 D3 D4 D5 D6 D7 D8 [f D9] D10] Hc Hp Hb.
  assert (Hlen : lengths_ok o (Z.to_nat (cf_quad_order (space_config i)))) by exact (oracle_lengths _ _ Ho).
  assert (S : exists sp, make_space o (space_config i) cells bd (pb_bound pb) false = Ok sp).
  { apply (space_iff o (space_config i) cells bd (pb_bound pb) _ Hlen). refine (conj Hc (conj _ (conj _ _))).
    - intros c _. constructor; cbn [space_config cf_cell_type cf_fe_order cf_quad_order cf_fe_type cf_quad_type cf_trafo]; auto.
    - intros tag pts Hin _. now apply (Hp tag pts).
    - discriminate. }
  destruct S as [sp S]. destruct (handler_spec o (space_config i) cells _ _ _ sp Hlen S (pb_rhs pb)) as (h & Eh & _).
  assert (D : exists dir, get_dirichlet_input bd (pb_bound pb) = Ok dir).
  { unfold get_dirichlet_input. pose proof S as S'. apply make_space_inv in S'. destruct S' as (_ & _ & Ed & _). rewrite Ed. cbn [bind]. eauto. }
  destruct D as [dir D].
  pose proof (construct_ok (i_architecture i) D7 D8 k (length cells) (i_rates i) f (i_attention i) D9 D10) as Ec.
  exists (model_of h dir sd loss (length cells)). unfold build_inverse. rewrite S. cbn [bind]. rewrite Eh. cbn [bind]. rewrite D. cbn [bind]. rewrite Ec. cbn [bind].
  refine (conj eq_refl (conj eq_refl (conj eq_refl (conj eq_refl (conj eq_refl _))))).
  apply (pipeline_fits o (space_config i) cells _ _ _ sp (pb_rhs pb) h dir sd loss _ Hlen S Eh D).
  destruct (dirichlet_input_shape _ _ _ D) as [_ Dd]. destruct (dirichlet_rows _ _ _ _ Dd) as (Ex & _).
  rewrite Ex. destruct bd as [|[tag [|q qs]] bd]; [congruence | exfalso; now apply (Hp tag []); [left|] | discriminate].
Qed.
Lemma internal_mesh_ok : forall vtk, numpy_ok e -> sampler_ok lhs1 -> In (i_dtype i) ["float32"; "float64"]%string -> i_mesh_type i = "quadrilateral"%string ->
  i_method i = "internal"%string -> fst (i_xlim i) < snd (i_xlim i) -> fst (i_ylim i) < snd (i_ylim i) ->
  (1 <= i_ncx i)%Z /\ (1 <= i_ncy i)%Z -> (4 <= i_nb i)%Z -> (2 <= i_ntx i)%Z /\ (2 <= i_nty i)%Z ->
  exists cells bd mp g fs' pts, make_mesh e lhs1 lhs2 file template i fs = Ok (cells, bd, mp, g, fs') /\ cells <> [] /\ mp <> [] /\ bd <> [] /\
    (forall tag l, In (tag, l) bd -> l <> [] /\ In tag [1000; 1001; 1002; 1003]%Z) /\
    get_test_points g vtk = Ok pts /\ length pts = (Z.to_nat (i_ntx i) * Z.to_nat (i_nty i))%nat.
Proof.
  intros vtk He Hl D1 D2 Hm Hx Hy Hc Hb Ht. destruct (i_xlim i) as [x0 x1] eqn:Ex. destruct (i_ylim i) as [y0 y1] eqn:Ey. cbn [fst snd] in Hx, Hy.
  destruct (generate_quad_mesh_internal e lhs1 (x0, x1) (y0, y1) (i_ncx i) (i_ncy i) (i_nb i)) as [[[cells mo] bd]|] eqn:E.
  2:{ rewrite internal_ok in E; auto; try lia; try (intro; lra); try tauto. discriminate. }
  pose proof (tile_count e lhs1 x0 x1 y0 y1 (i_ncx i) (i_ncy i) (i_nb i) cells mo bd He Hl ltac:(lia) ltac:(lia) ltac:(lia) E Hx Hy) as TC.
  assert (Hne : cells <> []).
  { intros ->. cbn [length] in TC. assert (1 <= Z.to_nat (i_ncx i) * Z.to_nat (i_ncy i))%nat by nia. lia. }
  pose proof (mesh_obj e lhs1 x0 x1 y0 y1 (i_ncx i) (i_ncy i) (i_nb i) cells mo bd) as MO.
  pose proof (boundary_returned _ _ _ _ _ _ _ _ _ _ _ _ E) as B.
  destruct (boundary_sides lhs1 x0 x1 y0 y1 (i_nb i) Hl ltac:(lia)) as (b & r & t & l & B' & L1 & L2 & L3 & L4 & _). rewrite B in B'. injection B' as ->.
  assert (K4 : (1 <= Z.to_nat (i_nb i / 4))%nat) by (assert (1 <= i_nb i / 4)%Z by (apply Z.div_le_lower_bound; lia); lia).
  set (g' := {| g_method := "internal"; g_ntx := i_ntx i; g_nty := i_nty i; g_folder := i_output_path i; g_optimized := false;
                g_limits := Some ((x0, x1), (y0, y1)); g_file := None |}).
  destruct (test_points_internal g' vtk (x0, x1) (y0, y1) eq_refl eq_refl) as (pts & Ep & Lp & _); try (cbn; lia). cbn [g' g_ntx g_nty] in Lp.
  exists cells, [(1000%Z, b); (1001%Z, r); (1002%Z, t); (1003%Z, l)], (mo_points mo), g', (dset String.eqb fs (template_path g') template), pts.
  refine (conj _ (conj Hne (conj _ (conj _ (conj _ (conj Ep Lp)))))).
  - unfold make_mesh. rewrite (dtype_ok D1), D2, Hm, Ex, Ey. cbn [bind].
    change (make_geometry "quadrilateral" "internal" (i_ntx i) (i_nty i) (i_output_path i) false) with
      (Ok {| g_method := "internal"; g_ntx := i_ntx i; g_nty := i_nty i; g_folder := i_output_path i; g_optimized := false; g_limits := @None ((R * R) * (R * R)); g_file := None |}).
    cbn [bind String.eqb Ascii.eqb Bool.eqb]. unfold call_internal. rewrite E. cbn [g_optimized]. unfold set_limits. cbn [g_method g_ntx g_nty g_folder g_optimized g_file]. fold g'.
    change (generate_vtk_for_test g' template fs) with (@Ok unit tt, dset String.eqb fs (template_path g') template). reflexivity.
  - assert (MO' : mo = mesh_of_cells cells) by (apply MO; auto; lia). rewrite MO'. cbn [mesh_of_cells mo_points]. destruct cells as [|c cells]; [congruence | discriminate].
  - discriminate.
  - intros tag q Hin. repeat destruct Hin as [Hin | Hin]; try (injection Hin as <- <-; split; [intros K; rewrite K in *; simpl in *; lia | simpl; tauto]). destruct Hin.
Qed.
Lemma network_columns : forall (weights : nat -> net) (pts : list (R * R)) (t : nat) U E G, pointwise2 (network_of (weights t)) U E G ->
  exists y, nn_out (network_of (weights t)) pts = Ok y /\ column y 0 = Ok (map U pts) /\ column y 1 = Ok (map E pts).
Proof.
  intros weights pts t U E G P. eexists. split; [apply (P pts)|]. unfold column. rewrite !mapM_map. cbn [nth_error]. split; apply mapM_pure.
Qed.

(* const_inverse_poisson2d on an internal mesh *)
Lemma const_runs : forall lhs vtk pb sensors weights params, numpy_ok e -> sampler_ok lhs1 -> (forall m, length (lhs m) = m) -> oracle_ok o (Z.to_nat (i_quad_order i)) ->
  good_inverse Inverse i -> i_method i = "internal"%string -> fst (i_xlim i) < snd (i_xlim i) -> fst (i_ylim i) < snd (i_ylim i) ->
  (1 <= i_ncx i)%Z /\ (1 <= i_ncy i)%Z -> (4 <= i_nb i)%Z -> (2 <= i_ntx i)%Z /\ (2 <= i_nty i)%Z -> (2 <= sensors)%nat ->
  (forall t, In t [1000; 1001; 1002; 1003]%Z -> In t (map fst (pb_bound pb))) -> (forall t, exists v, has (params t) "eps" v) ->
  (forall t, exists U G, pointwise (network_of (weights t)) U G) -> i_update i <> 0%Z ->
  exists r, run_const e lhs1 lhs2 lhs o file template vtk fmt (Ok tt) pb i sensors weights params fs = Ok r.
Proof.
  intros lhs vtk pb sensors weights params He Hl Hlh Ho Hg Hm Hx Hy Hc Hb Ht Hs Hd Hpar Hn Hu. pose proof Hg as [D1 D2 _ _ _ _ _ _ _ _].
  destruct (internal_mesh_ok vtk He Hl D1 D2 Hm Hx Hy Hc Hb Ht) as (cells & bd & mp & g & fs' & pts & Em & Hne & Hmp & Hbd & Htag & Ep & Lp).
  destruct (proj2 (sensor_ok_iff mp lhs (pb_exact pb) sensors) Hmp) as ([P V] & Es).
  assert (LP : length P = (sensors * 9 / 10)%nat /\ length V = length P).
  { apply sensor_inv in Es. destruct Es as (? & ? & ? & ? & _ & _ & _ & _ & -> & ->). rewrite !map_length, Hlh. auto. }
  destruct LP as [LP LV]. assert (1 <= sensors * 9 / 10)%nat by (apply Nat.div_le_lower_bound; lia).
  assert (Ec : const_sensors pb i mp lhs sensors = Ok (P, as_column V)).
  { unfold const_sensors, handler_sensor_data. rewrite Hm, Es. reflexivity. }
  destruct (build_inverse_ok pb Inverse pde_loss_poisson_inverse cells bd (P, as_column V) Ho Hg Hne) as (m & Eb & M1 & M2 & M3 & M4 & M5); auto.
  { intros tag l Hin. destruct (Htag tag l Hin). auto. }
  cbn [fst snd] in M3, M4.
  assert (Sf : sensors_fit m).
  { unfold sensors_fit. rewrite M3, M4. split; [intros ->; cbn [length] in LP; lia|]. split; [unfold as_column; rewrite map_length; exact LV|].
    intros row Hr. unfold as_column in Hr. apply in_map_iff in Hr. destruct Hr as (v & <- & _). reflexivity. }
  set (exact := at_all (pb_exact pb) pts). assert (Le : length exact = length pts) by apply map_length.
  assert (Ne : exact <> []) by (intros K; rewrite K in Le; cbn in Le; nia).
  assert (Pr : forall t, exists pred, predict_all weights pts t = Ok pred /\ length pred = length pts).
  { intros t. destruct (Hn t) as (U & G & Pw). unfold predict_all. rewrite (proj1 (Pw pts)). cbn [bind]. eexists. split; [reflexivity|]. clear. induction pts; cbn; auto. }
  assert (St : forall t, exists L v a b c, const_step pb i m weights params t = Ok (L, v) /\ l_dirichlet L = [a] /\ l_total L = [b] /\ l_sensor L = [c]).
  { intros t. destruct (Hn t) as (U & G & Pw). destruct (Hpar t) as [v0 Hv0]. destruct (Hpar (S t)) as [v1 Hv1]. unfold const_step.
    rewrite (inverse_value m (length cells) _ _ (network_of (weights t)) (i_beta i) M5 M1 (params_of pb) (params t) v0 U G M2 Hv0 Pw Sf). cbn [bind]. rewrite Hv1. cbn [bind].
    do 5 eexists. split; [reflexivity|]. cbn [l_dirichlet l_total l_sensor]. auto. }
  unfold run_const. rewrite Em. cbn [bind]. rewrite Ec, Eb. cbn [bind]. rewrite Ep. cbn [bind]. fold exact. rewrite Hm. cbn [String.eqb Ascii.eqb Bool.eqb].
  rewrite plot_all_ok; auto; [|intros z [<- | []]; exact Le]. cbn [bind].
  assert (Sh : forall path pred f, length pred = length pts -> exists d, np_subtract exact pred = Ok d /\ length (np_abs d) = length pts /\ show_const fmt g i pts exact path pred (np_abs d) f = Ok f).
  { intros path pred f L. destruct (sub_ok exact pred ltac:(congruence)) as (d & Ed & Eg). exists d. split; [exact Ed|].
    assert (Ld : length (np_abs d) = length pts) by (rewrite Eg, gap_length; congruence). split; [exact Ld|]. unfold show_const. rewrite Hm. cbn [String.eqb Ascii.eqb Bool.eqb].
    rewrite plot_all_ok; auto. intros z [<- | [<- | []]]; auto. }
  destruct (hist_runs (const_step pb i m weights params) (const_due fmt g i weights pts exact) (i_epochs i) (i_update i) (fun _ => True) fs' Hu I) as (h & -> & _).
  { intros t. destruct (St t) as (L & v & _ & _ & _ & E & _). eauto. }
  { intros t s f Est _. destruct (St t) as (L & v & a & b & c & E & E1 & E2 & E3). rewrite E in Est. injection Est as <-. unfold const_due.
    destruct (Pr (S t)) as (pred & -> & Lpr). cbn [bind]. destruct (errors_ok exact pred Ne ltac:(congruence)) as (errs & ->). cbn [bind fst]. rewrite E1, E2, E3. cbn [as_float bind].
    destruct errs as [[[[[q1 q2] q3] q4] q5] q6]. destruct (Sh (vtk_path i t) pred f Lpr) as (d & -> & _ & Es'). cbn [bind]. rewrite Es'. cbn [bind]. eauto. }
  cbn [bind]. destruct (Pr (Z.to_nat (i_epochs i))) as (pred & -> & Lpr). cbn [bind]. destruct (errors_ok exact pred Ne ltac:(congruence)) as (errs & ->). cbn [bind].
  destruct (Sh (final_path i) pred (hy_files h) Lpr) as (d & -> & Ld & Es'). cbn [bind]. rewrite Es'. cbn [bind]. unfold saved_table. rewrite Hm. cbn [String.eqb Ascii.eqb Bool.eqb].
  unfold np_reshape. rewrite Lpr, Ld, <- Lp, Nat.eqb_refl. cbn [bind]. eauto.
Qed.

(* a domain script on a mesh file *)
Lemma domain_runs : forall ch csv rows ds sensors weights cells raw b_x b_y c sd, oracle_ok o (Z.to_nat (i_quad_order i)) -> good_inverse Domain i -> i_method i = "external"%string ->
  read_mesh e lhs2 file (i_mesh_file i) (i_level i) (i_sampling i) 0 = Ok (cells, raw) -> cells <> [] -> raw <> [] ->
  (forall tag l, In (tag, l) raw -> l <> [] /\ In tag (map fst (pb_bound (ds_problem ds)))) -> rows <> [] ->
  (forall mp g, get_test_points g (Ok rows) = Ok (map xy rows) -> domain_sensors ds i mp g (Ok rows) csv ch sensors = Ok sd) -> fst sd <> [] -> has_shape (snd sd) (length (fst sd)) 1 ->
  (exists exact, domain_exact ds csv (map xy rows) = Ok exact /\ length exact = length rows) ->
  (forall x y, exists v, has (ds_actual ds x y) "eps" v) ->
  has (pb_params (ds_problem ds)) "b_x" b_x -> has (pb_params (ds_problem ds)) "b_y" b_y -> has (pb_params (ds_problem ds)) "c" c ->
  (forall t, exists U E G, pointwise2 (network_of (weights t)) U E G) ->
  ((1 <= i_epochs i)%Z -> i_update i <> 0%Z -> exists r, run_domain e lhs1 lhs2 ch o file csv template (Ok rows) fmt (Ok tt) ds i sensors weights fs = Ok r) /\
  ((i_epochs i <= 0)%Z -> run_domain e lhs1 lhs2 ch o file csv template (Ok rows) fmt (Ok tt) ds i sensors weights fs = Err NameError).
Proof.
  intros ch csv rows ds sensors weights cells raw b_x b_y c sd Ho Hg Hm Hr Hc Hraw Htag Hv Hsd Hs1 Hs2 (exact & Eex & Lex) Hact Hbx Hby Hcc Hn. pose proof Hg as [D1 D2 _ _ _ _ _ _ _ _].
  set (pts := map xy rows) in *. assert (Lr : length pts = length rows) by apply map_length.
  set (g' := {| g_method := "external"; g_ntx := i_ntx i; g_nty := i_nty i; g_folder := i_output_path i; g_optimized := false;
                g_limits := @None ((R * R) * (R * R)); g_file := Some (i_mesh_file i) |}).
  assert (Em : make_mesh e lhs1 lhs2 file template i fs = Ok (cells, boundary_xy raw, [], g', dset String.eqb fs (template_path g') template)).
  { unfold make_mesh. rewrite (dtype_ok D1), D2, Hm. cbn [bind].
    change (make_geometry "quadrilateral" "external" (i_ntx i) (i_nty i) (i_output_path i) false) with
      (Ok {| g_method := "external"; g_ntx := i_ntx i; g_nty := i_nty i; g_folder := i_output_path i; g_optimized := false; g_limits := @None ((R * R) * (R * R)); g_file := None |}).
    cbn [bind String.eqb Ascii.eqb Bool.eqb]. unfold call_read. rewrite Hr. unfold set_file. cbn [g_method g_ntx g_nty g_folder g_optimized g_limits]. fold g'.
    change (generate_vtk_for_test g' template fs) with (@Ok unit tt, dset String.eqb fs (template_path g') template). reflexivity. }
  assert (Ep : get_test_points g' (Ok rows) = Ok pts) by reflexivity.
  assert (Ib : forall tag l, In (tag, l) (boundary_xy raw) -> exists q, In (tag, q) raw /\ l = map xy q).
  { intros tag l H. unfold boundary_xy in H. apply in_map_iff in H. destruct H as ([tag' q] & K & H). injection K as <- <-. eauto. }
  destruct (build_inverse_ok (ds_problem ds) Domain pde_loss_cd2d_inverse_domain cells (boundary_xy raw) sd Ho Hg Hc) as (m & Eb & M1 & M2 & M3 & M4 & M5).
  { intros tag l H. destruct (Ib tag l H) as (q & Hq & ->). destruct (Htag tag q Hq) as [A B]. split; [|exact B]. intros K. apply map_eq_nil in K. contradiction. }
  { intros K. destruct raw; [now apply Hraw | discriminate]. }
  assert (Sf : sensors_fit m) by (unfold sensors_fit; rewrite M3, M4; auto).
  destruct (mapM_ok (fun p : R * R => dget String.eqb (ds_actual ds (fst p) (snd p)) "eps"%string) pts) as (eps & Eeps); [intros p _; apply Hact|].
  pose proof (mapM_length _ _ _ Eeps) as Leps.
  assert (Ne : exact <> []) by (intros ->; destruct rows; [contradiction | discriminate]).
  assert (Ne' : eps <> []) by (intros ->; destruct rows; [contradiction | discriminate]).
  assert (St : forall t, exists L q1 q2 q3, domain_step ds i m weights t = Ok L /\ l_dirichlet L = [q1] /\ l_total L = [q2] /\ l_sensor L = [q3]).
  { intros t. destruct (Hn t) as (U & E & G & Pw). unfold domain_step. rewrite params_of_eq.
    rewrite (domain_value m (length cells) _ _ (network_of (weights t)) (i_beta i) M5 M1 _ b_x b_y c U E G M2 Hbx Hby Hcc Pw Sf). do 4 eexists. split; [reflexivity|]. cbn [l_dirichlet l_total l_sensor]. auto. }
  assert (R0 : run_domain e lhs1 lhs2 ch o file csv template (Ok rows) fmt (Ok tt) ds i sensors weights fs =
    (do h <- run_epochs (domain_step ds i m weights) (domain_due fmt g' i weights pts exact eps) (i_epochs i) (i_update i) (dset String.eqb fs (template_path g') template);
     match rev (hy_reports h) with
     | [] => Err NameError
     | x :: _ =>
         do sp <- saved_table i (dr_pred x); do se <- saved_table i (dr_error x); do si <- saved_table i (dr_inv x); do sie <- saved_table i (dr_inverror x);
         Ok {| d_loss := map (fun L => l_total L) (hy_steps h); d_sensor := map (fun L => l_sensor L) (hy_steps h);
            d_test := map (fun x => l1_of (dr_errors x)) (hy_reports h); d_itest := map (fun x => l1_of (dr_inverse x)) (hy_reports h);
            d_errors := dr_errors x; d_pred := sp; d_exact := exact; d_error := se; d_inv := si; d_inverror := sie;
            d_saved := Z.to_nat (i_epochs i); d_points := pts; d_files := hy_files h |}
     end)).
  { unfold run_domain. rewrite Em. cbn [bind]. rewrite (Hsd [] g' Ep), Eb. cbn [bind]. rewrite Ep. cbn [bind]. rewrite Eex. cbn [bind]. rewrite Hm. cbn [String.eqb Ascii.eqb Bool.eqb bind].
    unfold actual_eps. rewrite Eeps. reflexivity. }
  rewrite R0. split.
  - intros H1 H2.
    destruct (hist_runs (domain_step ds i m weights) (domain_due fmt g' i weights pts exact eps) (i_epochs i) (i_update i)
      (fun f => dget String.eqb f (template_path g') = Ok template) (dset String.eqb fs (template_path g') template) H2) as (h & Eh & _).
    { apply dget_dset_same. }
    { intros t. destruct (St t) as (L & _ & _ & _ & E & _). eauto. }
    { intros t s f Est Hf. destruct (St t) as (L & q1 & q2 & q3 & E & E1 & E2 & E3). rewrite E in Est. injection Est as <-. unfold domain_due.
      destruct (Hn (S t)) as (U & En & G & Pw). destruct (network_columns weights pts (S t) U En G Pw) as (y & -> & Ec0 & Ec1). cbn [bind]. rewrite Ec0. cbn [bind]. rewrite Ec1. cbn [bind].
      assert (LU : length (map U pts) = length rows) by (rewrite map_length; exact Lr). assert (LE : length (map En pts) = length rows) by (rewrite map_length; exact Lr).
      destruct (errors_ok exact (map U pts) Ne ltac:(congruence)) as (errs & ->). cbn [bind]. destruct (errors_ok eps (map En pts) Ne' ltac:(congruence)) as (ierrs & ->). cbn [bind].
      rewrite E1, E2, E3. cbn [as_float bind]. destruct (sub_ok exact (map U pts) ltac:(congruence)) as (d & -> & Eg). cbn [bind].
      destruct (sub_ok eps (map En pts) ltac:(congruence)) as (di & -> & Egi). cbn [bind]. rewrite Hm. cbn [String.eqb Ascii.eqb Bool.eqb].
      rewrite (write_columns_ok fmt g' template); auto.
      - cbn [bind]. do 2 eexists. split; [reflexivity|]. rewrite dget_set. destruct (String.eqb_spec (template_path g') (vtk_path i t)) as [K|_]; [now apply path_template in K | exact Hf].
      - cbn [nth]. rewrite LU. intros z Hz. rewrite Eg, Egi in Hz.
        repeat (destruct Hz as [<- | Hz]; [rewrite ?gap_length; congruence|]). destruct Hz. }
    rewrite Eh. cbn [bind]. destruct (epochs_inv _ _ _ _ _ _ Eh) as (_ & _ & C). destruct (chain_last _ _ _ _ _ _ _ C H1 H2) as (xs & x & s & f & f1 & -> & _).
    rewrite rev_app_distr. cbn [rev app]. unfold saved_table. rewrite Hm. cbn [String.eqb Ascii.eqb Bool.eqb bind]. eauto.
  - intros H1. rewrite hist_empty by exact H1. reflexivity.
Qed.
End Runs.
Lemma domain_file_runs : forall e lhs1 lhs2 ch o file csv template rows fmt ds i sensors weights fs b_x b_y c mf edges quads tags,
  oracle_ok o (Z.to_nat (i_quad_order i)) -> good_inverse Domain i -> i_method i = "external"%string ->
  (forall l, sorts l (np_argsort e l)) -> suffix (i_mesh_file i) = ".mesh"%string -> file (i_mesh_file i) = Ok mf ->
  edges_of mf edges -> quads_of mf quads -> first_refs mf tags -> (length edges <= length tags)%nat -> spatial mf ->
  i_sampling i = "uniform"%string -> (0 <= i_level i)%Z -> edges <> [] -> quads <> [] ->
  (forall j, (j < length edges)%nat -> In (nth j tags 0%Z) (map fst (pb_bound (ds_problem ds)))) -> rows <> [] -> (1 <= sensors)%nat ->
  ((ds_file ds = false /\ forall l, Permutation (ch_shuffle ch l) l) \/
   (ds_file ds = true /\ exists srows, csv = Ok srows /\ length srows = length rows /\
      length (ch_index ch (length srows) sensors) = sensors /\ forall j, In j (ch_index ch (length srows) sensors) -> (j < length srows)%nat)) ->
  (forall x y, exists v, has (ds_actual ds x y) "eps" v) ->
  has (pb_params (ds_problem ds)) "b_x" b_x -> has (pb_params (ds_problem ds)) "b_y" b_y -> has (pb_params (ds_problem ds)) "c" c ->
  (forall t, exists U E G, pointwise2 (network_of (weights t)) U E G) ->
  ((1 <= i_epochs i)%Z -> i_update i <> 0%Z -> exists r, run_domain e lhs1 lhs2 ch o file csv template (Ok rows) fmt (Ok tt) ds i sensors weights fs = Ok r) /\
  ((i_epochs i <= 0)%Z -> run_domain e lhs1 lhs2 ch o file csv template (Ok rows) fmt (Ok tt) ds i sensors weights fs = Err NameError).
Proof.
  intros e lhs1 lhs2 ch o file csv template rows fmt ds i sensors weights fs b_x b_y c mf edges quads tags Ho Hg Hm Hs Hsu Hf He Hq Ht Hl Hsp Hsa Hle Hne Hnq Hts Hr Hsen Hsrc Hact Hbx Hby Hcc Hn.
  destruct (uniform_boundary e lhs2 file (i_mesh_file i) (i_level i) 0 mf edges quads tags Hs Hsu Hf He Hq Ht Hl Hsp Hle) as (cells & bd & Er & Nd & Tg & Rows).
  pose proof (read_cells e lhs2 file (i_mesh_file i) (i_level i) 0 mf edges quads tags Hs Hsu Hf He Hq Ht Hl Hsp Hle cells bd Er) as Fc.
  rewrite <- Hsa in Er.
  assert (Lr : length (map xy rows) = length rows) by apply map_length.
  assert (Pos : (1 <= length rows)%nat) by (destruct rows; [contradiction | cbn; lia]).
  assert (Sd : exists sd, (forall mp g, get_test_points g (Ok rows) = Ok (map xy rows) -> domain_sensors ds i mp g (Ok rows) csv ch sensors = Ok sd) /\
    fst sd <> [] /\ has_shape (snd sd) (length (fst sd)) 1 /\ exists exact, domain_exact ds csv (map xy rows) = Ok exact /\ length exact = length rows).
  { destruct Hsrc as [[Hd Hp] | (Hd & srows & -> & Ls & Li)].
    - exists (firstn sensors (ch_shuffle ch (map xy rows)), as_column (at_all (pb_exact (ds_problem ds)) (firstn sensors (ch_shuffle ch (map xy rows))))). cbn [fst snd]. split; [|split; [|split]].
      + intros mp g Eg. unfold domain_sensors. rewrite Hd, Eg. reflexivity.
      + intros K. apply (f_equal (@length _)) in K. rewrite firstn_length, (Permutation_length (Hp _)), Lr in K. cbn [length] in K. lia.
      + unfold as_column, at_all. split; [now rewrite !map_length|]. intros row Hrow. apply in_map_iff in Hrow. destruct Hrow as (v & <- & _). reflexivity.
      + unfold domain_exact. rewrite Hd. eexists. split; [reflexivity|]. unfold at_all. now rewrite map_length.
    - assert (Ns : srows <> []) by (intros ->; cbn in Ls; lia).
      destruct (handler_sensors [] (ch_lhs ch) (pb_exact (ds_problem ds)) srows (ch_index ch) sensors "external") as (_ & K & _). destruct (K eq_refl Ns Li) as (P & M & E & L & Sh & _).
      exists (P, M). cbn [fst snd]. split; [|split; [|split]].
      + intros mp g Eg. unfold domain_sensors. rewrite Hd, Hm. cbn [bind]. exact E.
      + intros ->. cbn in L. lia.
      + rewrite L. exact Sh.
      + unfold domain_exact. rewrite Hd. cbn [bind]. eexists. split; [reflexivity|]. now rewrite map_length. }
  destruct Sd as (sd & S1 & S2 & S3 & S4).
  eapply domain_runs; eauto.
  - intros ->. inversion Fc. subst. now apply Hnq.
  - intros ->. destruct edges as [|e0 es]; [now apply Hne|]. destruct (proj2 (Tg (nth 0 tags 0%Z))). exists 0%nat. split; [simpl; lia | reflexivity].
  - intros tag pts Hin. assert (In tag (map fst bd)) as K by (apply in_map_iff; exists (tag, pts); auto). apply Tg in K. destruct K as (j & Hj & Ej). split.
    + intros ->. destruct (Rows tag [] Hin) as [_ P]. destruct (nth j edges ([], [])) as [a b] eqn:Ee.
      apply (in_nil (a := map2 (fun u v => u + INR 0 / 2 ^ Z.to_nat (i_level i) * (v - u)) a b)). apply P. exists j, 0%nat. rewrite Ee. repeat split; auto. lia.
    + rewrite <- Ej. now apply Hts.
Qed.
(* exact.txt *)
Lemma domain_exact_file : forall ds csv rows pts ex, ds_file ds = true -> csv = Ok rows -> domain_exact ds csv pts = Ok ex -> ex = map snd rows.
Proof. intros ds csv rows pts ex Hd -> H. unfold domain_exact in H. rewrite Hd in H. cbn [bind] in H. congruence. Qed.
Lemma domain_exact_formula : forall ds csv pts ex, ds_file ds = false -> domain_exact ds csv pts = Ok ex -> ex = map (fun p => pb_exact (ds_problem ds) (fst p) (snd p)) pts.
Proof. intros ds csv pts ex Hd H. unfold domain_exact in H. rewrite Hd in H. injection H as <-. reflexivity. Qed.
Lemma domain_rows : forall e lhs1 lhs2 ch o file rows template vtk fmt times ds i sensors weights fs r, ds_file ds = true ->
  run_domain e lhs1 lhs2 ch o file (Ok rows) template vtk fmt times ds i sensors weights fs = Ok r -> length rows = length (d_points r) /\ d_exact r = map snd rows.
Proof.
  intros e lhs1 lhs2 ch o file rows template vtk fmt times ds i sensors weights fs r Hd H.
  destruct (domain_reports_ok _ _ _ _ _ _ _ _ _ _ _ _ _ _ _ _ _ H) as (? & ? & ? & ? & m & eps & _ & _ & _ & Ex & _ & _ & _ & _ & D & _).
  apply (domain_exact_file ds _ rows) in Ex; auto. split; [|exact Ex]. rewrite <- (do_exact _ _ _ _ _ _ D), Ex. now rewrite map_length.
Qed.
Lemma two_outputs : forall dims w, (2 <= length dims)%nat -> nth 0 dims 0%Z = 2%Z -> nth (length dims - 1) dims 0%Z = 2%Z -> widths dims w -> n_attention w = false ->
  exists U E G, pointwise2 (network_of w) U E G.
Proof.
  intros dims w L D0 D1 W A. destruct (plain_pointwise2 w A) as (U & E & _ & P & _); [|eauto].
  change 2%nat with (Z.to_nat 2). rewrite <- D1. now apply (widths_chain dims w).
Qed.
