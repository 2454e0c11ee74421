(* Proofs for C79-C81. *)
From Coq Require Import String ZArith List Arith Bool Reals Lra Lia Permutation.
From Coquelicot Require Import Coquelicot.
From Verif Require Import Num Py Jacobi Quadrature Basis Transform Cell Space Tensor Data Physics Train Geometry Nets Metrics Problems Driver DriverInverse Optim Loop Config
  Spec SpecGeom SpecTrain SpecMesh SpecWeak SpecDriver SpecDriverInverse SpecScript SpecOptim SpecLoop SpecConfig
  NetFacts MeshFacts ExternalFacts AngleFacts TunerFacts DriverFacts JetFacts DriverInverseFacts OptimFacts AdamFacts LoopFacts.
Import ListNotations.
Local Open Scope string_scope.
Local Open Scope R_scope.

(* ---------- reading ---------- *)
Lemma dget_split : forall (d : list (string * yaml)) k v, dget String.eqb d k = Ok v <-> exists pre post, d = (pre ++ (k, v) :: post)%list /\ ~ In k (map fst pre).
Proof.
  induction d as [|[k' v'] d IH]; intros k v; cbn [dget].
  - split; [discriminate|]. intros ([|] & post & E & _); discriminate.
  - destruct (String.eqb_spec k k') as [<-|N].
    + split.
      * intros E. injection E as <-. exists [], d. auto.
      * intros ([|[k1 v1] pre] & post & E & H); injection E; intros; subst; auto. exfalso. apply H. now left.
    + rewrite IH. split.
      * intros (pre & post & -> & H). exists ((k', v') :: pre), post. split; [reflexivity|]. intros [K|K]; [cbn in K; congruence | auto].
      * intros ([|[k1 v1] pre] & post & E & H); injection E; intros; subst; [congruence|]. exists pre, post. split; auto. intros K. apply H. now right.
Qed.
Lemma items_at : forall path y v, items y path = Ok v <-> at_path y path v.
Proof.
  induction path as [|k path IH]; intros y v; cbn [items].
  - split; [intros E; injection E as <-; constructor | intros H; inversion H; reflexivity].
  - split.
    + destruct y; cbn [item bind]; try discriminate. destruct (dget String.eqb d k) as [y'|] eqn:E; [|discriminate]. cbn [bind]. intros H.
      apply dget_split in E. destruct E as (pre & post & -> & N). constructor; [exact N | now apply IH].
    + intros H. inversion H as [|pre k0 y' post path0 v0 N K]; subst. cbn [item].
      assert (E : dget String.eqb (pre ++ (k, y') :: post) k = Ok y') by (apply dget_split; eauto). rewrite E. cbn [bind]. now apply IH.
Qed.
Lemma get_str : forall y p s, bind (items y p) as_str = Ok s <-> at_path y p (YStr s).
Proof.
  intros y p s. rewrite <- items_at. destruct (items y p) as [v|]; cbn [bind]; [|split; discriminate].
  destruct v; cbn [as_str]; split; intros H; try discriminate; injection H as ->; reflexivity.
Qed.
Lemma get_int : forall y p z, bind (items y p) as_int = Ok z <-> at_path y p (YInt z).
Proof.
  intros y p z. rewrite <- items_at. destruct (items y p) as [v|]; cbn [bind]; [|split; discriminate].
  destruct v; cbn [as_int]; split; intros H; try discriminate; injection H as ->; reflexivity.
Qed.
Lemma get_bool : forall y p b, bind (items y p) as_bool = Ok b <-> at_path y p (YBool b).
Proof.
  intros y p b. rewrite <- items_at. destruct (items y p) as [v|]; cbn [bind]; [|split; discriminate].
  destruct v; cbn [as_bool]; split; intros H; try discriminate; injection H as ->; reflexivity.
Qed.
Lemma get_real : forall y p r, bind (items y p) as_real = Ok r <-> at_number y p r.
Proof.
  intros y p r. unfold at_number. destruct (items y p) as [v|] eqn:E; cbn [bind].
  - assert (U : forall w, at_path y p w -> w = v) by (intros w K; apply items_at in K; congruence). apply items_at in E. split.
    + intros H. exists v. split; [exact E|]. destruct v; try discriminate; injection H as <-; [right; eauto | left; reflexivity].
    + intros (w & K & N). apply U in K. subst w. destruct N as [-> | (z & -> & ->)]; reflexivity.
  - split; [discriminate|]. intros (w & K & _). apply items_at in K. congruence.
Qed.
Lemma ints_map : forall l zs, mapM as_int l = Ok zs <-> l = map YInt zs.
Proof.
  induction l as [|v l IH]; intros zs.
  - split; [intros E; injection E as <-; reflexivity | destruct zs; [reflexivity | discriminate]].
  - cbn [mapM]. destruct v; cbn [as_int bind]; try (split; [discriminate | destruct zs; discriminate]).
    destruct (mapM as_int l) as [q|e] eqn:E; cbn [bind].
    + pose proof (proj1 (IH q) eq_refl) as ->. split.
      * intros H. injection H as <-. reflexivity.
      * destruct zs as [|z0 zs]; [discriminate|]. intros H. injection H as -> H. assert (Q : @Ok (list Z) q = Ok zs) by (apply IH; exact H). injection Q as ->. reflexivity.
    + split; [discriminate|]. destruct zs as [|z0 zs]; [discriminate|]. intros H. injection H as _ H. assert (Q : Err e = Ok zs) by (apply IH; exact H). discriminate.
Qed.
Lemma get_ints : forall y p l, bind (items y p) as_ints = Ok l <-> at_path y p (YList (map YInt l)).
Proof.
  intros y p l. rewrite <- items_at. destruct (items y p) as [v|]; cbn [bind]; [|split; discriminate].
  destruct v; cbn [as_ints]; try (split; discriminate). rewrite ints_map. split; [intros ->; reflexivity | intros H; now injection H].
Qed.
Lemma rate_spec : forall kv e, as_rate kv = Ok e <-> rate_entry kv e.
Proof.
  intros [k v] [k' w]. unfold as_rate, rate_entry. cbn [fst snd]. destruct v; split; intros H; try discriminate;
    try (injection H as <- <-; split; [reflexivity | unfold number; eauto]); destruct H as [<- H]; destruct w as [r0|b0]; try discriminate;
    try (destruct H as [H | (z' & H & ->)]; try discriminate; injection H as ->; reflexivity).
  injection H as ->. reflexivity.
Qed.
Lemma rates_spec : forall d l, mapM as_rate d = Ok l <-> List.Forall2 rate_entry d l.
Proof.
  induction d as [|kv d IH]; intros l; cbn [mapM].
  - split; [intros E; injection E as <-; constructor | intros H; inversion H; reflexivity].
  - split.
    + destruct (as_rate kv) as [e|] eqn:E; [|discriminate]. cbn [bind]. destruct (mapM as_rate d) as [q|]; [|discriminate]. cbn [bind]. intros H. injection H as <-.
      constructor; [now apply rate_spec | now apply IH].
    + intros H. inversion H as [|? e ? q H1 H2]; subst. apply rate_spec in H1. apply IH in H2. now rewrite H1, H2.
Qed.
Lemma get_rates : forall y p l, bind (items y p) as_rates = Ok l <-> exists d, at_path y p (YMap d) /\ List.Forall2 rate_entry d l.
Proof.
  intros y p l. split.
  - destruct (items y p) as [v|] eqn:E; [|discriminate]. cbn [bind]. destruct v; try discriminate. cbn [as_rates]. intros H. exists d. split; [now apply items_at | now apply rates_spec].
  - intros (d & H & K). apply items_at in H. rewrite H. cbn [bind as_rates]. now apply rates_spec.
Qed.
Lemma dtype_spec : forall d, check_dtype d = Ok tt <-> d = "float32" \/ d = "float64".
Proof.
  intros d. unfold check_dtype. destruct (String.eqb_spec d "float64") as [->|N1]; [tauto|]. destruct (String.eqb_spec d "float32") as [->|N2]; [tauto|].
  cbn [orb]. split; [discriminate | tauto].
Qed.
Tactic Notation "next" hyp(H) ident(x) ident(E) := match type of H with bind ?a _ = _ => destruct a as [x|] eqn:E; [cbn [bind] in H | discriminate] end.
Lemma read_spec : forall k y x, read_input k y = Ok x <-> reads k y x.
Proof.
  intros k y x. split.
  - intros H. unfold read_input in H.
    next H a1 E1. next H a2 E2. next H a3 E3. next H a4 E4. next H a5 E5. next H a6 E6. next H a7 E7. next H a8 E8. next H a9 E9. next H a10 E10.
    next H a11 E11. next H a12 E12. next H a13 E13. next H a14 E14. next H a15 E15. next H a16 E16. next H a17 E17. next H a18 E18. next H a19 E19. next H a20 E20.
    next H a21 E21. next H a22 E22. next H a23 E23. next H a24 E24. next H a25 E25. next H a26 E26. next H a27 E27. next H a28 E28. next H a29 E29. next H a30 E30.
    next H a31 E31. next H a32 E32. next H a33 E33. next H a34 E34. injection H as <-. destruct a28.
    constructor; cbn [in_settings in_activation in_generation in_file in_sensors i_output_path i_method i_mesh_type i_mesh_plot i_xlim i_ylim i_ncx i_ncy i_nb i_ntx i_nty i_mesh_file
      i_level i_sampling i_fe_order i_fe_type i_quad_order i_quad_type i_architecture i_attention i_epochs i_dtype i_rates i_beta i_update fst snd];
      try (now apply get_str); try (now apply get_int); try (now apply get_real); try (now apply get_bool); try (now apply get_ints); try (now apply get_rates); try (now apply dtype_spec).
    + destruct k; try (now apply get_bool); now injection E3.
    + destruct k; try (now apply get_str); now injection E14.
    + destruct k; [injection E32 as <-; now apply get_str | | | now apply get_str]; injection E15 as <-; now injection E32.
    + exists a29. now apply items_at.
    + destruct k; try (now apply get_int); now injection E31.
  - intros H. pose proof (rd_growth _ _ _ H) as (v & Hv). pose proof (rd_rates _ _ _ H) as Hr. pose proof (rd_known _ _ _ H) as Hk. destruct H.
    unfold read_input.
    repeat match goal with
    | [ H : at_path y ?p (YStr ?s) |- context [bind (items y ?p) as_str] ] => rewrite (proj2 (get_str y p s) H); cbn [bind]
    | [ H : at_path y ?p (YInt ?s) |- context [bind (items y ?p) as_int] ] => rewrite (proj2 (get_int y p s) H); cbn [bind]
    | [ H : at_path y ?p (YBool ?s) |- context [bind (items y ?p) as_bool] ] => rewrite (proj2 (get_bool y p s) H); cbn [bind]
    | [ H : at_number y ?p ?s |- context [bind (items y ?p) as_real] ] => rewrite (proj2 (get_real y p s) H); cbn [bind]
    | [ H : at_path y ?p (YList (map YInt ?s)) |- context [bind (items y ?p) as_ints] ] => rewrite (proj2 (get_ints y p s) H); cbn [bind]
    end.
    rewrite (proj2 (get_rates _ _ _) Hr), (proj2 (dtype_spec _) Hk), (proj2 (items_at _ _ _) Hv).
    destruct k; repeat match goal with
    | [ H : at_path y ?p (YStr ?s) |- context [bind (items y ?p) as_str] ] => rewrite (proj2 (get_str y p s) H)
    | [ H : at_path y ?p (YInt ?s) |- context [bind (items y ?p) as_int] ] => rewrite (proj2 (get_int y p s) H)
    | [ H : at_path y ?p (YBool ?s) |- context [bind (items y ?p) as_bool] ] => rewrite (proj2 (get_bool y p s) H)
    end; cbn [bind]; destruct x as [[? ? ? ? [? ?] [? ?] ? ? ? ? ? ? ? ? ? ? ? ? ? ? ? ? ? ? ?] ? ? ? ?]; cbn in *; subst; reflexivity.
Qed.

(* ---------- the gear script ---------- *)
Lemma answers_points : forall sc weights pts t pred, (forall t, exists U G, pointwise (the_network sc (weights t)) U G) -> answers sc weights pts t pred -> length pred = length pts.
Proof.
  intros sc weights pts t pred Hn (y & E & ->). destruct (predictions_ok2 sc weights pts Hn t) as (p & K & L). unfold predict_of in K. rewrite E in K. cbn [bind] in K. injection K as <-. exact L.
Qed.
Lemma gear_report : forall generation csv e lhs2 o file template vtk fmt pb i weights fs r,
  run_gear generation csv e lhs2 o file template vtk fmt pb i weights fs = Ok r ->
  exists cells raw m rows head exact,
    read_mesh e lhs2 file (i_mesh_file i) (i_level i) (i_sampling i) 1 = Ok (cells, raw) /\
    build o pb main_complex_cd i cells (boundary_xy raw) = Ok m /\ vtk = Ok rows /\ r_points r = map xy rows /\
    ((generation = "internal" /\ exact = map (fun p => pb_exact pb (fst p) (snd p)) (r_points r)) \/
     (generation <> "internal" /\ exists srows, csv = Ok srows /\ exact = map snd srows)) /\
    reports_against exact pb main_complex_cd i weights m r /\
    forall t, (t < Z.to_nat (i_epochs i))%nat -> due (i_epochs i) (i_update i) t -> exists pred, answers main_complex_cd weights (r_points r) (S t) pred /\
      dget String.eqb (r_files r) (vtk_path i t) = Ok (prediction_text fmt head pred exact).
Proof.
  intros generation csv e lhs2 o file template vtk fmt pb i weights fs r H. unfold run_gear in H.
  destruct (external_files_with _ _ _ _ _ _ _ _ _ _ _ _ _ _ H) as (cells & raw & m & rows & head & exact & H1 & H2 & Hx & H3 & H4 & H5 & H6 & H7 & _).
  exists cells, raw, m, rows, head, exact. refine (conj H1 (conj H2 (conj H5 (conj H6 (conj _ (conj H3 _)))))).
  - unfold gear_exact in Hx. destruct (String.eqb_spec generation "internal") as [G|G].
    + left. split; [exact G|]. now injection Hx as <-.
    + right. split; [exact G|]. destruct csv as [srows|]; [|discriminate]. exists srows. split; [reflexivity|]. now injection Hx as <-.
  - rewrite (ra_exact _ _ _ _ _ _ _ H3) in H7. exact H7.
Qed.
Lemma gear_rows : forall generation srows e lhs2 o file template vrows fmt pb i weights fs r, generation <> "internal" ->
  (forall t, exists U G, pointwise (the_network main_complex_cd (weights t)) U G) ->
  run_gear generation (Ok srows) e lhs2 o file template (Ok vrows) fmt pb i weights fs = Ok r -> length srows = length vrows.
Proof.
  intros generation srows e lhs2 o file template vrows fmt pb i weights fs r G Hn H.
  destruct (gear_report _ _ _ _ _ _ _ _ _ _ _ _ _ _ H) as (cells & raw & m & rows & head & exact & _ & _ & E & Hp & [[K _]|(_ & s & Es & Ex)] & Hr & _); [contradiction|].
  injection E as <-. injection Es as <-. pose proof (answers_points _ _ _ _ _ Hn (ra_pred _ _ _ _ _ _ _ Hr)) as L. rewrite (proj1 (ra_lengths _ _ _ _ _ _ _ Hr)), Ex, Hp, !map_length in L. exact L.
Qed.
Lemma gear_blind : forall generation srows srows' e lhs2 o file template vtk fmt pb i weights fs, map snd srows = map snd srows' ->
  run_gear generation (Ok srows) e lhs2 o file template vtk fmt pb i weights fs = run_gear generation (Ok srows') e lhs2 o file template vtk fmt pb i weights fs.
Proof.
  intros generation srows srows' e lhs2 o file template vtk fmt pb i weights fs H. unfold run_gear, gear_exact. cbn [bind]. rewrite H. reflexivity.
Qed.
Lemma gear_runs : forall generation srows e lhs2 o file template rows fmt pb i weights fs al bx bn g mf edges quads tags,
  oracle_ok o (Z.to_nat (i_quad_order i)) -> good_settings main_complex_cd i -> i_method i = "external" ->
  (forall l, sorts l (np_argsort e l)) -> suffix (i_mesh_file i) = ".mesh" -> file (i_mesh_file i) = Ok mf ->
  edges_of mf edges -> quads_of mf quads -> first_refs mf tags -> (length edges <= length tags)%nat -> spatial mf ->
  i_sampling i = "uniform" -> (0 <= i_level i)%Z -> edges <> [] -> quads <> [] ->
  (exists ts, (length ts <= 15)%nat /\ forall j, (j < length edges)%nat -> In (nth j tags 0%Z) ts /\ In (nth j tags 0%Z) (map fst (pb_bound pb))) ->
  rows <> [] -> length srows = length rows -> equation pde_loss_cd2d (pb_params pb) al bx bn g ->
  (forall t, exists U G, pointwise (the_network main_complex_cd (weights t)) U G) -> (1 <= i_epochs i)%Z -> i_update i <> 0%Z ->
  exists r, run_gear generation (Ok srows) e lhs2 o file template (Ok rows) fmt pb i weights fs = Ok r.
Proof.
  intros. unfold run_gear. eapply (external_file_runs_with _ (if String.eqb generation "internal" then exact_values pb (map xy rows) else map snd srows)); eauto.
  - unfold gear_exact. destruct (String.eqb generation "internal"); reflexivity.
  - destruct (String.eqb generation "internal"); unfold exact_values; rewrite ?map_length; auto.
Qed.
Lemma gear_trained : forall generation csv e lhs2 o file template vtk fmt pb i nt fs r, train_gear generation csv e lhs2 o file template vtk fmt pb i nt fs = Ok r ->
  exists exact cells raw m, read_mesh e lhs2 file (i_mesh_file i) (i_level i) (i_sampling i) 1 = Ok (cells, raw) /\ build o pb main_complex_cd i cells (boundary_xy raw) = Ok m /\
    reports_against exact pb main_complex_cd i (forward_weights main_complex_cd pb i nt (Ok m)) m r.
Proof.
  intros generation csv e lhs2 o file template vtk fmt pb i nt fs r H. unfold train_gear in H. destruct (gear_report _ _ _ _ _ _ _ _ _ _ _ _ _ _ H) as (cells & raw & m & rows & head & exact & E1 & E2 & _ & _ & _ & R & _).
  exists exact, cells, raw, m. split; [exact E1|]. split; [exact E2|]. unfold external_model in R. change (sc_refinement main_complex_cd i) with 1%Z in R. rewrite E1 in R. cbn [bind fst snd] in R. rewrite E2 in R. exact R.
Qed.
Lemma gear_learns : forall e lhs2 o file pb i nt m al bx bn g hard cells raw, oracle_ok o (Z.to_nat (i_quad_order i)) ->
  read_mesh e lhs2 file (i_mesh_file i) (i_level i) (i_sampling i) 1 = Ok (cells, raw) -> concat (map snd raw) <> [] ->
  script_pde main_complex_cd (pb_params pb) al bx bn g hard -> starts (i_architecture i) 1 nt -> twice (n_act nt) -> external_model e lhs2 o file pb main_complex_cd i = Ok m ->
  learns (forward_at main_complex_cd pb i m nt) (weights_of nt)
    (fun d l => exists generation csv template vtk fmt fs r, train_gear generation csv e lhs2 o file template vtk fmt pb (with_rates i d) nt fs = Ok r /\ r_loss r = l).
Proof.
  intros e lhs2 o file pb i nt m al bx bn g hard cells raw Ho Em Hp Hs Hn Ha Hm. apply raw_points in Hp. unfold external_model in Hm. change (sc_refinement main_complex_cd i) with 1%Z in Hm. rewrite Em in Hm. cbn [bind fst snd] in Hm.
  eapply (forward_learns o pb main_complex_cd i cells _ nt m al bx bn g hard); eauto. intros d l (generation & csv & template & vtk & fmt & fs & r & H & E).
  destruct (gear_trained _ _ _ _ _ _ _ _ _ _ _ _ _ _ H) as (exact & cells' & raw' & m' & E1 & E2 & R).
  cbn [with_rates i_mesh_file i_level i_sampling] in E1. rewrite Em in E1. injection E1 as <- <-. eauto 6.
Qed.
Lemma gear_solved : forall generation csv e lhs2 o file template vtk fmt pb i nt fs r al bx bn g hard cells raw, oracle_ok o (Z.to_nat (i_quad_order i)) ->
  read_mesh e lhs2 file (i_mesh_file i) (i_level i) (i_sampling i) 1 = Ok (cells, raw) -> concat (map snd raw) <> [] ->
  script_pde main_complex_cd (pb_params pb) al bx bn g hard -> starts (i_architecture i) 1 nt -> twice (n_act nt) -> 0 <= i_beta i ->
  train_gear generation csv e lhs2 o file template vtk fmt pb i nt fs = Ok r -> nth 0 (r_loss r) [] = [0] ->
  (forall t, (t < length (r_loss r))%nat -> nth t (r_loss r) [] = [0]) /\ answers main_complex_cd (fun _ => nt) (r_points r) 0 (r_pred r).
Proof.
  intros generation csv e lhs2 o file template vtk fmt pb i nt fs r al bx bn g hard cells raw Ho Em Hp Hs Hn Ha Hbe H H0. apply raw_points in Hp.
  destruct (gear_trained _ _ _ _ _ _ _ _ _ _ _ _ _ _ H) as (exact & cells' & raw' & m & E1 & E2 & R). rewrite Em in E1. injection E1 as <- <-. eapply forward_solved; eauto.
Qed.

(* ---------- the input files of the examples ---------- *)
Ltac good := constructor; cbn; auto 6; try lia; try discriminate; try (eexists; reflexivity); let w := fresh in let Hw := fresh in intros w Hw; repeat destruct Hw as [<- | Hw]; try lia; destruct Hw.
Lemma shipped_internal : forall k sc pb y, In (k, sc, pb, y) [(Forward, main_uniform_poisson, uniform_poisson, input_uniform_poisson);
    (Forward, main_uniform_helmholtz, uniform_helmholtz, input_uniform_helmholtz); (HardForward, main_hard_poisson, hard_poisson, input_hard_poisson)] ->
  exists x, read_input k y = Ok x /\ in_activation x = "tanh" /\ forall e lhs1 o template vtk nt fs, numpy_ok e -> sampler_ok lhs1 -> oracle_ok o (Z.to_nat (i_quad_order (in_settings x))) ->
    starts (layer_dims sc (in_settings x)) 1 nt -> exists r, train_internal e lhs1 o template vtk pb sc (in_settings x) nt fs = Ok r.
Proof.
  intros k sc pb y [H | [H | [H | []]]]; injection H as <- <- <- <-; (eexists; split; [reflexivity|]; split; [reflexivity|]; intros e lhs1 o template vtk nt fs He Hl Ho Hn);
    (eapply internal_own_runs; [exact He | exact Hl | exact Ho | good | reflexivity | cbn; lra | cbn; lra | cbn; lia | cbn; lia | cbn; lia | cbn; tauto | constructor; reflexivity | exact Hn | cbn; lia | discriminate]).
Qed.
Lemma shipped_external : forall sc pb y, In (sc, pb, y) [(main_complex_poisson, circle_poisson, input_complex_poisson); (main_complex_poisson, usa_poisson, input_complex_usa);
    (main_complex_cd, circle_cd, input_complex_cd); (main_complex_helmholtz, circle_helmholtz, input_complex_helmholtz)] ->
  exists x, read_input Forward y = Ok x /\ in_activation x = "tanh" /\ forall e lhs2 o file template rows fmt nt fs mf, (forall l, sorts l (np_argsort e l)) ->
    oracle_ok o (Z.to_nat (i_quad_order (in_settings x))) -> file (i_mesh_file (in_settings x)) = Ok mf -> ready mf [1000%Z] -> rows <> [] ->
    starts (layer_dims sc (in_settings x)) 1 nt -> exists r, train_external e lhs2 o file template (Ok rows) fmt pb sc (in_settings x) nt fs = Ok r.
Proof.
  intros sc pb y [H | [H | [H | [H | []]]]]; injection H as <- <- <-; (eexists; split; [reflexivity|]; split; [reflexivity|];
    intros e lhs2 o file template rows fmt nt fs mf He Ho Hf [Hs (edges & quads & tags & P1 & P2 & P3 & P4 & P5 & P6 & P7)] Hr Hn);
    (eapply external_own_runs; [exact Ho | good | reflexivity | exact He | reflexivity | exact Hf | exact P1 | exact P2 | exact P3 | exact P4 | exact Hs | reflexivity | cbn; lia | exact P5 | exact P6
      | exists [1000%Z]; split; [cbn; lia | intros j Hj; split; [now apply P7 | apply P7 in Hj; cbn; destruct Hj as [<- | []]; tauto]] | exact Hr | constructor; reflexivity | exact Hn | cbn; lia | discriminate]).
Qed.
Lemma shipped_gear : exists x, read_input Forward input_complex_gear = Ok x /\ in_activation x = "tanh" /\ in_generation x = "external" /\
  forall srows e lhs2 o file template rows fmt nt fs mf, (forall l, sorts l (np_argsort e l)) ->
    oracle_ok o (Z.to_nat (i_quad_order (in_settings x))) -> file (i_mesh_file (in_settings x)) = Ok mf -> ready mf [1000; 1001]%Z -> rows <> [] ->
    starts (i_architecture (in_settings x)) 1 nt ->
    (length srows = length rows <-> exists r, train_gear (in_generation x) (Ok srows) e lhs2 o file template (Ok rows) fmt gear_cd (in_settings x) nt fs = Ok r).
Proof.
  eexists. split; [reflexivity|]. split; [reflexivity|]. split; [reflexivity|].
  intros srows e lhs2 o file template rows fmt nt fs mf He Ho Hf [Hs (edges & quads & tags & P1 & P2 & P3 & P4 & P5 & P6 & P7)] Hr Hn. unfold train_gear. cbn [in_generation].
  match goal with |- context [train_gear] => fail 1 | |- context [in_settings ?x] => set (i := in_settings x) in * end.
  assert (Hw : forall m t, exists U G, pointwise (the_network main_complex_cd (forward_weights main_complex_cd gear_cd i nt m t)) U G).
  { intros m t. refine (forward_pointwise main_complex_cd gear_cd i nt m (pb_params gear_cd) _ _ _ _ _ _ Hn t). constructor; reflexivity. }
  split.
  - intros L. eapply gear_runs; [exact Ho | good | reflexivity | exact He | reflexivity | exact Hf | exact P1 | exact P2 | exact P3 | exact P4 | exact Hs | reflexivity | cbn; lia | exact P5 | exact P6
      | exists [1000; 1001]%Z; split; [cbn; lia | intros j Hj; split; [now apply P7 | apply P7 in Hj; cbn; destruct Hj as [<- | [<- | []]]; tauto]] | exact Hr | exact L | constructor; reflexivity | apply Hw | cbn; lia | discriminate].
  - intros (r & E). eapply gear_rows; [| |exact E]; [discriminate | apply Hw].
Qed.
Lemma shipped_const : exists x, read_input Sensors input_inverse = Ok x /\ in_activation x = "tanh" /\
  forall e lhs1 lhs2 lhs o file template vtk fmt nt fs, numpy_ok e -> sampler_ok lhs1 -> (forall m, length (lhs m) = m) ->
    oracle_ok o (Z.to_nat (i_quad_order (in_settings x))) -> starts (i_architecture (in_settings x)) 1 nt ->
    exists r, train_const e lhs1 lhs2 lhs o file template vtk fmt (Ok tt) inverse_poisson (in_settings x) (Z.to_nat (in_sensors x)) nt inverse_guess fs = Ok r.
Proof.
  eexists. split; [reflexivity|]. split; [reflexivity|]. intros e lhs1 lhs2 lhs o file template vtk fmt nt fs He Hl Hm Ho Hn.
  eapply const_own_runs; [exact He | exact Hl | exact Hm | exact Ho | good | reflexivity | cbn; lra | cbn; lra | cbn; lia | cbn; lia | cbn; lia | cbn [in_sensors]; lia | cbn; tauto | exact Hn | cbn; auto | discriminate].
Qed.
Lemma shipped_domain : forall k ds y, In (k, ds, y) [(Sensors, main_domain_usa, input_domain_usa); (SensorFile, main_domain_circle, input_domain_circle)] ->
  exists x, read_input k y = Ok x /\ in_activation x = "tanh" /\ forall e lhs1 lhs2 ch o file csv template rows fmt nt fs mf, let sensors := Z.to_nat (in_sensors x) in
    (forall l, sorts l (np_argsort e l)) -> oracle_ok o (Z.to_nat (i_quad_order (in_settings x))) -> file (i_mesh_file (in_settings x)) = Ok mf -> ready mf [1000%Z] -> rows <> [] ->
    (k = Sensors -> forall l, Permutation (ch_shuffle ch l) l) ->
    (k = SensorFile -> exists srows, csv = Ok srows /\ length srows = length rows /\ length (ch_index ch (length srows) sensors) = sensors /\
      forall j, In j (ch_index ch (length srows) sensors) -> (j < length srows)%nat) ->
    starts (i_architecture (in_settings x)) 2 nt ->
    exists r, train_domain e lhs1 lhs2 ch o file csv template (Ok rows) fmt (Ok tt) ds (in_settings x) sensors nt fs = Ok r.
Proof.
  intros k ds y [H | [H | []]]; injection H as <- <- <-; (eexists; split; [reflexivity|]; split; [reflexivity|];
    intros e lhs1 lhs2 ch o file csv template rows fmt nt fs mf sensors He Ho Hf [Hs (edges & quads & tags & P1 & P2 & P3 & P4 & P5 & P6 & P7)] Hr Hp Hc Hn);
    (eapply domain_own_runs; [exact Hn | reflexivity | reflexivity | reflexivity | exact Ho | reflexivity | exact Hr | unfold sensors; cbn [in_sensors]; lia
      | first [left; split; [reflexivity | exact (Hp eq_refl)] | right; split; [reflexivity | exact (Hc eq_refl)]]
      | good | exact He | reflexivity | exact Hf | exact P1 | exact P2 | exact P3 | exact P4 | exact Hs | reflexivity | cbn; lia | exact P5 | exact P6
      | intros j Hj; apply P7 in Hj; cbn; destruct Hj as [<- | []]; tauto | intros; eexists; reflexivity | cbn; lia | discriminate]).
Qed.
