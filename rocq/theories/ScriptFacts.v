(* C73: the losses written by the example scripts. *)
From Coq Require Import String ZArith List Arith Lia Reals Lra Permutation.
From Verif Require Import Num Py PyFacts Jacobi Quadrature Basis Transform Cell Space Tensor Data Physics Train Geometry Nets Metrics Problems Driver DriverInverse
  RCalc PolyFacts ListFacts Spec SpecGeom SpecTrain SpecMesh SpecWeak SpecDriver SpecDriverInverse SpecScript SpaceFacts CellFacts2 TransformFacts2 TensorFacts DataFacts TrainFacts
  PipelineFacts WeakFacts SimilarFacts NumberFacts ErrorFacts NetFacts MeshFacts SensorFacts DriverFacts DriverInverseFacts AngleFacts ExternalFacts.
Import ListNotations.
Local Open Scope R_scope.

Section Loss.
Variables (o : quad_oracle R) (cf : config) (f : R -> R -> R) (U : point -> R) (G : point -> point).
Hypothesis Ho : oracle_ok o (Z.to_nat (cf_quad_order cf)).
Hypothesis Htr : cf_trafo cf = "bilinear"%string.
Let k := Z.to_nat (cf_fe_order cf).
Lemma loss_discrete : forall a bx bn g fam w xi eta cells, (0 < k)%nat -> (forall c, In c cells -> accepted cf c /\ strictly_convex c) ->
  family_of (cf_fe_type cf) = Some fam -> quad2d o (cf_quad_order cf) (cf_quad_type cf) = Ok (w, xi, eta) ->
  fold_right (fun c acc => cell_loss o cf f U G a bx bn g c + acc) 0 cells = discrete_loss (Rule2 w xi eta) f U G a bx bn g fam k cells.
Proof.
  intros a bx bn g fam w xi eta cells Hk Hc Hf Hq. unfold discrete_loss. induction cells as [|c cells IH]; [reflexivity|]. cbn [fold_right].
  rewrite IH by (intros; apply Hc; now right). f_equal. unfold cell_loss. fold k. f_equal.
  destruct (Hc c ltac:(now left)) as [Ha Hv].
  destruct (cell_kernel o cf f U G a bx bn g Ho c Ha Hv (or_introl Htr)) as (fam' & w' & xi' & eta' & E1 & E2 & E3).
  rewrite Hf in E1. injection E1 as <-. rewrite Hq in E2. injection E2 as <- <- <-.
  change Sum with rsum. rewrite rsum_mul. apply rsum_ext. intros i Hi. apply rsum_ext. intros j Hj. cbv beta.
  rewrite (Nat.mul_comm i k). rewrite E3 by auto. reflexivity.
Qed.
End Loss.

(* ---------- boundary values ---------- *)
Lemma mean_gap_misfit : forall U pts (vals : list R), length vals = length pts -> misfit U pts (as_column vals) = mean_gap (combine pts vals) U.
Proof.
  intros U pts vals L. unfold misfit, mean_gap. rewrite combine_length, L, Nat.min_id. f_equal.
  revert vals L. induction pts as [|p pts IH]; intros [|v vals] L; try discriminate; [reflexivity|].
  cbn [length combine fold_right fst snd]. change Sum with rsum. rewrite rsum_S_l. f_equal.
  rewrite <- (IH vals) by (cbn in L; lia). reflexivity.
Qed.
Lemma boundary_gap : forall bp bf dir, get_dirichlet_input bp bf = Ok dir ->
  exists data, boundary_data bp bf data /\ map fst data = fst dir /\ forall U, misfit U (fst dir) (snd dir) = mean_gap data U.
Proof.
  intros bp bf dir H. unfold get_dirichlet_input in H. destruct (dirichlet_data bp bf) as [[x y]|] eqn:E; [|discriminate]. cbn [bind] in H. injection H as <-.
  destruct (dirichlet_rows bp bf x y E) as (E1 & E2 & E3). cbn [fst snd].
  assert (M : map fst (combine x y) = x).
  { clear -E2. revert y E2. induction x as [|a x IH]; intros [|b y] L; try discriminate; [reflexivity|]. cbn. f_equal. apply IH. cbn in L. lia. }
  exists (combine x y). split; [|split; [exact M | intros U; apply mean_gap_misfit; exact E2]]. split.
  - refine (eq_trans M _). rewrite E1. unfold tagged. clear. induction bp as [|[t l] bp IH]; [reflexivity|]. cbn [map concat fst snd]. rewrite map_app, IH. f_equal. rewrite map_map. cbn. apply map_id.
  - assert (T : concat (map (fun tp => map (fun _ : R * R => fst tp) (snd tp)) bp) = map fst (tagged bp)).
    { unfold tagged. clear. induction bp as [|[t l] bp IH]; [reflexivity|]. cbn [map concat fst snd]. rewrite map_app, IH. f_equal. rewrite map_map. reflexivity. }
    rewrite T.
    assert (Lx : length x = length (tagged bp)) by (rewrite E1; apply map_length).
    assert (F : forall (P : Z -> point * R -> Prop) (l : list Z) m dz dm, length l = length m -> (forall i, (i < length m)%nat -> P (nth i l dz) (nth i m dm)) -> Forall2 P l m).
    { clear. intros P l. induction l as [|z l IH]; intros [|d m] dz dm L H; try discriminate; constructor.
      - apply (H 0%nat). cbn. lia.
      - apply (IH m dz dm); [cbn in L; lia|]. intros i Hi. apply (H (S i)). cbn. lia. }
    apply (F _ _ _ 0%Z ((0, 0), 0)).
    + rewrite map_length, combine_length. lia.
    + intros i Hi. rewrite combine_length in Hi. destruct (E3 i ltac:(lia)) as (b & B1 & B2). rewrite combine_nth by lia. cbn [fst snd].
      rewrite nth_map_lt with (d' := (0%Z, (0, 0))) by lia. exists b. auto.
Qed.

(* ---------- forward scripts ---------- *)
Lemma script_equation : forall sc d al bx bn g hard, script_pde sc d al bx bn g hard ->
  equation (sc_loss sc) d al bx bn g /\ (hard = true -> sc_kind sc = Hard) /\ (hard = false -> sc_kind sc = Standard).
Proof. intros sc d al bx bn g hard H. destruct H; (split; [constructor; assumption | split; intros; try discriminate; reflexivity]). Qed.

Section Forward.
Variables (o : quad_oracle R) (pb : problem) (sc : script) (i : settings) (cells : list (cell R)) (bd : bdict R) (m : model R).
Hypothesis Ho : oracle_ok o (Z.to_nat (i_quad_order i)).
Hypothesis Hb : build o pb sc i cells bd = Ok m.
Hypothesis Hc : forall c, In c cells -> strictly_convex c.
Hypothesis Hp : concat (map snd bd) <> [].
Let k := Z.to_nat (i_fe_order i).
Lemma build_parts : exists s h dir, make_space o (space_config i) cells bd (pb_bound pb) (i_mesh_plot i) = Ok s /\ make_handler s (pb_rhs pb) true = Ok h /\
  get_dirichlet_input bd (pb_bound pb) = Ok dir /\ m = model_of h dir ([], []) (sc_loss sc) (length cells).
Proof.
  pose proof Hb as H. unfold build in H. destruct (make_space _ _ _ _ _ _) as [s|]; [|discriminate]. cbn [bind] in H.
  destruct (make_handler _ _ _) as [h|] eqn:Eh; [|discriminate]. cbn [bind] in H. destruct (get_dirichlet_input _ _) as [dir|]; [|discriminate]. cbn [bind] in H.
  destruct (construct _ _ _ _ _ _) as [c|]; [|discriminate]. cbn [bind] in H. injection H as <-. exists s, h, dir. auto.
Qed.
Lemma forward_loss : forall al bx bn g hard, script_pde sc (pb_params pb) al bx bn g hard ->
  exists fam w xi eta data, family_of (i_fe_type i) = Some fam /\ quad2d o (i_quad_order i) (i_quad_type i) = Ok (w, xi, eta) /\ boundary_data bd (pb_bound pb) data /\
  forall nn U G beta L, pointwise nn U G -> train_step sc m nn beta (Some (pb_params pb)) = Ok L ->
  l_total L = [discrete_loss (Rule2 w xi eta) (pb_rhs pb) U G (fun _ => al) bx bn g fam k cells + (if hard then 0 else beta * mean_gap data U)].
Proof.
  intros al bx bn g hard Hs. destruct (script_equation _ _ _ _ _ _ _ Hs) as (He & Hk1 & Hk2).
  destruct build_parts as (s & h & dir & Es & Eh & Ed & Em).
  destruct (boundary_gap _ _ _ Ed) as (data & D1 & D2 & D3).
  assert (Hne : fst dir <> []) by (rewrite <- D2, (proj1 D1); exact Hp).
  pose proof (cells_accepted o (space_config i) cells bd (pb_bound pb) (i_mesh_plot i) s Ho Es) as Ha.
  pose proof (k_pos o (space_config i) cells bd (pb_bound pb) (i_mesh_plot i) s Ho Es) as Kp. cbn [space_config cf_fe_order] in Kp. fold k in Kp.
  assert (exists fam w xi eta, family_of (i_fe_type i) = Some fam /\ quad2d o (i_quad_order i) (i_quad_type i) = Ok (w, xi, eta)) as (fam & w & xi & eta & Ef & Eq).
  { destruct (proj1 (space_iff o (space_config i) cells _ _ _ (oracle_lengths _ _ Ho)) (ex_intro _ s Es)) as (N & _). destruct cells as [|c cs]; [congruence|].
    destruct (cell_kernel o (space_config i) (pb_rhs pb) (fun _ => 0) (fun _ => (0, 0)) (fun _ => 0) 0 0 0 Ho c (Ha c ltac:(now left)) (Hc c ltac:(now left)) (or_introl eq_refl))
      as (fam & w & xi & eta & E1 & E2 & _). exists fam, w, xi, eta. auto. }
  exists fam, w, xi, eta, data. do 3 (split; [assumption|]). intros nn U G beta L Hn HL.
  assert (V : fold_right (fun c acc => cell_loss o (space_config i) (pb_rhs pb) U G (fun _ => al) bx bn g c + acc) 0 cells
    = discrete_loss (Rule2 w xi eta) (pb_rhs pb) U G (fun _ => al) bx bn g fam k cells).
  { apply (loss_discrete o (space_config i) (pb_rhs pb) U G Ho eq_refl); auto. }
  unfold train_step in HL. rewrite Em in HL. destruct hard.
  - rewrite (Hk1 eq_refl) in HL.
    destruct (step_hard o (space_config i) cells bd (pb_bound pb) _ s (pb_rhs pb) h dir ([], []) nn beta Ho Es Eh Ed Hne U G Hn (sc_loss sc) _ al bx bn g He) as (L' & E1 & _ & E2 & _).
    rewrite HL in E1. injection E1 as <-. rewrite E2, V. f_equal. ring.
  - rewrite (Hk2 eq_refl) in HL.
    destruct (step_standard o (space_config i) cells bd (pb_bound pb) _ s (pb_rhs pb) h dir ([], []) nn beta Ho Es Eh Ed Hne U G Hn (sc_loss sc) _ al bx bn g He) as (L' & E1 & _ & E2 & _).
    rewrite HL in E1. injection E1 as <-. rewrite E2, V, D3. reflexivity.
Qed.
End Forward.

Section InternalCells.
Variables (e : numpy R) (lhs1 : nat -> nat -> list R) (i : settings) (cells : list (cell R)) (mo : mesh_object R) (bd : bdict R).
Hypothesis He : numpy_ok e.
Hypothesis Hl : sampler_ok lhs1.
Hypothesis Hx : fst (i_xlim i) < snd (i_xlim i).
Hypothesis Hy : fst (i_ylim i) < snd (i_ylim i).
Hypothesis Hn : (1 <= i_ncx i)%Z /\ (1 <= i_ncy i)%Z.
Hypothesis Hb : (4 <= i_nb i)%Z.
Hypothesis Hm : generate_quad_mesh_internal e lhs1 (i_xlim i) (i_ylim i) (i_ncx i) (i_ncy i) (i_nb i) = Ok (cells, mo, bd).
Lemma internal_cells : (forall c, In c cells -> strictly_convex c) /\ concat (map snd bd) <> [].
Proof.
  destruct (i_xlim i) as [x0 x1]. destruct (i_ylim i) as [y0 y1]. cbn [fst snd] in Hx, Hy. split.
  - intros c Hin. left. apply (tile_area e lhs1 x0 x1 y0 y1 (i_ncx i) (i_ncy i) (i_nb i) cells mo bd He Hl ltac:(lia) ltac:(lia) ltac:(lia) Hm Hx Hy c Hin).
  - pose proof (boundary_returned _ _ _ _ _ _ _ _ _ _ _ _ Hm) as B.
    destruct (boundary_sides lhs1 x0 x1 y0 y1 (i_nb i) Hl ltac:(lia)) as (b & r & t & l & B' & L1 & _). rewrite B in B'. injection B' as ->.
    assert (K4 : (1 <= Z.to_nat (i_nb i / 4))%nat) by (assert (1 <= i_nb i / 4)%Z by (apply Z.div_le_lower_bound; lia); lia).
    cbn [map concat snd]. destruct b as [|p b]; [cbn [length] in L1; lia | discriminate].
Qed.
End InternalCells.

Lemma internal_script : forall e lhs1 o template vtk pb sc i weights fs r al bx bn g hard, numpy_ok e -> sampler_ok lhs1 -> oracle_ok o (Z.to_nat (i_quad_order i)) ->
  fst (i_xlim i) < snd (i_xlim i) -> fst (i_ylim i) < snd (i_ylim i) -> (1 <= i_ncx i)%Z /\ (1 <= i_ncy i)%Z -> (4 <= i_nb i)%Z ->
  script_pde sc (pb_params pb) al bx bn g hard -> run_internal e lhs1 o template vtk pb sc i weights fs = Ok r ->
  exists cells mo bd fam w xi eta data, generate_quad_mesh_internal e lhs1 (i_xlim i) (i_ylim i) (i_ncx i) (i_ncy i) (i_nb i) = Ok (cells, mo, bd) /\
    family_of (i_fe_type i) = Some fam /\ quad2d o (i_quad_order i) (i_quad_type i) = Ok (w, xi, eta) /\ boundary_data bd (pb_bound pb) data /\
    length (r_loss r) = Z.to_nat (i_epochs i) /\
    forall t U G, (t < Z.to_nat (i_epochs i))%nat -> pointwise (the_network sc (weights t)) U G ->
      nth t (r_loss r) [] = [discrete_loss (Rule2 w xi eta) (pb_rhs pb) U G (fun _ => al) bx bn g fam (Z.to_nat (i_fe_order i)) cells
                             + (if hard then 0 else i_beta i * mean_gap data U)].
Proof.
  intros e lhs1 o template vtk pb sc i weights fs r al bx bn g hard He Hl Ho Hx Hy Hn Hb Hs H.
  destruct (internal_reports _ _ _ _ _ _ _ _ _ _ _ H) as (cells & mo & bd & m & Em & Eb & Rp & _).
  destruct (internal_cells e lhs1 i cells mo bd He Hl Hx Hy Hn Hb Em) as [Hc Hp].
  destruct (forward_loss o pb sc i cells bd m Ho Eb Hc Hp al bx bn g hard Hs) as (fam & w & xi & eta & data & E1 & E2 & E3 & E4).
  exists cells, mo, bd, fam, w, xi, eta, data. do 4 (split; [assumption|]). split; [apply (rp_losses _ _ _ _ _ _ Rp)|].
  intros t U G Ht P. destruct (rp_loss _ _ _ _ _ _ Rp t Ht) as (L & EL & ->). exact (E4 _ U G _ L P EL).
Qed.
Lemma external_script : forall e lhs2 o file template vtk fmt pb sc i weights fs r al bx bn g hard cells raw, oracle_ok o (Z.to_nat (i_quad_order i)) ->
  script_pde sc (pb_params pb) al bx bn g hard -> run_external e lhs2 o file template vtk fmt pb sc i weights fs = Ok r ->
  read_mesh e lhs2 file (i_mesh_file i) (i_level i) (i_sampling i) (sc_refinement sc i) = Ok (cells, raw) ->
  (forall c, In c cells -> strictly_convex c) -> concat (map snd raw) <> [] ->
  exists fam w xi eta data, 
    family_of (i_fe_type i) = Some fam /\ quad2d o (i_quad_order i) (i_quad_type i) = Ok (w, xi, eta) /\ boundary_data (boundary_xy raw) (pb_bound pb) data /\
    length (r_loss r) = Z.to_nat (i_epochs i) /\
    forall t U G, (t < Z.to_nat (i_epochs i))%nat -> pointwise (the_network sc (weights t)) U G ->
      nth t (r_loss r) [] = [discrete_loss (Rule2 w xi eta) (pb_rhs pb) U G (fun _ => al) bx bn g fam (Z.to_nat (i_fe_order i)) cells
                             + (if hard then 0 else i_beta i * mean_gap data U)].
Proof.
  intros e lhs2 o file template vtk fmt pb sc i weights fs r al bx bn g hard cells raw Ho Hs H Em Hc Hp.
  destruct (external_files _ _ _ _ _ _ _ _ _ _ _ _ _ H) as (cells' & raw' & m & rows & head & Em' & Eb & Rp & _). rewrite Em in Em'. injection Em' as <- <-.
  assert (Hp' : concat (map snd (boundary_xy raw)) <> []).
  { unfold boundary_xy. intros K. apply Hp. clear -K. induction raw as [|[t l] raw IH]; [reflexivity|]. cbn in *. apply app_eq_nil in K. destruct K as [K1 K2].
    rewrite IH by exact K2. destruct l; [reflexivity | discriminate]. }
  destruct (forward_loss o pb sc i cells _ m Ho Eb Hc Hp' al bx bn g hard Hs) as (fam & w & xi & eta & data & E1 & E2 & E3 & E4).
  exists fam, w, xi, eta, data. do 3 (split; [assumption|]). split; [apply (rp_losses _ _ _ _ _ _ Rp)|].
  intros t U G Ht P. destruct (rp_loss _ _ _ _ _ _ Rp t Ht) as (L & EL & ->). exact (E4 _ U G _ L P EL).
Qed.

(* what a mesh file has to contain for that: every element lists the corners of a convex quadrilateral, in any order *)
Lemma file_convex : forall e lhs2 file name level rl m edges quads tags cells raw, numpy_ok e -> suffix name = ".mesh"%string -> file name = Ok m ->
  edges_of m edges -> quads_of m quads -> first_refs m tags -> (length edges <= length tags)%nat -> spatial m -> (0 <= level)%Z -> edges <> [] ->
  (forall q, In q quads -> exists q0, convex_ccw q0 /\ Permutation (vertices q) (vertices q0)) ->
  read_mesh e lhs2 file name level "uniform" rl = Ok (cells, raw) ->
  (forall c, In c cells -> strictly_convex c) /\ concat (map snd raw) <> [] /\ Forall2 (fun q c => Permutation (vertices c) (vertices q)) quads cells.
Proof.
  intros e lhs2 file name level rl m edges quads tags cells raw He Hn Hf Hed Hq Ht Hl Hs Hlv Hne Hc E.
  pose proof (read_cells e lhs2 file name level rl m edges quads tags (argsort_ok e He) Hn Hf Hed Hq Ht Hl Hs Hlv cells raw E) as F. split; [|split].
  - clear -He Hc F. induction F as [|q c quads cells Eq F IH]; [intros c []|]. intros x [<- | Hx].
    + destruct (Hc q ltac:(now left)) as (q0 & C0 & P). destruct (sort_convex e q0 q He C0 P) as (r & Er & Hr). rewrite Eq in Er. injection Er as <-. left. now apply (rotation_convex q0).
    + apply IH; [|exact Hx]. intros; apply Hc; now right.
  - destruct edges as [|[a b] edges]; [congruence|].
    destruct (uniform_ends e lhs2 file name level rl m _ quads tags cells raw (argsort_ok e He) Hn Hf Hed Hq Ht Hl Hs Hlv E 0%nat a b ltac:(cbn; lia) eq_refl) as (rows & H1 & H2 & _).
    intros K. assert (In a (concat (map snd raw))) by (apply in_concat; exists rows; split; [apply (in_map snd) in H1; exact H1 | exact H2]). rewrite K in H. destruct H.
  - clear -He F. induction F as [|q c quads cells Eq F IH]; constructor; [|exact IH].
    destruct (sort_cell_sorts e q (argsort_ok e He)) as (r & Er & P & _). rewrite Eq in Er. injection Er as <-. exact P.
Qed.

(* ---------- inverse scripts ---------- *)
Section Inverse.
Variables (o : quad_oracle R) (pb : problem) (kd : kind) (loss : pyfun R) (i : settings) (cells : list (cell R)) (bd : bdict R) (sd : list (R * R) * mat R) (m : model R).
Hypothesis Ho : oracle_ok o (Z.to_nat (i_quad_order i)).
Hypothesis Hb : build_inverse o pb kd loss i cells bd (Ok sd) = Ok m.
Hypothesis Hc : forall c, In c cells -> strictly_convex c.
Hypothesis Hp : concat (map snd bd) <> [].
Hypothesis Hsd : fst sd <> [] /\ has_shape (snd sd) (length (fst sd)) 1.
Let k := Z.to_nat (i_fe_order i).
Lemma inverse_parts : exists s h dir, make_space o (space_config i) cells bd (pb_bound pb) false = Ok s /\ make_handler s (pb_rhs pb) true = Ok h /\
  get_dirichlet_input bd (pb_bound pb) = Ok dir /\ m = model_of h dir sd loss (length cells).
Proof.
  pose proof Hb as H. unfold build_inverse in H. destruct (make_space _ _ _ _ _ _) as [s|]; [|discriminate]. cbn [bind] in H.
  destruct (make_handler _ _ _) as [h|] eqn:Eh; [|discriminate]. cbn [bind] in H. destruct (get_dirichlet_input _ _) as [dir|]; [|discriminate]. cbn [bind] in H.
  destruct (construct _ _ _ _ _ _) as [c|]; [|discriminate]. cbn [bind] in H. injection H as <-. exists s, h, dir. auto.
Qed.
Lemma inverse_loss : exists fam w xi eta data, family_of (i_fe_type i) = Some fam /\ quad2d o (i_quad_order i) (i_quad_type i) = Ok (w, xi, eta) /\
  boundary_data bd (pb_bound pb) data /\
  (loss = pde_loss_poisson_inverse -> forall nn U G beta d ip eps L, pointwise nn U G -> has ip "eps" eps -> train_inverse m nn beta d (Some ip) = Ok L ->
     l_total L = [discrete_loss (Rule2 w xi eta) (pb_rhs pb) U G (fun _ => eps) 0 0 0 fam k cells + beta * mean_gap data U + 10 * misfit U (fst sd) (snd sd)]) /\
  (loss = pde_loss_cd2d_inverse_domain -> forall nn U a G beta d bx bn g L, pointwise2 nn U a G -> has d "b_x" bx -> has d "b_y" bn -> has d "c" g ->
     train_inverse_domain m nn beta (Some d) = Ok L ->
     l_total L = [discrete_loss (Rule2 w xi eta) (pb_rhs pb) U G a bx bn g fam k cells + beta * mean_gap data U + 10 * misfit U (fst sd) (snd sd)]).
Proof.
  destruct inverse_parts as (s & h & dir & Es & Eh & Ed & Em).
  destruct (boundary_gap _ _ _ Ed) as (data & D1 & D2 & D3).
  assert (Hne : fst dir <> []) by (rewrite <- D2, (proj1 D1); exact Hp).
  pose proof (cells_accepted o (space_config i) cells bd (pb_bound pb) false s Ho Es) as Ha.
  pose proof (k_pos o (space_config i) cells bd (pb_bound pb) false s Ho Es) as Kp. cbn [space_config cf_fe_order] in Kp. fold k in Kp.
  assert (exists fam w xi eta, family_of (i_fe_type i) = Some fam /\ quad2d o (i_quad_order i) (i_quad_type i) = Ok (w, xi, eta)) as (fam & w & xi & eta & Ef & Eq).
  { destruct (proj1 (space_iff o (space_config i) cells _ _ _ (oracle_lengths _ _ Ho)) (ex_intro _ s Es)) as (N & _). destruct cells as [|c cs]; [congruence|].
    destruct (cell_kernel o (space_config i) (pb_rhs pb) (fun _ => 0) (fun _ => (0, 0)) (fun _ => 0) 0 0 0 Ho c (Ha c ltac:(now left)) (Hc c ltac:(now left)) (or_introl eq_refl))
      as (fam & w & xi & eta & E1 & E2 & _). exists fam, w, xi, eta. auto. }
  assert (V : forall U G a bx bn g, fold_right (fun c acc => cell_loss o (space_config i) (pb_rhs pb) U G a bx bn g c + acc) 0 cells
    = discrete_loss (Rule2 w xi eta) (pb_rhs pb) U G a bx bn g fam k cells).
  { intros. apply (loss_discrete o (space_config i) (pb_rhs pb) U G Ho eq_refl); auto. }
  exists fam, w, xi, eta, data. do 3 (split; [assumption|]). split.
  - intros El nn U G beta d ip eps L Hn He HL. rewrite Em, El in HL.
    destruct (step_inverse o (space_config i) cells bd (pb_bound pb) _ s (pb_rhs pb) h dir sd nn beta Ho Es Eh Ed Hne U G Hn d ip eps He Hsd) as (L' & E1 & _ & E2 & _).
    rewrite HL in E1. injection E1 as <-. rewrite E2, V, D3. reflexivity.
  - intros El nn U a G beta d bx bn g L Hn H1 H2 H3 HL. rewrite Em, El in HL.
    destruct (step_domain o (space_config i) cells bd (pb_bound pb) _ s (pb_rhs pb) h dir sd nn beta Ho Es Eh Ed Hne U a G Hn d bx bn g H1 H2 H3 Hsd) as (L' & E1 & _ & E2 & _).
    rewrite HL in E1. injection E1 as <-. rewrite E2, V, D3. reflexivity.
Qed.
End Inverse.

Lemma const_script : forall e lhs1 lhs2 lhs o file template vtk fmt times pb i sensors weights params fs r, numpy_ok e -> sampler_ok lhs1 -> (forall m, length (lhs m) = m) ->
  oracle_ok o (Z.to_nat (i_quad_order i)) -> fst (i_xlim i) < snd (i_xlim i) -> fst (i_ylim i) < snd (i_ylim i) -> (1 <= i_ncx i)%Z /\ (1 <= i_ncy i)%Z -> (4 <= i_nb i)%Z ->
  (2 <= sensors)%nat -> run_const e lhs1 lhs2 lhs o file template vtk fmt times pb i sensors weights params fs = Ok r ->
  exists cells mo bd fam w xi eta data P, generate_quad_mesh_internal e lhs1 (i_xlim i) (i_ylim i) (i_ncx i) (i_ncy i) (i_nb i) = Ok (cells, mo, bd) /\
    family_of (i_fe_type i) = Some fam /\ quad2d o (i_quad_order i) (i_quad_type i) = Ok (w, xi, eta) /\ boundary_data bd (pb_bound pb) data /\
    length P = (sensors * 9 / 10)%nat /\ length (c_loss r) = Z.to_nat (i_epochs i) /\
    forall t eps U G, (t < Z.to_nat (i_epochs i))%nat -> has (params t) "eps" eps -> pointwise (network_of (weights t)) U G ->
      nth t (c_loss r) [] = [discrete_loss (Rule2 w xi eta) (pb_rhs pb) U G (fun _ => eps) 0 0 0 fam (Z.to_nat (i_fe_order i)) cells
                             + i_beta i * mean_gap data U + 10 * mean_gap (map (fun p => (p, pb_exact pb (fst p) (snd p))) P) U].
Proof.
  intros e lhs1 lhs2 lhs o file template vtk fmt times pb i sensors weights params fs r He Hl Hlh Ho Hx Hy Hn Hb Hs H.
  destruct (const_reports_ok _ _ _ _ _ _ _ _ _ _ _ _ _ _ _ _ _ H) as (_ & cells & mo & bd & m & V & Em & Es & Ea & Eb & Rp & _).
  destruct (internal_cells e lhs1 i cells mo bd He Hl Hx Hy Hn Hb Em) as [Hc Hp].
  apply sensor_inv in Es. destruct Es as (x0 & x1 & y0 & y1 & _ & _ & _ & _ & EP & EV).
  set (P := m_sensor_in m) in *.
  assert (LP : length P = (sensors * 9 / 10)%nat) by (rewrite EP, map_length, Hlh; reflexivity).
  assert (LV : length V = length P) by (rewrite EV; apply map_length).
  assert (1 <= sensors * 9 / 10)%nat by (apply Nat.div_le_lower_bound; lia).
  assert (Hsd : fst (P, m_sensor_act m) <> [] /\ has_shape (snd (P, m_sensor_act m)) (length (fst (P, m_sensor_act m))) 1).
  { cbn [fst snd]. split; [intros K; rewrite K in LP; cbn [length] in LP; lia|]. rewrite Ea. split; [now rewrite map_length|]. intros row Hr. apply in_map_iff in Hr. destruct Hr as (v & <- & _). reflexivity. }
  destruct (inverse_loss o pb Inverse pde_loss_poisson_inverse i cells bd _ m Ho Eb Hc Hp Hsd) as (fam & w & xi & eta & data & E1 & E2 & E3 & E4 & _).
  exists cells, mo, bd, fam, w, xi, eta, data, P. do 5 (split; [assumption|]). split; [apply (cr_losses _ _ _ _ _ _ Rp)|].
  intros t eps U G Ht Hp' Pn. destruct (cr_loss _ _ _ _ _ _ Rp t Ht) as (L & EL & ->).
  rewrite (E4 eq_refl _ U G _ _ _ eps L Pn Hp' EL). f_equal. f_equal. f_equal. cbn [fst snd]. rewrite Ea.
  change (map (fun v => [v]) V) with (as_column V). rewrite mean_gap_misfit by exact LV. f_equal. rewrite EV. clear. induction P as [|p l IH]; cbn; [reflexivity | now rewrite IH].
Qed.
Lemma domain_script_loss : forall e lhs1 lhs2 ch o file csv template vtk fmt times ds i sensors weights fs r bx bn g, oracle_ok o (Z.to_nat (i_quad_order i)) ->
  has (pb_params (ds_problem ds)) "b_x" bx -> has (pb_params (ds_problem ds)) "b_y" bn -> has (pb_params (ds_problem ds)) "c" g ->
  run_domain e lhs1 lhs2 ch o file csv template vtk fmt times ds i sensors weights fs = Ok r ->
  exists cells bd mp gm P V,
    ((i_method i = "internal"%string /\ exists mo, generate_quad_mesh_internal e lhs1 (i_xlim i) (i_ylim i) (i_ncx i) (i_ncy i) (i_nb i) = Ok (cells, mo, bd)) \/
     (i_method i = "external"%string /\ exists raw, bd = boundary_xy raw /\ read_mesh e lhs2 file (i_mesh_file i) (i_level i) (i_sampling i) 0 = Ok (cells, raw))) /\
    domain_sensors ds i mp gm vtk csv ch sensors = Ok (P, V) /\ get_test_points gm vtk = Ok (d_points r) /\ length (d_loss r) = Z.to_nat (i_epochs i) /\
    ((forall c, In c cells -> strictly_convex c) -> concat (map snd bd) <> [] -> P <> [] -> has_shape V (length P) 1 ->
     exists fam w xi eta data, family_of (i_fe_type i) = Some fam /\ quad2d o (i_quad_order i) (i_quad_type i) = Ok (w, xi, eta) /\
       boundary_data bd (pb_bound (ds_problem ds)) data /\
       forall t U eps G, (t < Z.to_nat (i_epochs i))%nat -> pointwise2 (network_of (weights t)) U eps G ->
         nth t (d_loss r) [] = [discrete_loss (Rule2 w xi eta) (pb_rhs (ds_problem ds)) U G eps bx bn g fam (Z.to_nat (i_fe_order i)) cells
                                + i_beta i * mean_gap data U + 10 * misfit U P V]).
Proof.
  intros e lhs1 lhs2 ch o file csv template vtk fmt times ds i sensors weights fs r bx bn g Ho H1 H2 H3 H.
  destruct (domain_reports_ok _ _ _ _ _ _ _ _ _ _ _ _ _ _ _ _ _ H) as (cells & bd & mp & gm & m & eps & Eb & Es & Ep & _ & Em & _ & _ & _ & Rp & _).
  exists cells, bd, mp, gm, (m_sensor_in m), (m_sensor_act m). split.
  { destruct Em as [(A & _ & mo & _ & B) | B]; [left | right]; eauto. }
  do 2 (split; [assumption|]). split; [apply (do_losses _ _ _ _ _ _ Rp)|]. intros Hc Hp Hne Hsh.
  destruct (inverse_loss o (ds_problem ds) Domain pde_loss_cd2d_inverse_domain i cells bd _ m Ho Eb Hc Hp (conj Hne Hsh)) as (fam & w & xi & eta & data & E1 & E2 & E3 & _ & E4).
  exists fam, w, xi, eta, data. do 3 (split; [assumption|]). intros t U a G Ht Pn.
  destruct (do_loss _ _ _ _ _ _ Rp t Ht) as (L & EL & -> & _). exact (E4 eq_refl _ U a G _ _ bx bn g L Pn H1 H2 H3 EL).
Qed.
