(* C57: the losses do not depend on the numbering of the vertices of a cell. *)
From Coq Require Import String ZArith List Arith Lia Permutation Reals Lra FunctionalExtensionality.
From Coquelicot Require Import Coquelicot.
From Verif Require Import Num Py PyFacts Jacobi Quadrature Basis Transform Cell Space Tensor Data Physics Train RCalc PolyFacts ListFacts
  Spec SpecGeom SpecMesh SpecPde TransformFacts CellFacts2 SpaceFacts TransformFacts2 ForcingFacts TensorFacts SpecTrain BasisFacts2 PhysicsFacts
  DataFacts TrainFacts PipelineFacts ExactTrain ExactExamples SpecWeak WeakFacts SimilarFacts SymRule PolyDeg LegendreFacts QuadFacts QuadExamples.
Import ListNotations.
Local Open Scope R_scope.

(* ---------- the weak residual as a quadrature sum over the reference square ---------- *)
Section Kernel.
Variables (f : R -> R -> R) (U : point -> R) (G : point -> point) (a : point -> R) (bx bn g : R).
(* test function Ph, map F *)
Notation kernel := (weak_integrand f U G a bx bn g).
Lemma weak_rule : forall o cf c d, oracle_ok o (Z.to_nat (cf_quad_order cf)) -> make_cell o cf c = Ok d ->
  (forall x y, in_square x y -> JacDet (RefMap (cf_trafo cf) c) x y <> 0) ->
  exists fam w xi eta, family_of (cf_fe_type cf) = Some fam /\ quad2d o (cf_quad_order cf) (cf_quad_type cf) = Ok (w, xi, eta) /\
  forall i j, (i < Z.to_nat (cf_fe_order cf))%nat -> (j < Z.to_nat (cf_fe_order cf))%nat ->
    weak_res a bx bn g U G f (cd_val d) (cd_gradx d) (cd_grady d) (cd_actual d) (Z.to_nat (cf_fe_order cf) * i + j)
    = Rule2 w xi eta (kernel (RefMap (cf_trafo cf) c) (Phi fam i j)).
Proof.
  intros o cf c d Ho Hd Hreg. pose proof (oracle_lengths _ _ Ho) as Hl.
  destruct (make_cell_tables o cf c d Hl Hd) as (fam & w & xi & eta & Tf & Tq & Lw & _ & _ & _ & La & _ & _ & _ & _ & _ & T).
  destruct (make_cell_chain o cf c d Hl Hd) as (fam3 & w3 & xi3 & eta3 & Tf3 & Tq3 & K).
  rewrite Tf in Tf3. injection Tf3 as <-. rewrite Tq in Tq3. injection Tq3 as <- <- <-.
  exists fam, w, xi, eta. split; [exact Tf|]. split; [exact Tq|]. intros i j Hi Hj.
  unfold weak_res, Rule2. rewrite La, Lw. change Sum with rsum. apply rsum_ext. intros q Hq. cbv zeta.
  destruct (T q Hq) as (M & P & V). destruct (V i j Hi Hj) as (V1 & _).
  set (x := nth q xi 0) in *. set (y := nth q eta 0) in *.
  assert (Hin : in_square x y).
  { destruct (quad_exact_low o (cf_quad_order cf) (cf_quad_type cf) w xi eta 0 Ho Tq ltac:(lia)) as (_ & B & _).
    rewrite Lw in B. destruct (B q Hq) as (_ & B1 & B2). split; [exact B1 | exact B2]. }
  specialize (Hreg x y Hin). destruct (K q i j Hq Hi Hj Hreg) as (a0 & b0 & E1 & E2 & E3 & E4). fold x y in E3, E4.
  rewrite E1, E2, V1, M, P. rewrite jac_eq in Hreg. rewrite jac_eq. unfold weak_integrand. cbv zeta. fold x y. rewrite E3, E4.
  set (A := Dx (fun s t => fst (RefMap (cf_trafo cf) c s t)) x y) in *. set (B := Dx (fun s t => snd (RefMap (cf_trafo cf) c s t)) x y) in *.
  set (C := Dy (fun s t => fst (RefMap (cf_trafo cf) c s t)) x y) in *. set (D := Dy (fun s t => snd (RefMap (cf_trafo cf) c s t)) x y) in *.
  set (v := RefMap (cf_trafo cf) c x y). fold x y in Hreg |- *. fold A B C D in Hreg |- *.
  replace (((a0 * A + b0 * B) * D - (a0 * C + b0 * D) * B) / (A * D - C * B)) with a0 by (field; exact Hreg).
  replace (((a0 * C + b0 * D) * A - (a0 * A + b0 * B) * C) / (A * D - C * B)) with b0 by (field; exact Hreg).
  ring.
Qed.

(* rotating and reflecting the reference square *)
Definition smooth2 (u : R -> R -> R) : Prop := forall x y, ex_derive (fun t => u t y) x /\ ex_derive (fun t => u x t) y.
Lemma der_refl : forall (u : R -> R) x, ex_derive u (- x) -> Derive (fun t => u (- t)) x = - Derive u (- x).
Proof.
  intros u x Hu. apply is_derive_unique. replace (- Derive u (- x)) with ((-1) * Derive u (- x)) by ring.
  apply (is_derive_comp u (fun t => - t)); [apply Derive_correct, Hu | apply der_neg_id].
Qed.
Lemma kernel_rot : forall F F' Ph Ph' s,
  smooth2 (fun x y => fst (F x y)) -> smooth2 (fun x y => snd (F x y)) -> smooth2 Ph ->
  (forall x y, F' x y = F (- y) x) -> (forall x y, Ph' x y = s * Ph (- y) x) ->
  forall x y, kernel F' Ph' x y = s * kernel F Ph (- y) x.
Proof.
  intros F F' Ph Ph' s H1 H2 H3 EF EP x y.
  assert (A1 : Dx (fun s t => fst (F' s t)) x y = Dy (fun s t => fst (F s t)) (- y) x) by (unfold Dx, Dy; apply Derive_ext; intros; now rewrite EF).
  assert (A2 : Dx (fun s t => snd (F' s t)) x y = Dy (fun s t => snd (F s t)) (- y) x) by (unfold Dx, Dy; apply Derive_ext; intros; now rewrite EF).
  assert (A3 : Dy (fun s t => fst (F' s t)) x y = - Dx (fun s t => fst (F s t)) (- y) x).
  { unfold Dx, Dy. rewrite (Derive_ext _ (fun t => fst (F (- t) x))) by (intros; now rewrite EF). apply (der_refl (fun t => fst (F t x))). exact (proj1 (H1 (- y) x)). }
  assert (A4 : Dy (fun s t => snd (F' s t)) x y = - Dx (fun s t => snd (F s t)) (- y) x).
  { unfold Dx, Dy. rewrite (Derive_ext _ (fun t => snd (F (- t) x))) by (intros; now rewrite EF). apply (der_refl (fun t => snd (F t x))). exact (proj1 (H2 (- y) x)). }
  assert (A5 : Dx Ph' x y = s * Dy Ph (- y) x).
  { unfold Dx, Dy. rewrite (Derive_ext _ (fun t => s * Ph (- y) t)) by (intros; now rewrite EP). apply Derive_scal. }
  assert (A6 : Dy Ph' x y = - s * Dx Ph (- y) x).
  { unfold Dx, Dy. rewrite (Derive_ext _ (fun t => s * Ph (- t) x)) by (intros; now rewrite EP). rewrite Derive_scal.
    rewrite (der_refl (fun t => Ph t x)) by exact (proj1 (H3 (- y) x)). ring. }
  unfold weak_integrand. cbv zeta. rewrite A1, A2, A3, A4, A5, A6, EF, EP.
  set (A := Dx (fun s t => fst (F s t)) (- y) x). set (B := Dx (fun s t => snd (F s t)) (- y) x).
  set (C := Dy (fun s t => fst (F s t)) (- y) x). set (D := Dy (fun s t => snd (F s t)) (- y) x).
  replace (C * - B - - A * D) with (A * D - C * B) by ring. unfold Rdiv. ring.
Qed.
Lemma kernel_ref : forall F F' Ph Ph' s,
  smooth2 (fun x y => fst (F x y)) -> smooth2 (fun x y => snd (F x y)) -> smooth2 Ph ->
  (forall x y, F' x y = F x (- y)) -> (forall x y, Ph' x y = s * Ph x (- y)) ->
  forall x y, kernel F' Ph' x y = s * kernel F Ph x (- y).
Proof.
  intros F F' Ph Ph' s H1 H2 H3 EF EP x y.
  assert (A1 : Dx (fun s t => fst (F' s t)) x y = Dx (fun s t => fst (F s t)) x (- y)) by (unfold Dx, Dy; apply Derive_ext; intros; now rewrite EF).
  assert (A2 : Dx (fun s t => snd (F' s t)) x y = Dx (fun s t => snd (F s t)) x (- y)) by (unfold Dx, Dy; apply Derive_ext; intros; now rewrite EF).
  assert (A3 : Dy (fun s t => fst (F' s t)) x y = - Dy (fun s t => fst (F s t)) x (- y)).
  { unfold Dx, Dy. rewrite (Derive_ext _ (fun t => fst (F x (- t)))) by (intros; now rewrite EF). apply (der_refl (fun t => fst (F x t))). exact (proj2 (H1 x (- y))). }
  assert (A4 : Dy (fun s t => snd (F' s t)) x y = - Dy (fun s t => snd (F s t)) x (- y)).
  { unfold Dx, Dy. rewrite (Derive_ext _ (fun t => snd (F x (- t)))) by (intros; now rewrite EF). apply (der_refl (fun t => snd (F x t))). exact (proj2 (H2 x (- y))). }
  assert (A5 : Dx Ph' x y = s * Dx Ph x (- y)).
  { unfold Dx, Dy. rewrite (Derive_ext _ (fun t => s * Ph t (- y))) by (intros; now rewrite EP). apply Derive_scal. }
  assert (A6 : Dy Ph' x y = - s * Dy Ph x (- y)).
  { unfold Dx, Dy. rewrite (Derive_ext _ (fun t => s * Ph x (- t))) by (intros; now rewrite EP). rewrite Derive_scal.
    rewrite (der_refl (fun t => Ph x t)) by exact (proj2 (H3 x (- y))). ring. }
  unfold weak_integrand. cbv zeta. rewrite A1, A2, A3, A4, A5, A6, EF, EP.
  set (A := Dx (fun s t => fst (F s t)) x (- y)). set (B := Dx (fun s t => snd (F s t)) x (- y)).
  set (C := Dy (fun s t => fst (F s t)) x (- y)). set (D := Dy (fun s t => snd (F s t)) x (- y)).
  replace (A * - D - - C * B) with (- (A * D - C * B)) by ring. rewrite Rabs_Ropp. unfold Rdiv. rewrite Rinv_opp. ring.
Qed.
End Kernel.

(* ---------- one cell ---------- *)
Lemma refmap_shifted : forall c x y, RefMap "bilinear" (shifted c) x y = RefMap "bilinear" c (- y) x.
Proof. intros. unfold RefMap, shifted. cbn [String.eqb Ascii.eqb Bool.eqb v0 v1 v2 v3]. f_equal; field. Qed.
Lemma refmap_reversed : forall c x y, RefMap "bilinear" (reversed c) x y = RefMap "bilinear" c x (- y).
Proof. intros. unfold RefMap, reversed. cbn [String.eqb Ascii.eqb Bool.eqb v0 v1 v2 v3]. f_equal; field. Qed.
Lemma refmap_smooth2 : forall name c, smooth2 (fun x y => fst (RefMap name c x y)) /\ smooth2 (fun x y => snd (RefMap name c x y)).
Proof. intros name c. split; intros x y; destruct (refmap_smooth name c x y) as (S1 & S2 & S3 & S4); split; assumption. Qed.
Lemma Phi_smooth2 : forall fam i j, smooth2 (Phi fam i j).
Proof.
  intros fam i j x y. unfold Phi. split.
  - apply (ex_derive_ext (fun t => phi fam (S j) y * phi fam (S i) t)); [intros; apply Rmult_comm|]. apply ex_derive_scal, phi_ex.
  - apply ex_derive_scal, phi_ex.
Qed.
(* the map of the configuration is the bilinear one *)
Definition full_map (cf : config) (c : cell R) : Prop := cf_trafo cf = "bilinear"%string \/ parallelogram c.
Lemma full_refmap : forall cf c, accepted cf c -> full_map cf c -> RefMap (cf_trafo cf) c = RefMap "bilinear" c.
Proof.
  intros cf c Ha [-> | [P1 P2]]; [reflexivity|]. destruct (ac_tr _ _ Ha) as [-> | [-> _]]; [reflexivity|].
  extensionality x. extensionality y. unfold RefMap. cbn [String.eqb Ascii.eqb Bool.eqb].
  replace (fst (v2 c)) with (fst (v1 c) + fst (v3 c) - fst (v0 c)) by lra. replace (snd (v2 c)) with (snd (v1 c) + snd (v3 c) - snd (v0 c)) by lra.
  f_equal; field.
Qed.
Lemma full_shifted : forall cf c, full_map cf c -> full_map cf (shifted c).
Proof. intros cf c [H | [P1 P2]]; [now left | right]. unfold parallelogram, shifted. cbn [v0 v1 v2 v3]. lra. Qed.
Lemma full_reversed : forall cf c, full_map cf c -> full_map cf (reversed c).
Proof. intros cf c [H | [P1 P2]]; [now left | right]. unfold parallelogram, reversed. cbn [v0 v1 v2 v3]. lra. Qed.
Lemma accepted_shifted : forall cf c, full_map cf c -> accepted cf c -> accepted cf (shifted c).
Proof.
  intros cf c Hm [H1 H2 H3 H4 H5 H6]. constructor; auto. destruct H6 as [H6 | [H6 H7]]; [now left | right; split; [exact H6|]].
  destruct Hm as [E | [P1 P2]]; [rewrite E in H6; discriminate|]. unfold cross, shifted in *. cbn [v0 v1 v2 v3].
  intros E. apply H7. rewrite <- E. 
  replace (fst (v2 c)) with (fst (v1 c) + fst (v3 c) - fst (v0 c)) by lra. replace (snd (v2 c)) with (snd (v1 c) + snd (v3 c) - snd (v0 c)) by lra. ring.
Qed.
Lemma accepted_reversed : forall cf c, full_map cf c -> accepted cf c -> accepted cf (reversed c).
Proof.
  intros cf c Hm [H1 H2 H3 H4 H5 H6]. constructor; auto. destruct H6 as [H6 | [H6 H7]]; [now left | right; split; [exact H6|]].
  destruct Hm as [E | [P1 P2]]; [rewrite E in H6; discriminate|]. unfold cross, reversed in *. cbn [v0 v1 v2 v3].
  intros E. apply H7. rewrite <- (Ropp_involutive 0), Ropp_0, <- E.
  replace (fst (v2 c)) with (fst (v1 c) + fst (v3 c) - fst (v0 c)) by lra. replace (snd (v2 c)) with (snd (v1 c) + snd (v3 c) - snd (v0 c)) by lra. ring.
Qed.
Lemma convex_shifted : forall c, strictly_convex c -> strictly_convex (shifted c).
Proof.
  intros c [H|H]; [left|right]; unfold convex_ccw, shifted, reversed, cross in *; cbn [v0 v1 v2 v3] in *; lra.
Qed.
Lemma convex_reversed : forall c, strictly_convex c -> strictly_convex (reversed c).
Proof. intros [a b d e] [H|H]; [right|left]; exact H. Qed.

Section Cell.
Variables (o : quad_oracle R) (cf : config) (f : R -> R -> R) (U : point -> R) (G : point -> point) (a : point -> R) (bx bn g : R).
Hypothesis Ho : oracle_ok o (Z.to_nat (cf_quad_order cf)).
Let k := Z.to_nat (cf_fe_order cf).
Lemma cell_kernel : forall c, accepted cf c -> strictly_convex c -> full_map cf c -> exists fam w xi eta,
  family_of (cf_fe_type cf) = Some fam /\ quad2d o (cf_quad_order cf) (cf_quad_type cf) = Ok (w, xi, eta) /\
  forall i j, (i < k)%nat -> (j < k)%nat ->
    cell_weak o cf f U G a bx bn g c (k * i + j) = Rule2 w xi eta (weak_integrand f U G a bx bn g (RefMap "bilinear" c) (Phi fam i j)).
Proof.
  intros c Ha Hc Hm. pose proof (oracle_lengths _ _ Ho) as Hl. destruct (proj2 (make_cell_iff o cf c Hl) Ha) as (d & Ed).
  destruct (weak_rule f U G a bx bn g o cf c d Ho Ed (regular_convex o cf c Hl Ha Hc)) as (fam & w & xi & eta & E1 & E2 & E3).
  exists fam, w, xi, eta. split; [exact E1|]. split; [exact E2|]. intros i j Hi Hj. unfold cell_weak. rewrite Ed.
  rewrite <- (full_refmap cf c Ha Hm). exact (E3 i j Hi Hj).
Qed.
Lemma rule2_scal : forall w xi eta s K, Rule2 w xi eta (fun x y => s * K x y) = s * Rule2 w xi eta K.
Proof. intros. unfold Rule2. change Sum with rsum. rewrite <- rsum_scal. apply rsum_ext. intros; ring. Qed.
Lemma rule2_ext : forall w xi eta K K', (forall x y, K x y = K' x y) -> Rule2 w xi eta K = Rule2 w xi eta K'.
Proof. intros. unfold Rule2. change Sum with rsum. apply rsum_ext. intros. now rewrite H. Qed.
Lemma shifted_weak : forall c, accepted cf c -> strictly_convex c -> full_map cf c -> forall i j, (i < k)%nat -> (j < k)%nat ->
  cell_weak o cf f U G a bx bn g (shifted c) (k * i + j) = sign j * cell_weak o cf f U G a bx bn g c (k * j + i).
Proof.
  intros c Ha Hc Hm i j Hi Hj. destruct (cell_kernel c Ha Hc Hm) as (fam & w & xi & eta & E1 & E2 & E3).
  destruct (cell_kernel _ (accepted_shifted cf c Hm Ha) (convex_shifted c Hc) (full_shifted cf c Hm)) as (fam' & w' & xi' & eta' & E1' & E2' & E3').
  rewrite E1 in E1'. injection E1' as <-. rewrite E2 in E2'. injection E2' as <- <- <-.
  rewrite E3, E3' by auto. rewrite <- rule2_scal.
  destruct (rule_symmetric o (cf_quad_order cf) (cf_quad_type cf) w xi eta Ho E2
    (fun x y => sign j * weak_integrand f U G a bx bn g (RefMap "bilinear" c) (Phi fam j i) x y)) as [<- _].
  apply rule2_ext. intros x y. destruct (refmap_smooth2 "bilinear" c) as [S1 S2].
  apply kernel_rot; auto; [apply Phi_smooth2 | apply refmap_shifted|].
  intros s t. unfold Phi. rewrite phi_neg. pose proof (sign_sq j) as Q.
  transitivity (sign j * sign j * (phi fam (S i) s * phi fam (S j) t)); [rewrite Q|]; ring.
Qed.
Lemma reversed_weak : forall c, accepted cf c -> strictly_convex c -> full_map cf c -> forall i j, (i < k)%nat -> (j < k)%nat ->
  cell_weak o cf f U G a bx bn g (reversed c) (k * i + j) = sign j * cell_weak o cf f U G a bx bn g c (k * i + j).
Proof.
  intros c Ha Hc Hm i j Hi Hj. destruct (cell_kernel c Ha Hc Hm) as (fam & w & xi & eta & E1 & E2 & E3).
  destruct (cell_kernel _ (accepted_reversed cf c Hm Ha) (convex_reversed c Hc) (full_reversed cf c Hm)) as (fam' & w' & xi' & eta' & E1' & E2' & E3').
  rewrite E1 in E1'. injection E1' as <-. rewrite E2 in E2'. injection E2' as <- <- <-.
  rewrite E3, E3' by auto. rewrite <- rule2_scal.
  destruct (rule_symmetric o (cf_quad_order cf) (cf_quad_type cf) w xi eta Ho E2
    (fun x y => sign j * weak_integrand f U G a bx bn g (RefMap "bilinear" c) (Phi fam i j) x y)) as [_ <-].
  apply rule2_ext. intros x y. destruct (refmap_smooth2 "bilinear" c) as [S1 S2].
  apply kernel_ref; auto; [apply Phi_smooth2 | apply refmap_reversed|].
  intros s t. unfold Phi. rewrite phi_neg. pose proof (sign_sq j) as Q.
  transitivity (sign j * sign j * (phi fam (S i) s * phi fam (S j) t)); [rewrite Q|]; ring.
Qed.
Notation CL := (cell_loss o cf f U G a bx bn g).
Lemma shifted_loss : forall c, accepted cf c -> strictly_convex c -> full_map cf c -> CL (shifted c) = CL c.
Proof.
  intros c Ha Hc Hm. unfold cell_loss. f_equal. change Sum with rsum. fold k. rewrite !rsum_mul, rsum_swap.
  apply rsum_ext. intros i Hi. apply rsum_ext. intros j Hj. rewrite !(Nat.mul_comm _ k), shifted_weak by auto.
  rewrite Rpow_mult_distr. replace (sign i ^ 2) with (sign i * sign i) by ring. rewrite sign_sq. ring.
Qed.
Lemma reversed_loss : forall c, accepted cf c -> strictly_convex c -> full_map cf c -> CL (reversed c) = CL c.
Proof.
  intros c Ha Hc Hm. unfold cell_loss. f_equal. change Sum with rsum. fold k. rewrite !rsum_mul.
  apply rsum_ext. intros i Hi. apply rsum_ext. intros j Hj. rewrite !(Nat.mul_comm _ k), reversed_weak by auto.
  rewrite Rpow_mult_distr. replace (sign j ^ 2) with (sign j * sign j) by ring. rewrite sign_sq. ring.
Qed.
Lemma polygon_loss : forall c c', same_polygon c c' -> accepted cf c -> strictly_convex c -> full_map cf c ->
  CL c' = CL c /\ accepted cf c' /\ strictly_convex c' /\ full_map cf c'.
Proof.
  intros c c' H Ha Hc Hm. induction H as [c | c c' H IH | c c' H IH]; [auto| |]; destruct (IH Ha Hc Hm) as (E & Ha' & Hc' & Hm').
  - refine (conj _ (conj (accepted_shifted _ _ Hm' Ha') (conj (convex_shifted _ Hc') (full_shifted _ _ Hm')))). now rewrite shifted_loss.
  - refine (conj _ (conj (accepted_reversed _ _ Hm' Ha') (conj (convex_reversed _ Hc') (full_reversed _ _ Hm')))). now rewrite reversed_loss.
Qed.
Lemma mesh_loss : forall cells cells', same_mesh cells cells' ->
  (forall c, In c cells -> accepted cf c /\ strictly_convex c /\ full_map cf c) ->
  fold_right (fun c acc => CL c + acc) 0 cells' = fold_right (fun c acc => CL c + acc) 0 cells /\
  (forall c, In c cells' -> accepted cf c).
Proof.
  intros cells cells' (l & Hp & H2) H. rewrite (sum_perm _ CL _ _ Hp).
  assert (H' : forall c, In c l -> accepted cf c /\ strictly_convex c /\ full_map cf c) by (intros c Hc; apply H; now apply (Permutation_in _ (Permutation_sym Hp))).
  clear H Hp. induction H2 as [|c c' l l' H1 H2 IH]; [split; [reflexivity | intros c []]|].
  destruct IH as [IH1 IH2]; [intros; apply H'; now right|]. destruct (H' c (or_introl eq_refl)) as (A1 & A2 & A3).
  destruct (polygon_loss c c' H1 A1 A2 A3) as (E & A & _). cbn [fold_right]. rewrite E, IH1. split; [reflexivity|].
  intros d [<- | Hd]; auto.
Qed.
End Cell.

(* ---------- the whole mesh ---------- *)
Section Whole.
Variables (o : quad_oracle R) (cf : config) (cells cells' : list (cell R)) (bp : bdict R) (bf : bfun R) (plot : bool) (s : space R)
  (f : R -> R -> R) (h : handler R) (dir sensor : list (R * R) * mat R) (nn : network R) (beta : R).
Hypothesis Ho : oracle_ok o (Z.to_nat (cf_quad_order cf)).
Hypothesis Hm : same_mesh cells cells'.
Hypothesis Hc : forall c, In c cells -> strictly_convex c.
Hypothesis Hf : cf_trafo cf = "bilinear"%string \/ forall c, In c cells -> parallelogram c.
Hypothesis Hs : make_space o cf cells bp bf plot = Ok s.
Hypothesis Hh : make_handler s f true = Ok h.
Hypothesis Hdir : get_dirichlet_input bp bf = Ok dir.
Hypothesis Hne : fst dir <> [].
Lemma mesh_cells : forall c, In c cells -> accepted cf c /\ strictly_convex c /\ full_map cf c.
Proof.
  intros c Hin. pose proof (oracle_lengths _ _ Ho) as Hl.
  destruct (proj1 (space_iff o cf cells bp bf plot Hl) (ex_intro _ s Hs)) as (_ & H2 & _).
  split; [now apply H2|]. split; [now apply Hc|]. destruct Hf; [now left | right; auto].
Qed.
Lemma same_length : length cells' = length cells.
Proof. destruct Hm as (l & Hp & H2). rewrite (Permutation_length Hp). clear -H2. induction H2; cbn; congruence. Qed.
Lemma number_space : exists s', make_space o cf cells' bp bf plot = Ok s'.
Proof.
  pose proof (oracle_lengths _ _ Ho) as Hl. apply (space_iff o cf _ _ _ _ Hl).
  destruct (proj1 (space_iff o cf cells bp bf plot Hl) (ex_intro _ s Hs)) as (H1 & H2 & H3).
  split; [|split; [|exact H3]].
  - intros E. pose proof same_length as L. rewrite E in L. destruct cells; [congruence | discriminate].
  - exact (proj2 (mesh_loss o cf f (fun _ => 0) (fun _ => (0, 0)) (fun _ => 0) 0 0 0 Ho cells cells' Hm mesh_cells)).
Qed.
Lemma number_losses : exists s' h', make_space o cf cells' bp bf plot = Ok s' /\ make_handler s' f true = Ok h' /\
  forall U G, 
  (forall loss d al bx bn g, pointwise nn U G -> equation loss d al bx bn g ->
    let m := model_of h dir sensor loss (length cells) in let m' := model_of h' dir sensor loss (length cells') in
    (exists L L', train_standard m nn beta (Some d) = Ok L /\ train_standard m' nn beta (Some d) = Ok L' /\
       l_pde L' = l_pde L /\ l_total L' = l_total L) /\
    (exists L L', train_hard m nn beta (Some d) = Ok L /\ train_hard m' nn beta (Some d) = Ok L' /\
       l_pde L' = l_pde L /\ l_total L' = l_total L)) /\
  (forall d ip eps, pointwise nn U G -> has ip "eps" eps ->
    let m := model_of h dir sensor pde_loss_poisson_inverse (length cells) in
    let m' := model_of h' dir sensor pde_loss_poisson_inverse (length cells') in sensors_fit m ->
    exists L L', train_inverse m nn beta d (Some ip) = Ok L /\ train_inverse m' nn beta d (Some ip) = Ok L' /\
       l_pde L' = l_pde L /\ l_total L' = l_total L) /\
  (forall d a bx bn g, pointwise2 nn U a G -> has d "b_x" bx -> has d "b_y" bn -> has d "c" g ->
    let m := model_of h dir sensor pde_loss_cd2d_inverse_domain (length cells) in
    let m' := model_of h' dir sensor pde_loss_cd2d_inverse_domain (length cells') in sensors_fit m ->
    exists L L', train_inverse_domain m nn beta (Some d) = Ok L /\ train_inverse_domain m' nn beta (Some d) = Ok L' /\
       l_pde L' = l_pde L /\ l_total L' = l_total L).
Proof.
  destruct number_space as (s' & Hs'). destruct (handler_spec o cf _ _ _ _ s' (oracle_lengths _ _ Ho) Hs' f) as (h' & Hh' & _).
  exists s', h'. split; [exact Hs'|]. split; [exact Hh'|]. intros U G.
  assert (EV : forall a bx bn g, fold_right (fun c acc => cell_loss o cf f U G a bx bn g c + acc) 0 cells'
     = fold_right (fun c acc => cell_loss o cf f U G a bx bn g c + acc) 0 cells)
    by (intros; exact (proj1 (mesh_loss o cf f U G a bx bn g Ho cells cells' Hm mesh_cells))).
  refine (conj _ (conj _ _)).
  - intros loss d al bx bn g Hn He. cbv zeta. split.
    + destruct (step_standard o cf cells bp bf plot s f h dir sensor nn beta Ho Hs Hh Hdir Hne U G Hn loss d al bx bn g He) as (L & E1 & E2 & E3 & _).
      destruct (step_standard o cf cells' bp bf plot s' f h' dir sensor nn beta Ho Hs' Hh' Hdir Hne U G Hn loss d al bx bn g He) as (L' & E1' & E2' & E3' & _).
      rewrite EV in E2', E3'. exists L, L'. split; [exact E1|]. split; [exact E1'|]. split; congruence.
    + destruct (step_hard o cf cells bp bf plot s f h dir sensor nn beta Ho Hs Hh Hdir Hne U G Hn loss d al bx bn g He) as (L & E1 & E2 & E3 & _).
      destruct (step_hard o cf cells' bp bf plot s' f h' dir sensor nn beta Ho Hs' Hh' Hdir Hne U G Hn loss d al bx bn g He) as (L' & E1' & E2' & E3' & _).
      rewrite EV in E2', E3'. exists L, L'. split; [exact E1|]. split; [exact E1'|]. split; congruence.
  - intros d ip eps Hn He m m' Hsen.
    destruct (step_inverse o cf cells bp bf plot s f h dir sensor nn beta Ho Hs Hh Hdir Hne U G Hn d ip eps He Hsen) as (L & E1 & E2 & E3 & _).
    destruct (step_inverse o cf cells' bp bf plot s' f h' dir sensor nn beta Ho Hs' Hh' Hdir Hne U G Hn d ip eps He Hsen) as (L' & E1' & E2' & E3' & _).
    rewrite EV in E2', E3'. exists L, L'. split; [exact E1|]. split; [exact E1'|]. split; congruence.
  - intros d a bx bn g Hn H1 H2 H3 m m' Hsen.
    destruct (step_domain o cf cells bp bf plot s f h dir sensor nn beta Ho Hs Hh Hdir Hne U a G Hn d bx bn g H1 H2 H3 Hsen) as (L & E1 & E2 & E3 & _).
    destruct (step_domain o cf cells' bp bf plot s' f h' dir sensor nn beta Ho Hs' Hh' Hdir Hne U a G Hn d bx bn g H1 H2 H3 Hsen) as (L' & E1' & E2' & E3' & _).
    rewrite EV in E2', E3'. exists L, L'. split; [exact E1|]. split; [exact E1'|]. split; congruence.
Qed.
End Whole.

(* ---------- the affine map of a cell that is no parallelogram ---------- *)
Lemma affine_jac : forall c x y, JacDet (RefMap "affine" c) x y
  = ((fst (v1 c) - fst (v0 c)) * (snd (v3 c) - snd (v0 c)) - (fst (v3 c) - fst (v0 c)) * (snd (v1 c) - snd (v0 c))) / 4.
Proof.
  intros c x y. rewrite jac_eq. unfold Dx, Dy, RefMap. cbn [String.eqb Ascii.eqb Bool.eqb fst snd].
  assert (D1 : forall k0 k1 k2 t, Derive (fun s => k0 + (1 + s) / 2 * k1 + k2) t = k1 / 2) by (intros; apply is_derive_unique; auto_derive; [auto | field]).
  assert (D2 : forall k0 k1 t, Derive (fun s => k0 + (1 + s) / 2 * k1) t = k1 / 2) by (intros; apply is_derive_unique; auto_derive; [auto | field]).
  rewrite !D1, !D2. field.
Qed.
Definition flat (p : point) : R := 0 * fst p + 0 * snd p + 0.
Lemma flat_weak : forall o c J, oracle_ok o 5 -> (forall x y, JacDet (RefMap "affine" c) x y = J) -> 0 < J -> accepted (kite_cf "affine") c ->
  exists fam w xi eta, family_of "legendre" = Some fam /\ quad2d o 5 "gauss-jacobi" = Ok (w, xi, eta) /\
  forall i j, (i < 4)%nat -> (j < 4)%nat ->
  cell_weak o (kite_cf "affine") (fun _ _ => 1) flat (fun _ => (0, 0)) (fun _ => 1) 0 0 0 c (4 * i + j) = - J * Rule2 w xi eta (Phi fam i j).
Proof.
  intros o c J Ho HJ Hp Ha. pose proof (oracle_lengths _ _ Ho) as Hl. destruct (proj2 (make_cell_iff o (kite_cf "affine") c Hl) Ha) as (d & Ed).
  destruct (weak_rule (fun _ _ => 1) flat (fun _ => (0, 0)) (fun _ => 1) 0 0 0 o (kite_cf "affine") c d Ho Ed) as (fam & w & xi & eta & E1 & E2 & E3).
  { intros x y _. cbn [kite_cf cf_trafo]. rewrite HJ. lra. }
  exists fam, w, xi, eta. split; [exact E1|]. split; [exact E2|]. intros i j Hi Hj. unfold cell_weak. rewrite Ed.
  refine (eq_trans (E3 i j Hi Hj) _). rewrite <- rule2_scal. apply rule2_ext. intros x y. unfold weak_integrand. cbv zeta. rewrite <- jac_eq. cbn [kite_cf cf_trafo].
  rewrite HJ. rewrite Rabs_right by lra. unfold flat. cbn [fst snd]. field. lra.
Qed.
Lemma phi1 : forall x, phi FLegendre 1 x = 3 / 2 * (x * x) - 3 / 2.
Proof. intros x. unfold phi, LegendreP, JacobiP. simpl. field. Qed.
Lemma rule_phi00 : forall o w xi eta, oracle_ok o 5 -> quad2d o 5 "gauss-jacobi" = Ok (w, xi, eta) -> Rule2 w xi eta (Phi FLegendre 0 0) = 4.
Proof.
  intros o w xi eta Ho Hq. destruct (quad_exact_low o 5 "gauss-jacobi" w xi eta 3 Ho Hq ltac:(cbn; lia)) as (E & _).
  pose (k := fun i => match i with O => - 3 / 2 | 2%nat => 3 / 2 | _ => 0 end).
  transitivity (Rule2 w xi eta (Poly2 (fun i j => k i * k j) 3)).
  { apply rule2_ext. intros x y. unfold Phi. rewrite !phi1. unfold Poly2, k. cbn. field. }
  rewrite E, Int2_poly. cbn [rsum Sum k]. destruct Int1_pow01 as [-> ->].
  assert (Q : RInt (fun t => t ^ 2) (-1) 1 = 2 / 3).
  { rewrite (RInt_of_derive (fun t => t * t * t / 3) (fun t => t ^ 2)).
    - eqR. lra.
    - intros x. auto_derive; auto. eqR. field.
    - intros x. eapply pdeg_continuous. apply pdeg_pow. }
  rewrite Q. unfold k. field.
Qed.
Lemma flat_loss : forall o, oracle_ok o 5 -> 
  let CL := cell_loss o (kite_cf "affine") (fun _ _ => 1) flat (fun _ => (0, 0)) (fun _ => 1) 0 0 0 in
  CL kite = 9 * CL (shifted kite) /\ 0 < CL (shifted kite).
Proof.
  intros o Ho CL.
  assert (A1 : accepted (kite_cf "affine") kite) by (constructor; cbn; try lia; auto 10; right; split; [auto | unfold cross; cbn; lra]).
  assert (A2 : accepted (kite_cf "affine") (shifted kite)) by (constructor; cbn; try lia; auto 10; right; split; [auto | unfold cross; cbn; lra]).
  destruct (flat_weak o kite (3 / 4) Ho ltac:(intros; rewrite affine_jac; cbn; field) ltac:(lra) A1) as (fam & w & xi & eta & E1 & E2 & E3).
  destruct (flat_weak o (shifted kite) (1 / 4) Ho ltac:(intros; rewrite affine_jac; cbn; field) ltac:(lra) A2) as (fam' & w' & xi' & eta' & E1' & E2' & E3').
  rewrite E1 in E1'. injection E1' as <-. rewrite E2 in E2'. injection E2' as <- <- <-. cbn in E1. injection E1 as <-.
  unfold CL, cell_loss. cbn [kite_cf cf_fe_order]. change (Z.to_nat 4) with 4%nat. change Sum with rsum. rewrite !rsum_mul.
  split.
  - replace (9 * (rsum (fun i => rsum (fun j => cell_weak o (kite_cf "affine") (fun _ _ => 1) flat (fun _ => (0, 0)) (fun _ => 1) 0 0 0 (shifted kite) (i * 4 + j) ^ 2) 4) 4 / INR (4 * 4)))
      with ((9 * rsum (fun i => rsum (fun j => cell_weak o (kite_cf "affine") (fun _ _ => 1) flat (fun _ => (0, 0)) (fun _ => 1) 0 0 0 (shifted kite) (i * 4 + j) ^ 2) 4) 4) / INR (4 * 4))
      by (unfold Rdiv; ring).
    f_equal. rewrite <- rsum_scal. apply rsum_ext. intros i Hi. rewrite <- rsum_scal. apply rsum_ext. intros j Hj.
    rewrite !(Nat.mul_comm i), E3, E3' by auto. field.
  - apply Rmult_lt_0_compat; [|apply Rinv_0_lt_compat, lt_0_INR; lia].
    assert (P : 0 < cell_weak o (kite_cf "affine") (fun _ _ => 1) flat (fun _ => (0, 0)) (fun _ => 1) 0 0 0 (shifted kite) (0 * 4 + 0) ^ 2).
    { replace (0 * 4 + 0)%nat with (4 * 0 + 0)%nat by lia. rewrite E3' by lia. rewrite (rule_phi00 o) by auto. lra. }
    rewrite rsum_S_l, rsum_S_l. 
    assert (N1 := rsum_nonneg (fun i => rsum (fun j => cell_weak o (kite_cf "affine") (fun _ _ => 1) flat (fun _ => (0, 0)) (fun _ => 1) 0 0 0 (shifted kite) (S i * 4 + j) ^ 2) 4) 3
      ltac:(intros; apply rsum_nonneg; intros; apply pow2_ge_0)).
    assert (N2 := rsum_nonneg (fun j => cell_weak o (kite_cf "affine") (fun _ _ => 1) flat (fun _ => (0, 0)) (fun _ => 1) 0 0 0 (shifted kite) (0 * 4 + S j) ^ 2) 3 
      ltac:(intros; apply pow2_ge_0)).
    lra.
Qed.
Lemma affine_numbering : exists o s s' h h' dir L L', oracle_ok o 5 /\ convex_ccw kite /\
  make_space o (kite_cf "affine") [kite] bp1 bf1 false = Ok s /\ make_space o (kite_cf "affine") [shifted kite] bp1 bf1 false = Ok s' /\
  make_handler s (fun _ _ => 1) true = Ok h /\ make_handler s' (fun _ _ => 1) true = Ok h' /\ get_dirichlet_input bp1 bf1 = Ok dir /\
  train_hard (model_of h dir dir pde_loss_poisson 1) (ex_net 0 0 0) 1 (Some [("eps"%string, 1)]) = Ok L /\
  train_hard (model_of h' dir dir pde_loss_poisson 1) (ex_net 0 0 0) 1 (Some [("eps"%string, 1)]) = Ok L' /\
  l_pde L = 9 * l_pde L' /\ 0 < l_pde L'.
Proof.
  destruct (any_oracle_ok 5) as [o Ho].
  assert (S : forall c, In c [kite; shifted kite] -> exists s, make_space o (kite_cf "affine") [c] bp1 bf1 false = Ok s).
  { intros c Hc. apply (space_iff o (kite_cf "affine") [c] bp1 bf1 false (oracle_lengths _ _ Ho)).
    split; [discriminate|]. split; [|split; [|discriminate]]. 2:{ intros tag pts [K|[]] _. injection K as <- <-. now left. }
    intros d [<- | []]. constructor; cbn; try lia; auto 10. right. split; [reflexivity|]. destruct Hc as [<- | [<- | []]]; unfold cross; cbn; lra. }
  destruct (S kite ltac:(cbn; auto)) as [s Hs]. destruct (S (shifted kite) ltac:(cbn; auto)) as [s' Hs'].
  destruct (handler_spec o (kite_cf "affine") _ _ _ _ s (oracle_lengths _ _ Ho) Hs (fun _ _ => 1)) as (h & Eh & _).
  destruct (handler_spec o (kite_cf "affine") _ _ _ _ s' (oracle_lengths _ _ Ho) Hs' (fun _ _ => 1)) as (h' & Eh' & _).
  destruct (get_dirichlet_input bp1 bf1) as [dir|] eqn:Ed; [|discriminate].
  assert (Hne : fst dir <> []) by (cbn in Ed; injection Ed as <-; discriminate).
  assert (Eq : equation pde_loss_poisson [("eps"%string, 1)] 1 0 0 0) by (constructor; reflexivity).
  destruct (step_hard o (kite_cf "affine") [kite] bp1 bf1 false s _ h dir dir _ 1 Ho Hs Eh Ed Hne _ _ (ex_net_pointwise 0 0 0) _ _ 1 0 0 0 Eq) as (L & E1 & E2 & _).
  destruct (step_hard o (kite_cf "affine") [shifted kite] bp1 bf1 false s' _ h' dir dir _ 1 Ho Hs' Eh' Ed Hne _ _ (ex_net_pointwise 0 0 0) _ _ 1 0 0 0 Eq) as (L' & E1' & E2' & _).
  destruct (flat_loss o Ho) as [F1 F2]. unfold flat in F1, F2. cbn [fold_right] in E2, E2'. rewrite Rplus_0_r in E2, E2'.
  exists o, s, s', h, h', dir, L, L'.
  refine (conj Ho (conj kite_convex (conj Hs (conj Hs' (conj Eh (conj Eh' (conj eq_refl (conj E1 (conj E1' _))))))))).
  rewrite E2, E2'. split; assumption.
Qed.
