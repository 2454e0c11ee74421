(* C59, C60: quadrature error of the residuals and of the loss; exact solutions. *)
From Coq Require Import String ZArith List Arith Lia Permutation Reals Lra FunctionalExtensionality.
From Coquelicot Require Import Coquelicot.
From Verif Require Import Num Py PyFacts Jacobi Quadrature Basis Transform Cell Space Tensor Data Physics Train RCalc PolyFacts ListFacts
  Spec SpecGeom SpecMesh SpecPde TransformFacts CellFacts2 SpaceFacts TransformFacts2 ForcingFacts TensorFacts SpecTrain BasisFacts2 PhysicsFacts
  DataFacts TrainFacts PipelineFacts ExactFacts ExactTrain ExactExamples SpecWeak WeakFacts SimilarFacts SymRule NumberFacts PolyDeg LegendreFacts QuadFacts
  Metrics MetricFacts Weierstrass SquareInt.
Import ListNotations.
Local Open Scope R_scope.

(* ---------- continuity of the weak integrand ---------- *)
Lemma refmap_form : forall tr c, exists a0 a1 a2 a3 b0 b1 b2 b3, forall x y,
  RefMap tr c x y = (a0 + a1 * x + a2 * y + a3 * (x * y), b0 + b1 * x + b2 * y + b3 * (x * y)).
Proof.
  intros tr c. unfold RefMap. destruct (String.eqb tr "affine").
  - exists ((fst (v1 c) + fst (v3 c)) / 2), ((fst (v1 c) - fst (v0 c)) / 2), ((fst (v3 c) - fst (v0 c)) / 2), 0,
      ((snd (v1 c) + snd (v3 c)) / 2), ((snd (v1 c) - snd (v0 c)) / 2), ((snd (v3 c) - snd (v0 c)) / 2), 0.
    intros x y. f_equal; field.
  - pose (co := fun w0 w1 w2 w3 : R => ((w0 + w1 + w2 + w3) / 4, (- w0 + w1 + w2 - w3) / 4, (- w0 - w1 + w2 + w3) / 4, (w0 - w1 + w2 - w3) / 4)).
    exists ((fst (v0 c) + fst (v1 c) + fst (v2 c) + fst (v3 c)) / 4), ((- fst (v0 c) + fst (v1 c) + fst (v2 c) - fst (v3 c)) / 4),
      ((- fst (v0 c) - fst (v1 c) + fst (v2 c) + fst (v3 c)) / 4), ((fst (v0 c) - fst (v1 c) + fst (v2 c) - fst (v3 c)) / 4),
      ((snd (v0 c) + snd (v1 c) + snd (v2 c) + snd (v3 c)) / 4), ((- snd (v0 c) + snd (v1 c) + snd (v2 c) - snd (v3 c)) / 4),
      ((- snd (v0 c) - snd (v1 c) + snd (v2 c) + snd (v3 c)) / 4), ((snd (v0 c) - snd (v1 c) + snd (v2 c) - snd (v3 c)) / 4).
    intros x y. f_equal; field.
Qed.
Lemma form_partials : forall k0 k1 k2 k3 x y,
  is_derive (fun s => k0 + k1 * s + k2 * y + k3 * (s * y)) x (k1 + k3 * y) /\
  is_derive (fun t => k0 + k1 * x + k2 * t + k3 * (x * t)) y (k2 + k3 * x).
Proof. intros. split; auto_derive; auto; ring. Qed.
Lemma csq_bil : forall k0 k1 k2 k3, csq (fun x y => k0 + k1 * x + k2 * y + k3 * (x * y)).
Proof.
  intros. assert (I1 : csq (fun x _ => x)) by (intros x y _; apply continuity_2d_pt_id1). assert (I2 : csq (fun _ y => y)) by (intros x y _; apply continuity_2d_pt_id2).
  apply csq_plus; [apply csq_plus; [apply csq_plus; [apply csq_const|]|]|]; (apply csq_mult; [apply csq_const|]); auto. now apply csq_mult.
Qed.
Lemma csq_comp : forall h X Y, csq X -> csq Y -> (forall x y, in_square x y -> continuity_2d_pt h (X x y) (Y x y)) -> csq (fun x y => h (X x y) (Y x y)).
Proof.
  intros h X Y HX HY H x y Hxy eps. destruct (H x y Hxy eps) as [del K].
  destruct (HX x y Hxy del) as [d1 K1]. destruct (HY x y Hxy del) as [d2 K2].
  assert (P : 0 < Rmin d1 d2) by (apply Rmin_pos; apply cond_pos). exists (mkposreal _ P). cbn. intros u v Hu Hv.
  apply K; [apply K1 | apply K2]; eapply Rlt_le_trans; eauto; (apply Rmin_l || apply Rmin_r).
Qed.
Lemma csq_inv : forall F, csq F -> (forall x y, in_square x y -> F x y <> 0) -> csq (fun x y => / F x y).
Proof. intros F HF H x y Hxy. apply continuity_2d_pt_inv; auto. Qed.
Lemma csq_abs : forall F, csq F -> csq (fun x y => Rabs (F x y)).
Proof. intros F HF x y Hxy. apply (continuity_1d_2d_pt_comp Rabs F); [apply Rcontinuity_abs | auto]. Qed.
Lemma phi_c1 : forall fam i, (forall x, continuous (phi fam (S i)) x) /\ (forall x, continuous (Derive (phi fam (S i))) x).
Proof.
  intros fam i. pose proof (phi_pdeg fam (S i) i ltac:(lia)) as P. split; [intros; eapply pdeg_continuous; exact P|].
  replace (S i + 2)%nat with (S (i + 2)) in P by lia. intros x. eapply pdeg_continuous. apply (deriv_pdeg (i + 2) _ _ P). intros. apply Derive_correct, phi_ex.
Qed.
Lemma Phi_partials : forall fam i j x y, Dx (Phi fam i j) x y = Derive (phi fam (S i)) x * phi fam (S j) y /\ Dy (Phi fam i j) x y = phi fam (S i) x * Derive (phi fam (S j)) y.
Proof.
  intros. unfold Dx, Dy, Phi. split; [|apply Derive_scal].
  rewrite (Derive_ext _ (fun t => phi fam (S j) y * phi fam (S i) t)) by (intros; apply Rmult_comm). rewrite Derive_scal. apply Rmult_comm.
Qed.
Lemma Phi_csq : forall fam i j, csq (Phi fam i j) /\ csq (Dx (Phi fam i j)) /\ csq (Dy (Phi fam i j)).
Proof.
  intros fam i j. destruct (phi_c1 fam i) as [A1 A2]. destruct (phi_c1 fam j) as [B1 B2]. refine (conj _ (conj _ _)).
  - unfold Phi. apply csq_mult; [apply (csq_1 _ A1) | apply (csq_2 _ B1)].
  - apply (csq_ext (fun x y => Derive (phi fam (S i)) x * phi fam (S j) y)); [intros; symmetry; apply (proj1 (Phi_partials _ _ _ _ _))|].
    apply csq_mult; [apply (csq_1 _ A2) | apply (csq_2 _ B1)].
  - apply (csq_ext (fun x y => phi fam (S i) x * Derive (phi fam (S j)) y)); [intros; symmetry; apply (proj2 (Phi_partials _ _ _ _ _))|].
    apply csq_mult; [apply (csq_1 _ A1) | apply (csq_2 _ B2)].
Qed.

Section Integrand.
Variables (tr : string) (cells : list (cell R)) (c : cell R).
Hypothesis Hin : In c cells.
Hypothesis Hreg : forall x y, in_square x y -> JacDet (RefMap tr c) x y <> 0.
(* the map and its partial derivatives *)
Lemma map_form : exists a0 a1 a2 a3 b0 b1 b2 b3,
  (forall x y, RefMap tr c x y = (a0 + a1 * x + a2 * y + a3 * (x * y), b0 + b1 * x + b2 * y + b3 * (x * y))) /\
  forall x y, Dx (fun s t => fst (RefMap tr c s t)) x y = a1 + a3 * y /\ Dx (fun s t => snd (RefMap tr c s t)) x y = b1 + b3 * y /\
    Dy (fun s t => fst (RefMap tr c s t)) x y = a2 + a3 * x /\ Dy (fun s t => snd (RefMap tr c s t)) x y = b2 + b3 * x.
Proof.
  destruct (refmap_form tr c) as (a0 & a1 & a2 & a3 & b0 & b1 & b2 & b3 & E). exists a0, a1, a2, a3, b0, b1, b2, b3. split; [exact E|].
  intros x y. unfold Dx, Dy. refine (conj _ (conj _ (conj _ _))).
  - rewrite (Derive_ext _ (fun s => a0 + a1 * s + a2 * y + a3 * (s * y))) by (intros; now rewrite E). exact (is_derive_unique _ _ _ (proj1 (form_partials a0 a1 a2 a3 x y))).
  - rewrite (Derive_ext _ (fun s => b0 + b1 * s + b2 * y + b3 * (s * y))) by (intros; now rewrite E). exact (is_derive_unique _ _ _ (proj1 (form_partials b0 b1 b2 b3 x y))).
  - rewrite (Derive_ext _ (fun t => a0 + a1 * x + a2 * t + a3 * (x * t))) by (intros; now rewrite E). exact (is_derive_unique _ _ _ (proj2 (form_partials a0 a1 a2 a3 x y))).
  - rewrite (Derive_ext _ (fun t => b0 + b1 * x + b2 * t + b3 * (x * t))) by (intros; now rewrite E). exact (is_derive_unique _ _ _ (proj2 (form_partials b0 b1 b2 b3 x y))).
Qed.
Lemma map_csq : csq (fun x y => fst (RefMap tr c x y)) /\ csq (fun x y => snd (RefMap tr c x y)).
Proof.
  destruct map_form as (a0 & a1 & a2 & a3 & b0 & b1 & b2 & b3 & E & _). split.
  - apply (csq_ext (fun x y => a0 + a1 * x + a2 * y + a3 * (x * y))); [intros; now rewrite E | apply csq_bil].
  - apply (csq_ext (fun x y => b0 + b1 * x + b2 * y + b3 * (x * y))); [intros; now rewrite E | apply csq_bil].
Qed.
Lemma partial_csq : csq (Dx (fun s t => fst (RefMap tr c s t))) /\ csq (Dx (fun s t => snd (RefMap tr c s t))) /\
  csq (Dy (fun s t => fst (RefMap tr c s t))) /\ csq (Dy (fun s t => snd (RefMap tr c s t))).
Proof.
  destruct map_form as (a0 & a1 & a2 & a3 & b0 & b1 & b2 & b3 & _ & D).
  refine (conj _ (conj _ (conj _ _))); [apply (csq_ext (fun x y => a1 + 0 * x + a3 * y + 0 * (x * y))) | apply (csq_ext (fun x y => b1 + 0 * x + b3 * y + 0 * (x * y)))
    | apply (csq_ext (fun x y => a2 + a3 * x + 0 * y + 0 * (x * y))) | apply (csq_ext (fun x y => b2 + b3 * x + 0 * y + 0 * (x * y)))]; try apply csq_bil;
    intros x y; destruct (D x y) as (E1 & E2 & E3 & E4); rewrite ?E1, ?E2, ?E3, ?E4; ring.
Qed.
Lemma on_csq : forall h, continuous_on tr cells h -> csq (fun x y => h (fst (RefMap tr c x y)) (snd (RefMap tr c x y))).
Proof.
  intros h Hh. destruct map_csq as [M1 M2]. apply (csq_comp h (fun x y => fst (RefMap tr c x y)) (fun x y => snd (RefMap tr c x y)) M1 M2).
  intros x y Hxy. now apply Hh.
Qed.
Lemma on_csq_pt : forall h : point -> R, continuous_on tr cells (fun x y => h (x, y)) -> csq (fun x y => h (RefMap tr c x y)).
Proof. intros h Hh. apply (csq_ext (fun x y => h (fst (RefMap tr c x y), snd (RefMap tr c x y)))); [intros; now rewrite <- surjective_pairing | apply (on_csq _ Hh)]. Qed.
Lemma integrand_csq : forall f U G a bx bn g fam i j, continuous_data tr cells f U G a ->
  csq (weak_integrand f U G a bx bn g (RefMap tr c) (Phi fam i j)).
Proof.
  intros f U G a bx bn g fam i j (Cf & CU & CG1 & CG2 & Ca). destruct partial_csq as (PA & PB & PC & PD). destruct (Phi_csq fam i j) as (P0 & P1 & P2).
  apply on_csq in Cf. apply (on_csq_pt U) in CU. apply (on_csq_pt (fun p => fst (G p))) in CG1. apply (on_csq_pt (fun p => snd (G p))) in CG2. apply (on_csq_pt a) in Ca.
  assert (CJ : csq (fun x y => Dx (fun s t => fst (RefMap tr c s t)) x y * Dy (fun s t => snd (RefMap tr c s t)) x y
    - Dy (fun s t => fst (RefMap tr c s t)) x y * Dx (fun s t => snd (RefMap tr c s t)) x y)) by (apply csq_minus; now apply csq_mult).
  assert (CI := csq_inv _ CJ Hreg). unfold weak_integrand. cbv zeta.
  apply csq_mult; [now apply csq_abs|]. apply csq_plus.
  - apply csq_mult; [exact Ca|]. unfold Rdiv. apply csq_plus; repeat first [assumption | apply csq_mult | apply csq_minus].
  - apply csq_mult; [exact P0|]. repeat first [assumption | apply csq_const | apply csq_minus | apply csq_plus | apply csq_mult].
Qed.
End Integrand.

(* ---------- the residual of a cell ---------- *)
Section Residual.
Variables (o : quad_oracle R) (cf : config) (cells : list (cell R)) (f : R -> R -> R) (U : point -> R) (G : point -> point) (a : point -> R) (bx bn g : R).
Hypothesis Ho : oracle_ok o (Z.to_nat (cf_quad_order cf)).
Hypothesis Hdata : continuous_data (cf_trafo cf) cells f U G a.
Hypothesis Hconv : forall c, In c cells -> strictly_convex c.
Hypothesis Hacc : forall c, In c cells -> accepted cf c.
Let k := Z.to_nat (cf_fe_order cf).
Let D := exactness (cf_quad_type cf) (Z.to_nat (cf_quad_order cf)).
Lemma residual_error : forall c i j fam eps, In c cells -> (i < k)%nat -> (j < k)%nat -> family_of (cf_fe_type cf) = Some fam ->
  near_poly eps D (weak_integrand f U G a bx bn g (RefMap (cf_trafo cf) c) (Phi fam i j)) ->
  Rabs (cell_weak o cf f U G a bx bn g c (k * i + j) - exact_res f U G a bx bn g (cf_trafo cf) fam c i j) <= 8 * eps.
Proof.
  intros c i j fam eps Hc Hi Hj Hf (co & Hn). pose proof (oracle_lengths _ _ Ho) as Hl.
  destruct (proj2 (make_cell_iff o cf c Hl) (Hacc c Hc)) as (d & Ed).
  pose proof (regular_convex o cf c Hl (Hacc c Hc) (Hconv c Hc)) as Hreg.
  destruct (weak_rule f U G a bx bn g o cf c d Ho Ed Hreg) as (fam' & w & xi & eta & E1 & E2 & E3).
  rewrite Hf in E1. injection E1 as <-. unfold cell_weak. rewrite Ed. fold k in E3. rewrite (E3 i j Hi Hj).
  apply (quad_error o (cf_quad_order cf) (cf_quad_type cf) w xi eta _ co D); auto.
  apply (integrand_csq (cf_trafo cf) cells c Hc Hreg); exact Hdata.
Qed.
End Residual.

(* ---------- norms ---------- *)
Lemma norm_diff : forall u v, length u = length v -> Rabs (sqrt (sq u) - sqrt (sq v)) <= sqrt (sq (map2 Rminus u v)).
Proof.
  intros u v H. apply Rabs_le_between.
  assert (L1 : length (map2 Rminus u v) = length v) by (rewrite map2_length, H; apply Nat.min_id).
  assert (L2 : length (map2 Rminus v u) = length u) by (rewrite map2_length, H; apply Nat.min_id).
  pose proof (minkowski v (map2 Rminus u v) ltac:(congruence)) as M1. pose proof (minkowski u (map2 Rminus v u) ltac:(congruence)) as M2.
  assert (A : forall p q, length p = length q -> map2 Rplus q (map2 Rminus p q) = p).
  { clear. induction p as [|x p IH]; intros [|y q] H; try discriminate; [reflexivity|]. cbn [map2]. injection H as H. rewrite (IH q H). f_equal. ring. }
  rewrite (A u v H) in M1. rewrite (A v u (eq_sym H)) in M2.
  assert (S : sq (map2 Rminus v u) = sq (map2 Rminus u v)).
  { clear -H. revert v H. induction u as [|x u IH]; intros [|y v] H; try discriminate; [reflexivity|]. injection H as H. unfold sq in *. cbn [map2 np_square map].
    rewrite !vsum_cons. unfold np_square in IH. rewrite (IH v H). ring. }
  rewrite S in M2. lra.
Qed.
Lemma rsum_le : forall F G n, (forall r, (r < n)%nat -> F r <= G r) -> rsum F n <= rsum G n.
Proof. intros F G n H. induction n as [|n IH]; [cbn; lra|]. rewrite !rsum_S. apply Rplus_le_compat; auto. Qed.
Lemma rsum_const : forall c n, rsum (fun _ => c) n = INR n * c.
Proof. intros c n. induction n as [|n IH]; [cbn; ring|]. rewrite rsum_S, IH, S_INR. ring. Qed.
Lemma sq_app : forall u v, sq (u ++ v) = sq u + sq v.
Proof. intros. unfold sq, np_square. rewrite map_app. apply vsum_app. Qed.
Lemma sq_seq : forall (h : nat -> R) T, sq (map h (seq 0 T)) = Sum (fun r => h r ^ 2) T.
Proof.
  intros h T. unfold sq, np_square. rewrite vsum_rsum, !map_length, seq_length. change Sum with rsum. apply rsum_ext. intros r Hr.
  rewrite map_map, nth_seq_map by exact Hr. rewrite Nat.add_0_l. cbn. ring.
Qed.
Lemma sq_flat : forall (A : Type) (h : A -> list R) l, sq (flat_map h l) = fold_right (fun c acc => sq (h c) + acc) 0 l.
Proof. intros A h l. induction l as [|x l IH]; [reflexivity|]. cbn [flat_map fold_right]. now rewrite sq_app, IH. Qed.
Lemma flat_minus : forall (A : Type) (h h' : A -> list R) l, (forall c, length (h c) = length (h' c)) ->
  map2 Rminus (flat_map h l) (flat_map h' l) = flat_map (fun c => map2 Rminus (h c) (h' c)) l /\ length (flat_map h l) = length (flat_map h' l).
Proof.
  intros A h h' l H. induction l as [|x l [IH1 IH2]]; [split; reflexivity|]. cbn [flat_map]. split.
  - rewrite <- IH1. specialize (H x). revert H. generalize (h x), (h' x). clear. induction l0 as [|a l0 IH]; intros [|b l1] H; try discriminate; [reflexivity|].
    injection H as H. cbn [app map2]. now rewrite (IH l1 H).
  - rewrite !app_length, H. congruence.
Qed.
Lemma loss_diff : forall (A : Type) (l : list A) (w e : A -> nat -> R) T del, (0 < T)%nat -> 0 <= del ->
  (forall c r, In c l -> (r < T)%nat -> Rabs (w c r - e c r) <= del) ->
  Rabs (sqrt (fold_right (fun c acc => Sum (fun r => w c r ^ 2) T / INR T + acc) 0 l)
        - sqrt (fold_right (fun c acc => Sum (fun r => e c r ^ 2) T / INR T + acc) 0 l)) <= del * sqrt (INR (length l)).
Proof.
  intros A l w e T del HT Hd H. assert (P : 0 < INR T) by now apply lt_0_INR.
  pose (V := fun (z : A -> nat -> R) c => map (fun r => z c r / sqrt (INR T)) (seq 0 T)).
  assert (Q : sqrt (INR T) * sqrt (INR T) = INR T) by (apply sqrt_sqrt; lra). assert (Qp : 0 < sqrt (INR T)) by (apply sqrt_lt_R0; lra).
  assert (E : forall z, fold_right (fun c acc => Sum (fun r => z c r ^ 2) T / INR T + acc) 0 l = sq (flat_map (V z) l)).
  { intros z. rewrite sq_flat. clear H. induction l as [|x l IH]; [reflexivity|]. cbn [fold_right]. rewrite IH. f_equal. unfold V. rewrite sq_seq.
    change Sum with rsum. unfold Rdiv at 1. rewrite <- rsum_scal_r. apply rsum_ext. intros r Hr. rewrite <- Q at 1. field. lra. }
  rewrite (E w), (E e). destruct (flat_minus A (V w) (V e) l) as [F1 F2]; [intros; unfold V; now rewrite !map_length|].
  eapply Rle_trans; [apply norm_diff; exact F2|]. rewrite F1, sq_flat.
  rewrite <- (sqrt_square del Hd) at 1. rewrite <- sqrt_mult by (try apply pos_INR; nra). apply sqrt_le_1_alt.
  clear E F1 F2. induction l as [|x l IH]; [cbn; lra|]. cbn [fold_right length]. rewrite S_INR.
  specialize (IH (fun c r Hc Hr => H c r (or_intror Hc) Hr)).
  assert (B : sq (map2 Rminus (V w x) (V e x)) <= del * del); [|lra].
  assert (EV : map2 Rminus (V w x) (V e x) = map (fun r => (w x r - e x r) / sqrt (INR T)) (seq 0 T)).
  { unfold V. generalize (seq 0 T). clear. induction l as [|r l IH]; [reflexivity|]. cbn [map map2]. rewrite IH. f_equal. unfold Rdiv. ring. }
  rewrite EV, sq_seq. change Sum with rsum.
  apply Rle_trans with (rsum (fun r => del * del / INR T) T).
  - apply rsum_le. intros r Hr. specialize (H x r (or_introl eq_refl) Hr). apply Rabs_le_between in H.
    replace (((w x r - e x r) / sqrt (INR T)) ^ 2) with ((w x r - e x r) ^ 2 / INR T) by (rewrite <- Q at 1; field; lra).
    apply Rmult_le_compat_r; [left; now apply Rinv_0_lt_compat|]. nra.
  - rewrite rsum_const. right. field. lra.
Qed.

(* ---------- integration by parts over the square ---------- *)
Lemma csq_cont_x : forall F x y, csq F -> in_square x y -> continuous (fun s => F s y) x.
Proof.
  intros F x y HF Hxy. apply cont_of_eps. intros e He. destruct (HF x y Hxy (mkposreal e He)) as [del K]. exists del. split; [apply cond_pos|].
  intros u Hu. apply (K u y); [exact Hu|]. rewrite Rminus_eq_0, Rabs_R0. apply cond_pos.
Qed.
Lemma I2_dx : forall F F', (forall x y, in_square x y -> is_derive (fun s => F s y) x (F' x y)) -> csq F' ->
  (forall y, F 1 y = 0 /\ F (-1) y = 0) -> I2 F' = 0.
Proof.
  intros F F' Hd Hc H0. unfold I2, Int2. rewrite (RInt_ext11 _ (fun _ => 0)).
  - rewrite RInt_const. apply Rmult_0_r.
  - intros y Hy. apply is_RInt_unique. replace 0 with (minus (F 1 y) (F (-1) y)); [apply (is_RInt_derive (fun x => F x y) (fun x => F' x y))|].
    + rewrite Rmin_left, Rmax_right by lra. intros x Hx. apply Hd. split; auto.
    + rewrite Rmin_left, Rmax_right by lra. intros x Hx. apply csq_cont_x; auto. split; auto.
    + destruct (H0 y) as [-> ->]. unfold minus, plus, opp. cbn. ring.
Qed.
Lemma I2_dy : forall F F', (forall x y, in_square x y -> is_derive (fun t => F x t) y (F' x y)) -> csq F' ->
  (forall x, F x 1 = 0 /\ F x (-1) = 0) -> I2 F' = 0.
Proof.
  intros F F' Hd Hc H0. rewrite (fubini F' Hc). apply (I2_dx (fun x y => F y x) (fun x y => F' y x)).
  - intros x y [Hx Hy]. apply Hd. split; auto.
  - now apply csq_flip.
  - exact H0.
Qed.
Lemma chain : forall (P X Y : R -> R -> R) x y A B C D, differentiable_pt P (X x y) (Y x y) ->
  is_derive (fun s => X s y) x A -> is_derive (fun s => Y s y) x B -> is_derive (fun t => X x t) y C -> is_derive (fun t => Y x t) y D ->
  is_derive (fun s => P (X s y) (Y s y)) x (Dx P (X x y) (Y x y) * A + Dy P (X x y) (Y x y) * B) /\
  is_derive (fun t => P (X x t) (Y x t)) y (Dx P (X x y) (Y x y) * C + Dy P (X x y) (Y x y) * D).
Proof.
  intros P X Y x y A B C D (lx & ly & H) HA HB HC HD. destruct (differentiable_pt_lim_unique _ _ _ _ _ H) as [E1 E2].
  unfold Dx, Dy. rewrite E1, E2. split; apply is_derive_Reals.
  - apply (derivable_pt_lim_comp_2d P (fun s => X s y) (fun s => Y s y)); [exact H| |]; now apply is_derive_Reals.
  - apply (derivable_pt_lim_comp_2d P (fun t => X x t) (fun t => Y x t)); [exact H| |]; now apply is_derive_Reals.
Qed.

(* ---------- exact solutions ---------- *)
Section Exact.
Variables (tr : string) (cells : list (cell R)) (c : cell R).
Hypothesis Hin : In c cells.
Hypothesis Hreg : forall x y, in_square x y -> JacDet (RefMap tr c) x y <> 0.
Lemma constant_sign : exists sg, forall x y, in_square x y -> Rabs (JacDet (RefMap tr c) x y) = sg * JacDet (RefMap tr c) x y.
Proof.
  destruct (map_form tr c) as (a0 & a1 & a2 & a3 & b0 & b1 & b2 & b3 & _ & E).
  assert (J : forall x y, JacDet (RefMap tr c) x y = (a1 * b2 - a2 * b1) + (a1 * b3 - a3 * b1) * x + (a3 * b2 - a2 * b3) * y).
  { intros x y. unfold JacDet. destruct (E x y) as (E1 & E2 & E3 & E4). unfold Dx, Dy in E1, E2, E3, E4. rewrite E1, E2, E3, E4. ring. }
  revert J. generalize (a1 * b2 - a2 * b1) (a1 * b3 - a3 * b1) (a3 * b2 - a2 * b3). intros j0 j1 j2 J.
  assert (S0 : in_square 0 0) by (split; lra). pose proof (Hreg 0 0 S0) as N0. rewrite J in N0. replace (j0 + j1 * 0 + j2 * 0) with j0 in N0 by ring.
  assert (K : forall x y, in_square x y -> 0 < j0 * JacDet (RefMap tr c) x y).
  { intros x y Hxy. destruct (Rlt_le_dec 0 (j0 * JacDet (RefMap tr c) x y)) as [|Hn]; [assumption|]. exfalso. rewrite J in Hn.
    set (d := j1 * x + j2 * y). assert (Hd : j0 * (j0 + d) <= 0) by (unfold d; lra). assert (P : 0 < j0 * j0) by (apply Rsqr_pos_lt; exact N0).
    assert (Hdn : j0 * d < 0) by lra. assert (dn : d <> 0) by (intros ->; lra).
    pose (t := - j0 / d).
    assert (Ht : 0 <= t <= 1).
    { assert (Et : t * (j0 * d) = - (j0 * j0)) by (unfold t; field; exact dn). split; nra. }
    destruct Hxy as [Hx Hy]. apply (Hreg (t * x) (t * y)); [split; nra|]. rewrite J.
    replace (j0 + j1 * (t * x) + j2 * (t * y)) with (j0 + t * d) by (unfold d; ring). unfold t. field. exact dn. }
  destruct (Rlt_le_dec 0 j0) as [Hp|Hp].
  - exists 1. intros x y Hxy. specialize (K x y Hxy). rewrite Rabs_right; [ring|]. nra.
  - exists (-1). intros x y Hxy. specialize (K x y Hxy). rewrite Rabs_left; [ring|]. nra.
Qed.
Variables (f u a : R -> R -> R) (U : point -> R) (G : point -> point) (A : point -> R) (bx bn g : R).
Hypothesis HP : C1_on tr cells (fun s t => a s t * Dx u s t).
Hypothesis HQ : C1_on tr cells (fun s t => a s t * Dy u s t).
Hypothesis Hr : represents tr cells u a U G A.
(* what the equation is missed by *)
Definition defect (s t : R) : R :=
  - (Dx (fun s t => a s t * Dx u s t) s t + Dy (fun s t => a s t * Dy u s t) s t) + bx * Dx u s t + bn * Dy u s t + g * u s t - f s t.
Lemma integrand_parts : forall fam i j, fam <> FJacobiPlain -> exists T1 T2, csq T1 /\ csq T2 /\ I2 T1 = 0 /\ I2 T2 = 0 /\
  forall x y, in_square x y -> weak_integrand f U G A bx bn g (RefMap tr c) (Phi fam i j) x y
    = T1 x y + T2 x y + Phi fam i j x y * (Rabs (JacDet (RefMap tr c) x y) * defect (fst (RefMap tr c x y)) (snd (RefMap tr c x y))).
Proof.
  intros fam i j Hfam. destruct constant_sign as [sg Hsg].
  destruct (map_form tr c) as (a0 & a1 & a2 & a3 & b0 & b1 & b2 & b3 & EM & EP).
  pose (X := fun x y => a0 + a1 * x + a2 * y + a3 * (x * y)). pose (Y := fun x y => b0 + b1 * x + b2 * y + b3 * (x * y)).
  pose (P := fun s t => a s t * Dx u s t). pose (Q := fun s t => a s t * Dy u s t).
  pose (p := fun x y => P (X x y) (Y x y)). pose (q := fun x y => Q (X x y) (Y x y)).
  pose (px := fun x y => Dx P (X x y) (Y x y)). pose (py := fun x y => Dy P (X x y) (Y x y)).
  pose (qx := fun x y => Dx Q (X x y) (Y x y)). pose (qy := fun x y => Dy Q (X x y) (Y x y)).
  pose (H1 := fun x y => (b2 + b3 * x) * p x y - (a2 + a3 * x) * q x y). pose (H2 := fun x y => (a1 + a3 * y) * q x y - (b1 + b3 * y) * p x y).
  pose (H1' := fun x y => b3 * p x y + (b2 + b3 * x) * (px x y * (a1 + a3 * y) + py x y * (b1 + b3 * y))
     - (a3 * q x y + (a2 + a3 * x) * (qx x y * (a1 + a3 * y) + qy x y * (b1 + b3 * y)))).
  pose (H2' := fun x y => a3 * q x y + (a1 + a3 * y) * (qx x y * (a2 + a3 * x) + qy x y * (b2 + b3 * x))
     - (b3 * p x y + (b1 + b3 * y) * (px x y * (a2 + a3 * x) + py x y * (b2 + b3 * x)))).
  pose (fi := phi fam (S i)). pose (fj := phi fam (S j)).
  pose (T1 := fun x y => (Derive fi x * fj y) * H1 x y + (fi x * fj y) * H1' x y).
  pose (T2 := fun x y => (fi x * Derive fj y) * H2 x y + (fi x * fj y) * H2' x y).
  assert (XY : forall x y, X x y = fst (RefMap tr c x y) /\ Y x y = snd (RefMap tr c x y)) by (intros; rewrite EM; split; reflexivity).
  assert (dP : forall x y, in_square x y -> differentiable_pt P (X x y) (Y x y)).
  { intros x y Hxy. destruct (XY x y) as [-> ->]. now apply (proj1 HP). }
  assert (dQ : forall x y, in_square x y -> differentiable_pt Q (X x y) (Y x y)).
  { intros x y Hxy. destruct (XY x y) as [-> ->]. now apply (proj1 HQ). }
  assert (CX : csq X) by apply csq_bil. assert (CY : csq Y) by apply csq_bil.
  assert (Cp : csq p) by (apply (csq_comp P X Y CX CY); intros x y Hxy; apply differentiable_continuity_pt; exact (dP x y Hxy)).
  assert (Cq : csq q) by (apply (csq_comp Q X Y CX CY); intros x y Hxy; apply differentiable_continuity_pt; exact (dQ x y Hxy)).
  assert (CC : forall h, continuous_on tr cells h -> csq (fun x y => h (X x y) (Y x y))).
  { intros h Hh. apply (csq_comp h X Y CX CY). intros x y Hxy. destruct (XY x y) as [-> ->]. now apply Hh. }
  assert (Cpx : csq px) by (apply (CC (Dx P)), HP). assert (Cpy : csq py) by (apply (CC (Dy P)), HP).
  assert (Cqx : csq qx) by (apply (CC (Dx Q)), HQ). assert (Cqy : csq qy) by (apply (CC (Dy Q)), HQ).
  assert (Lx : forall k0 k1, csq (fun x _ => k0 + k1 * x)).
  { intros k0 k1. apply (csq_ext (fun x y => k0 + k1 * x + 0 * y + 0 * (x * y))); [intros; ring | apply csq_bil]. }
  assert (Ly : forall k0 k1, csq (fun _ y => k0 + k1 * y)).
  { intros k0 k1. apply (csq_ext (fun x y => k0 + 0 * x + k1 * y + 0 * (x * y))); [intros; ring | apply csq_bil]. }
  assert (Lc : forall k0 h, csq h -> csq (fun x y => k0 * h x y)) by (intros; apply csq_mult; [apply csq_const | assumption]).
  destruct (Phi_csq fam i j) as (F0 & F1 & F2).
  assert (F1' : csq (fun x y => Derive fi x * fj y)) by (apply (csq_ext _ _ (fun x y => proj1 (Phi_partials fam i j x y)) F1)).
  assert (F2' : csq (fun x y => fi x * Derive fj y)) by (apply (csq_ext _ _ (fun x y => proj2 (Phi_partials fam i j x y)) F2)).
  assert (C1 : csq T1).
  { unfold T1. apply csq_plus; apply csq_mult; auto.
    - unfold H1. apply csq_minus; apply csq_mult; auto.
    - unfold H1'. apply csq_minus; (apply csq_plus; [now apply Lc|]); (apply csq_mult; [auto|]); apply csq_plus; apply csq_mult; auto. }
  assert (C2 : csq T2).
  { unfold T2. apply csq_plus; apply csq_mult; auto.
    - unfold H2. apply csq_minus; apply csq_mult; auto.
    - unfold H2'. apply csq_minus; (apply csq_plus; [now apply Lc|]); (apply csq_mult; [auto|]); apply csq_plus; apply csq_mult; auto. }
  assert (D1 : forall x y, in_square x y -> is_derive (fun s => p s y) x (px x y * (a1 + a3 * y) + py x y * (b1 + b3 * y)) /\
      is_derive (fun t => p x t) y (px x y * (a2 + a3 * x) + py x y * (b2 + b3 * x)) /\
      is_derive (fun s => q s y) x (qx x y * (a1 + a3 * y) + qy x y * (b1 + b3 * y)) /\
      is_derive (fun t => q x t) y (qx x y * (a2 + a3 * x) + qy x y * (b2 + b3 * x))).
  { intros x y Hxy. destruct (form_partials a0 a1 a2 a3 x y) as [K1 K2]. destruct (form_partials b0 b1 b2 b3 x y) as [K3 K4].
    destruct (chain P X Y x y _ _ _ _ (dP x y Hxy) K1 K3 K2 K4) as [R1 R2]. destruct (chain Q X Y x y _ _ _ _ (dQ x y Hxy) K1 K3 K2 K4) as [R3 R4].
    exact (conj R1 (conj R2 (conj R3 R4))). }
  assert (Dfi : forall x, is_derive fi x (Derive fi x)) by (intros; apply Derive_correct, phi_ex).
  assert (Dfj : forall x, is_derive fj x (Derive fj x)) by (intros; apply Derive_correct, phi_ex).
  destruct (phi_boundary fam (S i) ltac:(lia) Hfam) as [Bi1 Bi2]. destruct (phi_boundary fam (S j) ltac:(lia) Hfam) as [Bj1 Bj2].
  assert (Z1 : I2 T1 = 0).
  { apply (I2_dx (fun x y => (fi x * fj y) * H1 x y) T1); [|exact C1|].
    - intros x y Hxy. destruct (D1 x y Hxy) as (R1 & _ & R3 & _).
      assert (K : is_derive (fun s => (fun s => fi s * fj y) s * (fun s => (fun s => b2 + b3 * s) s * p s y - (fun s => a2 + a3 * s) s * q s y) s) x (T1 x y)); [|exact K].
      assert (K1 : is_derive (fun s => fi s * fj y) x (Derive fi x * fj y)) by (apply (is_derive_scal_l fi x (Derive fi x) (fj y)), Dfi).
      assert (K2 : is_derive (fun s => b2 + b3 * s) x b3) by (auto_derive; auto; ring).
      assert (K3 : is_derive (fun s => a2 + a3 * s) x a3) by (auto_derive; auto; ring).
      pose proof (is_derive_mult _ _ _ _ _ K2 R1 Rmult_comm) as M1. pose proof (is_derive_mult _ _ _ _ _ K3 R3 Rmult_comm) as M2.
      pose proof (is_derive_minus _ _ _ _ _ M1 M2) as M3. pose proof (is_derive_mult _ _ _ _ _ K1 M3 Rmult_comm) as M4.
      match type of M4 with is_derive _ _ ?l => replace (T1 x y) with l; [exact M4|] end.
      unfold T1, H1, H1', minus, plus, opp, mult. cbn. unfold mult. cbn. match goal with |- ?l = ?r => change (@eq R l r) end. ring.
    - intros y. unfold fi. rewrite Bi1, Bi2. now rewrite !Rmult_0_l. }
  assert (Z2 : I2 T2 = 0).
  { apply (I2_dy (fun x y => (fi x * fj y) * H2 x y) T2); [|exact C2|].
    - intros x y Hxy. destruct (D1 x y Hxy) as (_ & R2 & _ & R4).
      assert (K : is_derive (fun t => (fun t => fi x * fj t) t * (fun t => (fun t => a1 + a3 * t) t * q x t - (fun t => b1 + b3 * t) t * p x t) t) y (T2 x y)); [|exact K].
      assert (K1 : is_derive (fun t => fi x * fj t) y (fi x * Derive fj y)) by (apply (is_derive_scal fj y (fi x) (Derive fj y)), Dfj).
      assert (K2 : is_derive (fun s => a1 + a3 * s) y a3) by (auto_derive; auto; ring).
      assert (K3 : is_derive (fun s => b1 + b3 * s) y b3) by (auto_derive; auto; ring).
      pose proof (is_derive_mult _ _ _ _ _ K2 R4 Rmult_comm) as M1. pose proof (is_derive_mult _ _ _ _ _ K3 R2 Rmult_comm) as M2.
      pose proof (is_derive_minus _ _ _ _ _ M1 M2) as M3. pose proof (is_derive_mult _ _ _ _ _ K1 M3 Rmult_comm) as M4.
      match type of M4 with is_derive _ _ ?l => replace (T2 x y) with l; [exact M4|] end.
      unfold T2, H2, H2', minus, plus, opp, mult. cbn. unfold mult. cbn. match goal with |- ?l = ?r => change (@eq R l r) end. ring.
    - intros x. unfold fj. rewrite Bj1, Bj2. now rewrite !Rmult_0_r, !Rmult_0_l. }
  exists (fun x y => sg * T1 x y), (fun x y => sg * T2 x y). rewrite (I2_scal sg T1 C1), (I2_scal sg T2 C2), Z1, Z2.
  refine (conj (Lc sg T1 C1) (conj (Lc sg T2 C2) (conj (Rmult_0_r _) (conj (Rmult_0_r _) _)))).
  intros x y Hxy. specialize (Hsg x y Hxy). pose proof (Hreg x y Hxy) as HJ.
  destruct (Hr c x y Hin Hxy) as (r1 & r2 & r3). unfold weak_integrand. cbv zeta. rewrite Hsg.
  destruct (Phi_partials fam i j x y) as [FP1 FP2]. rewrite FP1, FP2. unfold JacDet in Hsg, HJ. unfold JacDet.
  destruct (EP x y) as (e1 & e2 & e3 & e4). rewrite e1, e2, e3, e4.
  unfold Dx in e1, e2. unfold Dy in e3, e4. rewrite e1, e2, e3, e4 in Hsg. rewrite e1, e2, e3, e4 in HJ. rewrite e1, e2, e3, e4. rewrite Hsg, r1, r2, r3. unfold on_points, gradient. cbn [fst snd].
  destruct (XY x y) as [<- <-]. unfold defect. change (Dx (fun s t => a s t * Dx u s t) (X x y) (Y x y)) with (px x y). change (Dy (fun s t => a s t * Dy u s t) (X x y) (Y x y)) with (qy x y).
  unfold T1, T2, H1, H2, H1', H2', p, q, P, Q, Phi. fold fi fj. fold P Q.
  generalize (px x y) (py x y) (qx x y) (qy x y) (Dx u (X x y) (Y x y)) (Dy u (X x y) (Y x y)) (u (X x y) (Y x y)) (f (X x y) (Y x y)) (a (X x y) (Y x y)).
  intros. field. exact HJ.
Qed.
Lemma exact_zero : forall fam i j, strong_solution tr cells u a bx bn g f -> fam <> FJacobiPlain -> exact_res f U G A bx bn g tr fam c i j = 0.
Proof.
  intros fam i j Hs Hfam. destruct (integrand_parts fam i j Hfam) as (T1 & T2 & C1 & C2 & Z1 & Z2 & E).
  unfold exact_res. change (I2 (weak_integrand f U G A bx bn g (RefMap tr c) (Phi fam i j)) = 0). rewrite (I2_ext _ (fun x y => T1 x y + T2 x y)).
  - rewrite I2_plus by assumption. rewrite Z1, Z2. ring.
  - intros x y Hxy. rewrite E by exact Hxy. pose proof (Hs c x y Hin Hxy) as HS. cbv zeta in HS. unfold defect. rewrite HS. ring.
Qed.
End Exact.

(* ---------- the loss ---------- *)
Lemma exact_loss_flat : forall f U G a bx bn g tr fam k cells, (0 < k)%nat ->
  exact_loss f U G a bx bn g tr fam k cells
  = fold_right (fun c acc => Sum (fun r => exact_res f U G a bx bn g tr fam c (r / k) (r mod k) ^ 2) (k * k) / INR (k * k) + acc) 0 cells.
Proof.
  intros f U G a bx bn g tr fam k cells Hk. unfold exact_loss. induction cells as [|c cells IH]; [reflexivity|]. cbn [fold_right]. rewrite IH. f_equal. f_equal.
  change Sum with rsum. rewrite rsum_mul. apply rsum_ext. intros i Hi. apply rsum_ext. intros j Hj. cbv beta.
  replace ((i * k + j) / k)%nat with i by (rewrite Nat.div_add_l, Nat.div_small; lia). replace ((i * k + j) mod k)%nat with j; [reflexivity|].
  rewrite Nat.add_comm, Nat.mod_add, Nat.mod_small; lia.
Qed.
Lemma exact_loss_nonneg : forall f U G a bx bn g tr fam k cells, 0 <= exact_loss f U G a bx bn g tr fam k cells.
Proof.
  intros. unfold exact_loss. induction cells as [|c cells IH]; [cbn; lra|]. cbn [fold_right]. apply Rplus_le_le_0_compat; [|exact IH].
  apply Rmult_le_pos.
  - change Sum with rsum. apply rsum_nonneg. intros. apply rsum_nonneg. intros. apply pow2_ge_0.
  - destruct (k * k)%nat; [cbn; rewrite Rinv_0; lra|]. left. apply Rinv_0_lt_compat, lt_0_INR. lia.
Qed.
Section Loss.
Variables (o : quad_oracle R) (cf : config) (cells : list (cell R)) (bp : bdict R) (bf : bfun R) (plot : bool) (s : space R) (f : R -> R -> R) (h : handler R)
  (dir sensor : list (R * R) * mat R) (nn : network R) (beta : R).
Hypothesis Ho : oracle_ok o (Z.to_nat (cf_quad_order cf)).
Hypothesis Hs : make_space o cf cells bp bf plot = Ok s.
Hypothesis Hh : make_handler s f true = Ok h.
Hypothesis Hdir : get_dirichlet_input bp bf = Ok dir.
Hypothesis Hne : fst dir <> [].
Hypothesis Hconv : forall c, In c cells -> strictly_convex c.
Variables (U : point -> R) (G : point -> point) (fam : family) (eps : R).
Hypothesis Hfam : family_of (cf_fe_type cf) = Some fam.
Let k := Z.to_nat (cf_fe_order cf).
Lemma cells_accepted : forall c, In c cells -> accepted cf c.
Proof.
  intros c Hin. destruct (proj1 (space_iff o cf cells bp bf plot (oracle_lengths _ _ Ho)) (ex_intro _ s Hs)) as (_ & H2 & _). now apply H2.
Qed.
Lemma k_pos : (0 < k)%nat.
Proof.
  destruct (proj1 (space_iff o cf cells bp bf plot (oracle_lengths _ _ Ho)) (ex_intro _ s Hs)) as (N & H2 & _). destruct cells as [|c cs]; [congruence|].
  destruct (H2 c ltac:(now left)) as [_ F _ _ _ _]. unfold k. lia.
Qed.
Lemma value_error : forall a bx bn g L, continuous_data (cf_trafo cf) cells f U G a -> integrands_near eps cf cells fam f U G a bx bn g ->
  l_pde L = fold_right (fun c acc => cell_loss o cf f U G a bx bn g c + acc) 0 cells -> loss_close eps cf cells fam f U G a bx bn g (l_pde L).
Proof.
  intros a bx bn g L Hd Hn EL. pose proof k_pos as Hk. fold k. unfold loss_close. fold k. rewrite EL, exact_loss_flat by exact Hk. unfold cell_loss. fold k.
  assert (C : cells = [] \/ 0 <= eps).
  { destruct cells as [|c cs] eqn:Ec; [now left|]. right. destruct (Hn c 0%nat 0%nat ltac:(now left) Hk Hk) as (co & H).
    eapply Rle_trans; [apply Rabs_pos | apply (H 0 0); split; lra]. }
  destruct C as [C|C]; [rewrite C; cbn; rewrite Rminus_eq_0, sqrt_0, Rabs_R0; lra|].
  apply loss_diff; [nia | lra|]. intros c r Hc Hr.
  assert (I : (r / k < k)%nat) by (apply Nat.div_lt_upper_bound; lia). assert (J : (r mod k < k)%nat) by (apply Nat.mod_upper_bound; lia).
  rewrite (Nat.div_mod r k) at 1 by lia.
  apply (residual_error o cf cells f U G a bx bn g Ho Hd Hconv cells_accepted c _ _ fam eps Hc I J Hfam (Hn c _ _ Hc I J)).
Qed.
Lemma errors :
  (forall loss d al bx bn g, pointwise nn U G -> equation loss d al bx bn g ->
    continuous_data (cf_trafo cf) cells f U G (fun _ => al) -> integrands_near eps cf cells fam f U G (fun _ => al) bx bn g ->
    let m := model_of h dir sensor loss (length cells) in
    (exists L, train_standard m nn beta (Some d) = Ok L /\ loss_close eps cf cells fam f U G (fun _ => al) bx bn g (l_pde L)) /\
    (exists L, train_hard m nn beta (Some d) = Ok L /\ loss_close eps cf cells fam f U G (fun _ => al) bx bn g (l_pde L))) /\
  (forall d ip al, pointwise nn U G -> has ip "eps" al ->
    continuous_data (cf_trafo cf) cells f U G (fun _ => al) -> integrands_near eps cf cells fam f U G (fun _ => al) 0 0 0 ->
    let m := model_of h dir sensor pde_loss_poisson_inverse (length cells) in sensors_fit m ->
    exists L, train_inverse m nn beta d (Some ip) = Ok L /\ loss_close eps cf cells fam f U G (fun _ => al) 0 0 0 (l_pde L)) /\
  (forall d a bx bn g, pointwise2 nn U a G -> has d "b_x" bx -> has d "b_y" bn -> has d "c" g ->
    continuous_data (cf_trafo cf) cells f U G a -> integrands_near eps cf cells fam f U G a bx bn g ->
    let m := model_of h dir sensor pde_loss_cd2d_inverse_domain (length cells) in sensors_fit m ->
    exists L, train_inverse_domain m nn beta (Some d) = Ok L /\ loss_close eps cf cells fam f U G a bx bn g (l_pde L)).
Proof.
  refine (conj _ (conj _ _)).
  - intros loss d al bx bn g Hn He Hd Hp. cbv zeta. split.
    + destruct (step_standard o cf cells bp bf plot s f h dir sensor nn beta Ho Hs Hh Hdir Hne U G Hn loss d al bx bn g He) as (L & E1 & E2 & _).
      exists L. split; [exact E1 | apply (value_error _ _ _ _ L Hd Hp E2)].
    + destruct (step_hard o cf cells bp bf plot s f h dir sensor nn beta Ho Hs Hh Hdir Hne U G Hn loss d al bx bn g He) as (L & E1 & E2 & _).
      exists L. split; [exact E1 | apply (value_error _ _ _ _ L Hd Hp E2)].
  - intros d ip al Hn He Hd Hp m Hsen.
    destruct (step_inverse o cf cells bp bf plot s f h dir sensor nn beta Ho Hs Hh Hdir Hne U G Hn d ip al He Hsen) as (L & E1 & E2 & _).
    exists L. split; [exact E1 | apply (value_error _ _ _ _ L Hd Hp E2)].
  - intros d a bx bn g Hn H1 H2 H3 Hd Hp m Hsen.
    destruct (step_domain o cf cells bp bf plot s f h dir sensor nn beta Ho Hs Hh Hdir Hne U a G Hn d bx bn g H1 H2 H3 Hsen) as (L & E1 & E2 & _).
    exists L. split; [exact E1 | apply (value_error _ _ _ _ L Hd Hp E2)].
Qed.
End Loss.
Lemma regular_shape : forall tr c, tr = "bilinear"%string \/ tr = "affine"%string -> strictly_convex c ->
  forall x y, in_square x y -> JacDet (RefMap tr c) x y <> 0.
Proof.
  intros tr c Ht Hc x y Hxy E. destruct (jacobian_positive c x y Hc Hxy) as [J1 J2]. destruct Ht as [-> | ->].
  - rewrite (JacDet_ext _ (RefMap "bilinear" c) x y (refmap_orig c (bil c) "bilinear" (or_intror (conj eq_refl eq_refl)))), E, Rabs_R0 in J1. lra.
  - rewrite (JacDet_ext _ (RefMap "affine" c) x y (refmap_orig c (aff c) "affine" (or_introl (conj eq_refl eq_refl)))), E, Rabs_R0 in J2. lra.
Qed.
Lemma exact_loss_zero : forall f u a U G A bx bn g tr fam k cells, tr = "bilinear"%string \/ tr = "affine"%string ->
  (forall c, In c cells -> strictly_convex c) -> fam <> FJacobiPlain ->
  C1_on tr cells (fun s t => a s t * Dx u s t) -> C1_on tr cells (fun s t => a s t * Dy u s t) ->
  strong_solution tr cells u a bx bn g f -> represents tr cells u a U G A ->
  exact_loss f U G A bx bn g tr fam k cells = 0.
Proof.
  intros f u a U G A bx bn g tr fam k cells Ht Hc Hfam HP HQ Hs Hr.
  assert (Z : forall c i j, In c cells -> exact_res f U G A bx bn g tr fam c i j = 0).
  { intros c i j Hin. apply (exact_zero tr cells c Hin (regular_shape tr c Ht (Hc c Hin)) f u a); auto. }
  clear Hc HP HQ Hs Hr. unfold exact_loss. revert Z. generalize cells. induction cells0 as [|c l IH]; intros Z; [reflexivity|]. cbn [fold_right].
  rewrite IH by (intros; apply Z; now right). change Sum with rsum.
  rewrite (rsum_ext _ (fun _ => 0)); [rewrite rsum_0; unfold Rdiv; ring|].
  intros i Hi. rewrite (rsum_ext _ (fun _ => 0)); [apply rsum_0|]. intros j Hj. rewrite (Z c i j ltac:(now left)). ring.
Qed.
Lemma close_zero : forall eps cf cells fam f U G a bx bn g pde,
  exact_loss f U G a bx bn g (cf_trafo cf) fam (Z.to_nat (cf_fe_order cf)) cells = 0 ->
  loss_close eps cf cells fam f U G a bx bn g pde -> pde <= 64 * eps ^ 2 * INR (length cells).
Proof.
  intros eps cf cells fam f U G a bx bn g pde Z H.
  destruct (Rle_lt_dec 0 pde) as [Hp|Hp]; [|pose proof (pos_INR (length cells)); pose proof (pow2_ge_0 eps); nra]. unfold loss_close in H. rewrite Z, sqrt_0, Rminus_0_r in H.
  rewrite Rabs_right in H by (apply Rle_ge, sqrt_pos). pose proof (sqrt_pos pde) as P. pose proof (sqrt_sqrt pde Hp) as Q.
  pose proof (sqrt_sqrt (INR (length cells)) (pos_INR _)) as N. set (r := sqrt (INR (length cells))) in *. set (q := sqrt pde) in *.
  rewrite <- N, <- Q. replace (64 * eps ^ 2 * (r * r)) with ((8 * eps * r) * (8 * eps * r)) by ring. apply Rmult_le_compat; lra.
Qed.
Lemma getter_error : forall o cf cells bp bf plot s f U G a bx bn g fam eps c i j,
  oracle_ok o (Z.to_nat (cf_quad_order cf)) -> make_space o cf cells bp bf plot = Ok s ->
  (forall c, In c cells -> strictly_convex c) -> family_of (cf_fe_type cf) = Some fam ->
  continuous_data (cf_trafo cf) cells f U G a -> integrands_near eps cf cells fam f U G a bx bn g ->
  let k := Z.to_nat (cf_fe_order cf) in (c < length cells)%nat -> (i < k)%nat -> (j < k)%nat ->
  exists val gx gy pts,
    get_shape_function_val s (Z.of_nat c) = Ok val /\ get_shape_function_grad_x s (Z.of_nat c) = Ok gx /\
    get_shape_function_grad_y s (Z.of_nat c) = Ok gy /\ get_quadrature_actual_coordinates s (Z.of_nat c) = Ok pts /\
    Rabs (weak_res a bx bn g U G f val gx gy pts (k * i + j)
          - exact_res f U G a bx bn g (cf_trafo cf) fam (nth c cells unit_square) i j) <= 8 * eps.
Proof.
  intros o cf cells bp bf plot s f U G a bx bn g fam eps c i j Ho Hs Hc Hf Hd Hn k Hlt Hi Hj.
  destruct (nth_error cells c) as [cl|] eqn:Ec; [|apply nth_error_None in Ec; lia].
  destruct (space_cell _ _ _ _ _ _ _ _ _ Hs Ec) as (d & Hmk & _ & Ea). rewrite (nth_error_nth _ _ unit_square Ec).
  assert (Hin : In cl cells) by (eapply nth_error_In; exact Ec).
  exists (cd_val d), (cd_gradx d), (cd_grady d), (cd_actual d).
  unfold get_shape_function_val, get_shape_function_grad_x, get_shape_function_grad_y, get_quadrature_actual_coordinates. rewrite Ea. cbn [bind].
  refine (conj eq_refl (conj eq_refl (conj eq_refl (conj eq_refl _)))).
  pose proof (residual_error o cf cells f U G a bx bn g Ho Hd Hc (cells_accepted o cf cells bp bf plot s Ho Hs) cl i j fam eps Hin Hi Hj Hf (Hn cl i j Hin Hi Hj)) as E.
  unfold cell_weak in E. rewrite Hmk in E. exact E.
Qed.
Section Solutions.
Variables (o : quad_oracle R) (cf : config) (cells : list (cell R)) (bp : bdict R) (bf : bfun R) (plot : bool) (s : space R) (f : R -> R -> R) (h : handler R)
  (dir sensor : list (R * R) * mat R) (nn : network R) (beta : R).
Hypothesis Ho : oracle_ok o (Z.to_nat (cf_quad_order cf)).
Hypothesis Hs : make_space o cf cells bp bf plot = Ok s.
Hypothesis Hh : make_handler s f true = Ok h.
Hypothesis Hdir : get_dirichlet_input bp bf = Ok dir.
Hypothesis Hne : fst dir <> [].
Hypothesis Hconv : forall c, In c cells -> strictly_convex c.
Variables (U : point -> R) (G : point -> point) (fam : family) (eps : R).
Hypothesis Hfam : family_of (cf_fe_type cf) = Some fam.
Hypothesis Hplain : fam <> FJacobiPlain.
Variables (u a : R -> R -> R) (A : point -> R) (bx bn g : R).
Hypothesis HP : C1_on (cf_trafo cf) cells (fun s t => a s t * Dx u s t).
Hypothesis HQ : C1_on (cf_trafo cf) cells (fun s t => a s t * Dy u s t).
Hypothesis Hsol : strong_solution (cf_trafo cf) cells u a bx bn g f.
Hypothesis Hrep : represents (cf_trafo cf) cells u a U G A.
Hypothesis Hcont : continuous_data (cf_trafo cf) cells f U G A.
Hypothesis Hnear : integrands_near eps cf cells fam f U G A bx bn g.
Let bound := 64 * eps ^ 2 * INR (length cells).
Lemma trafo_cases : cf_trafo cf = "bilinear"%string \/ cf_trafo cf = "affine"%string.
Proof.
  destruct (proj1 (space_iff o cf cells bp bf plot (oracle_lengths _ _ Ho)) (ex_intro _ s Hs)) as (N & H2 & _). destruct cells as [|c cs]; [congruence|].
  destruct (ac_tr _ _ (H2 c ltac:(now left))) as [E | [E _]]; auto.
Qed.
Lemma zero_here : exact_loss f U G A bx bn g (cf_trafo cf) fam (Z.to_nat (cf_fe_order cf)) cells = 0.
Proof. apply (exact_loss_zero f u a); auto. exact trafo_cases. Qed.
Lemma solutions :
  (forall loss d al, A = (fun _ => al) -> pointwise nn U G -> equation loss d al bx bn g ->
    let m := model_of h dir sensor loss (length cells) in
    (exists L, train_standard m nn beta (Some d) = Ok L /\ l_pde L <= bound) /\ (exists L, train_hard m nn beta (Some d) = Ok L /\ l_pde L <= bound)) /\
  (forall d ip al, A = (fun _ => al) -> bx = 0 -> bn = 0 -> g = 0 -> pointwise nn U G -> has ip "eps" al ->
    let m := model_of h dir sensor pde_loss_poisson_inverse (length cells) in sensors_fit m ->
    exists L, train_inverse m nn beta d (Some ip) = Ok L /\ l_pde L <= bound) /\
  (forall d, pointwise2 nn U A G -> has d "b_x" bx -> has d "b_y" bn -> has d "c" g ->
    let m := model_of h dir sensor pde_loss_cd2d_inverse_domain (length cells) in sensors_fit m ->
    exists L, train_inverse_domain m nn beta (Some d) = Ok L /\ l_pde L <= bound).
Proof.
  destruct (errors o cf cells bp bf plot s f h dir sensor nn beta Ho Hs Hh Hdir Hne Hconv U G fam eps Hfam) as (E1 & E2 & E3).
  pose proof zero_here as Z. refine (conj _ (conj _ _)).
  - intros loss d al EA Hn He. rewrite EA in *. destruct (E1 loss d al bx bn g Hn He Hcont Hnear) as [(L & T & C) (L' & T' & C')].
    split; [exists L | exists L']; (split; [assumption | eapply close_zero; eauto]).
  - intros d ip al EA -> -> -> Hn He m Hsen. rewrite EA in *. destruct (E2 d ip al Hn He Hcont Hnear Hsen) as (L & T & C).
    exists L. split; [exact T | eapply close_zero; eauto].
  - intros d Hn H1 H2 H3 m Hsen. destruct (E3 d A bx bn g Hn H1 H2 H3 Hcont Hnear Hsen) as (L & T & C).
    exists L. split; [exact T | eapply close_zero; eauto].
Qed.
End Solutions.

(* ---------- some error always does ---------- *)
Lemma csq_bounded : forall F, csq F -> exists M, 0 <= M /\ forall x y, in_square x y -> Rabs (F x y) <= M.
Proof.
  intros F HF. destruct (unif F HF 1 ltac:(lra)) as (del & Hd & H). exists (Rabs (F 0 0) + (2 + 2 / del ^ 2)).
  assert (P : 0 < / del ^ 2) by (apply Rinv_0_lt_compat, pow_lt, Hd). split; [pose proof (Rabs_pos (F 0 0)); unfold Rdiv; lra|].
  intros x y Hxy. pose proof (growth F del 1 Hd ltac:(lra) H 0 0 x y) as B. rewrite (ext2_in F x y Hxy), (ext2_in F 0 0) in B by (split; lra).
  destruct Hxy as [Hx Hy]. assert (Q : ((x - 0) ^ 2 + (y - 0) ^ 2) / del ^ 2 <= 2 / del ^ 2) by (apply Rmult_le_compat_r; [lra | nra]).
  pose proof (Rabs_triang (F x y - F 0 0) (F 0 0)) as T. replace (F x y - F 0 0 + F 0 0) with (F x y) in T by ring. lra.
Qed.
Lemma near_max : forall (P : nat -> R -> Prop) n, (forall i e e', P i e -> e <= e' -> P i e') -> (forall i, (i < n)%nat -> exists e, P i e) ->
  exists e, forall i, (i < n)%nat -> P i e.
Proof.
  intros P n Hm H. induction n as [|n IH]; [exists 0; intros; lia|]. destruct IH as (e & He); [intros; apply H; lia|]. destruct (H n ltac:(lia)) as (e' & He').
  exists (Rmax e e'). intros i Hi. destruct (Nat.eq_dec i n) as [-> | N]; [eapply Hm; [exact He' | apply Rmax_r] | eapply Hm; [apply He; lia | apply Rmax_l]].
Qed.
Lemma near_some : forall cf cells fam f U G a bx bn g, cf_trafo cf = "bilinear"%string \/ cf_trafo cf = "affine"%string ->
  (forall c, In c cells -> strictly_convex c) -> continuous_data (cf_trafo cf) cells f U G a ->
  exists eps, integrands_near eps cf cells fam f U G a bx bn g.
Proof.
  intros cf cells fam f U G a bx bn g Ht Hc Hd. set (k := Z.to_nat (cf_fe_order cf)). set (D := exactness (cf_quad_type cf) (Z.to_nat (cf_quad_order cf))).
  pose (N := fun c i j e => near_poly e D (weak_integrand f U G a bx bn g (RefMap (cf_trafo cf) c) (Phi fam i j))).
  assert (M : forall c i j e e', N c i j e -> e <= e' -> N c i j e') by (intros c i j e e' (co & H) Hle; exists co; intros; eapply Rle_trans; eauto).
  assert (S : forall c i j, In c cells -> exists e, N c i j e).
  { intros c i j Hin. destruct (csq_bounded _ (integrand_csq (cf_trafo cf) cells c Hin (regular_shape _ c Ht (Hc c Hin)) f U G a bx bn g fam i j Hd)) as (B & _ & HB).
    exists B. exists (fun _ _ => 0). intros x y Hxy. replace (Poly2 (fun _ _ => 0) D x y) with 0; [rewrite Rminus_0_r; now apply HB|].
    unfold Poly2. change Sum with rsum. rewrite (rsum_ext _ (fun _ => 0)); [now rewrite rsum_0|]. intros i' Hi. rewrite (rsum_ext _ (fun _ => 0)); [apply rsum_0|]. intros; ring. }
  destruct (near_max (fun n e => forall i, (i < k)%nat -> forall j, (j < k)%nat -> N (nth n cells (mkcell (0, 0) (0, 0) (0, 0) (0, 0))) i j e) (length cells)) as (e & He).
  - intros n e e' H Hle i Hi j Hj. eapply M; [now apply H | exact Hle].
  - intros n Hn. apply (near_max (fun i e => forall j, (j < k)%nat -> N _ i j e)).
    + intros i e e' H Hle j Hj. eapply M; [now apply H | exact Hle].
    + intros i Hi. apply (near_max (fun j e => N _ i j e)); [intros; eapply M; eauto|]. intros j Hj. apply S. now apply nth_In.
  - exists e. intros c i j Hin Hi Hj. destruct (In_nth cells c (mkcell (0, 0) (0, 0) (0, 0) (0, 0)) Hin) as (n & Hn & <-). apply He; assumption.
Qed.

(* ---------- an example: u = exp x ---------- *)
Definition exp_net : network R := {| nn_out := fun b => Ok (map (fun p => [exp (fst p)]) b); nn_grad := fun _ b => map (fun p => (exp (fst p), 0)) b |}.
Lemma exp_pointwise : pointwise exp_net (fun p => exp (fst p)) (fun p => (exp (fst p), 0)).
Proof. intros b. split; reflexivity. Qed.
Lemma exp_cont : forall x y, continuity_2d_pt (fun s _ => exp s) x y.
Proof. intros x y. apply (continuity_1d_2d_pt_comp exp (fun s _ => s)); [apply derivable_continuous_pt, derivable_pt_exp | apply continuity_2d_pt_id1]. Qed.
Lemma exp_Dx : forall x y, Dx (fun s _ => exp s) x y = exp x.
Proof. intros. unfold Dx. apply is_derive_unique. auto_derive; auto; ring. Qed.
Lemma exp_Dy : forall x y, Dy (fun s _ => exp s) x y = 0.
Proof. intros. unfold Dy. apply Derive_const. Qed.
Lemma exp_diff : forall x y, differentiable_pt (fun s _ => exp s) x y.
Proof.
  intros x y. exists (exp x), 0. apply (differentiable_pt_lim_proj1_0 exp). apply is_derive_Reals. auto_derive; auto; ring.
Qed.
Lemma exp_data : forall tr cells, continuous_data tr cells (fun x _ => - exp x) (fun p => exp (fst p)) (fun p => (exp (fst p), 0)) (fun _ => 1) /\
  C1_on tr cells (fun s t => 1 * Dx (fun s _ => exp s) s t) /\ C1_on tr cells (fun s t => 1 * Dy (fun s _ => exp s) s t) /\
  strong_solution tr cells (fun s _ => exp s) (fun _ _ => 1) 0 0 0 (fun x _ => - exp x) /\
  represents tr cells (fun s _ => exp s) (fun _ _ => 1) (fun p => exp (fst p)) (fun p => (exp (fst p), 0)) (fun _ => 1).
Proof.
  intros tr cells.
  assert (Ex : (fun s t : R => 1 * Dx (fun s _ => exp s) s t) = (fun s _ => exp s)) by (do 2 (apply functional_extensionality; intros); rewrite exp_Dx; ring).
  assert (Ey : (fun s t : R => 1 * Dy (fun s _ => exp s) s t) = (fun _ _ => 0)) by (do 2 (apply functional_extensionality; intros); rewrite exp_Dy; ring).
  assert (Exx : Dx (fun s _ => exp s) = (fun s _ => exp s)) by (do 2 (apply functional_extensionality; intros); apply exp_Dx).
  assert (Eyy : Dy (fun s _ => exp s) = (fun _ _ => 0)) by (do 2 (apply functional_extensionality; intros); apply exp_Dy).
  assert (E0x : Dx (fun _ _ : R => 0) = (fun _ _ => 0)) by (do 2 (apply functional_extensionality; intros); unfold Dx, Dy; apply Derive_const).
  assert (E0y : Dy (fun _ _ : R => 0) = (fun _ _ => 0)) by (do 2 (apply functional_extensionality; intros); unfold Dx, Dy; apply Derive_const).
  refine (conj _ (conj _ (conj _ (conj _ _)))).
  - unfold continuous_data, continuous_on. cbn [fst snd]. refine (conj _ (conj _ (conj _ (conj _ _)))); intros c x y _ _; try apply exp_cont; try apply continuity_2d_pt_const.
    apply continuity_2d_pt_opp, exp_cont.
  - rewrite Ex. unfold C1_on, continuous_on. rewrite Exx, Eyy. refine (conj _ (conj _ _)); intros; [apply exp_diff | apply exp_cont | apply continuity_2d_pt_const].
  - rewrite Ey. unfold C1_on, continuous_on. rewrite E0x, E0y. refine (conj _ (conj _ _)); intros; try apply continuity_2d_pt_const.
    exists 0, 0. apply (differentiable_pt_lim_proj1_0 (fun _ => 0)). apply is_derive_Reals. auto_derive; auto.
  - intros c x y _ _ X Y. rewrite Ex, Ey, Exx, E0y. ring.
  - intros c x y _ _ p. unfold on_points, gradient. rewrite Exx, Eyy. auto.
Qed.
