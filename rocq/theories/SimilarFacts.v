(* C56: the losses do not change under similarities of the plane. *)
From Coq Require Import String ZArith List Arith Lia Reals Lra.
From Coquelicot Require Import Coquelicot.
From Verif Require Import Num Py PyFacts Jacobi Quadrature Basis Transform Cell Space Tensor Data Physics Train RCalc PolyFacts ListFacts
  Spec SpecGeom SpecMesh SpecPde TransformFacts CellFacts2 SpaceFacts TransformFacts2 ForcingFacts TensorFacts SpecTrain BasisFacts2 PhysicsFacts
  DataFacts TrainFacts PipelineFacts ExactTrain SpecWeak WeakFacts.
Import ListNotations.
Local Open Scope R_scope.

Lemma refmap_move : forall S name c x y, RefMap name (move_cell S c) x y = move S (RefMap name c x y).
Proof.
  intros [p r e a b] name c x y. unfold RefMap. destruct (String.eqb name "affine");
  unfold move_cell, move, turn; cbn [v0 v1 v2 v3 fst snd sm_p sm_r sm_e sm_a sm_b]; f_equal; field.
Qed.
Lemma refmap_smooth : forall name c x y,
  ex_derive (fun t => fst (RefMap name c t y)) x /\ ex_derive (fun t => snd (RefMap name c t y)) x /\
  ex_derive (fun t => fst (RefMap name c x t)) y /\ ex_derive (fun t => snd (RefMap name c x t)) y.
Proof. intros. unfold RefMap. destruct (String.eqb name "affine"); cbn [fst snd]; repeat split; auto_derive; auto. Qed.
Lemma der_lin : forall m n a u v x, ex_derive u x -> ex_derive v x ->
  Derive (fun t => m * u t + n * v t + a) x = m * Derive u x + n * Derive v x.
Proof. intros m n a u v x Hu Hv. 
  assert (A1 : ex_derive (fun t => m * u t) x) by now apply ex_derive_scal.
  assert (A2 : ex_derive (fun t => n * v t) x) by now apply ex_derive_scal.
  rewrite (Derive_plus (fun t => m * u t + n * v t) (fun _ => a)); [|now apply (ex_derive_plus (fun t => m * u t) (fun t => n * v t)) | apply ex_derive_const].
  rewrite (Derive_plus (fun t => m * u t) (fun t => n * v t)) by auto. rewrite !Derive_scal, Derive_const. ring.
Qed.

Section Sim.
Variable S : similarity.
Hypothesis HS : sim_ok S.
Let p := sm_p S.
Let r := sm_r S.
Let e := sm_e S.
Let F2 := sq_factor S.
Lemma e_sq : e * e = 1.
Proof. destruct HS as [[H|H] _]; unfold e; rewrite H; ring. Qed.
Lemma factor_pos : 0 < F2.
Proof. destruct HS as [_ H]. unfold F2, sq_factor. pose proof (pow2_ge_0 (sm_p S)). pose proof (pow2_ge_0 (sm_r S)). lra. Qed.

Lemma moved_partials : forall name c x y,
  let F := RefMap name c in let F' := RefMap name (move_cell S c) in
  Dx (fun s t => fst (F' s t)) x y = p * Dx (fun s t => fst (F s t)) x y - e * r * Dx (fun s t => snd (F s t)) x y /\
  Dx (fun s t => snd (F' s t)) x y = r * Dx (fun s t => fst (F s t)) x y + e * p * Dx (fun s t => snd (F s t)) x y /\
  Dy (fun s t => fst (F' s t)) x y = p * Dy (fun s t => fst (F s t)) x y - e * r * Dy (fun s t => snd (F s t)) x y /\
  Dy (fun s t => snd (F' s t)) x y = r * Dy (fun s t => fst (F s t)) x y + e * p * Dy (fun s t => snd (F s t)) x y.
Proof.
  intros name c x y F F'. destruct (refmap_smooth name c x y) as (S1 & S2 & S3 & S4). fold F in S1, S2, S3, S4. unfold Dx, Dy.
  refine (conj _ (conj _ (conj _ _))).
  - rewrite (Derive_ext _ (fun t => p * fst (F t y) + - (e * r) * snd (F t y) + sm_a S)).
    + rewrite der_lin by auto. ring.
    + intros t. unfold F'. rewrite refmap_move. unfold move, turn. cbn [fst snd]. fold p r e F. ring.
  - rewrite (Derive_ext _ (fun t => r * fst (F t y) + (e * p) * snd (F t y) + sm_b S)).
    + rewrite der_lin by auto. ring.
    + intros t. unfold F'. rewrite refmap_move. unfold move, turn. cbn [fst snd]. fold p r e F. ring.
  - rewrite (Derive_ext _ (fun t => p * fst (F x t) + - (e * r) * snd (F x t) + sm_a S)).
    + rewrite der_lin by auto. ring.
    + intros t. unfold F'. rewrite refmap_move. unfold move, turn. cbn [fst snd]. fold p r e F. ring.
  - rewrite (Derive_ext _ (fun t => r * fst (F x t) + (e * p) * snd (F x t) + sm_b S)).
    + rewrite der_lin by auto. ring.
    + intros t. unfold F'. rewrite refmap_move. unfold move, turn. cbn [fst snd]. fold p r e F. ring.
Qed.
Lemma jac_eq : forall F x y, JacDet F x y = Dx (fun s t => fst (F s t)) x y * Dy (fun s t => snd (F s t)) x y
  - Dy (fun s t => fst (F s t)) x y * Dx (fun s t => snd (F s t)) x y.
Proof. reflexivity. Qed.
Lemma moved_jac : forall name c x y, JacDet (RefMap name (move_cell S c)) x y = e * F2 * JacDet (RefMap name c) x y.
Proof.
  intros. rewrite !jac_eq. destruct (moved_partials name c x y) as (-> & -> & -> & ->). unfold F2, sq_factor. fold p r. ring.
Qed.
Lemma moved_jac_abs : forall name c x y, Rabs (JacDet (RefMap name (move_cell S c)) x y) = F2 * Rabs (JacDet (RefMap name c) x y).
Proof.
  intros. rewrite moved_jac, !Rabs_mult, (Rabs_right F2) by (pose proof factor_pos; lra).
  replace (Rabs e) with 1; [ring|]. destruct HS as [[H|H] _]; unfold e; rewrite H.
  - now rewrite Rabs_R1. - rewrite Rabs_left; lra.
Qed.

(* one cell *)
Section Cell.
Variables (o : quad_oracle R) (cf : config) (c : cell R) (f f' : R -> R -> R) (U U' : point -> R) (G G' : point -> point).
Variables (al bx bn g bx' bn' g' : R).
Hypothesis Ho : oracle_ok o (Z.to_nat (cf_quad_order cf)).
Hypothesis Hreg : forall x y, in_square x y -> JacDet (RefMap (cf_trafo cf) c) x y <> 0.
Hypothesis HU : moved_net S U G U' G'.
Hypothesis Hf : forall v, F2 * f' (fst (move S v)) (snd (move S v)) = f (fst v) (snd v).
Hypothesis Hb : (F2 * bx', F2 * bn') = turn S (bx, bn).
Hypothesis Hg : F2 * g' = g.

Lemma solve2 : forall a b a' b' A B C D X Y, A * D - C * B <> 0 ->
  X = a * A + b * B -> Y = a * C + b * D -> X = a' * A + b' * B -> Y = a' * C + b' * D -> a = a' /\ b = b'.
Proof.
  intros a b a' b' A B C D X Y H E1 E2 E3 E4.
  assert (Ha : (a - a') * (A * D - C * B) = 0).
  { replace ((a - a') * (A * D - C * B)) with (D * (a * A + b * B - (a' * A + b' * B)) - B * (a * C + b * D - (a' * C + b' * D))) by ring.
    rewrite <- E1, <- E2, <- E3, <- E4. ring. }
  assert (Hb' : (b - b') * (A * D - C * B) = 0).
  { replace ((b - b') * (A * D - C * B)) with (A * (a * C + b * D - (a' * C + b' * D)) - C * (a * A + b * B - (a' * A + b' * B))) by ring.
    rewrite <- E1, <- E2, <- E3, <- E4. ring. }
  apply Rmult_integral in Ha. apply Rmult_integral in Hb'. lra.
Qed.

Lemma moved_weak : forall d d' i, make_cell o cf c = Ok d -> make_cell o cf (move_cell S c) = Ok d' ->
  (i < Z.to_nat (cf_fe_order cf) * Z.to_nat (cf_fe_order cf))%nat ->
  weak_res (fun _ => al) bx' bn' g' U' G' f' (cd_val d') (cd_gradx d') (cd_grady d') (cd_actual d') i
  = weak_res (fun _ => al) bx bn g U G f (cd_val d) (cd_gradx d) (cd_grady d) (cd_actual d) i.
Proof.
  intros d d' i Hd Hd' Hi. pose proof (oracle_lengths _ _ Ho) as Hl.
  destruct (make_cell_tables o cf c d Hl Hd) as (fam & w & xi & eta & Tf & Tq & Lw & _ & _ & _ & La & _ & _ & _ & _ & _ & T).
  destruct (make_cell_tables o cf _ d' Hl Hd') as (fam2 & w2 & xi2 & eta2 & Tf2 & Tq2 & _ & _ & _ & _ & La' & _ & _ & _ & _ & _ & T').
  destruct (make_cell_chain o cf c d Hl Hd) as (fam3 & w3 & xi3 & eta3 & Tf3 & Tq3 & K).
  destruct (make_cell_chain o cf _ d' Hl Hd') as (fam4 & w4 & xi4 & eta4 & Tf4 & Tq4 & K').
  rewrite Tf in Tf2, Tf3, Tf4. injection Tf2 as <-. injection Tf3 as <-. injection Tf4 as <-.
  rewrite Tq in Tq2, Tq3, Tq4. injection Tq2 as <- <- <-. injection Tq3 as <- <- <-. injection Tq4 as <- <- <-.
  unfold weak_res. rewrite La, La'. change Sum with rsum. apply rsum_ext. intros q Hq. cbv zeta.
  destruct (row_split _ i Hi) as (i1 & i2 & -> & Hi1 & Hi2).
  destruct (T q Hq) as (M & P & V). destruct (T' q Hq) as (M' & P' & V').
  destruct (V i1 i2 Hi1 Hi2) as (V1 & _). destruct (V' i1 i2 Hi1 Hi2) as (V1' & _).
  set (x := nth q xi 0) in *. set (y := nth q eta 0) in *.
  assert (Hin : in_square x y).
  { destruct (quad_exact_low o (cf_quad_order cf) (cf_quad_type cf) w xi eta 0 Ho Tq ltac:(lia)) as (_ & B & _).
    rewrite Lw in B. destruct (B q Hq) as (_ & B1 & B2). split; [exact B1 | exact B2]. }
  specialize (Hreg x y Hin). destruct (K q i1 i2 Hq Hi1 Hi2 Hreg) as (a & b & E1 & E2 & E3 & E4).
  assert (Hreg' : JacDet (RefMap (cf_trafo cf) (move_cell S c)) x y <> 0).
  { rewrite moved_jac. pose proof factor_pos. pose proof e_sq. intros Z. apply Rmult_integral in Z. destruct Z as [Z|Z]; [|auto].
    apply Rmult_integral in Z. destruct Z as [Z|Z]; [rewrite Z in H0; lra | lra]. }
  destruct (K' q i1 i2 Hq Hi1 Hi2 Hreg') as (a' & b' & E1' & E2' & E3' & E4'). fold x y in E3, E4, E3', E4'.
  destruct (moved_partials (cf_trafo cf) c x y) as (D1 & D2 & D3 & D4).
  rewrite D1, D2 in E3'. rewrite D3, D4 in E4'.
  set (A := Dx (fun s t => fst (RefMap (cf_trafo cf) c s t)) x y) in *. set (B := Dx (fun s t => snd (RefMap (cf_trafo cf) c s t)) x y) in *.
  set (C := Dy (fun s t => fst (RefMap (cf_trafo cf) c s t)) x y) in *. set (D := Dy (fun s t => snd (RefMap (cf_trafo cf) c s t)) x y) in *.
  assert (HABCD : A * D - C * B <> 0) by exact Hreg.
  destruct (solve2 a b (p * a' + r * b') (- (e * r) * a' + e * p * b') A B C D _ _ HABCD E3 E4) as [Ea Eb];
    [rewrite E3'; ring | rewrite E4'; ring|].
  rewrite E1, E2, E1', E2', V1, V1', P', P, refmap_move. rewrite M', moved_jac_abs. fold x y. rewrite M. fold x y.
  set (v := RefMap (cf_trafo cf) c x y). set (J := Rabs (JacDet (RefMap (cf_trafo cf) c) x y)). set (W := nth q w 0).
  destruct (HU v) as [U1 G1]. rewrite U1. unfold turn in G1, Hb. cbn [fst snd] in Hb. fold p r e in G1, Hb. injection G1 as G1 G2. injection Hb as B1 B2.
  fold F2 in G1, G2. specialize (Hf v).
  set (gx := fst (G v)) in *. set (gy := snd (G v)) in *. set (gx' := fst (G' (move S v))) in *. set (gy' := snd (G' (move S v))) in *.
  set (fv := f (fst v) (snd v)) in *. set (fv' := f' (fst (move S v)) (snd (move S v))) in *. set (ph := Phi fam i1 i2 x y).
  pose proof e_sq as Ee. pose proof factor_pos as Fp.
  assert (EF : F2 = p * p + r * r) by (unfold F2, sq_factor; fold p r; ring).
  (* the flux term *)
  assert (X1 : F2 * (a' * gx' + b' * gy') = a * gx + b * gy).
  { rewrite Rmult_plus_distr_l. replace (F2 * (a' * gx')) with (a' * (F2 * gx')) by ring. replace (F2 * (b' * gy')) with (b' * (F2 * gy')) by ring.
    rewrite G1, G2, Ea, Eb. ring. }
  (* the convection term *)
  assert (X2 : F2 * (bx' * gx' + bn' * gy') = bx * gx + bn * gy).
  { apply Rmult_eq_reg_l with F2; [|lra].
    replace (F2 * (F2 * (bx' * gx' + bn' * gy'))) with ((F2 * bx') * (F2 * gx') + (F2 * bn') * (F2 * gy')) by ring.
    rewrite B1, B2, G1, G2. rewrite EF.
    transitivity ((p * p + r * r) * (bx * gx) + (e * e) * ((p * p + r * r) * (bn * gy))); [ring | rewrite Ee; ring]. }
  transitivity (W * J * (al * (F2 * (a' * gx' + b' * gy')) + ph * (F2 * (bx' * gx' + bn' * gy') + (F2 * g') * U v - F2 * fv'))); [ring|].
  rewrite X1, X2, Hg, Hf. ring.
Qed.
End Cell.

(* acceptance *)
Lemma move_accepted : forall cf c, accepted cf c -> accepted cf (move_cell S c).
Proof.
  intros cf c [H1 H2 H3 H4 H5 H6]. constructor; auto. destruct H6 as [H6 | [H6 H7]]; [now left | right]. split; [exact H6|].
  replace (cross (v0 (move_cell S c)) (v1 (move_cell S c)) (v3 (move_cell S c))) with (e * F2 * cross (v0 c) (v1 c) (v3 c)).
  - pose proof factor_pos. pose proof e_sq. intros Z. apply Rmult_integral in Z. destruct Z as [Z|Z]; [|auto].
    apply Rmult_integral in Z. destruct Z as [Z|Z]; [rewrite Z in H0; lra | lra].
  - unfold cross, move_cell, move, turn, F2, sq_factor. cbn [v0 v1 v3 fst snd]. fold p r e. ring.
Qed.
End Sim.

(* the boundary data *)
Lemma moved_tag : forall S bf bf' tag pts rows, moved_bf S bf bf' -> dirichlet_tag bf tag pts = Ok rows ->
  dirichlet_tag bf' tag (map (move S) pts) = Ok (map (fun r => (move S (fst r), snd r)) rows).
Proof.
  intros S bf bf' tag pts rows Hb. revert rows. unfold dirichlet_tag. induction pts as [|v pts IH]; intros rows H; cbn [mapM map] in *.
  - injection H as <-. reflexivity.
  - destruct (dget Z.eqb bf tag) as [b|] eqn:E; [|discriminate]. cbn [bind] in H.
    destruct (Hb tag b E) as (b' & E' & Hv). rewrite E'. cbn [bind]. rewrite E' in IH. cbn [bind] in IH. rewrite Hv.
    destruct (mapM _ pts) as [rs|] eqn:Er; [|discriminate]. cbn [bind] in H. injection H as <-.
    rewrite (IH rs eq_refl). reflexivity.
Qed.
Lemma moved_data : forall S bp bf bf' x y, moved_bf S bf bf' -> dirichlet_data bp bf = Ok (x, y) ->
  dirichlet_data (moved_bp S bp) bf' = Ok (map (move S) x, y).
Proof.
  intros S bp bf bf' x y Hb H. unfold dirichlet_data in *. destruct (mapM _ bp) as [rows|] eqn:E; [|discriminate]. cbn [bind] in H. injection H as <- <-.
  assert (E' : mapM (fun tp => dirichlet_tag bf' (fst tp) (snd tp)) (moved_bp S bp) = Ok (map (map (fun r => (move S (fst r), snd r))) rows)).
  { revert rows E. induction bp as [|[tag pts] bp IH]; intros rows E; cbn [mapM map moved_bp] in *.
    - injection E as <-. reflexivity.
    - cbn [fst snd] in *. destruct (dirichlet_tag bf tag pts) as [r|] eqn:Er; [|discriminate]. cbn [bind] in E.
      rewrite (moved_tag S bf bf' tag pts r Hb Er). cbn [bind]. destruct (mapM _ bp) as [rs|] eqn:Es; [|discriminate]. cbn [bind] in E. injection E as <-.
      unfold moved_bp in IH. rewrite (IH rs eq_refl). reflexivity. }
  rewrite E'. cbn [bind]. rewrite <- concat_map, !map_map. reflexivity.
Qed.

Lemma fold_map : forall (A B : Type) (w : B -> R) (w' : A -> R) (t : A -> B) l, (forall c, In c l -> w (t c) = w' c) ->
  fold_right (fun c acc => w c + acc) 0 (map t l) = fold_right (fun c acc => w' c + acc) 0 l.
Proof. intros A B w w' t l H. induction l as [|c l IH]; [reflexivity|]. cbn. rewrite H, IH; auto. intros; apply H; now right. now left. Qed.
Lemma regular_convex : forall o cf c, lengths_ok o (Z.to_nat (cf_quad_order cf)) -> accepted cf c -> strictly_convex c ->
  forall x y, in_square x y -> JacDet (RefMap (cf_trafo cf) c) x y <> 0.
Proof.
  intros o cf c _ Ha Hc x y Hxy E. destruct (jacobian_positive c x y Hc Hxy) as [J1 J2].
  destruct (ac_tr _ _ Ha) as [Et | [Et _]]; rewrite Et in E.
  - rewrite (JacDet_ext _ (RefMap "bilinear" c) x y (refmap_orig c (bil c) "bilinear" (or_intror (conj eq_refl eq_refl)))), E, Rabs_R0 in J1. lra.
  - rewrite (JacDet_ext _ (RefMap "affine" c) x y (refmap_orig c (aff c) "affine" (or_introl (conj eq_refl eq_refl)))), E, Rabs_R0 in J2. lra.
Qed.

Section Whole.
Variables (S : similarity) (o : quad_oracle R) (cf : config) (cells : list (cell R)) (bp : bdict R) (bf bf' : bfun R) (plot : bool)
  (s : space R) (f f' : R -> R -> R) (h : handler R) (dir sensor sensor' : list (R * R) * mat R) (nn nn' : network R) (beta : R)
  (U U' : point -> R) (G G' : point -> point) (loss : pyfun R) (d d' : list (string * R)) (al bx bn g bx' bn' g' : R).
Hypothesis HS : sim_ok S.
Hypothesis Ho : oracle_ok o (Z.to_nat (cf_quad_order cf)).
Hypothesis Hconv : forall c, In c cells -> strictly_convex c.
Hypothesis Hs : make_space o cf cells bp bf plot = Ok s.
Hypothesis Hh : make_handler s f true = Ok h.
Hypothesis Hdir : get_dirichlet_input bp bf = Ok dir.
Hypothesis Hne : fst dir <> [].
Hypothesis Hn : pointwise nn U G.
Hypothesis Hn' : pointwise nn' U' G'.
Hypothesis He : equation loss d al bx bn g.
Hypothesis He' : equation loss d' al bx' bn' g'.
Hypothesis HU : moved_net S U G U' G'.
Hypothesis Hf : forall v, sq_factor S * f' (fst (move S v)) (snd (move S v)) = f (fst v) (snd v).
Hypothesis Hb : (sq_factor S * bx', sq_factor S * bn') = turn S (bx, bn).
Hypothesis Hg : sq_factor S * g' = g.
Hypothesis Hbf : moved_bf S bf bf'.

Lemma similar_space : exists s', make_space o cf (map (move_cell S) cells) (moved_bp S bp) bf' plot = Ok s'.
Proof.
  pose proof (oracle_lengths _ _ Ho) as Hl. apply (space_iff o cf _ _ _ _ Hl).
  destruct (proj1 (space_iff o cf cells bp bf plot Hl) (ex_intro _ s Hs)) as (H1 & H2 & H3 & H4).
  split; [destruct cells; [congruence | discriminate]|]. split; [|split].
  - intros c Hc. apply in_map_iff in Hc. destruct Hc as (c0 & <- & Hc). apply move_accepted; auto.
  - intros tag pts Hin Hp. unfold moved_bp in Hin. apply in_map_iff in Hin. destruct Hin as ([t ps] & E & Hin). cbn [fst snd] in E. injection E as <- <-.
    assert (Hps : ps <> []) by (destruct ps; [exfalso; now apply Hp | discriminate]).
    specialize (H3 t ps Hin Hps). apply dgetZ_ok in H3. destruct H3 as (b & Eb). destruct (Hbf t b Eb) as (b' & Eb' & _). apply dgetZ_ok. eauto.
  - intros Hp. destruct (H4 Hp) as [H5 H6]. split.
    + intros tag pts Hin. unfold moved_bp in Hin. apply in_map_iff in Hin. destruct Hin as ([t ps] & E & Hin). cbn [fst snd] in E. injection E as <- <-.
      specialize (H5 t ps Hin). destruct ps; [exfalso; now apply H5 | discriminate].
    + unfold moved_bp. rewrite map_length. exact H6.
Qed.
Lemma similar_dir : get_dirichlet_input (moved_bp S bp) bf' = Ok (map (move S) (fst dir), snd dir).
Proof.
  unfold get_dirichlet_input in *. destruct (dirichlet_data bp bf) as [[x y]|] eqn:E; [|discriminate]. cbn [bind fst snd] in Hdir. injection Hdir as <-.
  rewrite (moved_data S bp bf bf' x y Hbf E). reflexivity.
Qed.
Lemma similar_misfit : misfit U' (map (move S) (fst dir)) (snd dir) = misfit U (fst dir) (snd dir).
Proof.
  unfold misfit. rewrite map_length. f_equal. change Sum with rsum. apply rsum_ext. intros i Hi.
  rewrite nth_map_lt with (d' := (0, 0)) by exact Hi. now rewrite (proj1 (HU _)).
Qed.
Lemma similar_cell : forall c, In c cells ->
  cell_loss o cf f' U' G' (fun _ => al) bx' bn' g' (move_cell S c) = cell_loss o cf f U G (fun _ => al) bx bn g c.
Proof.
  intros c Hc. pose proof (oracle_lengths _ _ Ho) as Hl.
  destruct (proj1 (space_iff o cf cells bp bf plot Hl) (ex_intro _ s Hs)) as (_ & H2 & _). specialize (H2 c Hc).
  destruct (proj2 (make_cell_iff o cf c Hl) H2) as (dc & Edc).
  destruct (proj2 (make_cell_iff o cf _ Hl) (move_accepted S HS cf c H2)) as (dc' & Edc').
  unfold cell_loss. f_equal. change Sum with rsum. apply rsum_ext. intros r Hr. f_equal. unfold cell_weak. rewrite Edc, Edc'.
  apply (moved_weak S HS o cf c f f' U U' G G' al bx bn g bx' bn' g' Ho); auto. apply (regular_convex o cf c Hl H2). auto.
Qed.
Lemma similar_losses : exists s' h' dir',
  make_space o cf (map (move_cell S) cells) (moved_bp S bp) bf' plot = Ok s' /\ make_handler s' f' true = Ok h' /\
  get_dirichlet_input (moved_bp S bp) bf' = Ok dir' /\
  let m := model_of h dir sensor loss (length cells) in let m' := model_of h' dir' sensor' loss (length cells) in
  (exists L L', train_standard m nn beta (Some d) = Ok L /\ train_standard m' nn' beta (Some d') = Ok L' /\
     l_pde L' = l_pde L /\ l_total L' = l_total L) /\
  (exists L L', train_hard m nn beta (Some d) = Ok L /\ train_hard m' nn' beta (Some d') = Ok L' /\
     l_pde L' = l_pde L /\ l_total L' = l_total L).
Proof.
  destruct similar_space as (s' & Hs'). destruct (handler_spec o cf _ _ _ _ s' (oracle_lengths _ _ Ho) Hs' f') as (h' & Hh' & _).
  exists s', h'. eexists. split; [exact Hs'|]. split; [exact Hh'|]. split; [exact similar_dir|]. cbv zeta.
  assert (Hne' : fst (map (move S) (fst dir), snd dir) <> []) by (cbn [fst]; destruct (fst dir); [congruence | discriminate]).
  assert (Lc : length (map (move_cell S) cells) = length cells) by apply map_length.
  pose proof (fold_map _ _ (cell_loss o cf f' U' G' (fun _ => al) bx' bn' g') (cell_loss o cf f U G (fun _ => al) bx bn g) (move_cell S) cells similar_cell) as EV.
  split.
  - destruct (step_standard o cf cells bp bf plot s f h dir sensor nn beta Ho Hs Hh Hdir Hne U G Hn loss d al bx bn g He) as (L & E1 & E2 & E3 & _).
    destruct (step_standard o cf _ _ _ plot s' f' h' _ sensor' nn' beta Ho Hs' Hh' similar_dir Hne' U' G' Hn' loss d' al bx' bn' g' He') as (L' & E1' & E2' & E3' & _).
    rewrite Lc in E1'. exists L, L'. split; [exact E1|]. split; [exact E1'|]. cbn [fst snd] in E3'. rewrite similar_misfit, EV in E3'. rewrite EV in E2'.
    split; congruence.
  - destruct (step_hard o cf cells bp bf plot s f h dir sensor nn beta Ho Hs Hh Hdir Hne U G Hn loss d al bx bn g He) as (L & E1 & E2 & E3 & _).
    destruct (step_hard o cf _ _ _ plot s' f' h' _ sensor' nn' beta Ho Hs' Hh' similar_dir Hne' U' G' Hn' loss d' al bx' bn' g' He') as (L' & E1' & E2' & E3' & _).
    rewrite Lc in E1'. exists L, L'. split; [exact E1|]. split; [exact E1'|]. cbn [fst snd] in E3'. rewrite EV in E2', E3'.
    split; congruence.
Qed.
End Whole.
