(* A network with no residual and no boundary misfit is the exact solution. *)
From Coq Require Import String ZArith List Arith Lia Bool Reals Lra.
From Coquelicot Require Import Coquelicot.
From Verif Require Import Num Py Jacobi Quadrature Basis Transform Cell Space Tensor Data Physics Train Geometry Nets Metrics Problems Driver
  Spec SpecGeom SpecTrain SpecMesh SpecPde SpecWeak SpecProblem SpecDriver SpecScript SpecLoop SpecInit SpecMax ListFacts PolyFacts ErrorFacts NetFacts MeshFacts ScriptFacts Converse MaxFacts RimFacts SmoothFacts.
Import ListNotations.
Local Open Scope R_scope.

Section Tiles.
Variables (e : numpy R) (lhs1 : nat -> nat -> list R) (x0 x1 y0 y1 : R) (nx ny num : Z) (cells : list (cell R)) (mo : mesh_object R) (bd : bdict R).
Hypothesis He : numpy_ok e.
Hypothesis Hl : sampler_ok lhs1.
Hypothesis Hnx : (1 <= nx)%Z.
Hypothesis Hny : (1 <= ny)%Z.
Hypothesis Hnum : (0 <= num)%Z.
Hypothesis Hx : x0 < x1.
Hypothesis Hy : y0 < y1.
Hypothesis Hrun : generate_quad_mesh_internal e lhs1 (x0, x1) (y0, y1) nx ny num = Ok (cells, mo, bd).
Lemma tile_rect : forall c, In c cells -> exists a b r t, c = rect a b r t /\ a < b /\ r < t.
Proof.
  intros c Hc. destruct (cells_eq e lhs1 x0 x1 y0 y1 nx ny num cells mo bd He Hl Hnx Hny Hnum Hrun Hx Hy) as [E _]. rewrite E in Hc.
  apply all_cells_In in Hc. destruct Hc as (i & j & Hi & Hj & ->). rewrite cell_of_rect by (auto; lia). do 4 eexists. split; [reflexivity|].
  split; [apply sub_lt | apply sub_lt]; auto; lia.
Qed.
Lemma rect_map : forall a b r t x y, RefMap "bilinear" (rect a b r t) x y = ((a + b) / 2 + x * (b - a) / 2, (r + t) / 2 + y * (t - r) / 2).
Proof. intros. unfold RefMap, rect. cbn. f_equal; field. Qed.
Lemma tile_reached : forall p, in_box (x0, x1) (y0, y1) p -> exists c x y, In c cells /\ in_square x y /\ RefMap "bilinear" c x y = p.
Proof.
  intros [u v] [Bx By]. cbn [fst snd] in *. destruct (tile_cover e lhs1 x0 x1 y0 y1 nx ny num cells mo bd He Hl Hnx Hny Hnum Hrun Hx Hy (u, v) Bx By) as (c & Ic & Hc).
  destruct (tile_rect c Ic) as (a & b & r & t & -> & Hab & Hrt). apply in_rect in Hc; auto. cbn [fst snd] in Hc. destruct Hc as [Hu Hv].
  exists (rect a b r t), ((2 * u - (a + b)) / (b - a)), ((2 * v - (r + t)) / (t - r)). split; [exact Ic|]. split.
  - unfold in_square. split.
    + split; apply Rmult_le_reg_r with (b - a); try lra; unfold Rdiv; rewrite Rmult_assoc, Rinv_l; lra.
    + split; apply Rmult_le_reg_r with (t - r); try lra; unfold Rdiv; rewrite Rmult_assoc, Rinv_l; lra.
  - rewrite rect_map. f_equal; field; lra.
Qed.
Lemma tile_inside : forall c x y, In c cells -> in_square x y -> in_box (x0, x1) (y0, y1) (RefMap "bilinear" c x y).
Proof.
  intros c x y Hc [Qx Qy]. pose proof (tile_inside e lhs1 x0 x1 y0 y1 nx ny num cells mo bd He Hl Hnx Hny Hnum Hrun Hx Hy c (RefMap "bilinear" c x y) Hc) as T.
  destruct (tile_rect c Hc) as (a & b & r & t & -> & Hab & Hrt). apply T. rewrite rect_map. apply in_rect; auto. cbn [fst snd]. split; nra.
Qed.
Lemma tile_convex : forall c, In c cells -> strictly_convex c.
Proof.
  intros c Hc. destruct (tile_rect c Hc) as (a & b & r & t & -> & Hab & Hrt). left. unfold convex_ccw, cross, rect. cbn. repeat split; nra.
Qed.
End Tiles.

Lemma smooth_second : forall u, twice_smooth u -> exists ux uy uxx uyy, second_partials u ux uy uxx uyy /\ (forall x y, ux x y = Dx u x y) /\ (forall x y, uy x y = Dy u x y).
Proof.
  intros u (a & b & c & d & e & f & H1 & H2 & H3). exists a, b, c, f. split; [|split].
  - intros x y. destruct (H1 x y) as (A & B & _). destruct (H2 x y) as (C & _). destruct (H3 x y) as (_ & D & _). auto.
  - intros x y. symmetry. apply is_derive_unique. apply (H1 x y).
  - intros x y. symmetry. apply is_derive_unique. apply (H1 x y).
Qed.
Lemma small_zero : forall a C, 0 <= a -> (forall k, (1 <= k)%nat -> a <= C / INR k) -> a = 0.
Proof.
  intros a C Ha H. destruct Ha as [Ha | Ha]; [|auto]. exfalso. destruct (archimed_cor1 (a / (Rabs C + 1))) as (N & H1 & H2); [apply Rdiv_lt_0_compat; [lra | pose proof (Rabs_pos C); lra]|].
  specialize (H N ltac:(lia)). pose proof (Rabs_pos C). pose proof (RRle_abs C). assert (0 < INR N) by now apply lt_0_INR.
  assert (C / INR N <= (Rabs C + 1) * / INR N) by (apply Rmult_le_compat_r; [left; now apply Rinv_0_lt_compat | lra]).
  assert ((Rabs C + 1) * / INR N < (Rabs C + 1) * (a / (Rabs C + 1))) by (apply Rmult_lt_compat_l; lra).
  replace ((Rabs C + 1) * (a / (Rabs C + 1))) with a in * by (field; lra). lra.
Qed.
Lemma exact_loss_ext : forall f U V G a bx bn g tr fam k cells, (forall p, U p = V p) -> exact_loss f U G a bx bn g tr fam k cells = exact_loss f V G a bx bn g tr fam k cells.
Proof.
  intros f U V G a bx bn g tr fam k cells H. unfold exact_loss. induction cells as [|c cells IH]; cbn [fold_right]; [reflexivity|]. rewrite IH. f_equal. f_equal.
  change Sum with rsum. apply rsum_ext. intros i _. apply rsum_ext. intros j _. f_equal. unfold exact_res, Int2. apply RInt_ext. intros x _. apply RInt_ext. intros y _. unfold weak_integrand. cbv zeta. now rewrite H.
Qed.
Lemma smooth_loss : forall e lhs1 xl yl nx ny num cells mo bd w f fam al bx bn g,
  numpy_ok e -> sampler_ok lhs1 -> fst xl < snd xl -> fst yl < snd yl -> (1 <= nx)%Z -> (1 <= ny)%Z -> (0 <= num)%Z ->
  generate_quad_mesh_internal e lhs1 xl yl nx ny num = Ok (cells, mo, bd) -> twice_smooth w -> (forall x y, in_box xl yl (x, y) -> continuity_2d_pt f x y) -> fam <> FJacobiPlain ->
  (residual_below al bx bn g xl yl w f 0 <-> forall k, exact_loss f (fun p => w (fst p) (snd p)) (gradient w) (fun _ => al) bx bn g "bilinear" fam k cells = 0).
Proof.
  intros e lhs1 [x0 x1] [y0 y1] nx ny num cells mo bd w f fam al bx bn g He Hs Hx Hy Hnx Hny Hnum Hrun Tw Hf Hfam. cbn [fst snd] in Hx, Hy.
  pose proof Tw as (a & b & c & d & e' & f' & H1 & H2 & H3).
    assert (Ea : forall x y, Dx w x y = a x y) by (intros; apply is_derive_unique, H1). assert (Eb : forall x y, Dy w x y = b x y) by (intros; apply is_derive_unique, H1).
    assert (Ax : smooth1 (fun s t => al * Dx w s t) (fun s t => al * c s t) (fun s t => al * d s t)).
    { pose proof (smooth1_scal al _ _ _ H2) as S. intros s t. destruct (S s t) as (A & B & C & D). split; [eapply is_derive_ext; [|exact A]; intros; cbn; now rewrite Ea|]. split; [eapply is_derive_ext; [|exact B]; intros; cbn; now rewrite Ea | auto]. }
    assert (Ay : smooth1 (fun s t => al * Dy w s t) (fun s t => al * e' s t) (fun s t => al * f' s t)).
    { pose proof (smooth1_scal al _ _ _ H3) as S. intros s t. destruct (S s t) as (A & B & C & D). split; [eapply is_derive_ext; [|exact A]; intros; cbn; now rewrite Eb|]. split; [eapply is_derive_ext; [|exact B]; intros; cbn; now rewrite Eb | auto]. }
    assert (C1 : forall h hx hy, smooth1 h hx hy -> C1_on "bilinear" cells h).
    { intros h hx hy S. split; [|split]; intros c' s t _ _.
      - exists (hx (fst (RefMap "bilinear" c' s t)) (snd (RefMap "bilinear" c' s t))), (hy (fst (RefMap "bilinear" c' s t)) (snd (RefMap "bilinear" c' s t))). now apply smooth1_continuous.
      - apply (continuity_2d_pt_ext hx); [|apply S]. intros. symmetry. apply is_derive_unique, S.
      - apply (continuity_2d_pt_ext hy); [|apply S]. intros. symmetry. apply is_derive_unique, S. }
    pose proof (zero_loss_solves f w (fun _ _ => al) (fun p => w (fst p) (snd p)) (gradient w) (fun _ => al) bx bn g "bilinear" fam cells) as Z. refine (iff_trans _ (Z _ _ _ _ _ _ _ _ _ _)); clear Z.
    - assert (E1 : forall s t, Dx (fun s t => al * Dx w s t) s t = al * c s t) by (intros; apply is_derive_unique, Ax). assert (E2 : forall s t, Dy (fun s t => al * Dy w s t) s t = al * f' s t) by (intros; apply is_derive_unique, Ay).
      split.
      + intros (wx & wy & wxx & wyy & Sp & Z) c' s t Hc' Hst'. pose proof (tile_inside e lhs1 x0 x1 y0 y1 nx ny num cells mo bd He Hs Hnx Hny Hnum Hx Hy Hrun c' s t Hc' Hst') as Bx. cbv zeta.
        destruct (RefMap "bilinear" c' s t) as [X Y]. cbn [fst snd]. specialize (Z X Y Bx). rewrite E1, E2, Ea, Eb.
        assert (F1 : forall p q, wx p q = a p q) by (intros p q; rewrite <- Ea; symmetry; apply is_derive_unique, Sp). assert (F2 : forall p q, wy p q = b p q) by (intros p q; rewrite <- Eb; symmetry; apply is_derive_unique, Sp).
        assert (F3 : wxx X Y = c X Y).
        { destruct (Sp X Y) as (_ & _ & D & _). destruct (H2 X Y) as (D' & _). apply is_derive_unique in D'. rewrite <- D'. symmetry. apply is_derive_unique. eapply is_derive_ext; [|exact D]. intros q. apply F1. }
        assert (F4 : wyy X Y = f' X Y).
        { destruct (Sp X Y) as (_ & _ & _ & D). destruct (H3 X Y) as (_ & D' & _). apply is_derive_unique in D'. rewrite <- D'. symmetry. apply is_derive_unique. eapply is_derive_ext; [|exact D]. intros q. apply F2. }
        unfold applied in Z. rewrite F1, F2, F3, F4 in Z. match type of Z with Rabs ?q <= 0 => assert (Q : q = 0) by (destruct (Req_dec q 0) as [Q | Q]; [exact Q | apply Rabs_no_R0 in Q; pose proof (Rabs_pos q); lra]) end. lra.
      + intros Z. exists a, b, c, f'. split.
        * intros s t. destruct (H1 s t) as (A & B & _). destruct (H2 s t) as (C & _). destruct (H3 s t) as (_ & D & _). auto.
        * intros s t Hst'. destruct (tile_reached e lhs1 x0 x1 y0 y1 nx ny num cells mo bd He Hs Hnx Hny Hnum Hx Hy Hrun (s, t) Hst') as (c' & xi & eta & Hc' & Hq & Er).
          specialize (Z c' xi eta Hc' Hq). cbv zeta in Z. rewrite Er in Z. cbn [fst snd] in Z. rewrite Ea, Eb, E1, E2 in Z. unfold applied. match goal with |- Rabs ?q <= 0 => replace q with 0 by lra end. rewrite Rabs_R0. lra.
    - now left.
    - intros c' Hc'. eapply (tile_convex e lhs1 x0 x1 y0 y1 nx ny num cells mo bd); eauto.
    - exact Hfam.
    - exact (C1 _ _ _ Ax).
    - exact (C1 _ _ _ Ay).
    - intros c' s t _ _. exact (smooth1_cont _ _ _ H1 _ _).
    - intros c' s t _ _. apply (continuity_2d_pt_ext a); [|apply H1]. intros. now rewrite Ea.
    - intros c' s t _ _. apply (continuity_2d_pt_ext b); [|apply H1]. intros. now rewrite Eb.
    - intros c' s t Hc' Hst'. apply Hf. rewrite <- surjective_pairing. exact (tile_inside e lhs1 x0 x1 y0 y1 nx ny num cells mo bd He Hs Hnx Hny Hnum Hx Hy Hrun c' s t Hc' Hst').
    - intros k1 s t _ _. cbv zeta. unfold on_points. auto.
Qed.
Lemma unique : forall e lhs1 xl yl nx ny num cells mo bd bf dims nt U u f fam sg al bx bn g phi top rho L,
  numpy_ok e -> sampler_ok lhs1 -> (forall i n, latin n (lhs1 i n)) -> fst xl < snd xl -> fst yl < snd yl -> (1 <= nx)%Z -> (1 <= ny)%Z -> (0 <= num)%Z ->
  generate_quad_mesh_internal e lhs1 xl yl nx ny num = Ok (cells, mo, bd) ->
  starts dims 1 nt -> smooth_activation (n_act nt) -> nonexpansive (n_act nt) -> (forall p, nn_out (network_of nt) [p] = Ok [[U p]]) ->
  barrier sg al bx bn g xl yl phi top rho -> residual_below al bx bn g xl yl u f 0 -> 0 <= L -> steepness_on (in_box xl yl) (fun p => u (fst p) (snd p)) L ->
  (forall x y, in_box xl yl (x, y) -> continuity_2d_pt f x y) -> (forall tag b, dget Z.eqb bf tag = Ok b -> forall p, side_point xl yl tag p -> b (fst p) (snd p) = u (fst p) (snd p)) ->
  fam <> FJacobiPlain -> (forall k, exact_loss f U (gradient (fun x y => U (x, y))) (fun _ => al) bx bn g "bilinear" fam k cells = 0) ->
  (forall nb, (4 <= nb)%Z -> exists cells' mo' bd' data, generate_quad_mesh_internal e lhs1 xl yl nx ny nb = Ok (cells', mo', bd') /\ boundary_data bd' bf data /\ mean_gap data U = 0) ->
  forall x y, in_box xl yl (x, y) -> U (x, y) = u x y.
Proof.
  intros e lhs1 [x0 x1] [y0 y1] nx ny num cells mo bd bf dims nt U u f fam sg al bx bn g phi top rho L He Hs Hl Hx Hy Hnx Hny Hnum Hrun Hst Hact Hne HU Hbar Hu HL SL Hf Hbf Hfam Hloss Hgap x y Hin.
  cbn [fst snd] in Hx, Hy. destruct (network_steep dims nt U (in_box (x0, x1) (y0, y1)) Hst Hne HU) as (K & HK & SU).
  set (w := fun x y => U (x, y)) in *. assert (Tw : twice_smooth w) by exact (network_smooth dims 1 nt Hst Hact (fun p => [U p]) HU 0%nat ltac:(lia)).
  assert (Rw : residual_below al bx bn g (x0, x1) (y0, y1) w f 0).
  { apply (proj2 (smooth_loss e lhs1 (x0, x1) (y0, y1) nx ny num cells mo bd w f fam al bx bn g He Hs Hx Hy Hnx Hny Hnum Hrun Tw Hf Hfam)). intros k. rewrite <- (Hloss k). unfold w. apply exact_loss_ext. intros [p q]. reflexivity. }
  assert (Rim : forall p, on_rim (x0, x1) (y0, y1) p -> U p - u (fst p) (snd p) = 0).
  { intros p Hp. assert (A : Rabs (U p - u (fst p) (snd p)) = 0).
    { apply (small_zero _ ((K + L) * Rmax (x1 - x0) (y1 - y0)) (Rabs_pos _)). intros k Hk. destruct (Hgap (4 * Z.of_nat k)%Z ltac:(lia)) as (cells' & mo' & bd' & data & Eg & Hd & Hz).
      destruct (rim_gap e lhs1 (x0, x1) (y0, y1) nx ny (4 * Z.of_nat k)%Z cells' mo' bd' bf data U (fun p => u (fst p) (snd p)) K L Hs Hl ltac:(lia) Hx Hy Eg Hd) as [_ B]; try assumption; try lra.
      { intros tag pts q b I1 I2 I3. apply (Hbf tag b I3 q). exact (bd_sides e lhs1 x0 x1 y0 y1 nx ny (4 * Z.of_nat k) cells' mo' bd' Hs ltac:(lia) Hx Hy Eg tag pts q I1 I2). }
      specialize (B p Hp). rewrite Hz, Rmult_0_r, sqrt_0, Rplus_0_l in B. rewrite Z.mul_comm, Z.div_mul in B by lia. rewrite Nat2Z.id in B. cbn [fst snd] in B. unfold Rdiv in *. rewrite Rmult_assoc. exact B. }
    destruct (Req_dec (U p - u (fst p) (snd p)) 0) as [E | N]; [exact E | now apply Rabs_no_R0 in N]. }
  assert (S : Rabs (w x y - u x y) <= top * Rmax 0 (0 / rho)).
  { apply (stability sg al bx bn g (x0, x1) (y0, y1) phi top rho w u f 0 0 K L); cbn [fst snd]; auto; try lra.
    - intros [s t] [s' t'] A B. exact (SU (s, t) (s', t') A B).
    - intros p Hp. specialize (Rim p Hp). unfold w. rewrite <- surjective_pairing, Rim, Rabs_R0. lra. }
  replace (0 / rho) with 0 in S by (unfold Rdiv; ring). rewrite Rmax_left, Rmult_0_r in S by lra. unfold w in S.
  pose proof (Rabs_pos (U (x, y) - u x y)). destruct (Req_dec (U (x, y) - u x y) 0) as [E | N]; [lra | apply Rabs_no_R0 in N; lra].
Qed.
