(* Proofs about Transform.v. *)
From Coq Require Import String ZArith List Arith Lia Reals Lra Psatz.
From Coquelicot Require Import Coquelicot.
From Verif Require Import Num Py Jacobi Quadrature Basis Transform Cell Spec SpecGeom RCalc PolyFacts
  ListFacts.
Import ListNotations.
Local Open Scope R_scope.

Definition bil (c : cell R) : trafo R := TBilinear (bilinear_set_cell c).
Definition aff (c : cell R) : trafo R := TAffine (affine_set_cell c).

Ltac cells :=
  repeat match goal with c : cell R |- _ => destruct c as [[? ?] [? ?] [? ?] [? ?]] end.
Ltac unf :=
  unfold bil, aff, t_orig, t_jacobian, t_grad1, affine_orig, bilinear_orig, affine_set_cell, bilinear_set_cell,
   affine_jacobian, bilinear_jacobian, affine_detjk, bilinear_det, affine_grad1, bilinear_grad1, c05, c025 in *;
  cbn [v0 v1 v2 v3 fst snd axc0 axc1 axc2 ayc0 ayc1 ayc2 bxc0 bxc1 bxc2 bxc3 byc0 byc1 byc2 byc3] in *; to_R_all.

Lemma pair_eq : forall (p q : point), fst p = fst q -> snd p = snd q -> p = q.
Proof. intros [] []; simpl; congruence. Qed.

(* C11 *)
Lemma bil_corners : forall c, t_orig (bil c) (-1) (-1) = v0 c /\ t_orig (bil c) 1 (-1) = v1 c /\
  t_orig (bil c) 1 1 = v2 c /\ t_orig (bil c) (-1) 1 = v3 c.
Proof. intros; cells; unf. repeat split; apply pair_eq; cbn [fst snd]; field. Qed.
Lemma bil_edges : forall c t,
  t_orig (bil c) t (-1) = seg (v0 c) (v1 c) ((1 + t) / 2) /\
  t_orig (bil c) 1 t = seg (v1 c) (v2 c) ((1 + t) / 2) /\
  t_orig (bil c) t 1 = seg (v3 c) (v2 c) ((1 + t) / 2) /\
  t_orig (bil c) (-1) t = seg (v0 c) (v3 c) ((1 + t) / 2).
Proof. intros; cells; unfold seg; unf. repeat split; apply pair_eq; cbn [fst snd]; field. Qed.
Lemma bil_hull : forall c x y, in_square x y -> in_hull c (t_orig (bil c) x y).
Proof.
  intros c x y [Hx Hy]. exists ((1-x)*(1-y)/4), ((1+x)*(1-y)/4), ((1+x)*(1+y)/4), ((1-x)*(1+y)/4).
  assert (0 <= (1-x)*(1-y)) by (apply Rmult_le_pos; lra).
  assert (0 <= (1+x)*(1-y)) by (apply Rmult_le_pos; lra).
  assert (0 <= (1+x)*(1+y)) by (apply Rmult_le_pos; lra).
  assert (0 <= (1-x)*(1+y)) by (apply Rmult_le_pos; lra).
  cells; unf. repeat split; try lra; field.
Qed.
Lemma hull_in_cell : forall c p, convex_ccw c -> in_hull c p -> in_cell c p.
Proof.
  intros c [px py] (H1 & H2 & H3 & H4) (a & b & g & d & Ha & Hb & Hg & Hd & S & Ex & Ey).
  cells. unfold in_cell, cross in *; cbn [v0 v1 v2 v3 fst snd] in *. subst px py.
  assert (a = 1 - b - g - d) by lra. subst a.
  repeat split.
  - replace (_ - _) with (g * ((r1 - r) * (r4 - r0) - (r2 - r0) * (r3 - r)) + d * ((r - r5) * (r2 - r6) - (r0 - r6) * (r1 - r5))) by ring.
    apply Rplus_le_le_0_compat; apply Rmult_le_pos; lra.
  - replace (_ - _) with (d * ((r3 - r1) * (r6 - r2) - (r4 - r2) * (r5 - r1)) + (1 - b - g - d) * ((r1 - r) * (r4 - r0) - (r2 - r0) * (r3 - r))) by ring.
    apply Rplus_le_le_0_compat; apply Rmult_le_pos; lra.
  - replace (_ - _) with ((1 - b - g - d) * ((r5 - r3) * (r0 - r4) - (r6 - r4) * (r - r3)) + b * ((r3 - r1) * (r6 - r2) - (r4 - r2) * (r5 - r1))) by ring.
    apply Rplus_le_le_0_compat; apply Rmult_le_pos; lra.
  - replace (_ - _) with (b * ((r - r5) * (r2 - r6) - (r0 - r6) * (r1 - r5)) + g * ((r5 - r3) * (r0 - r4) - (r6 - r4) * (r - r3))) by ring.
    apply Rplus_le_le_0_compat; apply Rmult_le_pos; lra.
Qed.

(* C12 *)
Lemma aff_corners : forall c, t_orig (aff c) (-1) (-1) = v0 c /\ t_orig (aff c) 1 (-1) = v1 c /\
  t_orig (aff c) (-1) 1 = v3 c /\ (t_orig (aff c) 1 1 = v2 c <-> parallelogram c).
Proof.
  intros; cells; unfold parallelogram; unf.
  refine (conj _ (conj _ (conj _ (conj _ _)))).
  1-3: apply pair_eq; cbn [fst snd]; field.
  - intros E. injection E as E1 E2. lra.
  - intros [E1 E2]. apply pair_eq; cbn [fst snd]; lra.
Qed.
Lemma par_maps : forall c, parallelogram c -> forall x y, t_orig (aff c) x y = t_orig (bil c) x y.
Proof.
  intros c H x y; cells; unfold parallelogram in H; unf. destruct H as [E1 E2].
  replace r3 with (r1 + r5 - r) by lra. replace r4 with (r2 + r6 - r0) by lra.
  apply pair_eq; cbn [fst snd]; field.
Qed.
Lemma par_det : forall c, parallelogram c -> forall x y,
  affine_detjk (affine_set_cell c) = bilinear_det (bilinear_set_cell c) x y.
Proof.
  intros c H x y; cells; unfold parallelogram in H; unf. destruct H as [E1 E2].
  replace r3 with (r1 + r5 - r) by lra. replace r4 with (r2 + r6 - r0) by lra. field.
Qed.
Lemma par_grad : forall c, parallelogram c -> forall x y gx gy,
  t_grad1 (aff c) x y gx gy = t_grad1 (bil c) x y gx gy.
Proof.
  intros c H x y gx gy. unfold t_grad1, aff, bil, affine_grad1, bilinear_grad1.
  rewrite (par_det c H x y). cells; unfold parallelogram in H. destruct H as [E1 E2]. cbn [v0 v1 v2 v3 fst snd] in *.
  set (d := bilinear_det _ x y). unf.
  apply pair_eq; cbn [fst snd]; f_equal.
  - replace r4 with (r2 + r6 - r0) by lra. field.
  - replace r3 with (r1 + r5 - r) by lra. field.
Qed.

(* C13 *)
Lemma map_partials : forall (t : trafo R) (x y : R),
  exists a b a' b' : R,
    is_derive (fun s : R => fst (t_orig t s y)) x a /\ is_derive (fun s : R => fst (t_orig t x s)) y b /\
    is_derive (fun s : R => snd (t_orig t s y)) x a' /\ is_derive (fun s : R => snd (t_orig t x s)) y b' /\
    (match t with TAffine m => affine_detjk m | TBilinear m => bilinear_det m x y end) = a * b' - b * a' /\
    match t with
    | TAffine m => a = axc1 m /\ b = axc2 m /\ a' = ayc1 m /\ b' = ayc2 m
    | TBilinear m => a = bxc1 m + bxc3 m * y /\ b = bxc2 m + bxc3 m * x /\
                     a' = byc1 m + byc3 m * y /\ b' = byc2 m + byc3 m * x
    end.
Proof.
  intros [m|m] x y.
  - exists (axc1 m), (axc2 m), (ayc1 m), (ayc2 m). unf.
    refine (conj _ (conj _ (conj _ (conj _ (conj _ _))))); [ | | | |ring|repeat split];
    (auto_derive; [auto | eqR; ring]).
  - exists (bxc1 m + bxc3 m * y), (bxc2 m + bxc3 m * x), (byc1 m + byc3 m * y), (byc2 m + byc3 m * x). unf.
    refine (conj _ (conj _ (conj _ (conj _ (conj _ _))))); [ | | | |ring|repeat split];
    (auto_derive; [auto | eqR; ring]).
Qed.
Lemma jacdet_aff : forall c x y, JacDet (t_orig (aff c)) x y = affine_detjk (affine_set_cell c).
Proof.
  intros. destruct (map_partials (aff c) x y) as (a & b & a' & b' & H1 & H2 & H3 & H4 & H5 & _).
  unfold JacDet. rewrite (is_derive_unique _ _ _ H1), (is_derive_unique _ _ _ H2),
    (is_derive_unique _ _ _ H3), (is_derive_unique _ _ _ H4). symmetry. exact H5.
Qed.
Lemma jacdet_bil : forall c x y, JacDet (t_orig (bil c)) x y = bilinear_det (bilinear_set_cell c) x y.
Proof.
  intros. destruct (map_partials (bil c) x y) as (a & b & a' & b' & H1 & H2 & H3 & H4 & H5 & _).
  unfold JacDet. rewrite (is_derive_unique _ _ _ H1), (is_derive_unique _ _ _ H2),
    (is_derive_unique _ _ _ H3), (is_derive_unique _ _ _ H4). symmetry. exact H5.
Qed.
Lemma bil_jacobian_spec : forall c (xi eta : list R), length xi = length eta ->
  length (t_jacobian (bil c) xi eta) = length xi /\
  forall q, (q < length xi)%nat -> let x := nth q xi 0 in let y := nth q eta 0 in
    nth q (t_jacobian (bil c) xi eta) 0 = Rabs (JacDet (t_orig (bil c)) x y).
Proof.
  intros. unfold t_jacobian, bil, bilinear_jacobian. rewrite map2_length. split; [lia|].
  intros. rewrite map2_nth with (da := 0) (db := 0) by lia. fold (bil c). rewrite jacdet_bil. reflexivity.
Qed.
Lemma aff_jacobian_spec : forall c (xi eta : list R) x y,
  t_jacobian (aff c) xi eta = [Rabs (JacDet (t_orig (aff c)) x y)].
Proof. intros. rewrite jacdet_aff. reflexivity. Qed.

(* the determinant is the bilinear interpolation of the turns at the corners *)
Lemma bil_det_corners : forall c x y,
  bilinear_det (bilinear_set_cell c) x y =
  (((1-x)*(1-y)) * cross (v3 c) (v0 c) (v1 c) + ((1+x)*(1-y)) * cross (v0 c) (v1 c) (v2 c) +
   ((1+x)*(1+y)) * cross (v1 c) (v2 c) (v3 c) + ((1-x)*(1+y)) * cross (v2 c) (v3 c) (v0 c)) / 16.
Proof. intros; cells; unfold cross; unf. field. Qed.

Lemma interp_pos : forall x y a b c d, in_square x y -> 0 < a -> 0 < b -> 0 < c -> 0 < d ->
  0 < (1-x)*(1-y) * a + (1+x)*(1-y) * b + (1+x)*(1+y) * c + (1-x)*(1+y) * d.
Proof.
  intros x y a b c d [Hx Hy] Ha Hb Hc Hd.
  set (m := Rmin (Rmin a b) (Rmin c d)).
  assert (Hm : 0 < m) by (unfold m; repeat apply Rmin_pos; auto).
  assert (m <= a) by (unfold m; eapply Rle_trans; [apply Rmin_l | apply Rmin_l]).
  assert (m <= b) by (unfold m; eapply Rle_trans; [apply Rmin_l | apply Rmin_r]).
  assert (m <= c) by (unfold m; eapply Rle_trans; [apply Rmin_r | apply Rmin_l]).
  assert (m <= d) by (unfold m; eapply Rle_trans; [apply Rmin_r | apply Rmin_r]).
  assert (0 <= (1-x)*(1-y)) by (apply Rmult_le_pos; lra).
  assert (0 <= (1+x)*(1-y)) by (apply Rmult_le_pos; lra).
  assert (0 <= (1+x)*(1+y)) by (apply Rmult_le_pos; lra).
  assert (0 <= (1-x)*(1+y)) by (apply Rmult_le_pos; lra).
  apply Rlt_le_trans with (4 * m); [lra|].
  replace (4 * m) with ((1-x)*(1-y) * m + (1+x)*(1-y) * m + (1+x)*(1+y) * m + (1-x)*(1+y) * m) by ring.
  repeat apply Rplus_le_compat; apply Rmult_le_compat_l; auto.
Qed.

Lemma det_reversed : forall c x y,
  bilinear_det (bilinear_set_cell (reversed c)) x (- y) = - bilinear_det (bilinear_set_cell c) x y.
Proof. intros; cells; unfold reversed; unf. field. Qed.
Lemma convex_det : forall c x y, convex_ccw c -> in_square x y -> 0 < bilinear_det (bilinear_set_cell c) x y.
Proof.
  intros c x y (H1 & H2 & H3 & H4) Hs. rewrite bil_det_corners.
  pose proof (interp_pos x y _ _ _ _ Hs H4 H1 H2 H3). lra.
Qed.
Lemma convex_jac_pos : forall c x y, strictly_convex c -> in_square x y ->
  0 < Rabs (bilinear_det (bilinear_set_cell c) x y).
Proof.
  intros c x y [H|H] Hs.
  - apply Rabs_pos_lt. pose proof (convex_det c x y H Hs). lra.
  - pose proof (convex_det _ x (-y) H ltac:(unfold in_square in *; lra)) as P. rewrite det_reversed in P.
    apply Rabs_pos_lt. lra.
Qed.
Lemma aff_det_cross : forall c, affine_detjk (affine_set_cell c) = cross (v3 c) (v0 c) (v1 c) / 4.
Proof. intros; cells; unfold cross; unf. field. Qed.
Lemma convex_aff_pos : forall c, strictly_convex c -> 0 < Rabs (affine_detjk (affine_set_cell c)).
Proof.
  intros c H. apply Rabs_pos_lt. rewrite aff_det_cross. cells; unfold strictly_convex, convex_ccw, reversed, cross in *.
  cbn [v0 v1 v2 v3 fst snd] in *. destruct H as [H|H]; decompose [and] H; nra.
Qed.

Lemma jacobian_positive : forall c x y, strictly_convex c -> in_square x y ->
  0 < Rabs (JacDet (t_orig (bil c)) x y) /\ 0 < Rabs (JacDet (t_orig (aff c)) x y).
Proof. intros. rewrite jacdet_bil, jacdet_aff. split; [apply convex_jac_pos; auto | apply convex_aff_pos; auto]. Qed.
(* orientation: the signed determinant has the sign of the orientation *)

(* C14 *)
Definition tdet (t : trafo R) (x y : R) : R :=
  match t with TAffine m => affine_detjk m | TBilinear m => bilinear_det m x y end.
Lemma jacdet_tdet : forall t x y, JacDet (t_orig t) x y = tdet t x y.
Proof.
  intros. destruct (map_partials t x y) as (a & b & a' & b' & H1 & H2 & H3 & H4 & H5 & _).
  unfold JacDet. rewrite (is_derive_unique _ _ _ H1), (is_derive_unique _ _ _ H2),
    (is_derive_unique _ _ _ H3), (is_derive_unique _ _ _ H4). symmetry. exact H5.
Qed.

Lemma grad1_solves : forall t x y gx gy, JacDet (t_orig t) x y <> 0 ->
  let X := fun s r => fst (t_orig t s r) in let Y := fun s r => snd (t_orig t s r) in
  forall a b, t_grad1 t x y gx gy = (a, b) <->
    (gx = a * Dx X x y + b * Dx Y x y /\ gy = a * Dy X x y + b * Dy Y x y).
Proof.
  intros t x y gx gy Hd X Y a b. rewrite jacdet_tdet in Hd.
  destruct (map_partials t x y) as (p & q & p' & q' & H1 & H2 & H3 & H4 & H5 & H6).
  unfold Dx, Dy, X, Y.
  rewrite (is_derive_unique _ _ _ H1), (is_derive_unique _ _ _ H2),
    (is_derive_unique _ _ _ H3), (is_derive_unique _ _ _ H4).
  assert (G : t_grad1 t x y gx gy = ((q' * gx - p' * gy) * (1 / tdet t x y), ((- q) * gx + p * gy) * (1 / tdet t x y))).
  { destruct t; destruct H6 as (-> & -> & -> & ->); unf; reflexivity. }
  rewrite G. change (match t with TAffine m => affine_detjk m | TBilinear m => bilinear_det m x y end)
    with (tdet t x y) in H5. rewrite H5 in Hd |- *. split.
  - intros E. injection E as <- <-. split; field; auto.
  - intros [-> ->]. apply pair_eq; cbn [fst snd]; field; auto.
Qed.


(* both coordinates of both maps are of the form k0 + k1 x + k2 y + k3 x y *)
Lemma bilf_diff : forall (k0 k1 k2 k3 x y : R),
  differentiable_pt_lim (fun s r => k0 + k1 * s + k2 * r + k3 * s * r) x y (k1 + k3 * y) (k2 + k3 * x).
Proof.
  intros. intros eps. set (K := Rabs k3 + 1). assert (0 < K) by (unfold K; pose proof (Rabs_pos k3); lra).
  assert (HK : 0 < eps / K) by (apply Rdiv_lt_0_compat; [apply cond_pos | auto]).
  exists (mkposreal _ HK). simpl. intros u v Hu Hv.
  replace (_ - _ - _) with (k3 * ((u - x) * (v - y))) by ring.
  rewrite !Rabs_mult. set (m := Rmax _ _).
  assert (Rabs (u - x) <= m) by apply Rmax_l. assert (Rabs (v - y) <= m) by apply Rmax_r.
  assert (0 <= m) by (eapply Rle_trans; [apply Rabs_pos | eauto]).
  apply Rle_trans with (Rabs k3 * (eps / K * m)).
  - apply Rmult_le_compat_l; [apply Rabs_pos|]. apply Rmult_le_compat; try apply Rabs_pos; auto. lra.
  - replace (Rabs k3 * (eps / K * m)) with ((Rabs k3 / K) * (eps * m)) by (field; lra).
    rewrite <- (Rmult_1_l (eps * m)) at 2. apply Rmult_le_compat_r.
    + apply Rmult_le_pos; auto. left; apply cond_pos.
    + apply Rmult_le_reg_r with K; auto. replace (Rabs k3 / K * K) with (Rabs k3) by (field; lra). unfold K; lra.
Qed.
Lemma map_diff : forall t x y (f := fun s r => fst (t_orig t s r)) (g := fun s r => snd (t_orig t s r)),
  differentiable_pt_lim f x y (Dx f x y) (Dy f x y) /\ differentiable_pt_lim g x y (Dx g x y) (Dy g x y).
Proof.
  intros t x y f g.
  assert (E : forall h, (exists k0 k1 k2 k3, forall u v, h u v = k0 + k1 * u + k2 * v + k3 * u * v) ->
            differentiable_pt_lim h x y (Dx h x y) (Dy h x y)).
  { intros h (k0 & k1 & k2 & k3 & E).
    assert (D : differentiable_pt_lim h x y (k1 + k3 * y) (k2 + k3 * x)).
    { eapply differentiable_pt_lim_ext; [|apply (bilf_diff k0 k1 k2 k3)].
      apply locally_2d_forall. intros. now rewrite E. }
    pose proof (differentiable_pt_lim_unique _ _ _ _ _ D) as [D1 D2]. unfold Dx, Dy. rewrite D1, D2. exact D. }
  split; apply E; unfold f, g; destruct t as [m|m]; unf.
  - exists (axc0 m), (axc1 m), (axc2 m), 0. intros. ring.
  - exists (bxc0 m), (bxc1 m), (bxc2 m), (bxc3 m). intros. ring.
  - exists (ayc0 m), (ayc1 m), (ayc2 m), 0. intros. ring.
  - exists (byc0 m), (byc1 m), (byc2 m), (byc3 m). intros. ring.
Qed.

(* the chain rule for both maps *)
Lemma chain_rule : forall t u x y a b, let P := t_orig t x y in
  differentiable_pt_lim u (fst P) (snd P) a b ->
  let U := fun s r => u (fst (t_orig t s r)) (snd (t_orig t s r)) in
  differentiable_pt_lim U x y
    (a * Dx (fun s r => fst (t_orig t s r)) x y + b * Dx (fun s r => snd (t_orig t s r)) x y)
    (a * Dy (fun s r => fst (t_orig t s r)) x y + b * Dy (fun s r => snd (t_orig t s r)) x y).
Proof.
  intros t u x y a b P H U. destruct (map_diff t x y) as [D1 D2].
  apply (differentiable_pt_lim_comp u (fun s r => fst (t_orig t s r)) (fun s r => snd (t_orig t s r))); auto.
Qed.
Lemma grad1_physical : forall t u x y a b, let P := t_orig t x y in
  JacDet (t_orig t) x y <> 0 ->
  differentiable_pt_lim u (fst P) (snd P) a b ->
  let U := fun s r => u (fst (t_orig t s r)) (snd (t_orig t s r)) in
  t_grad1 t x y (Dx U x y) (Dy U x y) = (a, b).
Proof.
  intros t u x y a b P Hd H U. apply grad1_solves; auto.
  pose proof (differentiable_pt_lim_unique _ _ _ _ _ (chain_rule t u x y a b H)) as [A B]. split; assumption.
Qed.

(* tables *)
Lemma grad_row_spec : forall (t : trafo R) (xi eta gx gy : list R), length eta = length xi -> length gx = length xi -> length gy = length xi ->
  length (grad_row t xi eta gx gy) = length xi /\
  forall q d, (q < length xi)%nat ->
  nth q (grad_row t xi eta gx gy) d = t_grad1 t (nth q xi 0) (nth q eta 0) (nth q gx 0) (nth q gy 0).
Proof.
  induction xi as [|x xi IH]; intros [|e eta] [|a gx] [|b gy]; simpl; intros; try discriminate.
  - split; auto. intros. lia.
  - destruct (IH eta gx gy) as [A B]; auto. split; [simpl; auto|].
    intros [|q] d Hq; auto. apply B. lia.
Qed.
Lemma t_derivative_spec : forall t (gx gy : list (list R)) xi eta n, length eta = length xi ->
  has_shape gx n (length xi) -> has_shape gy n (length xi) ->
  has_shape (fst (t_derivative t gx gy xi eta)) n (length xi) /\
  has_shape (snd (t_derivative t gx gy xi eta)) n (length xi) /\
  forall i q, (i < n)%nat -> (q < length xi)%nat ->
    (entry (fst (t_derivative t gx gy xi eta)) i q, entry (snd (t_derivative t gx gy xi eta)) i q) =
    t_grad1 t (nth q xi 0) (nth q eta 0) (entry gx i q) (entry gy i q).
Proof.
  intros t gx gy xi eta n He [Lx Sx] [Ly Sy]. unfold t_derivative. cbn [fst snd].
  assert (Hrow : forall row, In row (map2 (grad_row t xi eta) gx gy) -> length row = length xi).
  { intros row Hr. rewrite map2_combine in Hr. apply in_map_iff in Hr. destruct Hr as ([a b] & <- & Hin).
    apply grad_row_spec; auto; simpl; [apply Sx; eapply in_combine_l; eauto | apply Sy; eapply in_combine_r; eauto]. }
  assert (Sh : forall f : R * R -> R, has_shape (map (map f) (map2 (grad_row t xi eta) gx gy)) n (length xi)).
  { intros f. split. { rewrite map_length, map2_length. lia. }
    intros row Hr. apply in_map_iff in Hr. destruct Hr as (r & <- & Hr). rewrite map_length. auto. }
  split; [auto|]. split; [auto|].
  intros i q Hi Hq. unfold entry.
  rewrite !nth_map_lt with (d' := []) by (rewrite map2_length; lia).
  rewrite map2_nth with (da := []) (db := []) by lia.
  assert (L1 : length (nth i gx []) = length xi) by (apply Sx, nth_In; lia).
  assert (L2 : length (nth i gy []) = length xi) by (apply Sy, nth_In; lia).
  destruct (grad_row_spec t xi eta (nth i gx []) (nth i gy []) He L1 L2) as [A B].
  rewrite !nth_map_lt with (d' := (0, 0)) by lia. rewrite B by auto. now destruct (t_grad1 _ _ _ _ _).
Qed.
Lemma table_gradient : forall t (gx gy : list (list R)) xi eta n i q u a b,
  length eta = length xi -> has_shape gx n (length xi) -> has_shape gy n (length xi) ->
  (i < n)%nat -> (q < length xi)%nat ->
  let x := nth q xi 0 in let y := nth q eta 0 in let P := t_orig t x y in
  JacDet (t_orig t) x y <> 0 ->
  differentiable_pt_lim u (fst P) (snd P) a b ->
  is_derive (fun s : R => u (fst (t_orig t s y)) (snd (t_orig t s y))) x (entry gx i q) ->
  is_derive (fun r : R => u (fst (t_orig t x r)) (snd (t_orig t x r))) y (entry gy i q) ->
  entry (fst (t_derivative t gx gy xi eta)) i q = a /\ entry (snd (t_derivative t gx gy xi eta)) i q = b.
Proof.
  intros t gx gy xi eta n i q u a b He Sx Sy Hi Hq x y P Hd Hu H1 H2.
  destruct (t_derivative_spec t gx gy xi eta n He Sx Sy) as (_ & _ & E). specialize (E i q Hi Hq).
  rewrite <- (is_derive_unique _ _ _ H1), <- (is_derive_unique _ _ _ H2) in E.
  pose proof (grad1_physical t u x y a b Hd Hu) as G. cbv zeta in G. unfold Dx, Dy in G.
  fold x y in E. rewrite G in E. now injection E.
Qed.

(* ---------- C15: second derivatives ---------- *)
Lemma geo_det : forall m : affine_map R, det3 (geo_data m) = affine_detjk m * affine_detjk m * affine_detjk m.
Proof. intros. unfold det3, geo_data, ij. cbn [nth]. unf. ring. Qed.

Lemma inv3_ok : forall m : affine_map R,
  (affine_detjk m = 0 -> inv3 (geo_data m) = Err LinAlgError) /\
  (affine_detjk m <> 0 -> exists sol, inv3 (geo_data m) = Ok sol /\
    forall a b d r20 r11 r02,
      r20 = axc1 m * axc1 m * a + 2 * axc1 m * ayc1 m * b + ayc1 m * ayc1 m * d ->
      r11 = axc1 m * axc2 m * a + (ayc1 m * axc2 m + axc1 m * ayc2 m) * b + ayc1 m * ayc2 m * d ->
      r02 = axc2 m * axc2 m * a + 2 * axc2 m * ayc2 m * b + ayc2 m * ayc2 m * d ->
      affine_second1 sol r20 r11 r02 = (a, b, d)).
Proof.
  intros m. unfold inv3. rewrite geo_det. split; intros Hd.
  - rewrite Hd. match goal with |- context [if ?b then _ else _] => replace b with true; auto end.
    symmetry. apply Rneqb_true. to_R. ring.
  - assert (Hd3 : affine_detjk m * affine_detjk m * affine_detjk m <> 0).
    { repeat apply Rmult_integral_contrapositive_currified; auto. }
    match goal with |- context [if ?b then _ else _] =>
      replace b with false by (symmetry; apply Rneqb_false; to_R; exact Hd3) end.
    eexists. split; [reflexivity|]. intros a b d r20 r11 r02 -> -> ->.
    unfold affine_second1, ij, geo_data. cbn [nth]. unf. to_R.
    repeat f_equal; field; auto.
Qed.

Lemma second_row_spec : forall (sol : list (list R)) (a b c : list R), length b = length a -> length c = length a ->
  length (second_row sol a b c) = length a /\
  forall q d, (q < length a)%nat ->
  nth q (second_row sol a b c) d = affine_second1 sol (nth q a 0) (nth q b 0) (nth q c 0).
Proof.
  induction a as [|x a IH]; intros [|y b] [|z c]; simpl; intros; try discriminate.
  - split; auto. intros; lia.
  - destruct (IH b c) as [A B]; auto. split; [simpl; auto|]. intros [|q] d Hq; auto. apply B. lia.
Qed.
Lemma map3_length : forall {X Y Z W} (f : X -> Y -> Z -> W) a b c, length b = length a -> length c = length a ->
  length (map3 f a b c) = length a.
Proof. induction a; intros [|] [|]; simpl; intros; try discriminate; auto. Qed.
Lemma map3_nth : forall {X Y Z W} (f : X -> Y -> Z -> W) a b c i dx dy dz dw, length b = length a -> length c = length a ->
  (i < length a)%nat -> nth i (map3 f a b c) dw = f (nth i a dx) (nth i b dy) (nth i c dz).
Proof.
  induction a as [|x a IH]; intros [|y b] [|z c]; simpl; intros; try discriminate; try lia.
  destruct i; auto. apply IH; lia.
Qed.
Lemma map3_In : forall {X Y Z W} (f : X -> Y -> Z -> W) a b c w, In w (map3 f a b c) ->
  exists x y z, In x a /\ In y b /\ In z c /\ w = f x y z.
Proof.
  induction a as [|x a IH]; intros [|y b] [|z c] w; simpl; try tauto.
  intros [<-|H]; [exists x, y, z; auto|]. destruct (IH _ _ _ H) as (x' & y' & z' & ? & ? & ? & ?).
  exists x', y', z'; auto.
Qed.

Lemma t_second_spec : forall (m : affine_map R) gxx gxy gyy n l, affine_detjk m <> 0 ->
  has_shape gxx n l -> has_shape gxy n l -> has_shape gyy n l ->
  exists txx txy tyy sol, t_second (TAffine m) gxx gxy gyy = Ok (txx, txy, tyy) /\ inv3 (geo_data m) = Ok sol /\
    has_shape txx n l /\ has_shape txy n l /\ has_shape tyy n l /\
    forall i q, (i < n)%nat -> (q < l)%nat ->
      (entry txx i q, entry txy i q, entry tyy i q) = affine_second1 sol (entry gxx i q) (entry gxy i q) (entry gyy i q).
Proof.
  intros m gxx gxy gyy n l Hd [Lx Sx] [Ly Sy] [Lz Sz].
  destruct (inv3_ok m) as [_ Hi]. destruct (Hi Hd) as (sol & Es & _). unfold t_second. rewrite Es. cbn [bind].
  do 4 eexists. split; [reflexivity|]. split; [reflexivity|].
  assert (Sh : forall f : R * R * R -> R, has_shape (map (map f) (map3 (second_row sol) gxx gxy gyy)) n l).
  { intros f. split. { rewrite map_length, map3_length; lia. }
    intros row Hr. apply in_map_iff in Hr. destruct Hr as (r & <- & Hr). rewrite map_length.
    apply map3_In in Hr. destruct Hr as (x & y & z & Hx & Hy & Hz & ->).
    pose proof (Sx _ Hx). pose proof (Sy _ Hy). pose proof (Sz _ Hz).
    rewrite (proj1 (second_row_spec sol x y z ltac:(lia) ltac:(lia))). auto. }
  split; [auto|]. split; [auto|]. split; [auto|].
  intros i q Hi' Hq. unfold entry.
  assert (L1 : length (nth i gxx []) = l) by (apply Sx, nth_In; lia).
  assert (L2 : length (nth i gxy []) = l) by (apply Sy, nth_In; lia).
  assert (L3 : length (nth i gyy []) = l) by (apply Sz, nth_In; lia).
  destruct (second_row_spec sol (nth i gxx []) (nth i gxy []) (nth i gyy []) ltac:(lia) ltac:(lia)) as [A B].
  rewrite !nth_map_lt with (d' := []) by (rewrite map3_length; lia).
  rewrite map3_nth with (dx := []) (dy := []) (dz := []) by lia.
  rewrite !nth_map_lt with (d' := (0, 0, 0)) by lia. rewrite B by lia.
  now destruct (affine_second1 sol _ _ _) as [[? ?] ?].
Qed.

Lemma diff_is_derive : forall f x y lx ly, differentiable_pt_lim f x y lx ly ->
  is_derive (fun s : R => f s y) x lx /\ is_derive (fun r : R => f x r) y ly.
Proof.
  intros f x y lx ly H.
  assert (Di : forall a : R, differentiable_pt_lim (fun u v : R => u) a 0 1 0).
  { intros. apply (differentiable_pt_lim_proj1_0 (fun u => u)). apply derivable_pt_lim_id. }
  assert (Dc : forall k a : R, differentiable_pt_lim (fun u v : R => k) a 0 0 0).
  { intros. apply (differentiable_pt_lim_proj1_0 (fun u => k)). apply derivable_pt_lim_const. }
  split; apply is_derive_Reals; apply (differentiable_pt_lim_proj1_1 _ _ 0).
  - pose proof (differentiable_pt_lim_comp f (fun u _ => u) (fun _ _ => y) x 0 _ _ _ _ _ _ H (Di x) (Dc y x)) as P.
    replace (lx * 1 + ly * 0) with lx in P by ring. replace (lx * 0 + ly * 0) with 0 in P by ring. exact P.
  - pose proof (differentiable_pt_lim_comp f (fun _ _ => x) (fun u _ => u) y 0 _ _ _ _ _ _ H (Dc x y) (Di y)) as P.
    replace (lx * 0 + ly * 1) with ly in P by ring. replace (lx * 0 + ly * 0) with 0 in P by ring. exact P.
Qed.

(* first derivatives of u o F for the affine map, as functions *)
Section Second.
Variables (m : affine_map R) (u ux uy : R -> R -> R).
Hypothesis Hu : forall X Y, differentiable_pt_lim u X Y (ux X Y) (uy X Y).
Let T := TAffine m.
Let U := fun s r => u (fst (t_orig T s r)) (snd (t_orig T s r)).
Lemma aff_D : forall x y,
  Dx (fun s r => fst (t_orig T s r)) x y = axc1 m /\ Dx (fun s r => snd (t_orig T s r)) x y = ayc1 m /\
  Dy (fun s r => fst (t_orig T s r)) x y = axc2 m /\ Dy (fun s r => snd (t_orig T s r)) x y = ayc2 m.
Proof.
  intros. destruct (map_partials T x y) as (p & q & p' & q' & H1 & H2 & H3 & H4 & _ & (-> & -> & -> & ->)).
  unfold Dx, Dy. rewrite (is_derive_unique _ _ _ H1), (is_derive_unique _ _ _ H2),
    (is_derive_unique _ _ _ H3), (is_derive_unique _ _ _ H4). auto.
Qed.
Lemma DU : forall x y,
  Dx U x y = ux (fst (t_orig T x y)) (snd (t_orig T x y)) * axc1 m + uy (fst (t_orig T x y)) (snd (t_orig T x y)) * ayc1 m /\
  Dy U x y = ux (fst (t_orig T x y)) (snd (t_orig T x y)) * axc2 m + uy (fst (t_orig T x y)) (snd (t_orig T x y)) * ayc2 m.
Proof.
  intros. pose proof (differentiable_pt_lim_unique _ _ _ _ _ (chain_rule T u x y _ _ (Hu _ _))) as [A B].
  destruct (aff_D x y) as (E1 & E2 & E3 & E4). rewrite E1, E2 in A. rewrite E3, E4 in B. split; assumption.
Qed.
Lemma chain_derive : forall v x y a b, let P := t_orig T x y in differentiable_pt_lim v (fst P) (snd P) a b ->
  is_derive (fun s : R => v (fst (t_orig T s y)) (snd (t_orig T s y))) x (a * axc1 m + b * ayc1 m) /\
  is_derive (fun r : R => v (fst (t_orig T x r)) (snd (t_orig T x r))) y (a * axc2 m + b * ayc2 m).
Proof.
  intros v x y a b P H. pose proof (chain_rule T v x y a b H) as D.
  destruct (aff_D x y) as (E1 & E2 & E3 & E4). rewrite E1, E2, E3, E4 in D.
  exact (diff_is_derive _ _ _ _ _ D).
Qed.
Lemma second_chain : forall x y a b d, let P := t_orig T x y in
  differentiable_pt_lim ux (fst P) (snd P) a b -> differentiable_pt_lim uy (fst P) (snd P) b d ->
  Dx (Dx U) x y = axc1 m * axc1 m * a + 2 * axc1 m * ayc1 m * b + ayc1 m * ayc1 m * d /\
  Dy (Dx U) x y = axc1 m * axc2 m * a + (ayc1 m * axc2 m + axc1 m * ayc2 m) * b + ayc1 m * ayc2 m * d /\
  Dy (Dy U) x y = axc2 m * axc2 m * a + 2 * axc2 m * ayc2 m * b + ayc2 m * ayc2 m * d.
Proof.
  intros x y a b d P H1 H2.
  destruct (chain_derive ux x y a b H1) as [A1 A2]. destruct (chain_derive uy x y b d H2) as [B1 B2].
  unfold Dx at 1, Dy at 1 3. refine (conj _ (conj _ _)); apply is_derive_unique.
  - eapply derR_ext. { intros s. symmetry. apply (proj1 (DU s y)). }
    eapply derR_eq. { apply derR_plus; apply derR_mult; [exact A1|apply derR_const|exact B1|apply derR_const]. }
    cbv beta. ring.
  - eapply derR_ext. { intros s. symmetry. apply (proj1 (DU x s)). }
    eapply derR_eq. { apply derR_plus; apply derR_mult; [exact A2|apply derR_const|exact B2|apply derR_const]. }
    cbv beta. ring.
  - eapply derR_ext. { intros s. symmetry. apply (proj2 (DU x s)). }
    eapply derR_eq. { apply derR_plus; apply derR_mult; [exact A2|apply derR_const|exact B2|apply derR_const]. }
    cbv beta. ring.
Qed.
End Second.

Lemma affine_second_physical : forall c (gxx gxy gyy : list (list R)) n l,
  JacDet (t_orig (aff c)) 0 0 <> 0 -> has_shape gxx n l -> has_shape gxy n l -> has_shape gyy n l ->
  exists txx txy tyy, t_second (aff c) gxx gxy gyy = Ok (txx, txy, tyy) /\
  forall i q x y u ux uy a b d, (i < n)%nat -> (q < l)%nat ->
    (forall X Y, differentiable_pt_lim u X Y (ux X Y) (uy X Y)) ->
    let P := t_orig (aff c) x y in let U := fun s r => u (fst (t_orig (aff c) s r)) (snd (t_orig (aff c) s r)) in
    differentiable_pt_lim ux (fst P) (snd P) a b -> differentiable_pt_lim uy (fst P) (snd P) b d ->
    entry gxx i q = Dx (Dx U) x y -> entry gxy i q = Dy (Dx U) x y -> entry gyy i q = Dy (Dy U) x y ->
    entry txx i q = a /\ entry txy i q = b /\ entry tyy i q = d.
Proof.
  intros c gxx gxy gyy n l Hd S1 S2 S3. rewrite jacdet_aff in Hd.
  destruct (t_second_spec _ _ _ _ _ _ Hd S1 S2 S3) as (txx & txy & tyy & sol & E & Es & _ & _ & _ & F).
  exists txx, txy, tyy. split; [exact E|]. intros i q x y u ux uy a b d Hi Hq Hu P U H1 H2 E1 E2 E3.
  specialize (F i q Hi Hq). destruct (inv3_ok (affine_set_cell c)) as [_ G]. destruct (G Hd) as (sol' & Es' & Hs).
  rewrite Es in Es'. injection Es' as <-.
  destruct (second_chain (affine_set_cell c) u ux uy Hu x y a b d H1 H2) as (K1 & K2 & K3).
  rewrite (Hs a b d) in F.
  - injection F as -> -> ->. auto.
  - rewrite E1. exact K1.
  - rewrite E2. exact K2.
  - rewrite E3. exact K3.
Qed.
Lemma affine_second_degenerate : forall c (gxx gxy gyy : list (list R)),
  JacDet (t_orig (aff c)) 0 0 = 0 -> t_second (aff c) gxx gxy gyy = Err LinAlgError.
Proof.
  intros c gxx gxy gyy H. rewrite jacdet_aff in H. unfold t_second, aff.
  destruct (inv3_ok (affine_set_cell c)) as [E _]. now rewrite E.
Qed.
Definition unit_square : cell R := mkcell (0, 0) (1, 0) (1, 1) (0, 1).
Lemma bilinear_second_wrong :
  let T := bil unit_square in
  let u := fun X Y : R => X * X in let U := fun s r => u (fst (t_orig T s r)) (snd (t_orig T s r)) in
  exists txx txy tyy, t_second T [[Dx (Dx U) 0 0]] [[Dy (Dx U) 0 0]] [[Dy (Dy U) 0 0]] = Ok (txx, txy, tyy) /\
  entry txx 0 0 = 1 / 2 /\ Dx (Dx u) (fst (t_orig T 0 0)) (snd (t_orig T 0 0)) = 2.
Proof.
  intros T u U. do 3 eexists. split; [reflexivity|].
  assert (EU : forall s r, U s r = (1 + s) * (1 + s) / 4).
  { intros. unfold U, u, T, unit_square. unf. field. }
  split.
  - cbn [entry nth]. unfold entry; cbn [nth]. unfold Dx at 1. apply is_derive_unique.
    apply (derR_ext (fun s => (1 + s) / 2)).
    + intros s. symmetry. unfold Dx. apply is_derive_unique.
      apply (derR_ext (fun s => (1 + s) * (1 + s) / 4)). { intros; symmetry; apply EU. }
      auto_derive; auto. eqR. field.
    + auto_derive; auto.
  - unfold Dx at 1. apply is_derive_unique.
    apply (derR_ext (fun s => 2 * s)).
    + intros s. symmetry. unfold Dx, u. apply is_derive_unique. auto_derive; auto. eqR. ring.
    + auto_derive; auto. eqR. ring.
Qed.

Lemma bilinear_second_unchanged : forall c (gxx gxy gyy : list (list R)),
  t_second (TBilinear (bilinear_set_cell c)) gxx gxy gyy = Ok (gxx, gxy, gyy).
Proof. reflexivity. Qed.
