(* Continuous functions on the reference square: uniform approximation by polynomials
   (Bernstein), iterated integrals and their interchange. *)
From Coq Require Import ZArith List Arith Lia Reals Lra.
From Coquelicot Require Import Coquelicot.
From Verif Require Import Num Spec SpecGeom RCalc PolyFacts PolyDeg LegendreFacts Interp QuadFacts.
Import ListNotations.
Local Open Scope R_scope.

Definition csq (F : R -> R -> R) : Prop := forall x y, in_square x y -> continuity_2d_pt F x y.

(* ---------- extension to the plane ---------- *)
Definition clamp (t : R) : R := Rmax (-1) (Rmin 1 t).
Lemma clamp_in : forall t, -1 <= clamp t <= 1.
Proof. intros t. unfold clamp, Rmax, Rmin. repeat destruct (Rle_dec _ _); lra. Qed.
Lemma clamp_id : forall t, -1 <= t <= 1 -> clamp t = t.
Proof. intros t H. unfold clamp, Rmax, Rmin. repeat destruct (Rle_dec _ _); lra. Qed.
Lemma clamp_lip : forall s t, Rabs (clamp s - clamp t) <= Rabs (s - t).
Proof. intros s t. unfold clamp, Rmax, Rmin. repeat destruct (Rle_dec _ _); unfold Rabs; repeat destruct (Rcase_abs _); lra. Qed.
Definition ext2 (F : R -> R -> R) (x y : R) : R := F (clamp x) (clamp y).
Lemma ext2_in : forall F x y, in_square x y -> ext2 F x y = F x y.
Proof. intros F x y [H1 H2]. unfold ext2. now rewrite !clamp_id. Qed.
Lemma unif : forall F, csq F -> forall eps, 0 < eps -> exists del, 0 < del /\
  forall x y u v, Rabs (u - x) < del -> Rabs (v - y) < del -> Rabs (ext2 F u v - ext2 F x y) < eps.
Proof.
  intros F HF eps He. destruct (uniform_continuity_2d F (-1) 1 (-1) 1 (fun x y Hx Hy => HF x y (conj Hx Hy)) (mkposreal _ He)) as [del H].
  exists del. split; [apply cond_pos|]. intros x y u v H1 H2. apply H; try apply clamp_in; cbn.
  - eapply Rle_lt_trans; [apply clamp_lip | exact H1].
  - eapply Rle_lt_trans; [apply clamp_lip | exact H2].
Qed.
(* along a path of k steps *)
Lemma path : forall F del eps, (forall x y u v, Rabs (u - x) < del -> Rabs (v - y) < del -> Rabs (ext2 F u v - ext2 F x y) < eps) ->
  forall k x y u v, Rabs (u - x) < INR (S k) * del -> Rabs (v - y) < INR (S k) * del -> Rabs (ext2 F u v - ext2 F x y) <= INR (S k) * eps.
Proof.
  intros F del eps H k. induction k as [|k IH]; intros x y u v H1 H2.
  - cbn [INR] in *. rewrite Rmult_1_l in *. left. now apply H.
  - set (r := / INR (S (S k))). assert (P : 0 < INR (S (S k))) by (apply lt_0_INR; lia).
    assert (Er : r * INR (S (S k)) = 1) by (unfold r; apply Rinv_l; lra).
    assert (ES : INR (S (S k)) = INR (S k) + 1) by apply S_INR.
    assert (Pk : 0 < INR (S k)) by (apply lt_0_INR; lia).
    assert (Pr : 0 < r) by (unfold r; now apply Rinv_0_lt_compat).
    set (a := x + r * (u - x)). set (b := y + r * (v - y)).
    assert (S1 : forall p q, Rabs (q - p) < INR (S (S k)) * del -> Rabs (p + r * (q - p) - p) < del).
    { intros p q Hpq. replace (p + r * (q - p) - p) with (r * (q - p)) by ring. rewrite Rabs_mult, (Rabs_right r) by lra.
      apply (Rmult_lt_compat_l r) in Hpq; [|lra]. rewrite <- Rmult_assoc, Er, Rmult_1_l in Hpq. exact Hpq. }
    assert (S2 : forall p q, Rabs (q - p) < INR (S (S k)) * del -> Rabs (q - (p + r * (q - p))) < INR (S k) * del).
    { intros p q Hpq. replace (q - (p + r * (q - p))) with ((1 - r) * (q - p)) by ring.
      assert (E1 : 1 - r = r * INR (S k)) by (rewrite ES in Er; lra).
      rewrite Rabs_mult, E1, (Rabs_right (r * INR (S k))) by (apply Rle_ge, Rmult_le_pos; lra).
      replace (INR (S k) * del) with (r * INR (S k) * (INR (S (S k)) * del)).
      - apply Rmult_lt_compat_l; [apply Rmult_lt_0_compat; lra | exact Hpq].
      - replace (r * INR (S k) * (INR (S (S k)) * del)) with ((r * INR (S (S k))) * (INR (S k) * del)) by ring. rewrite Er. ring. }
    pose proof (H x y a b (S1 _ _ H1) (S1 _ _ H2)) as Q1. pose proof (IH a b u v (S2 _ _ H1) (S2 _ _ H2)) as Q2.
    replace (ext2 F u v - ext2 F x y) with ((ext2 F u v - ext2 F a b) + (ext2 F a b - ext2 F x y)) by ring.
    eapply Rle_trans; [apply Rabs_triang|]. rewrite ES. lra.
Qed.
Lemma growth : forall F del eps, 0 < del -> 0 < eps ->
  (forall x y u v, Rabs (u - x) < del -> Rabs (v - y) < del -> Rabs (ext2 F u v - ext2 F x y) < eps) ->
  forall x y u v, Rabs (ext2 F u v - ext2 F x y) <= eps * (2 + ((u - x) ^ 2 + (v - y) ^ 2) / del ^ 2).
Proof.
  intros F del eps Hd He H x y u v. set (d := Rmax (Rabs (u - x)) (Rabs (v - y))).
  assert (D1 : Rabs (u - x) <= d) by apply Rmax_l. assert (D2 : Rabs (v - y) <= d) by apply Rmax_r.
  assert (D0 : 0 <= d) by (eapply Rle_trans; [apply Rabs_pos | exact D1]).
  assert (Dq : 0 <= d / del) by (apply Rmult_le_pos; [exact D0 | left; now apply Rinv_0_lt_compat]).
  destruct (nfloor_ex (d / del) Dq) as [k [K1 K2]].
  assert (L : d < INR (S k) * del).
  { rewrite S_INR. apply (Rmult_lt_compat_r del) in K2; [|exact Hd]. unfold Rdiv in K2. rewrite Rmult_assoc, Rinv_l, Rmult_1_r in K2 by lra. exact K2. }
  pose proof (path F del eps H k x y u v ltac:(lra) ltac:(lra)) as Q.
  eapply Rle_trans; [exact Q|]. rewrite Rmult_comm. apply Rmult_le_compat_l; [lra|]. rewrite S_INR.
  assert (S2 : (d / del) ^ 2 <= ((u - x) ^ 2 + (v - y) ^ 2) / del ^ 2).
  { unfold Rdiv. rewrite Rpow_mult_distr, pow_inv by lra. apply Rmult_le_compat_r; [left; apply Rinv_0_lt_compat, pow_lt, Hd|].
    rewrite <- (pow2_abs (u - x)), <- (pow2_abs (v - y)). unfold d, Rmax. pose proof (pow2_ge_0 (Rabs (u - x))). pose proof (pow2_ge_0 (Rabs (v - y))).
    destruct (Rle_dec _ _); lra. }
  assert (S3 : d / del <= 1 + (d / del) ^ 2) by nra. lra.
Qed.

(* ---------- Bernstein ---------- *)
(* mean of g under the binomial distribution (n, p) *)
Fixpoint EB (n : nat) (p : R) (g : nat -> R) : R :=
  match n with O => g O | S n => p * EB n p (fun i => g (S i)) + (1 - p) * EB n p g end.
Lemma EB_lin : forall n p g h a b, EB n p (fun i => a * g i + b * h i) = a * EB n p g + b * EB n p h.
Proof. induction n; intros; cbn [EB]; [reflexivity|]. rewrite !IHn. ring. Qed.
Lemma EB_const : forall n p c, EB n p (fun _ => c) = c.
Proof. induction n; intros; cbn [EB]; [reflexivity|]. rewrite !IHn. ring. Qed.
Lemma EB_ext : forall n p g h, (forall i, (i <= n)%nat -> g i = h i) -> EB n p g = EB n p h.
Proof. induction n; intros p g h H; cbn [EB]; [apply H; lia|]. rewrite (IHn p _ (fun i => h (S i))), (IHn p g h); auto; intros; apply H; lia. Qed.
Lemma EB_le : forall n p g h, 0 <= p <= 1 -> (forall i, g i <= h i) -> EB n p g <= EB n p h.
Proof.
  induction n; intros p g h Hp H; cbn [EB]; [apply H|]. pose proof (IHn p _ _ Hp H). pose proof (IHn p (fun i => g (S i)) (fun i => h (S i)) Hp (fun i => H (S i))). nra.
Qed.
Lemma EB_id : forall n p, EB n p INR = INR n * p.
Proof.
  induction n; intros; cbn [EB]; [cbn; ring|].
  rewrite (EB_ext n p (fun i => INR (S i)) (fun i => 1 * INR i + 1 * 1)) by (intros; rewrite S_INR; ring).
  rewrite (EB_lin n p INR (fun _ => 1)), EB_const, IHn, S_INR. ring.
Qed.
Lemma EB_sq : forall n p, EB n p (fun i => INR i ^ 2) = INR n * p * (1 - p) + INR n ^ 2 * p ^ 2.
Proof.
  induction n; intros; [cbn; ring|]. cbn [EB].
  rewrite (EB_ext n p (fun i => INR (S i) ^ 2) (fun i => 1 * INR i ^ 2 + 1 * (2 * INR i + 1 * 1))) by (intros; rewrite S_INR; ring).
  rewrite (EB_lin n p (fun i => INR i ^ 2) (fun i => 2 * INR i + 1 * 1)), (EB_lin n p INR (fun _ => 1)), EB_const, EB_id, IHn, S_INR. ring.
Qed.
Lemma EB_pdeg : forall n g, pdeg (S n) (fun x => EB n ((1 + x) / 2) g).
Proof.
  induction n; intros; cbn [EB]; [apply pdeg_const|]. apply pdeg_plus.
  - apply (pdeg_mono (2 + S n - 1)); [lia|]. apply pdeg_mult; [|apply IHn]. apply (pdeg_ext _ (fun x => 1 / 2 + 1 / 2 * x)); [intros; field | apply pdeg_lin].
  - apply (pdeg_mono (2 + S n - 1)); [lia|]. apply pdeg_mult; [|apply IHn]. apply (pdeg_ext _ (fun x => 1 / 2 + - (1 / 2) * x)); [intros; field | apply pdeg_lin].
Qed.
Definition pick (i j : nat) : R := if Nat.eqb i j then 1 else 0.
Lemma pick_sum : forall (g : nat -> R) n j, (j < n)%nat -> rsum (fun i => g i * pick i j) n = g j.
Proof.
  intros g n j H. rewrite (rsum_single _ n j H).
  - unfold pick. rewrite Nat.eqb_refl. ring.
  - intros i Hi Hne. unfold pick. destruct (Nat.eqb_spec i j); [congruence | ring].
Qed.
Lemma EB_rsum : forall n p m (g : nat -> nat -> R), EB n p (fun j => rsum (fun i => g i j) m) = rsum (fun i => EB n p (g i)) m.
Proof.
  intros n p m g. induction m as [|m IH]; [cbn; apply EB_const|]. rewrite rsum_S, <- IH.
  rewrite (EB_ext n p _ (fun j => 1 * rsum (fun i => g i j) m + 1 * g m j)) by (intros; rewrite rsum_S; ring).
  rewrite (EB_lin n p (fun j => rsum (fun i => g i j) m) (g m)). ring.
Qed.
Lemma EB_sum : forall n p g, EB n p g = rsum (fun i => g i * EB n p (pick i)) (S n).
Proof.
  intros n p g. rewrite (EB_ext n p g (fun j => rsum (fun i => g i * pick i j) (S n))) by (intros j Hj; symmetry; apply pick_sum; lia).
  rewrite EB_rsum. apply rsum_ext. intros i Hi.
  rewrite (EB_ext n p _ (fun j => g i * pick i j + 0 * 0)) by (intros; ring). rewrite (EB_lin n p (pick i) (fun _ => 0)). ring.
Qed.

(* polynomials in two variables *)
Definition poly2 (d : nat) (F : R -> R -> R) : Prop := exists c, forall x y, F x y = Poly2 c d x y.
Lemma poly2_plus : forall d F G, poly2 d F -> poly2 d G -> poly2 d (fun x y => F x y + G x y).
Proof.
  intros d F G [c Hc] [e He]. exists (fun i j => c i j + e i j). intros x y. rewrite Hc, He. unfold Poly2. change Sum with rsum.
  rewrite <- rsum_plus. apply rsum_ext. intros i Hi. rewrite <- rsum_plus. apply rsum_ext. intros; ring.
Qed.
Lemma poly2_prod : forall d k f g, pdeg d f -> pdeg d g -> poly2 d (fun x y => k * (f x * g y)).
Proof.
  intros d k f g Hf Hg. destruct (pdeg_Poly d f Hf) as (c & Ec). destruct (pdeg_Poly d g Hg) as (e & Ee).
  exists (fun i j => k * (c i * e j)). intros x y. rewrite Ec, Ee. unfold Poly, Poly2. change Sum with rsum.
  rewrite <- rsum_scal_r, <- rsum_scal. apply rsum_ext. intros i Hi. rewrite <- rsum_scal, <- rsum_scal. apply rsum_ext. intros; ring.
Qed.
Lemma poly2_0 : forall d, poly2 d (fun _ _ => 0).
Proof.
  intros d. exists (fun _ _ => 0). intros x y. unfold Poly2. change Sum with rsum. rewrite (rsum_ext _ (fun _ => 0)); [now rewrite rsum_0|].
  intros i Hi. rewrite (rsum_ext _ (fun _ => 0)); [now rewrite rsum_0 | intros; ring].
Qed.
Lemma poly2_rsum : forall d (F : nat -> R -> R -> R) m, (forall i, poly2 d (F i)) -> poly2 d (fun x y => rsum (fun i => F i x y) m).
Proof. intros d F m H. induction m as [|m IH]; [apply poly2_0|]. apply (poly2_plus d _ _ IH (H m)). Qed.
Lemma poly2_ext : forall d F G, (forall x y, F x y = G x y) -> poly2 d F -> poly2 d G.
Proof. intros d F G H [c Hc]. exists c. intros. now rewrite <- H. Qed.

(* the Bernstein polynomial *)
Definition node (n i : nat) : R := -1 + 2 * (INR i / INR n).
Definition bern (F : R -> R -> R) (n : nat) (x y : R) : R :=
  EB n ((1 + x) / 2) (fun i => EB n ((1 + y) / 2) (fun j => ext2 F (node n i) (node n j))).
Lemma bern_poly : forall F n, poly2 (S n) (bern F n).
Proof.
  intros F n. apply (poly2_ext _ (fun x y => rsum (fun i => rsum (fun j => ext2 F (node n i) (node n j) *
    (EB n ((1 + x) / 2) (pick i) * EB n ((1 + y) / 2) (pick j))) (S n)) (S n))).
  - intros x y. unfold bern. rewrite EB_sum. apply rsum_ext. intros i Hi. rewrite (EB_sum n ((1 + y) / 2)), <- rsum_scal_r. apply rsum_ext. intros; ring.
  - apply poly2_rsum. intros i. apply poly2_rsum. intros j. apply poly2_prod; apply (EB_pdeg n).
Qed.
Lemma bern_spread : forall n x, (0 < n)%nat -> -1 <= x <= 1 -> EB n ((1 + x) / 2) (fun i => (node n i - x) ^ 2) <= / INR n.
Proof.
  intros n x Hn Hx. assert (P : 0 < INR n) by now apply lt_0_INR. set (p := (1 + x) / 2).
  assert (Hp : 0 <= p <= 1) by (unfold p; lra).
  rewrite (EB_ext n p _ (fun i => (4 / INR n ^ 2) * INR i ^ 2 + 1 * ((- 8 * p / INR n) * INR i + (4 * p ^ 2) * 1))).
  2:{ intros i Hi. unfold node. replace x with (2 * p - 1) by (unfold p; field). field. lra. }
  rewrite (EB_lin n p (fun i => INR i ^ 2)), (EB_lin n p INR (fun _ => 1)), EB_const, EB_id, EB_sq.
  replace (4 / INR n ^ 2 * (INR n * p * (1 - p) + INR n ^ 2 * p ^ 2) + 1 * (-8 * p / INR n * (INR n * p) + 4 * p ^ 2 * 1))
    with (4 * (p * (1 - p)) * / INR n) by (field; lra).
  rewrite <- (Rmult_1_l (/ INR n)) at 2. apply Rmult_le_compat_r; [left; now apply Rinv_0_lt_compat|]. pose proof (pow2_ge_0 (2 * p - 1)) as Sq. lra.
Qed.
Lemma bern_close : forall F, csq F -> forall eps, 0 < eps -> exists n, forall x y, in_square x y -> Rabs (F x y - bern F n x y) <= eps.
Proof.
  intros F HF eps He. destruct (unif F HF (eps / 4) ltac:(lra)) as (del & Hd & H).
  destruct (nfloor_ex (/ del ^ 2)) as [k [K1 K2]]; [left; apply Rinv_0_lt_compat, pow_lt, Hd|].
  exists (S k). set (n := S k). assert (Hn : (0 < n)%nat) by (unfold n; lia). assert (P : 0 < INR n) by now apply lt_0_INR.
  assert (Kn : / INR n <= del ^ 2).
  { rewrite <- (Rinv_inv (del ^ 2)). apply Rinv_le_contravar; [apply Rinv_0_lt_compat, pow_lt, Hd|]. unfold n. rewrite S_INR. lra. }
  intros x y [Hx Hy]. rewrite <- (ext2_in F x y (conj Hx Hy)). unfold bern.
  set (p := (1 + x) / 2). set (q := (1 + y) / 2). assert (Hp : 0 <= p <= 1) by (unfold p; lra). assert (Hq : 0 <= q <= 1) by (unfold q; lra).
  set (bd := fun i j => eps / 4 * (2 + ((node n i - x) ^ 2 + (node n j - y) ^ 2) / del ^ 2)).
  assert (B : forall i j, Rabs (ext2 F (node n i) (node n j) - ext2 F x y) <= bd i j) by (intros; apply growth; auto; lra).
  assert (T : EB n p (fun i => EB n q (bd i)) <= eps).
  { assert (E1 : forall i, EB n q (bd i) = eps / 4 * (2 + (node n i - x) ^ 2 / del ^ 2) + eps / 4 / del ^ 2 * EB n q (fun j => (node n j - y) ^ 2)).
    { intros i. unfold bd. rewrite (EB_ext n q _ (fun j => (eps / 4 * (2 + (node n i - x) ^ 2 / del ^ 2)) * 1 + (eps / 4 / del ^ 2) * (node n j - y) ^ 2)) by (intros; field; lra).
      rewrite (EB_lin n q (fun _ => 1) (fun j => (node n j - y) ^ 2)), EB_const. ring. }
    set (S2 := EB n q (fun j => (node n j - y) ^ 2)) in *. assert (HS2 : S2 <= / INR n) by (apply bern_spread; auto).
    rewrite (EB_ext n p _ (fun i => (eps / 4 * 2 + eps / 4 / del ^ 2 * S2) * 1 + (eps / 4 / del ^ 2) * (node n i - x) ^ 2)).
    2:{ intros i _. rewrite E1. field. lra. }
    rewrite (EB_lin n p (fun _ => 1) (fun i => (node n i - x) ^ 2)), EB_const.
    set (S1 := EB n p (fun i => (node n i - x) ^ 2)). assert (HS1 : S1 <= / INR n) by (apply bern_spread; auto).
    assert (Pd : 0 < / del ^ 2) by (apply Rinv_0_lt_compat, pow_lt, Hd).
    assert (Q : forall s, s <= / INR n -> eps / 4 / del ^ 2 * s <= eps / 4).
    { intros s Hs. apply Rle_trans with (eps / 4 / del ^ 2 * del ^ 2); [|right; field; lra].
      apply Rmult_le_compat_l; [|lra]. unfold Rdiv. apply Rmult_le_pos; lra. }
    pose proof (Q S1 HS1). pose proof (Q S2 HS2). lra. }
  set (V := ext2 F x y) in *. set (f := fun i j => ext2 F (node n i) (node n j)) in *.
  change (Rabs (V - EB n p (fun i => EB n q (f i))) <= eps).
  assert (U1 : EB n p (fun i => EB n q (f i)) <= V + eps).
  { apply Rle_trans with (EB n p (fun i => EB n q (fun j => 1 * V + 1 * bd i j))).
    - apply EB_le; auto. intros i. apply EB_le; auto. intros j. specialize (B i j). apply Rabs_le_between in B. unfold f. lra.
    - rewrite (EB_ext n p _ (fun i => 1 * V + 1 * EB n q (bd i))) by (intros; rewrite (EB_lin n q (fun _ => V)), EB_const; ring).
      rewrite (EB_lin n p (fun _ => V)), EB_const. lra. }
  assert (U2 : V - eps <= EB n p (fun i => EB n q (f i))).
  { apply Rle_trans with (EB n p (fun i => EB n q (fun j => 1 * V + (-1) * bd i j))).
    - rewrite (EB_ext n p _ (fun i => 1 * V + (-1) * EB n q (bd i))) by (intros; rewrite (EB_lin n q (fun _ => V)), EB_const; ring).
      rewrite (EB_lin n p (fun _ => V)), EB_const. lra.
    - apply EB_le; auto. intros i. apply EB_le; auto. intros j. specialize (B i j). apply Rabs_le_between in B. unfold f. lra. }
  apply Rabs_le_between. lra.
Qed.
Lemma weierstrass : forall F, csq F -> forall eps, 0 < eps -> exists c d, forall x y, in_square x y -> Rabs (F x y - Poly2 c d x y) <= eps.
Proof.
  intros F HF eps He. destruct (bern_close F HF eps He) as [n H]. destruct (bern_poly F n) as [c Hc].
  exists c, (S n). intros x y Hxy. rewrite <- Hc. now apply H.
Qed.
