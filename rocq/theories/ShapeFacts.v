(* The losses as functions of the network's values and of the coefficients (C68-C70). *)
From Coq Require Import String ZArith List Arith Lia Bool Reals Lra Psatz.
From Coquelicot Require Import Coquelicot.
From Verif Require Import Num Py PyFacts Basis Tensor Physics Train RCalc PolyFacts ListFacts Spec TensorFacts SpecTrain PhysicsFacts TrainFacts SpecRound RoundFacts PipelineFacts SpecShape.
Import ListNotations.
Local Open Scope R_scope.

(* ---------- the value of each training step ---------- *)
Lemma o_mean_sq_R : forall n res, o_mean_sq Num_R n res = mean_sq n res.
Proof.
  intros n res. unfold o_mean_sq, mean_sq, vmean. rewrite tab_vsum, tab_length, nofnat_R. cbn. f_equal. apply rsum_ext. intros. ring.
Qed.
Lemma o_pde_R : forall C T res, o_pde Num_R C T res = norm2 C T res.
Proof.
  intros C T res. unfold o_pde, norm2. rewrite tab_vsum. change (0 + Sum (fun c => o_mean_sq Num_R T (res c)) C = Sum (fun c => mean_sq T (res c)) C).
  rewrite Rplus_0_l. apply rsum_ext. intros. apply o_mean_sq_R.
Qed.
Lemma o_misfit_R : forall U pts vals, o_misfit Num_R U pts vals = misfit U pts vals.
Proof. intros. unfold o_misfit. rewrite o_mean_sq_R. reflexivity. Qed.
Lemma mean_sq_ext : forall T f g, (forall r, (r < T)%nat -> f r = g r) -> mean_sq T f = mean_sq T g.
Proof. intros T f g H. unfold mean_sq. f_equal. apply rsum_ext. intros. now rewrite H. Qed.
Lemma norm2_ext : forall C T f g, (forall c r, (c < C)%nat -> (r < T)%nat -> f c r = g c r) -> norm2 C T f = norm2 C T g.
Proof. intros C T f g H. apply rsum_ext. intros c Hc. apply mean_sq_ext. auto. Qed.

Lemma o_weak_R : forall m t C Q c r U, (c < C)%nat ->
  o_weak Num_R t (at_points U (m_x m) C Q) Q c r = Sum (fun q => entry3 t c r q * U (nth (c * Q + q) (m_x m) (0, 0))) Q.
Proof.
  intros m t C Q c r U Hc. unfold o_weak. rewrite tab_vsum. apply rsum_ext. intros q Hq. unfold at_points. rewrite mk_entry by auto. reflexivity.
Qed.
Section Values.
Variables (m : model R) (C T Q : nat) (nn : network R) (beta : R).
Hypothesis Hm : model_fits m C T Q.
Hypothesis Hc : m_cells m = C.
Lemma lhs_const : forall a bx bn g U G c r, (c < C)%nat -> lhs m Q (fun _ => a) bx bn g U G c r =
  a * (o_weak Num_R (m_gx m) (at_points (fun p => fst (G p)) (m_x m) C Q) Q c r + o_weak Num_R (m_gy m) (at_points (fun p => snd (G p)) (m_x m) C Q) Q c r) +
  bx * o_weak Num_R (m_val m) (at_points (fun p => fst (G p)) (m_x m) C Q) Q c r + bn * o_weak Num_R (m_val m) (at_points (fun p => snd (G p)) (m_x m) C Q) Q c r +
  g * o_weak Num_R (m_val m) (at_points U (m_x m) C Q) Q c r.
Proof. intros. unfold lhs. rewrite !o_weak_R by auto. rewrite !sum_pull. ring. Qed.
Lemma forward_call : forall loss d al bx bn g U G, forward_loss loss d al bx bn g -> m_loss m = loss Num_R ->
  exists res, call_kw (m_loss m) (args (m_val m) (m_gx m) (m_gy m) (at_points U (m_x m) C Q) (at_points (fun p => fst (G p)) (m_x m) C Q) (at_points (fun p => snd (G p)) (m_x m) C Q) (m_force m) ++
      [("bilinear_params"%string, VDict (Some d))]) = Ok (tab C (fun c => o_mean_sq Num_R T (res c))) /\
    forall c r, (c < C)%nat -> res c r = lhs m Q (fun _ => al) bx bn g U G c r - entry (m_force m) r c.
Proof.
  intros loss d al bx bn g U G H Hl. rewrite Hl. clear Hl.
  pose proof (at_points_fits m C T Q U (fun p => fst (G p)) (fun p => snd (G p)) Hm) as F.
  destruct H as [d eps He | d eps b_x b_y c He Hx Hy Hcc | d eps k He Hk].
  - eexists. split; [exact (o_poisson Num_R _ _ _ _ _ _ _ _ _ _ F _ _ He)|]. intros c r Hlt. rewrite lhs_const by auto. unfold Opoisson. cbn. ring.
  - eexists. split; [exact (o_cd2d Num_R _ _ _ _ _ _ _ _ _ _ F _ _ _ _ _ He Hx Hy Hcc)|]. intros c' r Hlt. rewrite lhs_const by auto. unfold Ocd. cbn. ring.
  - eexists. split; [exact (o_helmholtz Num_R _ _ _ _ _ _ _ _ _ _ F _ _ _ He Hk)|]. intros c r Hlt. rewrite lhs_const by auto. unfold Ohelm. cbn. ring.
Qed.
Lemma standard_value : forall loss d al bx bn g U G, forward_loss loss d al bx bn g -> m_loss m = loss Num_R -> pointwise nn U G ->
  train_standard m nn beta (Some d) = Ok {| l_pde := pde_value m C T Q (fun _ => al) bx bn g U G; l_dirichlet := [misfit U (m_dir_in m) (m_dir_act m)]; l_sensor := [];
    l_total := [pde_value m C T Q (fun _ => al) bx bn g U G + beta * misfit U (m_dir_in m) (m_dir_act m)] |}.
Proof.
  intros loss d al bx bn g U G Hf Hl Hn. destruct (forward_call loss d al bx bn g U G Hf Hl) as [res [E Er]].
  rewrite (o_standard Num_R m nn C T Q beta Hm Hc U G Hn (Some d) res E), o_pde_R, o_misfit_R.
  unfold pde_value. rewrite (norm2_ext C T res _ (fun c r H _ => Er c r H)). reflexivity.
Qed.
Lemma hard_value : forall loss d al bx bn g U G, forward_loss loss d al bx bn g -> m_loss m = loss Num_R -> pointwise nn U G ->
  train_hard m nn beta (Some d) = Ok {| l_pde := pde_value m C T Q (fun _ => al) bx bn g U G; l_dirichlet := [0]; l_sensor := [];
    l_total := [pde_value m C T Q (fun _ => al) bx bn g U G] |}.
Proof.
  intros loss d al bx bn g U G Hf Hl Hn. destruct (forward_call loss d al bx bn g U G Hf Hl) as [res [E Er]].
  rewrite (o_hard Num_R m nn C T Q beta Hm Hc U G Hn (Some d) res E), o_pde_R.
  unfold pde_value. rewrite (norm2_ext C T res _ (fun c r H _ => Er c r H)). reflexivity.
Qed.
Lemma inverse_value : forall bp ip eps U G, m_loss m = pde_loss_poisson_inverse -> has ip "eps" eps -> pointwise nn U G -> sensors_fit m ->
  train_inverse m nn beta bp (Some ip) = Ok {| l_pde := pde_value m C T Q (fun _ => eps) 0 0 0 U G; l_dirichlet := [misfit U (m_dir_in m) (m_dir_act m)];
    l_sensor := [misfit U (m_sensor_in m) (m_sensor_act m)];
    l_total := [pde_value m C T Q (fun _ => eps) 0 0 0 U G + beta * misfit U (m_dir_in m) (m_dir_act m) + 10 * misfit U (m_sensor_in m) (m_sensor_act m)] |}.
Proof.
  intros bp ip eps U G Hl He Hn Hs.
  pose proof (at_points_fits m C T Q U (fun p => fst (G p)) (fun p => snd (G p)) Hm) as F.
  erewrite (o_inverse Num_R m nn C T Q beta Hm Hc U G Hn bp (Some ip)); [|exact Hs | rewrite Hl; exact (o_poisson_inverse Num_R _ _ _ _ _ _ _ _ _ _ F bp _ _ He)].
  rewrite o_pde_R, !o_misfit_R. unfold pde_value.
  erewrite norm2_ext with (g := fun c r => lhs m Q (fun _ => eps) 0 0 0 U G c r - entry (m_force m) r c); [reflexivity|].
  intros c r Hlt _. rewrite lhs_const by auto. unfold Opoisson. cbn. ring.
Qed.
Lemma domain_value : forall d b_x b_y k U E G, m_loss m = pde_loss_cd2d_inverse_domain -> has d "b_x" b_x -> has d "b_y" b_y -> has d "c" k -> pointwise2 nn U E G -> sensors_fit m ->
  train_inverse_domain m nn beta (Some d) = Ok {| l_pde := pde_value m C T Q E b_x b_y k U G; l_dirichlet := [misfit U (m_dir_in m) (m_dir_act m)];
    l_sensor := [misfit U (m_sensor_in m) (m_sensor_act m)];
    l_total := [pde_value m C T Q E b_x b_y k U G + beta * misfit U (m_dir_in m) (m_dir_act m) + 10 * misfit U (m_sensor_in m) (m_sensor_act m)] |}.
Proof.
  intros d b_x b_y k U E G Hl Hx Hy Hk Hn Hs.
  pose proof (at_points_fits m C T Q U (fun p => fst (G p)) (fun p => snd (G p)) Hm) as F.
  assert (He : has_shape (at_points E (m_x m) C Q) C Q) by apply mk_shape.
  erewrite (o_domain_step Num_R m nn C T Q beta Hm Hc U E G Hn (Some d)); [|exact Hs | rewrite Hl; exact (o_domain Num_R _ _ _ _ _ _ _ _ _ _ F _ _ [] _ _ _ He Hx Hy Hk)].
  rewrite o_pde_R, !o_misfit_R. unfold pde_value.
  erewrite norm2_ext with (g := fun c r => lhs m Q E b_x b_y k U G c r - entry (m_force m) r c); [reflexivity|].
  intros c r Hlt _. unfold Odom, lhs. cbn [nadd nmul nsub Num_R]. rewrite !o_weak_R by auto. unfold o_weak. rewrite !tab_vsum.
  rewrite (Sum_same (fun q => (entry3 (m_gx m) c r q * entry (prod Num_R C Q (at_points (fun p => fst (G p)) (m_x m) C Q) (at_points E (m_x m) C Q)) c q)%num)
    (fun q => entry3 (m_gx m) c r q * (E (nth (c * Q + q) (m_x m) (0, 0)) * fst (G (nth (c * Q + q) (m_x m) (0, 0))))) Q).
  2:{ intros q Hq. unfold prod, at_points. rewrite !mk_entry by auto. cbn. ring. }
  rewrite (Sum_same (fun q => (entry3 (m_gy m) c r q * entry (prod Num_R C Q (at_points (fun p => snd (G p)) (m_x m) C Q) (at_points E (m_x m) C Q)) c q)%num)
    (fun q => entry3 (m_gy m) c r q * (E (nth (c * Q + q) (m_x m) (0, 0)) * snd (G (nth (c * Q + q) (m_x m) (0, 0))))) Q).
  2:{ intros q Hq. unfold prod, at_points. rewrite !mk_entry by auto. cbn. ring. }
  ring.
Qed.
End Values.

(* ---------- the algebra of squares ---------- *)
Lemma norm2_inner : forall C T w, norm2 C T w = inner C T w w.
Proof. intros. apply rsum_ext. intros c _. unfold mean_sq. f_equal. apply rsum_ext. intros. ring. Qed.
Lemma inner_comb : forall C T a b w1 w2 z, inner C T (fun c r => a * w1 c r + b * w2 c r) z = a * inner C T w1 z + b * inner C T w2 z.
Proof.
  intros. unfold inner. rewrite <- !(rsum_scal _ _ C), <- (rsum_plus _ _ C). apply rsum_ext. intros c _. unfold Rdiv.
  rewrite <- !Rmult_assoc, <- Rmult_plus_distr_r. f_equal. rewrite <- !(rsum_scal _ _ T), <- (rsum_plus _ _ T). apply rsum_ext. intros. ring.
Qed.
Lemma inner_comm : forall C T w z, inner C T w z = inner C T z w.
Proof. intros. apply rsum_ext. intros c _. f_equal. apply rsum_ext. intros. ring. Qed.
Lemma inner_ext : forall C T w w' z z', (forall c r, (c < C)%nat -> (r < T)%nat -> w c r = w' c r) -> (forall c r, (c < C)%nat -> (r < T)%nat -> z c r = z' c r) ->
  inner C T w z = inner C T w' z'.
Proof. intros C T w w' z z' H K. apply rsum_ext. intros c Hc. f_equal. apply rsum_ext. intros r Hr. now rewrite H, K. Qed.
Lemma inner_comb_1 : forall C T k w, inner C T (fun c r => k * w c r) (fun c r => k * w c r) = k ^ 2 * inner C T w w.
Proof.
  intros. rewrite (inner_ext C T (fun c r => k * w c r) (fun c r => k * w c r + 0 * w c r) (fun c r => k * w c r) (fun c r => k * w c r + 0 * w c r)) by (intros; ring).
  rewrite inner_comb, !(inner_comm C T w (fun c r => k * _ + _)), inner_comb. ring.
Qed.
Lemma inner_comb_0 : forall C T, inner C T (fun _ _ => 0 * 0) (fun _ _ => 0 * 0) = 0.
Proof. intros. rewrite (inner_comb_1 C T 0 (fun _ _ => 0)). ring. Qed.
Lemma norm2_nonneg : forall C T w, 0 <= norm2 C T w.
Proof. intros. apply rsum_nonneg. intros. apply mean_sq_nonneg. Qed.
Lemma norm2_mix : forall C T t w1 w2,
  norm2 C T (fun c r => (1 - t) * w1 c r + t * w2 c r) = (1 - t) * norm2 C T w1 + t * norm2 C T w2 - t * (1 - t) * norm2 C T (fun c r => w1 c r - w2 c r).
Proof.
  intros. rewrite !norm2_inner.
  rewrite (inner_ext C T (fun c r => w1 c r - w2 c r) (fun c r => 1 * w1 c r + (-1) * w2 c r) (fun c r => w1 c r - w2 c r) (fun c r => 1 * w1 c r + (-1) * w2 c r)) by (intros; ring).
  rewrite !inner_comb. rewrite (inner_comm C T w1 (fun c r => (1 - t) * _ + _)), (inner_comm C T w2 (fun c r => (1 - t) * _ + _)).
  rewrite (inner_comm C T w1 (fun c r => 1 * _ + _)), (inner_comm C T w2 (fun c r => 1 * _ + _)). rewrite !inner_comb. rewrite (inner_comm C T w2 w1). ring.
Qed.
Lemma lhs_mix : forall m Q a bx bn g t U V G H c r,
  lhs m Q a bx bn g (mixU t U V) (mixG t G H) c r = (1 - t) * lhs m Q a bx bn g U G c r + t * lhs m Q a bx bn g V H c r.
Proof.
  intros. unfold lhs, mixU, mixG. cbv zeta. cbn [fst snd].
  assert (E : forall (w : nat -> R) (f h : nat -> R), Sum (fun q => w q * ((1 - t) * f q + t * h q)) Q = (1 - t) * Sum (fun q => w q * f q) Q + t * Sum (fun q => w q * h q) Q).
  { intros. rewrite <- !(rsum_scal _ _ Q), <- (rsum_plus _ _ Q). apply rsum_ext. intros. ring. }
  rewrite !E.
  assert (E2 : forall (w : nat -> R) (k f h : nat -> R), Sum (fun q => w q * (k q * ((1 - t) * f q + t * h q))) Q = (1 - t) * Sum (fun q => w q * (k q * f q)) Q + t * Sum (fun q => w q * (k q * h q)) Q).
  { intros. rewrite <- !(rsum_scal _ _ Q), <- (rsum_plus _ _ Q). apply rsum_ext. intros. ring. }
  rewrite !E2. ring.
Qed.
Lemma lhs_sub : forall m Q a bx bn g U V G H c r,
  lhs m Q a bx bn g (subU U V) (subG G H) c r = lhs m Q a bx bn g U G c r - lhs m Q a bx bn g V H c r.
Proof.
  intros. unfold lhs, subU, subG. cbv zeta. cbn [fst snd].
  assert (E : forall (w : nat -> R) (f h : nat -> R), Sum (fun q => w q * (f q - h q)) Q = Sum (fun q => w q * f q) Q - Sum (fun q => w q * h q) Q).
  { intros. rewrite <- (rsum_minus _ _ Q). apply rsum_ext. intros. ring. }
  rewrite !E.
  assert (E2 : forall (w : nat -> R) (k f h : nat -> R), Sum (fun q => w q * (k q * (f q - h q))) Q = Sum (fun q => w q * (k q * f q)) Q - Sum (fun q => w q * (k q * h q)) Q).
  { intros. rewrite <- (rsum_minus _ _ Q). apply rsum_ext. intros. ring. }
  rewrite !E2. ring.
Qed.
Lemma lhs_field : forall m Q a b bx bn g U G c r,
  lhs m Q a bx bn g U G c r - lhs m Q b bx bn g U G c r = lhs m Q (subU a b) 0 0 0 U G c r.
Proof.
  intros. unfold lhs, subU. cbv zeta.
  assert (E : forall (w : nat -> R) (f h k : nat -> R), Sum (fun q => w q * ((f q - h q) * k q)) Q = Sum (fun q => w q * (f q * k q)) Q - Sum (fun q => w q * (h q * k q)) Q).
  { intros. rewrite <- (rsum_minus _ _ Q). apply rsum_ext. intros. ring. }
  rewrite !E. ring.
Qed.
Lemma lhs_mix_field : forall m Q t a b bx bn g U G c r,
  lhs m Q (mixU t a b) bx bn g U G c r = (1 - t) * lhs m Q a bx bn g U G c r + t * lhs m Q b bx bn g U G c r.
Proof.
  intros. unfold lhs, mixU. cbv zeta.
  assert (E : forall (w : nat -> R) (f h k : nat -> R), Sum (fun q => w q * (((1 - t) * f q + t * h q) * k q)) Q = (1 - t) * Sum (fun q => w q * (f q * k q)) Q + t * Sum (fun q => w q * (h q * k q)) Q).
  { intros. rewrite <- !(rsum_scal _ _ Q), <- (rsum_plus _ _ Q). apply rsum_ext. intros. ring. }
  rewrite !E. ring.
Qed.
Lemma pde_mix : forall m C T Q a bx bn g t U V G H,
  pde_value m C T Q a bx bn g (mixU t U V) (mixG t G H) =
  (1 - t) * pde_value m C T Q a bx bn g U G + t * pde_value m C T Q a bx bn g V H -
  t * (1 - t) * norm2 C T (lhs m Q a bx bn g (subU U V) (subG G H)).
Proof.
  intros. unfold pde_value.
  rewrite (norm2_ext C T (lhs m Q a bx bn g (subU U V) (subG G H)) (fun c r => (lhs m Q a bx bn g U G c r - entry (m_force m) r c) - (lhs m Q a bx bn g V H c r - entry (m_force m) r c)))
    by (intros; rewrite lhs_sub; ring).
  rewrite <- norm2_mix. apply norm2_ext. intros. rewrite lhs_mix. ring.
Qed.
Lemma pde_mix_field : forall m C T Q a b bx bn g t U G,
  pde_value m C T Q (mixU t a b) bx bn g U G =
  (1 - t) * pde_value m C T Q a bx bn g U G + t * pde_value m C T Q b bx bn g U G -
  t * (1 - t) * norm2 C T (lhs m Q (subU a b) 0 0 0 U G).
Proof.
  intros. unfold pde_value.
  rewrite (norm2_ext C T (lhs m Q (subU a b) 0 0 0 U G) (fun c r => (lhs m Q a bx bn g U G c r - entry (m_force m) r c) - (lhs m Q b bx bn g U G c r - entry (m_force m) r c)))
    by (intros; rewrite <- (lhs_field m Q a b bx bn g); ring).
  rewrite <- norm2_mix. apply norm2_ext. intros. rewrite lhs_mix_field. ring.
Qed.
Lemma misfit_mix : forall t U V pts vals,
  misfit (mixU t U V) pts vals = (1 - t) * misfit U pts vals + t * misfit V pts vals - t * (1 - t) * mean_sq_at (subU U V) pts.
Proof.
  intros. unfold misfit, mean_sq_at, mixU, subU, Rdiv. rewrite <- !Rmult_assoc, <- Rmult_plus_distr_r, <- Rmult_minus_distr_r. f_equal.
  rewrite <- !(rsum_scal _ _ (length pts)), <- (rsum_plus _ _ (length pts)), <- (rsum_minus _ _ (length pts)). apply rsum_ext. intros. ring.
Qed.
Lemma mean_sq_at_nonneg : forall U pts, 0 <= mean_sq_at U pts.
Proof. intros. apply (mean_sq_nonneg (length pts) (fun i => U (nth i pts (0, 0)))). Qed.
(* zero only if all entries are zero *)
Lemma mean_sq_zero : forall T w, (0 < T)%nat -> mean_sq T w = 0 -> forall r, (r < T)%nat -> w r = 0.
Proof.
  intros T w HT H r Hr. assert (HI : 0 < INR T) by now apply lt_0_INR. unfold mean_sq in H.
  assert (S0 : Sum (fun r => w r ^ 2) T = 0). { apply Rmult_eq_reg_r with (/ INR T); [unfold Rdiv in H; lra|]. apply Rgt_not_eq. now apply Rinv_0_lt_compat. }
  clear H HI HT. induction T as [|T IH]; [lia|]. change (Sum (fun r => w r ^ 2) T + w T ^ 2 = 0) in S0.
  assert (0 <= Sum (fun r => w r ^ 2) T) by (apply rsum_nonneg; intros; nra). pose proof (pow2_ge_0 (w T)).
  destruct (Nat.eq_dec r T) as [->|n]; [nra | apply IH; [lia | lra]].
Qed.
Lemma norm2_zero : forall C T w, (0 < T)%nat -> norm2 C T w = 0 -> forall c r, (c < C)%nat -> (r < T)%nat -> w c r = 0.
Proof.
  intros C T w HT H c r Hc Hr. apply (mean_sq_zero T (w c) HT); [|exact Hr]. unfold norm2 in H.
  induction C as [|C IH]; [lia|]. change (Sum (fun c => mean_sq T (w c)) C + mean_sq T (w C) = 0) in H.
  assert (0 <= Sum (fun c => mean_sq T (w c)) C) by (apply rsum_nonneg; intros; apply mean_sq_nonneg). pose proof (mean_sq_nonneg T (w C)).
  destruct (Nat.eq_dec c C) as [->|n]; [lra | apply IH; [lra | lia]].
Qed.

(* ---------- the loss in the constant parameter ---------- *)
Lemma lhs_eps : forall m Q eps U G c r, lhs m Q (fun _ => eps) 0 0 0 U G c r = eps * lhs m Q (fun _ => 1) 0 0 0 U G c r.
Proof. intros. unfold lhs. cbv zeta. rewrite !sum_pull. ring. Qed.
Lemma pde_eps : forall m C T Q eps U G, pde_value m C T Q (fun _ => eps) 0 0 0 U G =
  eps ^ 2 * norm2 C T (lhs m Q (fun _ => 1) 0 0 0 U G) - 2 * eps * inner C T (lhs m Q (fun _ => 1) 0 0 0 U G) (fun c r => entry (m_force m) r c) +
  norm2 C T (fun c r => entry (m_force m) r c).
Proof.
  intros. unfold pde_value. set (D := lhs m Q (fun _ => 1) 0 0 0 U G). set (F := fun c r => entry (m_force m) r c).
  rewrite (norm2_ext C T _ (fun c r => eps * D c r + (-1) * F c r)) by (intros; unfold D, F; rewrite lhs_eps; ring).
  rewrite !norm2_inner, inner_comb, (inner_comm C T D), (inner_comm C T F), !inner_comb, (inner_comm C T F D). ring.
Qed.

(* ---------- derivatives along a family of networks ---------- *)
Lemma derive_sum : forall n (f : R -> nat -> R) (f' : nat -> R) s, (forall i, (i < n)%nat -> is_derive (fun x => f x i) s (f' i)) ->
  is_derive (fun x => Sum (f x) n) s (Sum f' n).
Proof.
  induction n as [|n IH]; intros f f' s H; [exact (is_derive_const 0 s)|].
  apply (is_derive_plus (fun x => Sum (f x) n) (fun x => f x n)); [apply IH; intros; apply H; lia | apply H; lia].
Qed.
Lemma derive_scal : forall k (f : R -> R) f' s, is_derive f s f' -> is_derive (fun x => k * f x) s (k * f').
Proof. intros k f f' s H. now apply is_derive_scal. Qed.
Lemma derive_mul : forall (f g : R -> R) f' g' s, is_derive f s f' -> is_derive g s g' -> is_derive (fun x => f x * g x) s (f' * g s + f s * g').
Proof. intros f g f' g' s H K. exact (is_derive_mult f g s f' g' H K Rmult_comm). Qed.
Lemma derive_add : forall (f g : R -> R) f' g' s, is_derive f s f' -> is_derive g s g' -> is_derive (fun x => f x + g x) s (f' + g').
Proof. intros. now apply (is_derive_plus f g). Qed.
Lemma derive_shift : forall (f : R -> R) k f' s, is_derive f s f' -> is_derive (fun x => f x - k) s f'.
Proof.
  intros f k f' s H. replace f' with (f' - 0) by ring. exact (is_derive_minus f (fun _ => k) s f' 0 H (is_derive_const k s)).
Qed.
Lemma derive_eq : forall (f : R -> R) (s a b : R), is_derive f s a -> a = b -> is_derive f s b.
Proof. intros; now subst. Qed.
Section Path.
Variables (m : model R) (C T Q : nat) (a : R -> R * R -> R) (bx bn g : R) (U : R -> R * R -> R) (G : R -> R * R -> R * R).
Variables (s : R) (a' U' : R * R -> R) (G' : R * R -> R * R).
Hypothesis Ha : forall p, is_derive (fun x => a x p) s (a' p).
Hypothesis HU : forall p, is_derive (fun x => U x p) s (U' p).
Hypothesis HG : forall p, is_derive (fun x => fst (G x p)) s (fst (G' p)) /\ is_derive (fun x => snd (G x p)) s (snd (G' p)).
Lemma derive_lhs : forall c r, is_derive (fun x => lhs m Q (a x) bx bn g (U x) (G x) c r) s
  (lhs m Q a' 0 0 0 (U s) (G s) c r + lhs m Q (a s) bx bn g U' G' c r).
Proof.
  intros c r. set (p := fun q => nth (c * Q + q) (m_x m) (0, 0)).
  set (D1 := fun q => entry3 (m_gx m) c r q * (a' (p q) * fst (G s (p q)) + a s (p q) * fst (G' (p q)))).
  set (D2 := fun q => entry3 (m_gy m) c r q * (a' (p q) * snd (G s (p q)) + a s (p q) * snd (G' (p q)))).
  apply derive_eq with (Sum D1 Q + Sum D2 Q + bx * Sum (fun q => entry3 (m_val m) c r q * fst (G' (p q))) Q + bn * Sum (fun q => entry3 (m_val m) c r q * snd (G' (p q))) Q +
    g * Sum (fun q => entry3 (m_val m) c r q * U' (p q)) Q).
  - unfold lhs. cbv zeta. fold p. repeat apply derive_add; try apply derive_scal; apply derive_sum; intros q _; apply derive_scal; try apply HU; try apply HG;
      (apply (derive_mul (fun x => a x (p q))); [apply Ha | apply HG]).
  - unfold lhs. cbv zeta. fold p.
    assert (E : forall (w h k : nat -> R), Sum (fun q => w q * (h q + k q)) Q = Sum (fun q => w q * h q) Q + Sum (fun q => w q * k q) Q).
    { intros. rewrite <- (rsum_plus _ _ Q). apply rsum_ext. intros. ring. }
    unfold D1, D2. rewrite !E. unfold p. cbv beta. ring.
Qed.
Lemma derive_norm2 : forall (w : R -> nat -> nat -> R) (w' : nat -> nat -> R), (forall c r, is_derive (fun x => w x c r) s (w' c r)) ->
  is_derive (fun x => norm2 C T (w x)) s (2 * inner C T (w s) w').
Proof.
  intros w w' H. unfold norm2, inner, mean_sq. rewrite <- (rsum_scal 2 _ C). apply derive_sum. intros c _.
  apply derive_eq with (/ INR T * Sum (fun r => w' c r * w s c r + w s c r * w' c r) T).
  - apply is_derive_ext with (fun x => / INR T * Sum (fun r => w x c r * w x c r) T).
    + intros x. unfold Rdiv. rewrite Rmult_comm. f_equal. apply rsum_ext. intros. ring.
    + apply derive_scal, derive_sum. intros r _. now apply derive_mul.
  - unfold Rdiv. rewrite <- Rmult_assoc, <- (rsum_scal 2 _ T), Rmult_comm. f_equal. apply rsum_ext. intros. ring.
Qed.
Lemma derive_pde : is_derive (fun x => pde_value m C T Q (a x) bx bn g (U x) (G x)) s
  (2 * inner C T (fun c r => lhs m Q (a s) bx bn g (U s) (G s) c r - entry (m_force m) r c)
     (fun c r => lhs m Q a' 0 0 0 (U s) (G s) c r + lhs m Q (a s) bx bn g U' G' c r)).
Proof.
  unfold pde_value. apply derive_norm2. intros c r. apply derive_shift, derive_lhs.
Qed.
Lemma derive_misfit : forall pts vals, is_derive (fun x => misfit (U x) pts vals) s
  (2 * inner_at (fun i => U s (nth i pts (0, 0)) - entry vals i 0) U' pts).
Proof.
  intros pts vals. unfold misfit, inner_at. set (n := length pts).
  apply derive_eq with (/ INR n * Sum (fun i => (U' (nth i pts (0, 0))) * (U s (nth i pts (0, 0)) - entry vals i 0) + (U s (nth i pts (0, 0)) - entry vals i 0) * U' (nth i pts (0, 0))) n).
  - apply is_derive_ext with (fun x => / INR n * Sum (fun i => (U x (nth i pts (0, 0)) - entry vals i 0) * (U x (nth i pts (0, 0)) - entry vals i 0)) n).
    + intros x. unfold Rdiv. rewrite Rmult_comm. f_equal. apply rsum_ext. intros. ring.
    + apply derive_scal, derive_sum. intros i _.
      assert (K : is_derive (fun x => U x (nth i pts (0, 0)) - entry vals i 0) s (U' (nth i pts (0, 0)))) by apply derive_shift, HU.
      now apply (derive_mul _ _ _ _ _ K K).
  - unfold Rdiv. rewrite <- Rmult_assoc, <- (rsum_scal 2 _ n), Rmult_comm. f_equal. apply rsum_ext. intros. ring.
Qed.
End Path.

(* ---------- C68: convexity ---------- *)
Lemma total_val : forall r L v w, r = Ok L -> l_total L = [w] -> total_is r v -> v = w.
Proof. intros r L v w -> H [L' [E K]]. injection E as <-. rewrite H in K. now injection K. Qed.
Lemma pde_val : forall r L v, r = Ok L -> pde_is r v -> v = l_pde L.
Proof. intros r L v -> [L' [E K]]. injection E as <-. auto. Qed.
Lemma total_intro : forall r L v, r = Ok L -> l_total L = [v] -> total_is r v.
Proof. intros r L v H K. now exists L. Qed.
Lemma pde_intro : forall r L, r = Ok L -> pde_is r (l_pde L).
Proof. intros r L H. now exists L. Qed.
Section Convex.
Variables (m : model R) (C T Q : nat) (nn1 nn2 nn : network R) (beta t : R) (U V : R * R -> R) (G H : R * R -> R * R).
Hypothesis Hm : model_fits m C T Q.
Hypothesis Hc : m_cells m = C.
Lemma mix_standard : forall loss d al bx bn g, m_loss m = loss Num_R -> forward_loss loss d al bx bn g ->
  pointwise nn1 U G -> pointwise nn2 V H -> pointwise nn (mixU t U V) (mixG t G H) ->
  exists s1 s2 s, total_is (train_standard m nn1 beta (Some d)) s1 /\ total_is (train_standard m nn2 beta (Some d)) s2 /\
    total_is (train_standard m nn beta (Some d)) s /\
    s = (1 - t) * s1 + t * s2 - t * (1 - t) * (norm2 C T (lhs m Q (fun _ => al) bx bn g (subU U V) (subG G H)) + beta * mean_sq_at (subU U V) (m_dir_in m)).
Proof.
  intros loss d al bx bn g Hl Hf H1 H2 H3. do 3 eexists.
  split; [eapply total_intro; [exact (standard_value m C T Q nn1 beta Hm Hc loss d al bx bn g U G Hf Hl H1) | reflexivity]|].
  split; [eapply total_intro; [exact (standard_value m C T Q nn2 beta Hm Hc loss d al bx bn g V H Hf Hl H2) | reflexivity]|].
  split; [eapply total_intro; [exact (standard_value m C T Q nn beta Hm Hc loss d al bx bn g _ _ Hf Hl H3) | reflexivity]|].
  rewrite pde_mix, misfit_mix. ring.
Qed.
Lemma mix_hard : forall loss d al bx bn g, m_loss m = loss Num_R -> forward_loss loss d al bx bn g ->
  pointwise nn1 U G -> pointwise nn2 V H -> pointwise nn (mixU t U V) (mixG t G H) ->
  exists s1 s2 s, total_is (train_hard m nn1 beta (Some d)) s1 /\ total_is (train_hard m nn2 beta (Some d)) s2 /\
    total_is (train_hard m nn beta (Some d)) s /\
    s = (1 - t) * s1 + t * s2 - t * (1 - t) * norm2 C T (lhs m Q (fun _ => al) bx bn g (subU U V) (subG G H)).
Proof.
  intros loss d al bx bn g Hl Hf H1 H2 H3. do 3 eexists.
  split; [eapply total_intro; [exact (hard_value m C T Q nn1 beta Hm Hc loss d al bx bn g U G Hf Hl H1) | reflexivity]|].
  split; [eapply total_intro; [exact (hard_value m C T Q nn2 beta Hm Hc loss d al bx bn g V H Hf Hl H2) | reflexivity]|].
  split; [eapply total_intro; [exact (hard_value m C T Q nn beta Hm Hc loss d al bx bn g _ _ Hf Hl H3) | reflexivity]|].
  rewrite pde_mix. ring.
Qed.
Lemma mix_inverse : forall bp ip eps, m_loss m = pde_loss_poisson_inverse -> has ip "eps" eps -> sensors_fit m ->
  pointwise nn1 U G -> pointwise nn2 V H -> pointwise nn (mixU t U V) (mixG t G H) ->
  exists s1 s2 s, total_is (train_inverse m nn1 beta bp (Some ip)) s1 /\ total_is (train_inverse m nn2 beta bp (Some ip)) s2 /\
    total_is (train_inverse m nn beta bp (Some ip)) s /\
    s = (1 - t) * s1 + t * s2 - t * (1 - t) * (norm2 C T (lhs m Q (fun _ => eps) 0 0 0 (subU U V) (subG G H)) +
      beta * mean_sq_at (subU U V) (m_dir_in m) + 10 * mean_sq_at (subU U V) (m_sensor_in m)).
Proof.
  intros bp ip eps Hl He Hs H1 H2 H3. do 3 eexists.
  split; [eapply total_intro; [exact (inverse_value m C T Q nn1 beta Hm Hc bp ip eps U G Hl He H1 Hs) | reflexivity]|].
  split; [eapply total_intro; [exact (inverse_value m C T Q nn2 beta Hm Hc bp ip eps V H Hl He H2 Hs) | reflexivity]|].
  split; [eapply total_intro; [exact (inverse_value m C T Q nn beta Hm Hc bp ip eps _ _ Hl He H3 Hs) | reflexivity]|].
  rewrite pde_mix, !misfit_mix. ring.
Qed.
Lemma mix_domain : forall d b_x b_y k E, m_loss m = pde_loss_cd2d_inverse_domain -> has d "b_x" b_x -> has d "b_y" b_y -> has d "c" k -> sensors_fit m ->
  pointwise2 nn1 U E G -> pointwise2 nn2 V E H -> pointwise2 nn (mixU t U V) E (mixG t G H) ->
  exists s1 s2 s, total_is (train_inverse_domain m nn1 beta (Some d)) s1 /\ total_is (train_inverse_domain m nn2 beta (Some d)) s2 /\
    total_is (train_inverse_domain m nn beta (Some d)) s /\
    s = (1 - t) * s1 + t * s2 - t * (1 - t) * (norm2 C T (lhs m Q E b_x b_y k (subU U V) (subG G H)) +
      beta * mean_sq_at (subU U V) (m_dir_in m) + 10 * mean_sq_at (subU U V) (m_sensor_in m)).
Proof.
  intros d b_x b_y k E Hl Hx Hy Hk Hs H1 H2 H3. do 3 eexists.
  split; [eapply total_intro; [exact (domain_value m C T Q nn1 beta Hm Hc d b_x b_y k U E G Hl Hx Hy Hk H1 Hs) | reflexivity]|].
  split; [eapply total_intro; [exact (domain_value m C T Q nn2 beta Hm Hc d b_x b_y k V E H Hl Hx Hy Hk H2 Hs) | reflexivity]|].
  split; [eapply total_intro; [exact (domain_value m C T Q nn beta Hm Hc d b_x b_y k _ E _ Hl Hx Hy Hk H3 Hs) | reflexivity]|].
  rewrite pde_mix, !misfit_mix. ring.
Qed.
Lemma mix_field : forall d b_x b_y k E F, m_loss m = pde_loss_cd2d_inverse_domain -> has d "b_x" b_x -> has d "b_y" b_y -> has d "c" k -> sensors_fit m ->
  pointwise2 nn1 U E G -> pointwise2 nn2 U F G -> pointwise2 nn U (mixU t E F) G ->
  exists s1 s2 s, total_is (train_inverse_domain m nn1 beta (Some d)) s1 /\ total_is (train_inverse_domain m nn2 beta (Some d)) s2 /\
    total_is (train_inverse_domain m nn beta (Some d)) s /\
    s = (1 - t) * s1 + t * s2 - t * (1 - t) * norm2 C T (lhs m Q (subU E F) 0 0 0 U G).
Proof.
  intros d b_x b_y k E F Hl Hx Hy Hk Hs H1 H2 H3. do 3 eexists.
  split; [eapply total_intro; [exact (domain_value m C T Q nn1 beta Hm Hc d b_x b_y k U E G Hl Hx Hy Hk H1 Hs) | reflexivity]|].
  split; [eapply total_intro; [exact (domain_value m C T Q nn2 beta Hm Hc d b_x b_y k U F G Hl Hx Hy Hk H2 Hs) | reflexivity]|].
  split; [eapply total_intro; [exact (domain_value m C T Q nn beta Hm Hc d b_x b_y k U _ G Hl Hx Hy Hk H3 Hs) | reflexivity]|].
  rewrite pde_mix_field. ring.
Qed.
End Convex.
Lemma below_chord : forall t s1 s2 K, 0 <= t <= 1 -> 0 <= K -> (1 - t) * s1 + t * s2 - t * (1 - t) * K <= (1 - t) * s1 + t * s2.
Proof. intros. assert (0 <= t * (1 - t)) by nra. nra. Qed.
Lemma total_fun : forall r v w, total_is r v -> total_is r w -> v = w.
Proof. intros r v w [L [E K]] [L' [E' K']]. rewrite E in E'. injection E' as <-. rewrite K in K'. now injection K'. Qed.
Lemma pde_fun : forall r v w, pde_is r v -> pde_is r w -> v = w.
Proof. intros r v w [L [E K]] [L' [E' K']]. rewrite E in E'. injection E' as <-. now subst. Qed.
Lemma convex_standard : forall m C T Q nn1 nn2 nn beta t U V G H loss d al bx bn g s1 s2 s, model_fits m C T Q -> m_cells m = C ->
  m_loss m = loss Num_R -> forward_loss loss d al bx bn g -> pointwise nn1 U G -> pointwise nn2 V H -> pointwise nn (mixU t U V) (mixG t G H) ->
  0 <= t <= 1 -> 0 <= beta ->
  total_is (train_standard m nn1 beta (Some d)) s1 -> total_is (train_standard m nn2 beta (Some d)) s2 -> total_is (train_standard m nn beta (Some d)) s ->
  s <= (1 - t) * s1 + t * s2.
Proof.
  intros m C T Q nn1 nn2 nn beta t U V G H loss d al bx bn g s1 s2 s Hm Hc Hl Hf H1 H2 H3 Ht Hb E1 E2 E3.
  destruct (mix_standard m C T Q nn1 nn2 nn beta t U V G H Hm Hc loss d al bx bn g Hl Hf H1 H2 H3) as [r1 [r2 [r [F1 [F2 [F3 EQ]]]]]].
  rewrite (total_fun _ _ _ E1 F1), (total_fun _ _ _ E2 F2), (total_fun _ _ _ E3 F3), EQ. apply below_chord; [exact Ht|].
  pose proof (norm2_nonneg C T (lhs m Q (fun _ => al) bx bn g (subU U V) (subG G H))). pose proof (mean_sq_at_nonneg (subU U V) (m_dir_in m)). nra.
Qed.
Lemma convex_hard : forall m C T Q nn1 nn2 nn beta t U V G H loss d al bx bn g s1 s2 s, model_fits m C T Q -> m_cells m = C ->
  m_loss m = loss Num_R -> forward_loss loss d al bx bn g -> pointwise nn1 U G -> pointwise nn2 V H -> pointwise nn (mixU t U V) (mixG t G H) ->
  0 <= t <= 1 ->
  total_is (train_hard m nn1 beta (Some d)) s1 -> total_is (train_hard m nn2 beta (Some d)) s2 -> total_is (train_hard m nn beta (Some d)) s ->
  s <= (1 - t) * s1 + t * s2.
Proof.
  intros m C T Q nn1 nn2 nn beta t U V G H loss d al bx bn g s1 s2 s Hm Hc Hl Hf H1 H2 H3 Ht E1 E2 E3.
  destruct (mix_hard m C T Q nn1 nn2 nn beta t U V G H Hm Hc loss d al bx bn g Hl Hf H1 H2 H3) as [r1 [r2 [r [F1 [F2 [F3 EQ]]]]]].
  rewrite (total_fun _ _ _ E1 F1), (total_fun _ _ _ E2 F2), (total_fun _ _ _ E3 F3), EQ. apply below_chord; [exact Ht|]. apply norm2_nonneg.
Qed.
Lemma convex_inverse : forall m C T Q nn1 nn2 nn beta t U V G H bp ip eps s1 s2 s, model_fits m C T Q -> m_cells m = C -> sensors_fit m ->
  m_loss m = pde_loss_poisson_inverse -> has ip "eps" eps -> pointwise nn1 U G -> pointwise nn2 V H -> pointwise nn (mixU t U V) (mixG t G H) ->
  0 <= t <= 1 -> 0 <= beta ->
  total_is (train_inverse m nn1 beta bp (Some ip)) s1 -> total_is (train_inverse m nn2 beta bp (Some ip)) s2 -> total_is (train_inverse m nn beta bp (Some ip)) s ->
  s <= (1 - t) * s1 + t * s2.
Proof.
  intros m C T Q nn1 nn2 nn beta t U V G H bp ip eps s1 s2 s Hm Hc Hs Hl He H1 H2 H3 Ht Hb E1 E2 E3.
  destruct (mix_inverse m C T Q nn1 nn2 nn beta t U V G H Hm Hc bp ip eps Hl He Hs H1 H2 H3) as [r1 [r2 [r [F1 [F2 [F3 EQ]]]]]].
  rewrite (total_fun _ _ _ E1 F1), (total_fun _ _ _ E2 F2), (total_fun _ _ _ E3 F3), EQ. apply below_chord; [exact Ht|].
  pose proof (norm2_nonneg C T (lhs m Q (fun _ => eps) 0 0 0 (subU U V) (subG G H))). pose proof (mean_sq_at_nonneg (subU U V) (m_dir_in m)).
  pose proof (mean_sq_at_nonneg (subU U V) (m_sensor_in m)). nra.
Qed.
Lemma convex_domain : forall m C T Q nn1 nn2 nn beta t U V G H d b_x b_y k E s1 s2 s, model_fits m C T Q -> m_cells m = C -> sensors_fit m ->
  m_loss m = pde_loss_cd2d_inverse_domain -> has d "b_x" b_x -> has d "b_y" b_y -> has d "c" k ->
  pointwise2 nn1 U E G -> pointwise2 nn2 V E H -> pointwise2 nn (mixU t U V) E (mixG t G H) -> 0 <= t <= 1 -> 0 <= beta ->
  total_is (train_inverse_domain m nn1 beta (Some d)) s1 -> total_is (train_inverse_domain m nn2 beta (Some d)) s2 -> total_is (train_inverse_domain m nn beta (Some d)) s ->
  s <= (1 - t) * s1 + t * s2.
Proof.
  intros m C T Q nn1 nn2 nn beta t U V G H d b_x b_y k E s1 s2 s Hm Hc Hs Hl Hx Hy Hk H1 H2 H3 Ht Hb E1 E2 E3.
  destruct (mix_domain m C T Q nn1 nn2 nn beta t U V G H Hm Hc d b_x b_y k E Hl Hx Hy Hk Hs H1 H2 H3) as [r1 [r2 [r [F1 [F2 [F3 EQ]]]]]].
  rewrite (total_fun _ _ _ E1 F1), (total_fun _ _ _ E2 F2), (total_fun _ _ _ E3 F3), EQ. apply below_chord; [exact Ht|].
  pose proof (norm2_nonneg C T (lhs m Q E b_x b_y k (subU U V) (subG G H))). pose proof (mean_sq_at_nonneg (subU U V) (m_dir_in m)).
  pose proof (mean_sq_at_nonneg (subU U V) (m_sensor_in m)). nra.
Qed.
Lemma convex_field : forall m C T Q nn1 nn2 nn beta t U G d b_x b_y k E F s1 s2 s, model_fits m C T Q -> m_cells m = C -> sensors_fit m ->
  m_loss m = pde_loss_cd2d_inverse_domain -> has d "b_x" b_x -> has d "b_y" b_y -> has d "c" k ->
  pointwise2 nn1 U E G -> pointwise2 nn2 U F G -> pointwise2 nn U (mixU t E F) G -> 0 <= t <= 1 ->
  total_is (train_inverse_domain m nn1 beta (Some d)) s1 -> total_is (train_inverse_domain m nn2 beta (Some d)) s2 -> total_is (train_inverse_domain m nn beta (Some d)) s ->
  s <= (1 - t) * s1 + t * s2.
Proof.
  intros m C T Q nn1 nn2 nn beta t U G d b_x b_y k E F s1 s2 s Hm Hc Hs Hl Hx Hy Hk H1 H2 H3 Ht E1 E2 E3.
  destruct (mix_field m C T Q nn1 nn2 nn beta t U G Hm Hc d b_x b_y k E F Hl Hx Hy Hk Hs H1 H2 H3) as [r1 [r2 [r [F1 [F2 [F3 EQ]]]]]].
  rewrite (total_fun _ _ _ E1 F1), (total_fun _ _ _ E2 F2), (total_fun _ _ _ E3 F3), EQ. apply below_chord; [exact Ht|]. apply norm2_nonneg.
Qed.
(* two networks without loss: so is every affine combination, inside or outside the segment *)
Lemma solutions_standard : forall m C T Q nn1 nn2 nn beta t U V G H loss d al bx bn g, model_fits m C T Q -> m_cells m = C ->
  m_loss m = loss Num_R -> forward_loss loss d al bx bn g -> pointwise nn1 U G -> pointwise nn2 V H -> pointwise nn (mixU t U V) (mixG t G H) ->
  0 <= beta -> total_is (train_standard m nn1 beta (Some d)) 0 -> total_is (train_standard m nn2 beta (Some d)) 0 ->
  total_is (train_standard m nn beta (Some d)) 0.
Proof.
  intros m C T Q nn1 nn2 nn beta t U V G H loss d al bx bn g Hm Hc Hl Hf H1 H2 H3 Hb E1 E2.
  destruct (mix_standard m C T Q nn1 nn2 nn beta t U V G H Hm Hc loss d al bx bn g Hl Hf H1 H2 H3) as [r1 [r2 [r [F1 [F2 [F3 EQ]]]]]].
  rewrite <- (total_fun _ _ _ E1 F1), <- (total_fun _ _ _ E2 F2) in EQ.
  assert (K : norm2 C T (lhs m Q (fun _ => al) bx bn g (subU U V) (subG G H)) + beta * mean_sq_at (subU U V) (m_dir_in m) <= 0).
  { clear EQ F3 r H3 nn.
    pose proof (total_fun _ _ _ E1 (total_intro _ _ _ (standard_value m C T Q nn1 beta Hm Hc loss d al bx bn g U G Hf Hl H1) eq_refl)) as Z1.
    pose proof (total_fun _ _ _ E2 (total_intro _ _ _ (standard_value m C T Q nn2 beta Hm Hc loss d al bx bn g V H Hf Hl H2) eq_refl)) as Z2.
    pose proof (pde_mix m C T Q (fun _ => al) bx bn g (/ 2) U V G H) as M1. pose proof (misfit_mix (/ 2) U V (m_dir_in m) (m_dir_act m)) as M2.
    pose proof (norm2_nonneg C T (fun c r => lhs m Q (fun _ => al) bx bn g (mixU (/ 2) U V) (mixG (/ 2) G H) c r - entry (m_force m) r c)) as N1.
    fold (pde_value m C T Q (fun _ => al) bx bn g (mixU (/ 2) U V) (mixG (/ 2) G H)) in N1.
    pose proof (misfit_nonneg (mixU (/ 2) U V) (m_dir_in m) (m_dir_act m)) as N2.
    pose proof (Rmult_le_pos _ _ Hb N2). nra. }
  assert (K2 : 0 <= norm2 C T (lhs m Q (fun _ => al) bx bn g (subU U V) (subG G H)) + beta * mean_sq_at (subU U V) (m_dir_in m)).
  { pose proof (norm2_nonneg C T (lhs m Q (fun _ => al) bx bn g (subU U V) (subG G H))). pose proof (mean_sq_at_nonneg (subU U V) (m_dir_in m)). nra. }
  replace 0 with r; [exact F3|]. rewrite EQ. replace (norm2 C T (lhs m Q (fun _ => al) bx bn g (subU U V) (subG G H)) + beta * mean_sq_at (subU U V) (m_dir_in m)) with 0 by lra. ring.
Qed.

(* ---------- C69: what the data say about the unknown coefficient ---------- *)
Section Identify.
Variables (m : model R) (C T Q : nat) (beta : R) (U : R * R -> R) (G : R * R -> R * R).
Hypothesis Hm : model_fits m C T Q.
Hypothesis Hc : m_cells m = C.
Hypothesis Hs : sensors_fit m.
Let A := norm2 C T (lhs m Q (fun _ => 1) 0 0 0 U G).
Let B := inner C T (lhs m Q (fun _ => 1) 0 0 0 U G) (fun c r => entry (m_force m) r c).
Lemma parabola : forall nn bp ip eps, m_loss m = pde_loss_poisson_inverse -> has ip "eps" eps -> pointwise nn U G ->
  pde_is (train_inverse m nn beta bp (Some ip)) (A * eps ^ 2 - 2 * B * eps + norm2 C T (fun c r => entry (m_force m) r c)).
Proof.
  intros nn bp ip eps Hl He Hn. replace (A * eps ^ 2 - 2 * B * eps + norm2 C T (fun c r => entry (m_force m) r c)) with (pde_value m C T Q (fun _ => eps) 0 0 0 U G)
    by (rewrite pde_eps; unfold A, B; ring).
  eexists. split; [exact (inverse_value m C T Q nn beta Hm Hc bp ip eps U G Hl He Hn Hs) | reflexivity].
Qed.
Lemma minimiser : forall nn bp ip1 ip2 eps s1 s2, m_loss m = pde_loss_poisson_inverse -> 0 < A -> has ip1 "eps" (B / A) -> has ip2 "eps" eps -> pointwise nn U G ->
  total_is (train_inverse m nn beta bp (Some ip1)) s1 -> total_is (train_inverse m nn beta bp (Some ip2)) s2 ->
  s2 - s1 = A * (eps - B / A) ^ 2.
Proof.
  intros nn bp ip1 ip2 eps s1 s2 Hl HA He1 He2 Hn E1 E2.
  rewrite (total_fun _ _ _ E1 (total_intro _ _ _ (inverse_value m C T Q nn beta Hm Hc bp ip1 (B / A) U G Hl He1 Hn Hs) eq_refl)).
  rewrite (total_fun _ _ _ E2 (total_intro _ _ _ (inverse_value m C T Q nn beta Hm Hc bp ip2 eps U G Hl He2 Hn Hs) eq_refl)).
  rewrite !pde_eps. fold A. fold B. field. lra.
Qed.
Lemma recovered : forall nn bp ip1 ip2 eps0 eps v, m_loss m = pde_loss_poisson_inverse -> has ip1 "eps" eps0 -> has ip2 "eps" eps -> pointwise nn U G ->
  pde_is (train_inverse m nn beta bp (Some ip1)) 0 -> pde_is (train_inverse m nn beta bp (Some ip2)) v ->
  v = A * (eps - eps0) ^ 2 /\
  (v = 0 <-> eps = eps0 \/ forall c r, (c < C)%nat -> (r < T)%nat -> lhs m Q (fun _ => 1) 0 0 0 U G c r = 0).
Proof.
  intros nn bp ip1 ip2 eps0 eps v Hl He1 He2 Hn E1 E2. pose proof (mf_T _ _ _ _ Hm) as HT.
  pose proof (pde_val _ _ _ (inverse_value m C T Q nn beta Hm Hc bp ip1 eps0 U G Hl He1 Hn Hs) E1) as Z. cbn [l_pde] in Z.
  pose proof (pde_val _ _ _ (inverse_value m C T Q nn beta Hm Hc bp ip2 eps U G Hl He2 Hn Hs) E2) as W. cbn [l_pde] in W.
  assert (K : v = A * (eps - eps0) ^ 2).
  { rewrite W. unfold pde_value, A. symmetry in Z. pose proof (norm2_zero C T _ HT Z) as N. cbv beta in N. rewrite Rmult_comm.
    rewrite norm2_ext with (g := fun c r => (eps - eps0) * lhs m Q (fun _ => 1) 0 0 0 U G c r).
    - rewrite !norm2_inner, inner_comb_1. ring.
    - intros c r Hlt Hr. pose proof (N c r Hlt Hr) as M. rewrite lhs_eps in M |- *. lra. }
  split; [exact K|]. split.
  - intros V0. destruct (Req_dec eps eps0) as [e|n]; [now left | right]. intros c r Hlt Hr. apply (norm2_zero C T _ HT) with (c := c) (r := r); auto.
    fold A. assert ((eps - eps0) ^ 2 <> 0) by (apply pow_nonzero; lra). rewrite V0 in K. symmetry in K. apply Rmult_integral in K. tauto.
  - intros [->|Hz]; [rewrite K; ring|]. rewrite K. unfold A. rewrite norm2_ext with (g := fun _ _ => 0 * 0) by (intros; rewrite Hz; auto; ring).
    rewrite norm2_inner, inner_comb_0. ring.
Qed.
Lemma field_recovered : forall nn1 nn2 d b_x b_y k E0 E v, m_loss m = pde_loss_cd2d_inverse_domain -> has d "b_x" b_x -> has d "b_y" b_y -> has d "c" k ->
  pointwise2 nn1 U E0 G -> pointwise2 nn2 U E G ->
  pde_is (train_inverse_domain m nn1 beta (Some d)) 0 -> pde_is (train_inverse_domain m nn2 beta (Some d)) v ->
  v = norm2 C T (lhs m Q (subU E E0) 0 0 0 U G) /\
  (v = 0 <-> forall c r, (c < C)%nat -> (r < T)%nat -> lhs m Q (subU E E0) 0 0 0 U G c r = 0).
Proof.
  intros nn1 nn2 d b_x b_y k E0 E v Hl Hx Hy Hk H1 H2 E1 E2. pose proof (mf_T _ _ _ _ Hm) as HT.
  pose proof (pde_val _ _ _ (domain_value m C T Q nn1 beta Hm Hc d b_x b_y k U E0 G Hl Hx Hy Hk H1 Hs) E1) as Z. cbn [l_pde] in Z.
  pose proof (pde_val _ _ _ (domain_value m C T Q nn2 beta Hm Hc d b_x b_y k U E G Hl Hx Hy Hk H2 Hs) E2) as W. cbn [l_pde] in W.
  assert (K : v = norm2 C T (lhs m Q (subU E E0) 0 0 0 U G)).
  { rewrite W. unfold pde_value. symmetry in Z. pose proof (norm2_zero C T _ HT Z) as N. cbv beta in N. apply norm2_ext. intros c r Hlt Hr.
    rewrite <- (lhs_field m Q E E0 b_x b_y k). pose proof (N c r Hlt Hr). lra. }
  split; [exact K|]. split.
  - intros V0. apply (norm2_zero C T _ HT). lra.
  - intros Hz. rewrite K. rewrite norm2_ext with (g := fun _ _ => 0 * 0) by (intros; rewrite Hz; auto; ring). rewrite norm2_inner, inner_comb_0. ring.
Qed.
End Identify.

(* ---------- C70: the derivative of the loss ---------- *)
Section Gradient.
Variables (m : model R) (C T Q : nat) (beta s : R) (nn : R -> network R) (U : R -> R * R -> R) (G : R -> R * R -> R * R) (U' : R * R -> R) (G' : R * R -> R * R).
Hypothesis Hm : model_fits m C T Q.
Hypothesis Hc : m_cells m = C.
Hypothesis HU : family U s U'.
Hypothesis HG : family2 G s G'.
Lemma HG2 : forall p, is_derive (fun x => fst (G x p)) s (fst (G' p)) /\ is_derive (fun x => snd (G x p)) s (snd (G' p)).
Proof. intros p. destruct HG as [A B]. split; [apply A | apply B]. Qed.
Lemma zero_field : forall c r, lhs m Q (fun _ => 0) 0 0 0 (U s) (G s) c r = 0.
Proof. intros. rewrite lhs_eps. ring. Qed.
Lemma grad_standard : forall loss d al bx bn g t, m_loss m = loss Num_R -> forward_loss loss d al bx bn g -> (forall x, pointwise (nn x) (U x) (G x)) ->
  (forall x, total_is (train_standard m (nn x) beta (Some d)) (t x)) ->
  is_derive t s (2 * inner C T (residual m Q (fun _ => al) bx bn g (U s) (G s)) (lhs m Q (fun _ => al) bx bn g U' G') +
    beta * (2 * inner_at (data_error (U s) (m_dir_in m) (m_dir_act m)) U' (m_dir_in m))).
Proof.
  intros loss d al bx bn g t Hl Hf Hn Ht.
  apply is_derive_ext with (fun x => pde_value m C T Q (fun _ => al) bx bn g (U x) (G x) + beta * misfit (U x) (m_dir_in m) (m_dir_act m)).
  { intros x. symmetry. exact (total_fun _ _ _ (Ht x) (total_intro _ _ _ (standard_value m C T Q (nn x) beta Hm Hc loss d al bx bn g (U x) (G x) Hf Hl (Hn x)) eq_refl)). }
  apply derive_add; [|apply derive_scal; exact (derive_misfit U s U' HU _ _)].
  eapply derive_eq; [exact (derive_pde m C T Q (fun _ _ => al) bx bn g U G s (fun _ => 0) U' G' (fun p => is_derive_const al s) HU HG2)|].
  f_equal. apply inner_ext; [reflexivity|]. intros. rewrite zero_field. ring.
Qed.
Lemma grad_hard : forall loss d al bx bn g t, m_loss m = loss Num_R -> forward_loss loss d al bx bn g -> (forall x, pointwise (nn x) (U x) (G x)) ->
  (forall x, total_is (train_hard m (nn x) beta (Some d)) (t x)) ->
  is_derive t s (2 * inner C T (residual m Q (fun _ => al) bx bn g (U s) (G s)) (lhs m Q (fun _ => al) bx bn g U' G')).
Proof.
  intros loss d al bx bn g t Hl Hf Hn Ht.
  apply is_derive_ext with (fun x => pde_value m C T Q (fun _ => al) bx bn g (U x) (G x)).
  { intros x. symmetry. exact (total_fun _ _ _ (Ht x) (total_intro _ _ _ (hard_value m C T Q (nn x) beta Hm Hc loss d al bx bn g (U x) (G x) Hf Hl (Hn x)) eq_refl)). }
  eapply derive_eq; [exact (derive_pde m C T Q (fun _ _ => al) bx bn g U G s (fun _ => 0) U' G' (fun p => is_derive_const al s) HU HG2)|].
  f_equal. apply inner_ext; [reflexivity|]. intros. rewrite zero_field. ring.
Qed.
Lemma grad_inverse : forall bp ip eps eps' t, m_loss m = pde_loss_poisson_inverse -> sensors_fit m -> (forall x, has (ip x) "eps" (eps x)) ->
  is_derive eps s eps' -> (forall x, pointwise (nn x) (U x) (G x)) ->
  (forall x, total_is (train_inverse m (nn x) beta bp (Some (ip x))) (t x)) ->
  is_derive t s (2 * inner C T (residual m Q (fun _ => eps s) 0 0 0 (U s) (G s))
      (fun c r => lhs m Q (fun _ => eps') 0 0 0 (U s) (G s) c r + lhs m Q (fun _ => eps s) 0 0 0 U' G' c r) +
    beta * (2 * inner_at (data_error (U s) (m_dir_in m) (m_dir_act m)) U' (m_dir_in m)) +
    10 * (2 * inner_at (data_error (U s) (m_sensor_in m) (m_sensor_act m)) U' (m_sensor_in m))).
Proof.
  intros bp ip eps eps' t Hl Hs He Hd Hn Ht.
  apply is_derive_ext with (fun x => pde_value m C T Q (fun _ => eps x) 0 0 0 (U x) (G x) + beta * misfit (U x) (m_dir_in m) (m_dir_act m) + 10 * misfit (U x) (m_sensor_in m) (m_sensor_act m)).
  { intros x. symmetry. exact (total_fun _ _ _ (Ht x) (total_intro _ _ _ (inverse_value m C T Q (nn x) beta Hm Hc bp (ip x) (eps x) (U x) (G x) Hl (He x) (Hn x) Hs) eq_refl)). }
  apply derive_add; [apply derive_add|]; [|apply derive_scal; exact (derive_misfit U s U' HU _ _) | apply derive_scal; exact (derive_misfit U s U' HU _ _)].
  exact (derive_pde m C T Q (fun x _ => eps x) 0 0 0 U G s (fun _ => eps') U' G' (fun p => Hd) HU HG2).
Qed.
Lemma grad_domain : forall d b_x b_y k E E' t, m_loss m = pde_loss_cd2d_inverse_domain -> sensors_fit m -> has d "b_x" b_x -> has d "b_y" b_y -> has d "c" k ->
  family E s E' -> (forall x, pointwise2 (nn x) (U x) (E x) (G x)) ->
  (forall x, total_is (train_inverse_domain m (nn x) beta (Some d)) (t x)) ->
  is_derive t s (2 * inner C T (residual m Q (E s) b_x b_y k (U s) (G s))
      (fun c r => lhs m Q E' 0 0 0 (U s) (G s) c r + lhs m Q (E s) b_x b_y k U' G' c r) +
    beta * (2 * inner_at (data_error (U s) (m_dir_in m) (m_dir_act m)) U' (m_dir_in m)) +
    10 * (2 * inner_at (data_error (U s) (m_sensor_in m) (m_sensor_act m)) U' (m_sensor_in m))).
Proof.
  intros d b_x b_y k E E' t Hl Hs Hx Hy Hk Hd Hn Ht.
  apply is_derive_ext with (fun x => pde_value m C T Q (E x) b_x b_y k (U x) (G x) + beta * misfit (U x) (m_dir_in m) (m_dir_act m) + 10 * misfit (U x) (m_sensor_in m) (m_sensor_act m)).
  { intros x. symmetry. exact (total_fun _ _ _ (Ht x) (total_intro _ _ _ (domain_value m C T Q (nn x) beta Hm Hc d b_x b_y k (U x) (E x) (G x) Hl Hx Hy Hk (Hn x) Hs) eq_refl)). }
  apply derive_add; [apply derive_add|]; [|apply derive_scal; exact (derive_misfit U s U' HU _ _) | apply derive_scal; exact (derive_misfit U s U' HU _ _)].
  exact (derive_pde m C T Q E b_x b_y k U G s E' U' G' Hd HU HG2).
Qed.
End Gradient.
Lemma stationary : forall (t : R -> R) s D, (forall x, 0 <= t x) -> t s = 0 -> is_derive t s D -> D = 0.
Proof.
  intros t s D Hp Hz Hd. apply is_derive_Reals in Hd. set (pr := exist _ D Hd : derivable_pt t s).
  change D with (derive_pt t s pr). apply (deriv_minimum t (s - 1) (s + 1) s pr); [lra | lra|]. intros x _ _. rewrite Hz. apply Hp.
Qed.
Lemma stationary_standard : forall m C T Q beta s nn U G U' G' loss d al bx bn g t, model_fits m C T Q -> m_cells m = C ->
  m_loss m = loss Num_R -> forward_loss loss d al bx bn g -> (forall x, pointwise (nn x) (U x) (G x)) -> family U s U' -> family2 G s G' -> 0 <= beta ->
  (forall x, total_is (train_standard m (nn x) beta (Some d)) (t x)) -> t s = 0 -> is_derive t s 0.
Proof.
  intros m C T Q beta s nn U G U' G' loss d al bx bn g t Hm Hc Hl Hf Hn HU HG Hb Ht Hz.
  pose proof (grad_standard m C T Q beta s nn U G U' G' Hm Hc HU HG loss d al bx bn g t Hl Hf Hn Ht) as D.
  apply (derive_eq _ _ _ _ D). apply (stationary t s _); [|exact Hz | exact D]. intros x.
  rewrite (total_fun _ _ _ (Ht x) (total_intro _ _ _ (standard_value m C T Q (nn x) beta Hm Hc loss d al bx bn g (U x) (G x) Hf Hl (Hn x)) eq_refl)).
  pose proof (norm2_nonneg C T (residual m Q (fun _ => al) bx bn g (U x) (G x))). pose proof (misfit_nonneg (U x) (m_dir_in m) (m_dir_act m)).
  change (pde_value m C T Q (fun _ => al) bx bn g (U x) (G x)) with (norm2 C T (residual m Q (fun _ => al) bx bn g (U x) (G x))). nra.
Qed.

(* ---------- an example: one cell, one test function, one point ---------- *)
Definition tiny (loss : pyfun R) : model R :=
  {| m_val := [[[0]]]; m_gx := [[[1]]]; m_gy := [[[0]]]; m_x := [(0, 0)]; m_dir_in := [(1, 0)]; m_dir_act := [[2]]; m_force := [[2]];
     m_cells := 1; m_loss := loss; m_sensor_in := [(1, 0)]; m_sensor_act := [[2]] |}.
Lemma tiny_fits : forall loss, model_fits (tiny loss) 1 1 1 /\ sensors_fit (tiny loss).
Proof.
  intros loss.
  assert (S3 : forall x : R, shape3 [[[x]]] 1 1 1).
  { intros x. split; [reflexivity|]. intros m [<-|[]]. split; [reflexivity|]. intros row [<-|[]]. reflexivity. }
  assert (S2 : forall x : R, has_shape [[x]] 1 1).
  { intros x. split; [reflexivity|]. intros row [<-|[]]. reflexivity. }
  split; [|split; [discriminate | apply S2]].
  constructor; cbn; try apply S3; try apply S2; try lia; try reflexivity; discriminate.
Qed.
Lemma tiny_lhs : forall loss e bx bn g a b c k l, lhs (tiny loss) 1 (fun _ => e) bx bn g (fun p => a * fst p + b * snd p + c) (fun _ => (a, b)) k l = match k, l with 0%nat, 0%nat => e * a | _, _ => lhs (tiny loss) 1 (fun _ => e) bx bn g (fun p => a * fst p + b * snd p + c) (fun _ => (a, b)) k l end.
Proof. intros. destruct k as [|k]; [|reflexivity]. destruct l as [|l]; [|reflexivity]. unfold lhs, Sum, entry3, entry. cbn. ring. Qed.
Lemma tiny_A : forall loss a b c, norm2 1 1 (lhs (tiny loss) 1 (fun _ => 1) 0 0 0 (fun p => a * fst p + b * snd p + c) (fun _ => (a, b))) = a ^ 2.
Proof. intros. unfold norm2, mean_sq, Sum. rewrite tiny_lhs. cbn [INR]. field. Qed.
Lemma tiny_B : forall loss a b c, inner 1 1 (lhs (tiny loss) 1 (fun _ => 1) 0 0 0 (fun p => a * fst p + b * snd p + c) (fun _ => (a, b))) (fun c r => entry (m_force (tiny loss)) r c) = 2 * a.
Proof. intros. unfold inner, Sum. rewrite tiny_lhs. unfold entry. cbn [INR m_force tiny nth]. field. Qed.
Lemma tiny_pde : forall loss e a b c, pde_value (tiny loss) 1 1 1 (fun _ => e) 0 0 0 (fun p => a * fst p + b * snd p + c) (fun _ => (a, b)) = (e * a - 2) ^ 2.
Proof. intros. unfold pde_value, norm2, mean_sq, Sum. rewrite tiny_lhs. unfold entry. cbn [INR m_force tiny nth]. field. Qed.
Lemma tiny_misfit : forall a b c, misfit (fun p => a * fst p + b * snd p + c) [(1, 0)] [[2]] = (a + c - 2) ^ 2.
Proof. intros. unfold misfit, Sum, entry. cbn [length nth INR fst snd]. field. Qed.
Lemma tiny_total : forall a b c e beta, total_is (train_standard (tiny pde_loss_poisson) (ex_net a b c) beta (Some [("eps"%string, e)])) ((e * a - 2) ^ 2 + beta * (a + c - 2) ^ 2).
Proof.
  intros. eexists. split.
  - exact (standard_value _ 1 1 1 _ beta (proj1 (tiny_fits _)) eq_refl _ _ _ _ _ _ _ _ (fl_poisson [("eps"%string, e)] e eq_refl) eq_refl (ex_net_pointwise a b c)).
  - cbn [l_total]. rewrite tiny_pde. change (m_dir_in (tiny pde_loss_poisson)) with [(1, 0)]. change (m_dir_act (tiny pde_loss_poisson)) with [[2]]. now rewrite tiny_misfit.
Qed.
Lemma tiny_inverse : forall a b c e beta, pde_is (train_inverse (tiny pde_loss_poisson_inverse) (ex_net a b c) beta (Some []) (Some [("eps"%string, e)])) ((e * a - 2) ^ 2).
Proof.
  intros. eexists. split.
  - exact (inverse_value _ 1 1 1 _ beta (proj1 (tiny_fits _)) eq_refl (Some []) [("eps"%string, e)] e _ _ eq_refl eq_refl (ex_net_pointwise a b c) (proj2 (tiny_fits _))).
  - cbn [l_pde]. apply tiny_pde.
Qed.
Lemma ex_net_mix : forall t a b c a' b' c', pointwise (ex_net ((1 - t) * a + t * a') ((1 - t) * b + t * b') ((1 - t) * c + t * c'))
  (mixU t (fun p => a * fst p + b * snd p + c) (fun p => a' * fst p + b' * snd p + c')) (mixG t (fun _ => (a, b)) (fun _ => (a', b'))).
Proof.
  intros t a b c a' b' c' l. split; [|reflexivity]. cbn [ex_net nn_out]. f_equal. apply map_ext. intros p. unfold mixU. f_equal. ring.
Qed.
Lemma total_eq : forall r v w, total_is r v -> v = w -> total_is r w.
Proof. intros; now subst. Qed.
Lemma pde_eq : forall r v w, pde_is r v -> v = w -> pde_is r w.
Proof. intros; now subst. Qed.
