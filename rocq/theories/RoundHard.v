(* Rounding errors of the network with the boundary values built in (C86). *)
From Coq Require Import String ZArith List Arith Lia Bool Reals Lra Psatz Permutation.
From Flocq Require Import Core.
From Coquelicot Require Import Coquelicot.
From Verif Require Import Num Py PyFacts Basis Tensor Physics Train Nets Problems PolyFacts ListFacts Spec TensorFacts SpecTrain SpecInit SpecLoop
  NetFacts ProblemFacts InitFacts LoopFacts Rounding SpecRound RoundFacts RoundStep RoundNet SpecRoundNet RoundNetFacts.
Import ListNotations.
Local Open Scope R_scope.

Section Hard.
Variables (a : arith) (u : R) (N : Z) (mt : nat) (nt : net) (c : R).
Hypothesis Ha : arith_ok a u N mt.
Hypothesis Ht : n_act nt = tanh.
Hypothesis Hat : n_attention nt = false.
Hypothesis Hc : NetFacts.chain nt 1.
Hypothesis Hcc : Rabs (c - 4 * PI) <= ((1 + u) ^ 2 - 1) * (4 * PI).
Let Hr : rounding (a_rnd a) u N := ar_rnd _ _ _ _ Ha.
Let ls := n_layers nt.
Notation rnd := (a_rnd a).
Notation near := (near u).
Notation nears := (nears u).
Let w := 4 * PI.
Lemma w_pos : 0 < w.
Proof. unfold w. pose proof PI_RGT_0. lra. Qed.
Lemma near_w : near 2 w w c.
Proof. pose proof w_pos. split; [rewrite Rabs_pos_eq; lra | exact Hcc]. Qed.
Ltac grow := eapply near_mono; [exact Hr | | | apply Rle_refl].
Lemma near_one : forall k, near k 1 1 1.
Proof. intros k. pose proof (near_same rnd u N Hr k 1) as H. rewrite Rabs_R1 in H. exact H. Qed.
Lemma factor : forall z, near (5 + mt) (factor_size z) (tanh (w * z)) (a_tanh a (rnd (c * rnd z))).
Proof.
  intros z. unfold factor_size. fold w. apply (near_tanh a u N mt Ha). grow; [apply (near_mul rnd u N Hr 2 1); [exact near_w | apply (near_cast rnd u N Hr)] | lia].
Qed.
Lemma shifted : forall z, near (5 + mt) (shifted_size z) (tanh (w * (z - 1))) (a_tanh a (rnd (c * rnd (rnd z - 1)))).
Proof.
  intros z. unfold shifted_size. fold w. apply (near_tanh a u N mt Ha). apply (near_mul rnd u N Hr 2 2); [exact near_w|].
  apply (near_sub rnd u N Hr); [apply (near_cast rnd u N Hr) | apply near_one].
Qed.
Let x' (p : R * R) := cast_point a p.
Let T1 (p : R * R) := a_tanh a (rnd (c * rnd (fst p))).
Let T2 (p : R * R) := a_tanh a (rnd (c * rnd (snd p))).
Let T3 (p : R * R) := a_tanh a (rnd (c * rnd (rnd (fst p) - 1))).
Let T4 (p : R * R) := a_tanh a (rnd (c * rnd (rnd (snd p) - 1))).
Let k := (5 + mt)%nat.
Lemma factors_at : forall p, fl_factors a c (x' p) = ((T1 p, T2 p), (T3 p, T4 p)).
Proof. reflexivity. Qed.
Lemma near_h : forall p, near (2 * k + 1) (factor_size (fst p) * factor_size (snd p)) (tanh (w * fst p) * tanh (w * snd p)) (rnd (T1 p * T2 p)).
Proof. intros p. grow; [apply (near_mul rnd u N Hr); apply factor | unfold k; lia]. Qed.
Lemma near_g : forall p, near (3 * k + 2) (factor_size (fst p) * factor_size (snd p) * shifted_size (fst p)) (tanh (w * fst p) * tanh (w * snd p) * tanh (w * (fst p - 1))) (rnd (rnd (T1 p * T2 p) * T3 p)).
Proof. intros p. grow; [apply (near_mul rnd u N Hr); [apply near_h | apply shifted] | unfold k; lia]. Qed.
Lemma near_ansatz : forall p, near (4 * k + 3) (ansatz_size p) (ansatz p) (fl_ansatz a (fl_factors a c (x' p))).
Proof. intros p. grow; [apply (near_mul rnd u N Hr); [apply near_g | apply shifted] | unfold k; lia]. Qed.
Let U (p : R * R) := nth 0 (net_row (act_of nt) ls [fst p; snd p]) 0.
Let U' (p : R * R) := nth 0 (fl_net a ls (x' p)) 0.
Let kv := value_rounds mt ls 1.
Let ks := slope_rounds mt ls 1.
Lemma near_U : forall p, near kv (value_size nt 0 p) (U p) (U' p).
Proof. intros p. exact (both_near a u N mt nt 1 Ha Ht Hc 0 p ltac:(lia)). Qed.
Lemma near_V : forall p, near (kv + 4 * k + 4) (hard_size nt p) (ansatz p * U p) (rnd (fl_ansatz a (fl_factors a c (x' p)) * U' p)).
Proof. intros p. grow; [apply (near_mul rnd u N Hr); [apply near_ansatz | apply near_U] | unfold k; lia]. Qed.
(* one branch of the tape through a factor *)
Lemma near_through : forall kd b d d' s t t', near kd b d d' -> near k s t t' ->
  near (kd + 2 * k + 6) (b * (1 + s * s) * w) (d * (1 - t * t) * w) (rnd (rnd (d' * rnd (1 - rnd (t' * t'))) * c)).
Proof. intros kd b d d' s t t' H1 H2. grow; [apply (near_mul rnd u N Hr); [apply (near_mul rnd u N Hr); [exact H1 | exact (near_slope a u N mt Ha _ _ _ _ H2)] | exact near_w] | lia]. Qed.
Let one (_ : nat) : R := 1.
Lemma near_df : forall p, near (kv + 1) (value_size nt 0 p) (U p) (a_sum a (map2 (fun j v => rnd (seed None j * v)) (seq 0 (length (fl_net a ls (x' p)))) (fl_net a ls (x' p)))).
Proof.
  intros p. pose proof (proj2 (both_length a nt 1 Hc p)) as L. pose proof (near_U p) as NU. unfold U' in NU. unfold x' in *. fold ls in L. destruct (fl_net a ls (cast_point a p)) as [|v [|v2 r]]; try (cbn in L; lia).
  cbn [length seq map2 nth seed] in *. assert (P : nears (kv + 1) [value_size nt 0 p] [U p] [rnd (1 * v)]).
  { constructor; [|constructor]. replace (value_size nt 0 p) with (1 * value_size nt 0 p) by ring. replace (U p) with (1 * U p) by ring. grow; [apply (near_mul rnd u N Hr 0 kv); [apply near_one | exact NU] | lia]. }
  pose proof (near_asum a u N mt Ha _ _ _ _ P) as Q. cbn [length] in Q. unfold vsum in Q. cbn in Q. rewrite !Rplus_0_r in Q. grow; [exact Q | lia].
Qed.
Let Gx' p := fst (fl_hard_grad a c (seed None) ls (x' p)).
Let Gy' p := snd (fl_hard_grad a c (seed None) ls (x' p)).
Lemma near_back_ansatz : forall p i, (i < 2)%nat -> near (ks + 4 * k + 4) (nth i (slope_size (fun _ => ansatz_size p) ls [Rabs (fst p); Rabs (snd p)]) 0)
  (nth i (fl_back exact_arith (fun _ => ansatz p) ls [fst p; snd p]) 0) (nth i (fl_back a (fun j => rnd (seed None j * fl_ansatz a (fl_factors a c (x' p)))) ls (x' p)) 0).
Proof.
  intros p i Hi. destruct (both_fit nt 1 Hc) as [Hf _].
  assert (P : nears (ks + (4 * k + 4)) (slope_size (fun _ => ansatz_size p) ls [Rabs (fst p); Rabs (snd p)]) (fl_back exact_arith (fun _ => ansatz p) ls [fst p; snd p])
    (fl_back a (fun j => rnd (seed None j * fl_ansatz a (fl_factors a c (x' p)))) ls (x' p))).
  { apply (near_back a u N mt Ha (4 * k + 4) (fun _ => ansatz_size p) (fun _ => ansatz p)); [|exact Hf | exact (both_cast a u N mt Ha p)]. intros j. cbn [seed].
    replace (ansatz_size p) with (1 * ansatz_size p) by ring. replace (ansatz p) with (1 * ansatz p) at 1 by ring. grow; [apply (near_mul rnd u N Hr 0); [apply near_one | apply near_ansatz] | lia]. }
  rewrite Nat.add_assoc in P. apply (nears_nth _ _ _ _ _ P). rewrite back_length; [exact Hi | exact Hf].
Qed.
Let Gx p := nth 0 (fl_back exact_arith (fun _ => ansatz p) ls [fst p; snd p]) 0 +
  (U p * tanh (w * (snd p - 1)) * tanh (w * (fst p - 1)) * tanh (w * snd p) * (1 - tanh (w * fst p) * tanh (w * fst p)) * w +
   (U p * tanh (w * (snd p - 1)) * (tanh (w * fst p) * tanh (w * snd p)) * (1 - tanh (w * (fst p - 1)) * tanh (w * (fst p - 1))) * w + 0)).
Let Gy p := nth 1 (fl_back exact_arith (fun _ => ansatz p) ls [fst p; snd p]) 0 +
  (U p * tanh (w * (snd p - 1)) * tanh (w * (fst p - 1)) * tanh (w * fst p) * (1 - tanh (w * snd p) * tanh (w * snd p)) * w +
   (U p * (tanh (w * fst p) * tanh (w * snd p) * tanh (w * (fst p - 1))) * (1 - tanh (w * (snd p - 1)) * tanh (w * (snd p - 1))) * w + 0)).
Lemma near_three : forall l b1 b2 b3 y1 y2 y3 z1 z2 z3 B, near l b1 y1 z1 -> near l b2 y2 z2 -> near l b3 y3 z3 -> B = b1 + (b2 + (b3 + 0)) ->
  near (l + 2) B (y1 + (y2 + (y3 + 0))) (a_sum a [z1; z2; z3]).
Proof.
  intros l b1 b2 b3 y1 y2 y3 z1 z2 z3 B H1 H2 H3 ->. assert (P : nears l [b1; b2; b3] [y1; y2; y3] [z1; z2; z3]) by (repeat (constructor; [assumption|]); constructor).
  exact (near_asum a u N mt Ha _ _ _ _ P).
Qed.
Lemma near_Gx : forall p, near (hard_rounds mt nt) (fst (hard_gradient_size nt p)) (Gx p) (Gx' p).
Proof.
  intros p. unfold Gx', fl_hard_grad. rewrite factors_at. cbv zeta. cbn [fst].
  pose proof (near_df p) as Hd. pose proof (near_mul rnd u N Hr _ _ _ _ _ _ _ _ Hd (shifted (snd p))) as Hg. pose proof (near_mul rnd u N Hr _ _ _ _ _ _ _ _ Hg (shifted (fst p))) as Hh.
  pose proof (near_through _ _ _ _ _ _ _ (near_mul rnd u N Hr _ _ _ _ _ _ _ _ Hh (factor (snd p))) (factor (fst p))) as E1.
  pose proof (near_through _ _ _ _ _ _ _ (near_mul rnd u N Hr _ _ _ _ _ _ _ _ Hg (near_h p)) (shifted (fst p))) as E3.
  pose proof (near_back_ansatz p 0 ltac:(lia)) as E0. unfold hard_rounds. fold ls kv ks.
  replace (kv + ks + 5 * mt + 37)%nat with (kv + ks + 5 * k + 10 + 2)%nat by (unfold k; lia).
  eapply near_three; [grow; [exact E0 | lia] | grow; [exact E1 | unfold k; lia] | grow; [exact E3 | unfold k; lia] |]. unfold hard_gradient_size. cbv zeta. cbn [fst]. fold ls w. ring.
Qed.
Lemma near_Gy : forall p, near (hard_rounds mt nt) (snd (hard_gradient_size nt p)) (Gy p) (Gy' p).
Proof.
  intros p. unfold Gy', fl_hard_grad. rewrite factors_at. cbv zeta. cbn [snd].
  pose proof (near_df p) as Hd. pose proof (near_mul rnd u N Hr _ _ _ _ _ _ _ _ Hd (shifted (snd p))) as Hg. pose proof (near_mul rnd u N Hr _ _ _ _ _ _ _ _ Hg (shifted (fst p))) as Hh.
  pose proof (near_through _ _ _ _ _ _ _ (near_mul rnd u N Hr _ _ _ _ _ _ _ _ Hh (factor (fst p))) (factor (snd p))) as E1.
  pose proof (near_through _ _ _ _ _ _ _ (near_mul rnd u N Hr _ _ _ _ _ _ _ _ Hd (near_g p)) (shifted (snd p))) as E3.
  pose proof (near_back_ansatz p 1 ltac:(lia)) as E0. unfold hard_rounds. fold ls kv ks.
  replace (kv + ks + 5 * mt + 37)%nat with (kv + ks + 5 * k + 10 + 2)%nat by (unfold k; lia).
  eapply near_three; [grow; [exact E0 | lia] | grow; [exact E1 | unfold k; lia] | grow; [exact E3 | unfold k; lia] |]. unfold hard_gradient_size. cbv zeta. cbn [snd]. fold ls w. ring.
Qed.
(* the exact tape is the gradient *)
Lemma lin_one : forall d p, lin (fun _ => d) (fl_net exact_arith ls [fst p; snd p]) = d * U p.
Proof.
  intros d p. pose proof (proj1 (both_length a nt 1 Hc p)) as L. unfold U, lin. rewrite (exact_net nt) by exact Ht. fold ls in L. rewrite L. cbn. ring.
Qed.
Lemma back_scal : forall d p i, (i < 2)%nat -> let D := nth i (fl_back exact_arith (fun _ => d) ls [fst p; snd p]) 0 in let move t := if (i =? 0)%nat then (t, snd p) else (fst p, t) in
  is_derive (fun t => d * U (move t)) (if (i =? 0)%nat then fst p else snd p) D.
Proof.
  intros d [x y] i Hi D move. destruct (both_fit nt 1 Hc) as [Hf _]. cbn [fst snd] in *.
  apply (is_derive_ext (fun t => lin (fun _ => d) (fl_net exact_arith ls [fst (move t); snd (move t)]))); [intros t; apply lin_one|]. unfold D, move. cbn [fst snd]. destruct i as [|[|i]]; [| |lia]; cbn [Nat.eqb fst snd].
  - replace (nth 0 (fl_back exact_arith (fun _ => d) ls [x; y]) 0) with (rsum (fun i => nth i (fl_back exact_arith (fun _ => d) ls [x; y]) 0 * (match i with O => 1 | _ => 0 end)) 2) by (cbn; ring).
    apply (back_derive (fun _ => d) ls 2 (fun t => [t; y]) (fun i => match i with O => 1 | _ => 0 end) x (fun _ => eq_refl) Hf). intros [|[|i]] Hi'; cbn [nth]; [apply RCalc.derR_id | apply RCalc.derR_const | lia].
  - replace (nth 1 (fl_back exact_arith (fun _ => d) ls [x; y]) 0) with (rsum (fun i => nth i (fl_back exact_arith (fun _ => d) ls [x; y]) 0 * (match i with O => 0 | _ => 1 end)) 2) by (cbn; ring).
    apply (back_derive (fun _ => d) ls 2 (fun t => [x; t]) (fun i => match i with O => 0 | _ => 1 end) y (fun _ => eq_refl) Hf). intros [|[|i]] Hi'; cbn [nth]; [apply RCalc.derR_const | apply RCalc.derR_id | lia].
Qed.
Lemma tanh_steep : forall s t, is_derive (fun t => tanh (w * (t - s))) t (w * (1 - tanh (w * (t - s)) * tanh (w * (t - s)))).
Proof.
  intros s t. apply (is_derive_comp tanh (fun t => w * (t - s)) t); [replace (1 - tanh (w * (t - s)) * tanh (w * (t - s))) with (1 - tanh (w * (t - s)) ^ 2) by ring; apply ProblemFacts.is_derive_tanh|].
  auto_derive; auto. ring.
Qed.
Lemma tanh_steep0 : forall t, is_derive (fun t => tanh (w * t)) t (w * (1 - tanh (w * t) * tanh (w * t))).
Proof. intros t. pose proof (tanh_steep 0 t) as H. rewrite Rminus_0_r in H. eapply is_derive_ext; [|exact H]. intros z. cbn. now rewrite Rminus_0_r. Qed.
Lemma prod_rule : forall f g h x f' g' h' A B, is_derive f x f' -> is_derive g x g' -> is_derive h x h' ->
  is_derive (fun t => f t * A * g t * B * h t) x (f' * A * g x * B * h x + f x * A * g' * B * h x + f x * A * g x * B * h').
Proof.
  intros f g h x f' g' h' A B Hf Hg Hh. auto_derive; [repeat split; eexists; eassumption|]. replace (Derive (fun x0 => f x0) x) with f' by (symmetry; apply is_derive_unique; exact Hf). replace (Derive (fun x0 => g x0) x) with g' by (symmetry; apply is_derive_unique; exact Hg).
  replace (Derive (fun x0 => h x0) x) with h' by (symmetry; apply is_derive_unique; exact Hh). ring.
Qed.
Lemma exact_hard_grad : forall p, grad (fun q => ansatz q * U q) p = (Gx p, Gy p).
Proof.
  intros [x y]. unfold grad, Gx, Gy. cbn [fst snd].
  assert (S : forall d i, (i < 2)%nat -> nth i (fl_back exact_arith (fun _ => d) ls [x; y]) 0 = d * nth i (fl_back exact_arith (fun _ => 1) ls [x; y]) 0).
  { intros d i Hi. pose proof (back_scal d (x, y) i Hi) as D. pose proof (back_scal 1 (x, y) i Hi) as D1. cbv zeta in D, D1. cbn [fst snd] in D, D1.
    rewrite <- (is_derive_unique _ _ _ D). symmetry. rewrite <- (is_derive_unique _ _ _ D1). rewrite <- Derive_scal. apply Derive_ext. intros t. ring. }
  assert (DX : is_derive (fun t : R => U (t, y)) x (nth 0 (fl_back exact_arith (fun _ => 1) ls [x; y]) 0)).
  { pose proof (back_scal 1 (x, y) 0 ltac:(lia)) as D1. cbv zeta in D1. cbn [fst snd Nat.eqb] in D1. eapply is_derive_ext; [|exact D1]. intros t. apply Rmult_1_l. }
  assert (DY : is_derive (fun t : R => U (x, t)) y (nth 1 (fl_back exact_arith (fun _ => 1) ls [x; y]) 0)).
  { pose proof (back_scal 1 (x, y) 1 ltac:(lia)) as D1. cbv zeta in D1. cbn [fst snd Nat.eqb] in D1. eapply is_derive_ext; [|exact D1]. intros t. apply Rmult_1_l. }
  f_equal; apply is_derive_unique.
  - rewrite (S _ 0%nat) by lia. pose proof (prod_rule _ _ _ _ _ _ _ (tanh (w * y)) (tanh (w * (y - 1))) (tanh_steep0 x) (tanh_steep 1 x) DX) as P.
    evar_last; [eapply is_derive_ext; [|exact P]; intros t; unfold ansatz; cbn [fst snd]; fold w; reflexivity|]. unfold ansatz. cbn [fst snd]. fold w. ring.
  - rewrite (S _ 1%nat) by lia. pose proof (prod_rule _ _ _ _ _ _ _ (tanh (w * (x - 1))) 1 (tanh_steep0 y) (tanh_steep 1 y) DY) as P.
    apply (is_derive_scal _ _ (tanh (w * x))) in P.
    evar_last; [apply (is_derive_ext (fun t : R => tanh (w * x) * (tanh (w * t) * tanh (w * (x - 1)) * tanh (w * (t - 1)) * 1 * U (x, t)))); [|exact P]|].
    { intros t. unfold ansatz. cbn [fst snd]. fold w. apply Rminus_diag_uniq. ring. }
    unfold ansatz. cbn [fst snd]. fold w. ring.
Qed.
Lemma hard_pair : pointwise (hard_network (Some ansatz_constraint) nt) (fun p => ansatz p * U p) (fun p => (Gx p, Gy p)) /\
  pointwise (rounded_hard_network a c nt) (fun p => rnd (fl_ansatz a (fl_factors a c (x' p)) * U' p)) (fun p => (Gx' p, Gy' p)).
Proof.
  split.
  - destruct (hard_pointwise (fun p => Rmult (ansatz p)) nt Hat Hc) as (V & E & P). cbv zeta in P. intros b. destruct (P b) as [P1 P2].
    assert (EV : forall p, V p = U p). { intros p. specialize (E p). rewrite (proj1 (both_out a nt 1 Hat Hc [p])) in E. cbn [map] in E. injection E as E. unfold U. fold ls in E. now rewrite E. }
    split; [refine (eq_trans P1 _); f_equal; apply map_ext; intros p; now rewrite EV|]. refine (eq_trans P2 _). apply map_ext. intros p. rewrite <- exact_hard_grad. unfold grad. f_equal; apply Derive_ext; intros t; now rewrite EV.
  - intros b. split.
    + cbn [nn_out rounded_hard_network]. rewrite (proj1 (both_fit nt 1 Hc)). fold ls. f_equal. apply map_ext. intros p. cbv zeta. pose proof (proj2 (both_length a nt 1 Hc p)) as L. unfold U', x'. fold ls in L.
      destruct (fl_net a ls (cast_point a p)) as [|v [|v2 r]]; try (cbn in L; lia). reflexivity.
    + cbn [nn_grad rounded_hard_network]. apply map_ext. intros p. unfold Gx', Gy'. apply surjective_pairing.
Qed.
Lemma hard_near : forall p, near (hard_rounds mt nt) (hard_size nt p) (ansatz p * U p) (rnd (fl_ansatz a (fl_factors a c (x' p)) * U' p)).
Proof. intros p. grow; [apply near_V|]. unfold hard_rounds. fold ls kv ks. unfold k. lia. Qed.

(* the statements *)
Lemma hard_networks : exists V G V' G', pointwise (hard_network (Some ansatz_constraint) nt) V G /\ pointwise (rounded_hard_network a c nt) V' G' /\
  forall p, within u (hard_rounds mt nt) (hard_size nt p) (V p) (V' p) /\ within u (hard_rounds mt nt) (fst (hard_gradient_size nt p)) (fst (G p)) (fst (G' p)) /\
    within u (hard_rounds mt nt) (snd (hard_gradient_size nt p)) (snd (G p)) (snd (G' p)).
Proof.
  destruct hard_pair as [P P']. do 4 eexists. split; [exact P|]. split; [exact P'|]. intros p. split; [exact (proj2 (hard_near p))|]. split; [exact (proj2 (near_Gx p)) | exact (proj2 (near_Gy p))].
Qed.
Lemma hard_step : forall m C T Q beta loss d al bx bn g, model_fits m C T Q -> m_cells m = C -> (Z.of_nat T <= N)%Z -> m_loss m = loss Num_R -> forward_loss loss d al bx bn g ->
  exists t t', train_hard m (hard_network (Some ansatz_constraint) nt) beta (Some d) = Ok {| l_pde := t; l_dirichlet := [0]; l_sensor := []; l_total := [t] |} /\
    rounded_hard (a_rnd a) m loss (rounded_hard_network a c nt) beta d = Ok {| l_pde := t'; l_dirichlet := [0]; l_sensor := []; l_total := [t'] |} /\
    within u (2 * Q + 2 * hard_rounds mt nt + T + C + 19) (size_pde m C T Q (hard_size nt) (hard_gradient_size nt) (fun _ => al) bx bn g) t t'.
Proof.
  intros m C T Q beta loss d al bx bn g Hm Hcells HT Hl Hf. destruct hard_pair as [P P'].
  assert (W : forall b x x1, near (hard_rounds mt nt) b x x1 -> near (hard_rounds mt nt) (Rabs b) x x1) by (intros; eapply near_mono; [exact Hr | eassumption | lia | apply RRle_abs]).
  exact (RoundStep.r_hard (a_rnd a) u N Hr m C T Q _ _ beta (hard_rounds mt nt) _ _ (hard_size nt) (fun p => (Gx p, Gy p)) (fun p => (Gx' p, Gy' p)) (hard_gradient_size nt) (fun p => W _ _ _ (hard_near p)) (fun p => W _ _ _ (near_Gx p)) (fun p => W _ _ _ (near_Gy p)) Hm Hcells HT loss d al bx bn g Hl Hf P P').
Qed.
End Hard.
Lemma backprop_hard : forall dims nt, starts dims 1 nt -> n_act nt = tanh -> forall b,
  nn_out (rounded_hard_network exact_arith (4 * PI) nt) b = nn_out (hard_network (Some ansatz_constraint) nt) b /\
  nn_grad (rounded_hard_network exact_arith (4 * PI) nt) None b = nn_grad (hard_network (Some ansatz_constraint) nt) None b.
Proof.
  intros dims nt Hs Ht b. pose proof (exact_ok 0 1 ltac:(lra) ltac:(lia)) as Ha.
  assert (E : Rabs (4 * PI - 4 * PI) <= ((1 + 0) ^ 2 - 1) * (4 * PI)) by (replace (4 * PI - 4 * PI) with 0 by ring; rewrite Rabs_R0; right; ring).
  destruct (hard_networks exact_arith 0 1 0 nt (4 * PI) Ha Ht (st_attention _ _ _ Hs) (starts_chain _ _ _ Hs) E) as (V & G & V' & G' & P & P' & W).
  assert (Z : forall k s x y, within 0 k s x y -> y = x).
  { intros k s x y H. unfold within in H. rewrite Rplus_0_r, pow1 in H. replace ((1 - 1) * s) with 0 in H by ring. pose proof (Rabs_pos (y - x)). assert (Q : Rabs (y - x) = 0) by lra. apply Rminus_diag_uniq. destruct (Req_dec (y - x) 0) as [X | X]; [exact X|]. now apply Rabs_no_R0 in X. }
  destruct (P b) as [P1 P2]. destruct (P' b) as [P1' P2']. rewrite P1, P2, P1', P2'. split.
  - f_equal. apply map_ext. intros p. f_equal. exact (Z _ _ _ _ (proj1 (W p))).
  - apply map_ext. intros p. destruct (W p) as (_ & X & Y). rewrite (surjective_pairing (G p)), (surjective_pairing (G' p)), (Z _ _ _ _ X), (Z _ _ _ _ Y). reflexivity.
Qed.
Lemma four_pi_ok : forall a u N mt, arith_ok a u N mt -> Rabs (a_rnd a (4 * PI) - 4 * PI) <= ((1 + u) ^ 2 - 1) * (4 * PI).
Proof.
  intros a u N mt Ha. pose proof (ar_rnd _ _ _ _ Ha) as Hr. pose proof PI_RGT_0. pose proof (near_cast _ _ _ Hr (4 * PI)) as H1. pose proof (near_mono _ _ _ Hr 1 2 _ _ _ _ H1 ltac:(lia) (Rle_refl _)) as [_ H2]. now rewrite (Rabs_pos_eq (4 * PI)) in H2 by lra.
Qed.

