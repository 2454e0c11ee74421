(* Adam: descent of the first step, stationary runs, size of the steps (C75, C76). *)
From Coq Require Import String ZArith List Arith Bool Lia Reals Lra Psatz.
From Coquelicot Require Import Coquelicot.
From Verif Require Import Num Py Basis Tensor Physics Train PolyFacts ListFacts PyFacts Spec TensorFacts SpecTrain SpecRound TrainFacts Nets NetFacts Optim JetFacts SpecShape ShapeFacts SpecOptim OptimFacts.
Import ListNotations.
Local Open Scope R_scope.

(* ---------- coordinates of one update ---------- *)
Lemma apply_length : forall rate st g w, length (ad_m st) = length w -> length (ad_v st) = length w -> length g = length w ->
  let s := apply_gradients rate st g w in length (ad_m (fst s)) = length w /\ length (ad_v (fst s)) = length w /\ length (snd s) = length w.
Proof.
  intros rate st g w H1 H2 H3. cbn. rewrite !map2_length, combine_length, !map2_length. lia.
Qed.
Lemma apply_entry : forall rate st g w i, length (ad_m st) = length w -> length (ad_v st) = length w -> length g = length w -> (i < length w)%nat ->
  let s := apply_gradients rate st g w in let m := adam_m (nth i (ad_m st) 0) (nth i g 0) in let v := adam_v (nth i (ad_v st) 0) (nth i g 0) in
  nth i (ad_m (fst s)) 0 = m /\ nth i (ad_v (fst s)) 0 = v /\
  nth i (snd s) 0 = nth i w 0 - m * adam_alpha (rate (ad_iterations st)) (ad_iterations st) / (sqrt v + epsilon).
Proof.
  intros rate st g w i H1 H2 H3 Hi s m v. unfold s, apply_gradients. cbn [fst snd ad_m ad_v].
  split; [apply map2_nth; lia|]. split; [apply map2_nth; lia|].
  rewrite map2_nth with (da := 0) (db := (0, 0)); [|lia | rewrite combine_length, !map2_length; lia].
  rewrite combine_nth by (rewrite !map2_length; lia). cbn [fst snd].
  rewrite !(map2_nth _ _ _ i 0 0 0) by lia. reflexivity.
Qed.
Lemma gradients_length : forall f w, length (gradients f w) = length w.
Proof. intros. unfold gradients. now rewrite map_length, seq_length. Qed.

(* ---------- descent ---------- *)
Lemma below_near : forall (l : R -> R) d, is_derive l 0 d -> d < 0 -> exists eta, 0 < eta /\ forall s, 0 < s < eta -> l s < l 0.
Proof.
  intros l d H Hd. apply is_derive_Reals in H. destruct (H (- d / 2) ltac:(lra)) as [del Hdel]. exists del. split; [apply cond_pos|].
  intros s [Hs Hs']. specialize (Hdel s ltac:(lra) ltac:(rewrite Rabs_right; lra)). rewrite Rplus_0_l in Hdel.
  apply Rabs_def2 in Hdel as [Hu _]. assert (Hq : (l s - l 0) / s < d / 2) by lra.
  apply (Rmult_lt_compat_r s) in Hq; [|lra]. unfold Rdiv in Hq at 1. rewrite Rmult_assoc, Rinv_l, Rmult_1_r in Hq by lra. nra.
Qed.
Definition first_move (g : R) : R := - (adam_m 0 g * (sqrt (1 - beta_2 ^ 1) / (1 - beta_1 ^ 1)) / (sqrt (adam_v 0 g) + epsilon)).
Lemma alpha_0 : 0 < sqrt (1 - beta_2 ^ 1) / (1 - beta_1 ^ 1).
Proof. unfold beta_1, beta_2. apply Rdiv_lt_0_compat; [apply sqrt_lt_R0; lra | lra]. Qed.
Lemma first_move_sign : forall g, g * first_move g <= 0 /\ (g <> 0 -> g * first_move g < 0).
Proof.
  intros g. pose proof alpha_0 as Ha. unfold first_move. set (a := sqrt _ / _) in *. set (D := sqrt (adam_v 0 g) + epsilon).
  assert (HD : 0 < D). { unfold D, epsilon. pose proof (sqrt_pos (adam_v 0 g)). lra. }
  assert (E : g * - (adam_m 0 g * a / D) = - (g ^ 2 * (1 / 10 * a / D))). { unfold adam_m, beta_1. field. lra. }
  rewrite E. assert (Hp : 0 < 1 / 10 * a / D) by (apply Rdiv_lt_0_compat; lra). split; [|intros Hg; assert (0 < g ^ 2) by (apply pow2_gt_0; auto)]; nra.
Qed.
Lemma nth_repeat0 : forall n i, nth i (repeat 0 n) 0 = 0.
Proof. intros n. induction n as [|n IH]; intros [|i]; cbn; auto. Qed.
Lemma first_update : forall rate g w, length g = length w -> snd (apply_gradients rate (adam_init (length w)) g w) = along w (map first_move g) (rate 0%nat).
Proof.
  intros rate g w Hg. pose proof (repeat_length 0 (length w)) as HL.
  apply nth_ext with 0 0.
  - destruct (apply_length rate (adam_init (length w)) g w HL HL Hg) as (_ & _ & ->). unfold along. rewrite map2_length, map_length. lia.
  - intros i Hi. destruct (apply_length rate (adam_init (length w)) g w HL HL Hg) as (_ & _ & E). rewrite E in Hi.
    destruct (apply_entry rate (adam_init (length w)) g w i HL HL Hg Hi) as (_ & _ & ->). cbn [adam_init ad_m ad_v ad_iterations]. rewrite nth_repeat0.
    unfold along. rewrite map2_nth with (da := 0) (db := 0); [|lia | rewrite map_length; lia]. rewrite (nth_map_lt _ _ _ _ 0) by lia.
    unfold first_move, adam_alpha. cbn [Nat.add]. unfold Rdiv. ring.
Qed.
Lemma first_step : forall f w, differentiable_at f w -> (exists k, (k < length w)%nat /\ nth k (gradients f w) 0 <> 0) -> first_step_decreases f w.
Proof.
  intros f w [HL HD] (k & Hk & Hg). set (v := map first_move (gradients f w)).
  assert (Hv : length v = length w) by (unfold v; rewrite map_length; auto).
  destruct (HD v Hv) as (l & Hl & Dl).
  assert (Hneg : pairing (gradients f w) v < 0).
  { unfold pairing. rewrite Hv. change Sum with rsum. set (F := fun i => nth i (gradients f w) 0 * nth i v 0).
    assert (HF : forall i, (i < length w)%nat -> F i = nth i (gradients f w) 0 * first_move (nth i (gradients f w) 0)).
    { intros i Hi. unfold F, v. now rewrite (nth_map_lt _ _ _ _ 0) by lia. }
    assert (X : 0 <= rsum (fun i => - F i + (if Nat.eqb i k then F k else 0)) (length w)).
    { apply rsum_nonneg. intros i Hi. destruct (Nat.eqb_spec i k) as [-> | _]; [lra|]. rewrite (HF i Hi). pose proof (proj1 (first_move_sign (nth i (gradients f w) 0))). lra. }
    rewrite rsum_plus in X. rewrite (rsum_single (fun i => if Nat.eqb i k then F k else 0) (length w) k Hk) in X; [|intros i _ Hn; apply Nat.eqb_neq in Hn; now rewrite Hn].
    rewrite Nat.eqb_refl in X. rewrite (rsum_ext (fun i => - F i) (fun i => (-1) * F i)) in X by (intros; ring). rewrite rsum_scal in X.
    pose proof (proj2 (first_move_sign (nth k (gradients f w) 0)) Hg) as Hs. rewrite <- (HF k Hk) in Hs. lra. }
  destruct (below_near l _ Dl Hneg) as (eta & He & Hb). exists eta. split; auto. intros rate L st w' Hr Ht.
  unfold train_once in Ht. cbn [fst snd] in Ht. pose proof (Hl 0) as H0.
  assert (E0 : along w v 0 = w).
  { rewrite (along_listed w v 0 Hv), shift_0. apply listed_nth. }
  rewrite E0 in H0. destruct H0 as (L0 & HL0 & T0). rewrite HL0 in Ht. cbn [bind] in Ht. injection Ht as <- Hst Hw'.
  exists (l 0), (l (rate 0%nat)). split; [exact T0|]. split; [|now apply Hb].
  pose proof (f_equal snd (eq_sym (surjective_pairing (apply_gradients rate (adam_init (length w)) (gradients f w) w)))) as _.
  rewrite <- Hw'. change (total_is (f (snd (apply_gradients rate (adam_init (length w)) (gradients f w) w))) (l (rate 0%nat))).
  rewrite (first_update rate (gradients f w) w HL). apply Hl.
Qed.

(* ---------- runs ---------- *)
Lemma trained_lengths : forall rate f w t st x, trained rate f w t = Ok (st, x) ->
  ad_iterations st = t /\ length (ad_m st) = length w /\ length (ad_v st) = length w /\ length x = length w.
Proof.
  intros rate f w t. induction t as [|t IH]; intros st x E; cbn [trained] in E.
  - injection E as <- <-. cbn. rewrite !repeat_length. auto.
  - destruct (trained rate f w t) as [[st0 x0]|] eqn:E0; [|discriminate]. cbn [bind] in E. unfold train_once in E. cbn [fst snd] in E.
    destruct (f x0) as [L|]; [|discriminate]. cbn [bind snd] in E. destruct (IH st0 x0 eq_refl) as (I & A & B & D).
    assert (X : apply_gradients rate st0 (gradients f x0) x0 = (st, x)) by congruence.
    destruct (apply_length rate st0 (gradients f x0) x0) as (A' & B' & D'); try (rewrite ?gradients_length; lia).
    rewrite X in A', B', D'. cbn [fst snd] in A', B', D'. repeat split; try lia. apply (f_equal fst) in X. cbn in X. subst st. cbn. lia.
Qed.
Lemma trained_step : forall rate f w t st x st' x', trained rate f w t = Ok (st, x) -> trained rate f w (S t) = Ok (st', x') ->
  apply_gradients rate st (gradients f x) x = (st', x').
Proof.
  intros rate f w t st x st' x' E E'. cbn [trained] in E'. rewrite E in E'. cbn [bind] in E'. unfold train_once in E'. cbn [fst snd] in E'.
  destruct (f x); [|discriminate]. cbn [bind snd] in E'. congruence.
Qed.
Lemma trained_before : forall rate f w t u s, (u <= t)%nat -> trained rate f w t = Ok s -> exists s', trained rate f w u = Ok s'.
Proof.
  intros rate f w t u s H. revert s. induction H as [|t H IH]; intros s E; [eauto|]. cbn [trained] in E.
  destruct (trained rate f w t) as [s0|] eqn:E0; [|discriminate]. eauto.
Qed.
(* what one coordinate does *)
Lemma coordinate_step : forall rate f w t st x st' x' i, trained rate f w t = Ok (st, x) -> trained rate f w (S t) = Ok (st', x') -> (i < length w)%nat ->
  let g := nth i (gradients f x) 0 in
  nth i (ad_m st') 0 = adam_m (nth i (ad_m st) 0) g /\ nth i (ad_v st') 0 = adam_v (nth i (ad_v st) 0) g /\
  nth i x' 0 = nth i x 0 - nth i (ad_m st') 0 * adam_alpha (rate t) t / (sqrt (nth i (ad_v st') 0) + epsilon).
Proof.
  intros rate f w t st x st' x' i E E' Hi g. pose proof (trained_step _ _ _ _ _ _ _ _ E E') as X. destruct (trained_lengths _ _ _ _ _ _ E) as (I & A & B & D).
  destruct (apply_entry rate st (gradients f x) x i) as (P1 & P2 & P3); try (rewrite ?gradients_length; lia). rewrite X in P1, P2, P3. cbn [fst snd] in *.
  rewrite I in P3. unfold g. rewrite P1, P2. auto.
Qed.
(* a variable the loss does not react to is never moved *)
Lemma idle : forall rate f w t st x i, trained rate f w t = Ok (st, x) -> (i < length w)%nat ->
  (forall u su y, (u < t)%nat -> trained rate f w u = Ok (su, y) -> nth i (gradients f y) 0 = 0) ->
  nth i x 0 = nth i w 0.
Proof.
  intros rate f w t st x i E Hi H.
  assert (G : nth i x 0 = nth i w 0 /\ nth i (ad_m st) 0 = 0); [|apply G]. revert st x E H.
  induction t as [|t IH]; intros st x E H.
  - injection E as <- <-. cbn. now rewrite nth_repeat0.
  - destruct (trained_before _ _ _ (S t) t _ ltac:(lia) E) as [[st0 x0] E0]. destruct (IH st0 x0 E0 (fun u su y Hu => H u su y (Nat.lt_lt_succ_r _ _ Hu))) as [K1 K2].
    destruct (coordinate_step rate f w t st0 x0 st x i E0 E Hi) as (P1 & P2 & P3). rewrite (H t st0 x0 ltac:(lia) E0) in P1, P2.
    assert (M : nth i (ad_m st) 0 = 0). { rewrite P1, K2. unfold adam_m. ring. }
    split; auto. rewrite P3, M, K1. unfold Rdiv. ring.
Qed.
Lemma stationary_run : forall rate f w L, f w = Ok L -> (forall k, (k < length w)%nat -> nth k (gradients f w) 0 = 0) ->
  forall t, exists st, trained rate f w t = Ok (st, w).
Proof.
  intros rate f w L HL Hg t.
  assert (G : exists st, trained rate f w t = Ok (st, w) /\ forall i, (i < length w)%nat -> nth i (ad_m st) 0 = 0); [|destruct G as (st & E & _); eauto].
  induction t as [|t (st & E & M)].
  - exists (adam_init (length w)). split; auto. intros. apply nth_repeat0.
  - destruct (trained_lengths _ _ _ _ _ _ E) as (I & A & B & D).
    destruct (apply_gradients rate st (gradients f w) w) as [st' w'] eqn:X.
    assert (E' : trained rate f w (S t) = Ok (st', w')). { cbn [trained]. rewrite E. cbn [bind]. unfold train_once. cbn [fst snd]. rewrite HL. cbn [bind snd]. now rewrite X. }
    assert (K : forall i, (i < length w)%nat -> nth i (ad_m st') 0 = 0 /\ nth i w' 0 = nth i w 0).
    { intros i Hi. destruct (coordinate_step rate f w t st w st' w' i E E' Hi) as (P1 & P2 & P3). rewrite (Hg i Hi), (M i Hi) in P1.
      assert (Z : nth i (ad_m st') 0 = 0) by (rewrite P1; unfold adam_m; ring). split; auto. rewrite P3, Z. unfold Rdiv. ring. }
    exists st'. assert (w' = w) as ->; [|split; auto; intros; now apply K].
    destruct (trained_lengths _ _ _ _ _ _ E') as (_ & _ & _ & D'). apply nth_ext with 0 0; auto. intros i Hi. apply K. lia.
Qed.

(* ---------- the size of a step ---------- *)
Definition ratio : R := beta_1 ^ 2 / beta_2.
Definition geo (t : nat) : R := (1 - ratio ^ t) / (1 - ratio).
Definition head : R := (1 - beta_1) ^ 2 / (1 - beta_2).
Lemma ratio_val : ratio = 90 / 111.
Proof. unfold ratio, beta_1, beta_2. field. Qed.
Lemma head_val : head = 10.
Proof. unfold head, beta_1, beta_2. field. Qed.
Lemma geo_S : forall t, geo (S t) = 1 + ratio * geo t.
Proof. intros t. unfold geo. rewrite ratio_val. cbn [pow]. field. Qed.
Lemma geo_nonneg : forall t, 0 <= geo t.
Proof. induction t as [|t IH]; [unfold geo; cbn; rewrite ratio_val; lra|]. rewrite geo_S, ratio_val. lra. Qed.
Lemma moments_step : forall t m v g, 0 <= v -> m ^ 2 <= head * geo t * v -> (t = 0%nat -> m = 0) ->
  0 <= adam_v v g /\ adam_m m g ^ 2 <= head * geo (S t) * adam_v v g.
Proof.
  intros t m v g Hv Hm H0.
  assert (V : 0 <= adam_v v g) by (unfold adam_v, beta_2; nra). split; auto.
  rewrite geo_S. pose proof (geo_nonneg t) as Hg. set (p := ratio * geo t).
  assert (Hp : 0 <= p) by (unfold p; rewrite ratio_val; lra).
  assert (Em : adam_m m g = beta_1 * m + (1 - beta_1) * g) by (unfold adam_m; ring).
  assert (Ev : adam_v v g = beta_2 * v + (1 - beta_2) * g ^ 2) by (unfold adam_v; ring).
  set (a := beta_1 * m) in *. set (b := (1 - beta_1) * g) in *.
  assert (Hb : b ^ 2 = head * ((1 - beta_2) * g ^ 2)) by (unfold b, head, beta_1, beta_2; field).
  assert (Ha : a ^ 2 <= head * p * (beta_2 * v)).
  { unfold a, p. replace ((beta_1 * m) ^ 2) with (beta_1 ^ 2 * m ^ 2) by ring.
    replace (head * (ratio * geo t) * (beta_2 * v)) with (beta_1 ^ 2 * (head * geo t * v)) by (unfold ratio, beta_2; field).
    apply Rmult_le_compat_l; [apply pow2_ge_0 | exact Hm]. }
  rewrite Em, Ev. set (x := beta_2 * v) in *. set (y := (1 - beta_2) * g ^ 2) in *.
  destruct (Req_dec p 0) as [Zp | Np].
  - rewrite Zp in *. assert (a = 0) as -> by nra. rewrite head_val in *. assert (0 <= x) by (unfold x, beta_2; lra). nra.
  - assert (0 < p) by lra.
    assert (Q : p * (a + b) ^ 2 <= (1 + p) * (a ^ 2 + p * b ^ 2)). { pose proof (pow2_ge_0 (a - p * b)). nra. }
    assert (Q2 : (1 + p) * (a ^ 2 + p * b ^ 2) <= p * (head * (1 + p) * (x + y))).
    { rewrite Hb. rewrite head_val in *. nra. }
    apply (Rmult_le_reg_l p); auto. lra.
Qed.
Lemma pow_in : forall x t, 0 <= x < 1 -> 0 <= x ^ t <= 1.
Proof. intros x t [H1 H2]. induction t as [|t IH]; cbn; [lra | nra]. Qed.
Lemma pow_in1 : forall x t, 0 < x < 1 -> 0 < x ^ S t < 1.
Proof. intros x t [H1 H2]. split; [now apply pow_lt|]. pose proof (pow_in x t ltac:(lra)). cbn. nra. Qed.
Lemma correction : forall t, (1 - ratio ^ S t) * (1 - beta_2 ^ S t) <= (1 - beta_1 ^ S t) ^ 2.
Proof.
  intros t. assert (E : ratio ^ S t * beta_2 ^ S t = (beta_1 ^ S t) ^ 2).
  { rewrite <- Rpow_mult_distr, <- !pow_mult. replace (ratio * beta_2) with (beta_1 ^ 2) by (unfold ratio, beta_2; field). rewrite <- pow_mult. f_equal. lia. }
  assert (0 < ratio ^ S t) by (apply pow_lt; rewrite ratio_val; lra). assert (0 < beta_2 ^ S t) by (apply pow_lt; unfold beta_2; lra).
  assert (0 < beta_1 ^ S t) by (apply pow_lt; unfold beta_1; lra).
  set (r := ratio ^ S t) in *. set (b := beta_2 ^ S t) in *. set (q := beta_1 ^ S t) in *.
  assert (2 * q <= r + b). { apply Rnot_lt_le. intros C. assert ((r + b) ^ 2 < (2 * q) ^ 2) by nra. pose proof (pow2_ge_0 (r - b)). nra. }
  nra.
Qed.
Lemma step_size : forall lr t m v, 0 <= v -> m ^ 2 <= head * geo (S t) * v -> Rabs (m * adam_alpha lr t / (sqrt v + epsilon)) <= 73 / 10 * Rabs lr.
Proof.
  intros lr t m v Hv Hm. unfold adam_alpha. replace (t + 1)%nat with (S t) by lia.
  pose proof (pow_in1 beta_1 t ltac:(unfold beta_1; lra)) as B1. pose proof (pow_in1 beta_2 t ltac:(unfold beta_2; lra)) as B2.
  set (c1 := 1 - beta_1 ^ S t) in *. set (c2 := 1 - beta_2 ^ S t) in *. assert (0 < c1) by (unfold c1; lra). assert (0 < c2) by (unfold c2; lra).
  pose proof (sqrt_pos v) as Sv. assert (He : 0 < epsilon) by (unfold epsilon; lra).
  assert (K : Rabs m * sqrt c2 <= 73 / 10 * c1 * sqrt v).
  { apply Rsqr_incr_0_var; [|nra]. rewrite !Rsqr_mult, <- Rsqr_abs, !Rsqr_sqrt by lra. unfold Rsqr.
    pose proof (correction t) as HC. fold c1 c2 in HC. unfold geo in Hm. rewrite head_val, ratio_val in Hm. rewrite ratio_val in HC.
    set (u := 1 - (90 / 111) ^ S t) in *. replace (10 * (u / (1 - 90 / 111)) * v) with (u * v * (370 / 7)) in Hm by (field).
    assert (0 <= u * v * c2 -> m * m * c2 <= u * v * (370 / 7) * c2) by (intros _; apply Rmult_le_compat_r; nra).
    assert (u * c2 * v <= c1 ^ 2 * v) by (apply Rmult_le_compat_r; lra).
    assert (m * m * c2 <= u * v * (370 / 7) * c2) by (apply Rmult_le_compat_r; nra).
    assert (0 <= c1 ^ 2 * v) by (apply Rmult_le_pos; [apply pow2_ge_0 | lra]). nra. }
  replace (m * (lr * sqrt c2 / c1) / (sqrt v + epsilon)) with (lr * (m * sqrt c2 / (c1 * (sqrt v + epsilon)))) by (field; split; lra).
  rewrite Rabs_mult, Rmult_comm. apply Rmult_le_compat_r; [apply Rabs_pos|].
  unfold Rdiv. rewrite !Rabs_mult, (Rabs_right (sqrt c2)) by (apply Rle_ge, sqrt_pos). rewrite (Rabs_right (/ _)) by (apply Rle_ge, Rlt_le, Rinv_0_lt_compat; nra).
  apply (Rmult_le_reg_r (c1 * (sqrt v + epsilon))); [nra|]. rewrite Rmult_assoc, Rinv_l, Rmult_1_r by nra. nra.
Qed.
Lemma run_moments : forall rate f w t st x i, trained rate f w t = Ok (st, x) -> (i < length w)%nat ->
  0 <= nth i (ad_v st) 0 /\ nth i (ad_m st) 0 ^ 2 <= head * geo t * nth i (ad_v st) 0 /\ (t = 0%nat -> nth i (ad_m st) 0 = 0).
Proof.
  intros rate f w t. induction t as [|t IH]; intros st x i E Hi.
  - injection E as <- <-. cbn. rewrite !nth_repeat0. repeat split; lra.
  - destruct (trained_before _ _ _ (S t) t _ ltac:(lia) E) as [[st0 x0] E0]. destruct (IH st0 x0 i E0 Hi) as (V & M & Z).
    destruct (coordinate_step rate f w t st0 x0 st x i E0 E Hi) as (P1 & P2 & _). rewrite P1, P2.
    destruct (moments_step t _ _ (nth i (gradients f x0) 0) V M Z) as [V' M']. repeat split; auto. discriminate.
Qed.
Lemma run_step : forall rate f w t st x st' x' i, trained rate f w t = Ok (st, x) -> trained rate f w (S t) = Ok (st', x') -> (i < length w)%nat ->
  Rabs (nth i x' 0 - nth i x 0) <= 73 / 10 * Rabs (rate t).
Proof.
  intros rate f w t st x st' x' i E E' Hi. destruct (coordinate_step rate f w t st x st' x' i E E' Hi) as (P1 & P2 & P3).
  destruct (run_moments rate f w (S t) st' x' i E' Hi) as (V & M & _). rewrite P3.
  replace (nth i x 0 - nth i (ad_m st') 0 * adam_alpha (rate t) t / (sqrt (nth i (ad_v st') 0) + epsilon) - nth i x 0)
    with (- (nth i (ad_m st') 0 * adam_alpha (rate t) t / (sqrt (nth i (ad_v st') 0) + epsilon))) by ring.
  rewrite Rabs_Ropp. now apply step_size.
Qed.
Lemma run_travel : forall rate f w t u st x st' x' i, trained rate f w t = Ok (st, x) -> trained rate f w (t + u) = Ok (st', x') -> (i < length w)%nat ->
  Rabs (nth i x' 0 - nth i x 0) <= 73 / 10 * Sum (fun k => Rabs (rate (t + k)%nat)) u.
Proof.
  intros rate f w t u. induction u as [|u IH]; intros st x st' x' i E E' Hi.
  - rewrite Nat.add_0_r in E'. rewrite E in E'. injection E' as <- <-. rewrite Rminus_eq_0, Rabs_R0. cbn. lra.
  - rewrite Nat.add_succ_r in E'. destruct (trained_before _ _ _ (S (t + u)) (t + u) _ ltac:(lia) E') as [[st0 x0] E0].
    pose proof (IH st x st0 x0 i E E0 Hi) as A. pose proof (run_step rate f w (t + u) st0 x0 st' x' i E0 E' Hi) as B. cbn [Sum].
    replace (nth i x' 0 - nth i x 0) with ((nth i x' 0 - nth i x0 0) + (nth i x0 0 - nth i x 0)) by ring.
    pose proof (Rabs_triang (nth i x' 0 - nth i x0 0) (nth i x0 0 - nth i x 0)). lra.
Qed.

Lemma nth_skipn_add : forall {T} n (l : list T) j d, nth j (skipn n l) d = nth (n + j) l d.
Proof. intros T n. induction n as [|n IH]; intros [|x l] j d; cbn; auto. destruct j; auto. Qed.

(* ---------- the four models ---------- *)
Lemma trains_differentiable : forall m C T Q nt beta f n w, trains m C T Q nt beta f n -> length w = n -> differentiable_at f w.
Proof.
  intros m C T Q nt beta f n w (Hm & Hc & Hat & Ha & Hf) Hw. destruct Hf.
  - eapply (standard_differentiable m C T Q nt beta Hm Hc Hat Ha); eauto.
  - eapply (hard_differentiable m C T Q nt beta Hm Hc Hat Ha); eauto.
  - eapply (plain_hard_differentiable m C T Q nt beta Hm Hc Hat Ha); eauto.
  - eapply (inverse_differentiable m C T Q nt beta Hm Hc Hat Ha); eauto.
  - eapply (domain_differentiable m C T Q nt beta Hm Hc Hat Ha); eauto.
Qed.
Lemma differentiable_total : forall f w w', differentiable_at f w -> length w' = length w -> exists x, total_is (f w') x.
Proof.
  intros f w w' [_ H] Hl. destruct (H (map2 (fun a b => a - b) w' w)) as (l & Hs & _); [rewrite map2_length; lia|].
  exists (l 1). replace w' with (along w (map2 (fun a b => a - b) w' w) 1); [apply Hs|].
  unfold along. apply nth_ext with 0 0; [rewrite !map2_length; lia|]. intros i Hi. rewrite !map2_length in Hi.
  rewrite map2_nth with (da := 0) (db := 0); [|lia | rewrite map2_length; lia]. rewrite (map2_nth _ w' w i 0 0 0) by lia. ring.
Qed.
Lemma run_total : forall rate f w, differentiable_at f w -> forall t, exists s, trained rate f w t = Ok s.
Proof.
  intros rate f w H t. induction t as [|t [[st x] E]]; [cbn; eauto|]. destruct (trained_lengths _ _ _ _ _ _ E) as (_ & _ & _ & D).
  destruct (differentiable_total f w x H D) as (y & L & EL & _). cbn [trained]. rewrite E. cbn [bind]. unfold train_once. cbn [fst snd]. rewrite EL. cbn. eauto.
Qed.
Lemma trains_runs : forall m C T Q nt beta f n w rate t, trains m C T Q nt beta f n -> length w = n ->
  exists st x, trained rate f w t = Ok (st, x) /\ length x = n.
Proof.
  intros m C T Q nt beta f n w rate t H Hw. destruct (run_total rate f w (trains_differentiable m C T Q nt beta f n w H Hw) t) as [[st x] E].
  exists st, x. split; auto. destruct (trained_lengths _ _ _ _ _ _ E) as (_ & _ & _ & D). lia.
Qed.
Lemma trains_nonneg : forall m C T Q nt beta f n w, trains m C T Q nt beta f n -> length w = n -> 0 <= beta -> exists x, total_is (f w) x /\ 0 <= x.
Proof.
  intros m C T Q nt beta f n w (Hm & Hc & Hat & Ha & Hf) Hw Hb. destruct Hf; rewrite <- (listed_nth w); set (x := fun k => nth k w 0); rewrite Hw.
  - eexists. split; [eapply total_intro; [exact (standard_value m C T Q _ beta Hm Hc loss d al bx bn g _ _ H0 H (filled_pointwise nt _ x Hat H1 (le_n _))) | reflexivity]|].
    pose proof (misfit_nonneg (out_at nt (length (weights_of nt)) 0 x) (m_dir_in m) (m_dir_act m)). 
    apply Rplus_le_le_0_compat; [apply norm2_nonneg | nra].
  - eexists. split; [eapply total_intro; [exact (hard_value m C T Q _ beta Hm Hc loss d al bx bn g _ _ H0 H (filled_hard nt _ x (fun p v => h1 p * v + h0 p) Hat H1 (le_n _))) | reflexivity]|].
    apply norm2_nonneg.
  - eexists. assert (P : pointwise (hard_network None (with_weights nt (listed (length (weights_of nt)) x))) (out_at nt (length (weights_of nt)) 0 x) (grad (out_at nt (length (weights_of nt)) 0 x))).
    { intros b. destruct (hard_default (with_weights nt (listed (length (weights_of nt)) x)) b None) as [-> ->]. apply (filled_pointwise nt _ x Hat H1 (le_n _)). }
    split; [eapply total_intro; [exact (hard_value m C T Q _ beta Hm Hc loss d al bx bn g _ _ H0 H P) | reflexivity]|]. apply norm2_nonneg.
  - unfold variables in *. rewrite app_length, map_length in *. destruct (eps_position ip H1) as (i & Hi & He). set (n := (length (weights_of nt) + length ip)%nat) in *.
    assert (Hk : has (params_at nt ip (listed n x)) "eps" (nth i (skipn (length (weights_of nt)) (listed n x)) 0)).
    { apply He. rewrite skipn_length, listed_length. unfold n. lia. }
    eexists. split; [eapply total_intro; [exact (inverse_value m C T Q _ beta Hm Hc bp _ _ _ _ H Hk (filled_pointwise nt n x Hat H2 ltac:(unfold n; lia)) H0) | reflexivity]|].
    pose proof (misfit_nonneg (out_at nt n 0 x) (m_dir_in m) (m_dir_act m)). pose proof (misfit_nonneg (out_at nt n 0 x) (m_sensor_in m) (m_sensor_act m)).
    apply Rplus_le_le_0_compat; [apply Rplus_le_le_0_compat; [apply norm2_nonneg | nra] | nra].
  - eexists. split; [eapply total_intro; [exact (domain_value m C T Q _ beta Hm Hc d b_x b_y k _ _ _ H H1 H2 H3 (filled_pointwise2 nt _ x Hat H4 (le_n _)) H0) | reflexivity]|].
    set (n := length (weights_of nt)). pose proof (misfit_nonneg (out_at nt n 0 x) (m_dir_in m) (m_dir_act m)). pose proof (misfit_nonneg (out_at nt n 0 x) (m_sensor_in m) (m_sensor_act m)).
    apply Rplus_le_le_0_compat; [apply Rplus_le_le_0_compat; [apply norm2_nonneg | nra] | nra].
Qed.
Lemma solved : forall m C T Q nt beta f n w, trains m C T Q nt beta f n -> length w = n -> 0 <= beta -> total_is (f w) 0 ->
  (forall k, (k < n)%nat -> nth k (gradients f w) 0 = 0) /\ forall rate t, exists st, trained rate f w t = Ok (st, w).
Proof.
  intros m C T Q nt beta f n w H Hw Hb Hz. pose proof (trains_differentiable m C T Q nt beta f n w H Hw) as HD.
  assert (G : forall k, (k < n)%nat -> nth k (gradients f w) 0 = 0).
  { intros k Hk. destruct (Req_dec (nth k (gradients f w) 0) 0) as [E | N]; auto. exfalso.
    destruct (first_step f w HD) as (eta & He & Hs); [exists k; split; [lia | auto]|].
    destruct Hz as (L & EL & ET). set (rate := fun _ : nat => eta / 2).
    destruct (apply_gradients rate (adam_init (length w)) (gradients f w) w) as [st w'] eqn:X.
    assert (E1 : train_once rate f (adam_init (length w), w) = Ok (L, (st, w'))). { unfold train_once. cbn [fst snd]. rewrite EL. cbn [bind]. now rewrite X. }
    destruct (Hs rate L st w' ltac:(unfold rate; lra) E1) as (a & b & Ea & Eb & Hlt). assert (a = 0) as -> by congruence.
    assert (L' : length w' = n). { destruct (apply_length rate (adam_init (length w)) (gradients f w) w) as (_ & _ & D); cbn; rewrite ?repeat_length, ?gradients_length; auto. rewrite X in D. cbn in D. lia. }
    destruct (trains_nonneg m C T Q nt beta f n w' H L' Hb) as (y & Hy & Py). rewrite (total_fun _ _ _ Eb Hy) in Hlt. lra. }
  split; auto. intros rate t. destruct Hz as (L & EL & _). apply (stationary_run rate f w L EL). rewrite Hw. exact G.
Qed.

(* ---------- the schedule ---------- *)
Lemma geometric_sum : forall r n N, 0 <= r < 1 -> (1 <= n)%nat -> Sum (fun k => r ^ (k / n)) N = INR n * (1 - r ^ (N / n)) / (1 - r) + INR (N mod n) * r ^ (N / n).
Proof.
  intros r n N Hr Hn. induction N as [|N IH].
  - rewrite Nat.div_0_l, Nat.mod_0_l by lia. cbn. field. lra.
  - cbn [Sum]. rewrite IH. pose proof (Nat.div_mod N n ltac:(lia)) as E. pose proof (Nat.mod_upper_bound N n ltac:(lia)) as U.
    destruct (Nat.eq_dec (S (N mod n)) n) as [Z | Z].
    + assert (D : (S N / n = S (N / n))%nat) by (symmetry; apply (Nat.div_unique _ _ _ 0); nia).
      assert (M : (S N mod n = 0)%nat) by (symmetry; apply (Nat.mod_unique _ _ (S (N / n))); nia).
      rewrite D, M. assert (Z' : INR (N mod n) = INR n - 1) by (rewrite <- Z at 2; rewrite S_INR; ring). rewrite Z'. cbn [pow]. simpl (INR 0). field. lra.
    + assert (D : (S N / n = N / n)%nat) by (symmetry; apply (Nat.div_unique _ _ _ (S (N mod n))); nia).
      assert (M : (S N mod n = S (N mod n))%nat) by (symmetry; apply (Nat.mod_unique _ _ (N / n)); nia).
      rewrite D, M, S_INR. ring.
Qed.
Lemma geometric_below : forall r n, 0 <= r < 1 -> (1 <= n)%nat -> sum_below (fun k => r ^ (k / n)) (INR n / (1 - r)).
Proof.
  intros r n Hr Hn N. rewrite geometric_sum by auto. pose proof (Nat.mod_upper_bound N n ltac:(lia)) as U.
  assert (P : 0 <= r ^ (N / n)) by (apply pow_le; lra). set (q := r ^ (N / n)) in *. apply lt_INR in U.
  replace (INR n / (1 - r)) with (INR n * (1 - q) / (1 - r) + INR n * q / (1 - r)) by (field; lra).
  apply Rplus_le_compat_l. apply (Rle_trans _ (INR n * q)); [nra|]. unfold Rdiv. rewrite <- (Rmult_1_r (INR n * q)) at 1. apply Rmult_le_compat_l; [pose proof (pos_INR n); nra|].
  rewrite <- Rinv_1. apply Rinv_le_contravar; lra.
Qed.
Lemma schedule_below : forall k d lr0 n r rate, dget String.eqb d "initial_learning_rate"%string = Ok (LNum lr0) -> dget String.eqb d "use_lr_scheduler"%string = Ok (LBool true) ->
  dget String.eqb d "decay_steps"%string = Ok (LNum (INR n)) -> dget String.eqb d "decay_rate"%string = Ok (LNum r) -> learning_rate k d = Ok rate ->
  (1 <= n)%nat -> 0 <= r < 1 -> sum_below (fun t => Rabs (rate t)) (Rabs lr0 * (INR n / (1 - r))).
Proof.
  intros k d lr0 n r rate H0 H1 H2 H3 Hf Hn Hr N. change Sum with rsum. rewrite (rsum_ext _ (fun t => Rabs lr0 * r ^ (t / n))).
  - rewrite rsum_scal. apply Rmult_le_compat_l; [apply Rabs_pos|]. apply (geometric_below r n Hr Hn N).
  - intros t _. rewrite (rate_nat k d lr0 (INR n) r _ rate H0 H1 H2 H3 Hf n eq_refl Hn eq_refl t). rewrite Rabs_mult. f_equal. apply Rabs_right, Rle_ge, pow_le. lra.
Qed.
Lemma Sum_tail : forall a t u, (forall k, 0 <= a k) -> Sum (fun k => a (t + k)%nat) u <= Sum a (t + u).
Proof.
  intros a t u H. induction u as [|u IH]; cbn [Sum].
  - rewrite Nat.add_0_r. change Sum with rsum. apply rsum_nonneg. auto.
  - rewrite Nat.add_succ_r. cbn [Sum]. lra.
Qed.
Lemma travel_below : forall rate f w b, sum_below (fun t => Rabs (rate t)) b -> forall t u st x st' x' i, trained rate f w t = Ok (st, x) -> trained rate f w u = Ok (st', x') -> (i < length w)%nat ->
  Rabs (nth i x' 0 - nth i x 0) <= 73 / 10 * b.
Proof.
  intros rate f w b Hb. assert (G : forall t u st x st' x' i, (t <= u)%nat -> trained rate f w t = Ok (st, x) -> trained rate f w u = Ok (st', x') -> (i < length w)%nat -> Rabs (nth i x' 0 - nth i x 0) <= 73 / 10 * b).
  { intros t u st x st' x' i Htu E E' Hi. replace u with (t + (u - t))%nat in E' by lia. pose proof (run_travel rate f w t (u - t) st x st' x' i E E' Hi) as A.
    pose proof (Sum_tail (fun k => Rabs (rate k)) t (u - t) (fun k => Rabs_pos _)) as B. pose proof (Hb (t + (u - t))%nat) as D. lra. }
  intros t u st x st' x' i E E' Hi. destruct (Nat.le_ge_cases t u) as [H | H]; [eapply G; eauto|]. rewrite Rabs_minus_sym. eapply (G u t); eauto.
Qed.
Lemma Sum_sum_n : forall a n, sum_n a n = Sum a (S n).
Proof. intros a n. induction n as [|n IH]; [rewrite sum_O; cbn; lra|]. rewrite sum_Sn, IH. cbn [Sum]. reflexivity. Qed.
Lemma settles : forall (a : nat -> R) c b, (forall t, Rabs (a (S t) - a t) <= c t) -> sum_below c b -> exists l : R, is_lim_seq a l.
Proof.
  intros a c b H Hb. assert (Hc : forall t, 0 <= c t) by (intros t; pose proof (H t); pose proof (Rabs_pos (a (S t) - a t)); lra).
  assert (Ex : ex_series c).
  { destruct (ex_finite_lim_seq_incr (fun n => sum_n c n) b) as [l Hl].
    - intros n. rewrite !Sum_sum_n. cbn [Sum]. pose proof (Hc (S n)). lra.
    - intros n. rewrite Sum_sum_n. apply Hb.
    - exists l. exact Hl. }
  destruct (ex_series_le (fun t => a (S t) - a t) c H Ex) as [l Hl]. exists (l + a 0%nat). apply is_lim_seq_incr_1.
  apply (is_lim_seq_ext (fun n => sum_n (fun t => a (S t) - a t) n + a 0%nat)).
  - intros n. induction n as [|n IH]; [rewrite sum_O; ring|]. rewrite sum_Sn. change (plus ?x ?y) with (x + y). lra.
  - apply is_lim_seq_plus'; [exact Hl | apply is_lim_seq_const].
Qed.
Lemma run_settles : forall rate f w b (st : nat -> adam) (x : nat -> list R), sum_below (fun t => Rabs (rate t)) b -> (forall t, trained rate f w t = Ok (st t, x t)) ->
  exists l, length l = length w /\ forall i, (i < length w)%nat -> is_lim_seq (fun t => nth i (x t) 0) (nth i l 0).
Proof.
  intros rate f w b st x Hb E. 
  exists (map (fun i => real (Lim_seq (fun t => nth i (x t) 0))) (seq 0 (length w))). split; [now rewrite map_length, seq_length|].
  intros i Hi. rewrite (nth_map_lt _ _ _ _ 0%nat) by (rewrite seq_length; lia). rewrite seq_nth by lia. cbn [Nat.add].
  destruct (settles (fun t => nth i (x t) 0) (fun t => 73 / 10 * Rabs (rate t)) (73 / 10 * b)) as [l Hl].
  - intros t. eapply run_step; eauto.
  - intros n. change Sum with rsum. rewrite rsum_scal. apply Rmult_le_compat_l; [lra | apply Hb].
  - now rewrite (is_lim_seq_unique _ _ Hl).
Qed.
(* the inverse parameters of a run *)
Lemma coefficient_step : forall rate m nt beta bp ip w t st x st' x' k e e', let f := inverse_at m nt beta bp ip in length w = length (variables nt ip) ->
  trained rate f w t = Ok (st, x) -> trained rate f w (S t) = Ok (st', x') -> has (params_at nt ip x) k e -> has (params_at nt ip x') k e' -> Rabs (e' - e) <= 73 / 10 * Rabs (rate t).
Proof.
  intros rate m nt beta bp ip w t st x st' x' k e e' f Hw E E' He He'. unfold variables in Hw. rewrite app_length, map_length in Hw.
  assert (P : forall (ip : list (string * R)) k (l l' : list R) e e', length l = length l' -> (length l <= length ip)%nat -> has (combine (map fst ip) l) k e -> has (combine (map fst ip) l') k e' ->
    exists i, (i < length l)%nat /\ e = nth i l 0 /\ e' = nth i l' 0).
  { clear. induction ip as [|[n v] ip IH]; intros k l l' e e' Hl Hi H H'; [destruct l; discriminate|]. destruct l as [|a l], l' as [|a' l']; try discriminate.
    unfold has in *. cbn [map fst combine dget] in H, H'. destruct (String.eqb k n).
    - injection H as <-. injection H' as <-. exists 0%nat. cbn. split; [lia | auto].
    - cbn in Hi. destruct (IH k l l' e e' ltac:(cbn in Hl; lia) ltac:(lia) H H') as (i & A & B & D). exists (S i). cbn. split; [lia | auto]. }
  destruct (trained_lengths _ _ _ _ _ _ E) as (_ & _ & _ & D). destruct (trained_lengths _ _ _ _ _ _ E') as (_ & _ & _ & D').
  destruct (P ip k (skipn (length (weights_of nt)) x) (skipn (length (weights_of nt)) x') e e') as (i & Hi & -> & ->); auto; [rewrite !skipn_length; lia | rewrite skipn_length; lia|].
  rewrite skipn_length in Hi. rewrite !nth_skipn_add. eapply run_step; eauto. lia.
Qed.
(* ---------- the variables ---------- *)
Lemma take_own : forall {T} (a r : list T), firstn (length a) (a ++ r) = a.
Proof. intros T a r. induction a as [|x a IH]; cbn; [reflexivity | now rewrite IH]. Qed.
Lemma drop_own : forall {T} (a r : list T), skipn (length a) (a ++ r) = r.
Proof. intros T a r. induction a as [|x a IH]; cbn; auto. Qed.
Lemma fill_rows_own : forall (k : mat R) rest, fill_rows k (concat k ++ rest) = k.
Proof.
  induction k as [|row k IH]; intros rest; cbn; auto. rewrite <- app_assoc, take_own, drop_own. now rewrite IH.
Qed.
Lemma fill_own : forall ls (rest : list R), fill_layers ls (concat (map layer_weights ls) ++ rest) = ls.
Proof.
  induction ls as [|[a [k b]] ls IH]; intros rest; cbn; auto. unfold layer_weights at 1 2 3. cbn [fst snd]. rewrite <- !app_assoc, fill_rows_own.
  rewrite drop_own, take_own, drop_own, IH. reflexivity.
Qed.
Lemma fill_rows_concat : forall (k : mat R) (w : list R), concat (fill_rows k w) = firstn (length (concat k)) w.
Proof.
  induction k as [|row k IH]; intros w; cbn; auto. rewrite IH, app_length.
  rewrite <- (firstn_skipn (length row) w) at 3. rewrite firstn_app. destruct (Nat.le_gt_cases (length row) (length w)) as [H | H].
  - rewrite firstn_length_le by lia. rewrite (firstn_all2 (n := _ + _) (firstn _ _)) by (rewrite firstn_length; lia). do 2 f_equal. lia.
  - rewrite skipn_all2 by lia. rewrite !firstn_nil, !app_nil_r. rewrite firstn_firstn, Nat.min_r by lia. reflexivity.
Qed.
Lemma fill_weights : forall ls (w : list R), concat (map layer_weights (fill_layers ls w)) = firstn (length (concat (map layer_weights ls))) w.
Proof.
  assert (F : forall a b (w : list R), firstn a w ++ firstn b (skipn a w) = firstn (a + b) w).
  { induction a as [|a IH]; intros b w; [reflexivity|]. destruct w as [|x w]; cbn; [now rewrite firstn_nil|]. now rewrite IH. }
  assert (G : forall a b (w : list R), skipn b (skipn a w) = skipn (a + b) w).
  { induction a as [|a IH]; intros b w; [reflexivity|]. destruct w as [|x w]; cbn; [now rewrite skipn_nil|]. apply IH. }
  induction ls as [|[a [k b]] ls IH]; intros w; cbn [fill_layers map concat]; auto. rewrite IH. unfold layer_weights at 1 2. cbn [fst snd].
  rewrite fill_rows_concat, !app_length, F, G, F. f_equal. change (layer_weights (a, (k, b))) with (concat k ++ b). rewrite app_length. reflexivity.
Qed.
Lemma with_own_weights : forall nt, with_weights nt (weights_of nt) = nt.
Proof.
  intros [act at_ ls]. unfold with_weights, weights_of. cbn [n_layers n_act n_attention]. f_equal. rewrite <- (app_nil_r (concat _)). apply fill_own.
Qed.
Lemma weights_filled : forall nt w, length w = length (weights_of nt) -> weights_of (with_weights nt w) = w.
Proof. intros nt w H. unfold weights_of, with_weights. cbn [n_layers]. rewrite fill_weights. apply firstn_all2. unfold weights_of in H. lia. Qed.
Lemma with_extra : forall nt rest, with_weights nt (weights_of nt ++ rest) = nt.
Proof. intros [act at_ ls] rest. unfold with_weights, weights_of. cbn [n_layers n_act n_attention]. f_equal. apply fill_own. Qed.
Lemma own_params : forall nt (ip : list (string * R)), params_at nt ip (variables nt ip) = ip.
Proof.
  intros nt ip. unfold params_at, variables. rewrite drop_own. induction ip as [|[k v] ip IH]; cbn; congruence.
Qed.
Lemma own_losses : forall m nt beta bp ip hc,
  standard_at m nt beta bp (weights_of nt) = train_standard m (network_of nt) beta bp /\
  hard_at m hc nt beta bp (weights_of nt) = train_hard m (hard_network hc nt) beta bp /\
  inverse_at m nt beta bp ip (variables nt ip) = train_inverse m (network_of nt) beta bp (Some ip) /\
  domain_at m nt beta bp (weights_of nt) = train_inverse_domain m (network_of nt) beta bp.
Proof.
  intros. unfold standard_at, hard_at, inverse_at, domain_at. rewrite with_own_weights, own_params. unfold variables. rewrite with_extra. auto.
Qed.

(* ---------- a constant gradient ---------- *)
Lemma constant_moments : forall rate f w t st x i g, trained rate f w t = Ok (st, x) -> (i < length w)%nat ->
  (forall u su y, (u < t)%nat -> trained rate f w u = Ok (su, y) -> nth i (gradients f y) 0 = g) ->
  nth i (ad_m st) 0 = g * (1 - beta_1 ^ t) /\ nth i (ad_v st) 0 = g ^ 2 * (1 - beta_2 ^ t).
Proof.
  intros rate f w t. induction t as [|t IH]; intros st x i g E Hi H.
  - injection E as <- <-. cbn. rewrite !nth_repeat0. split; ring.
  - destruct (trained_before _ _ _ (S t) t _ ltac:(lia) E) as [[st0 x0] E0].
    destruct (IH st0 x0 i g E0 Hi (fun u su y Hu => H u su y (Nat.lt_lt_succ_r _ _ Hu))) as [K1 K2].
    destruct (coordinate_step rate f w t st0 x0 st x i E0 E Hi) as (P1 & P2 & _). rewrite (H t st0 x0 ltac:(lia) E0) in P1, P2.
    rewrite P1, P2, K1, K2. unfold adam_m, adam_v. cbn [pow]. split; ring.
Qed.
Lemma constant_gradient : forall rate f w t st x st' x' i g, trained rate f w t = Ok (st, x) -> trained rate f w (S t) = Ok (st', x') -> (i < length w)%nat ->
  (forall u su y, (u <= t)%nat -> trained rate f w u = Ok (su, y) -> nth i (gradients f y) 0 = g) ->
  let s := sqrt (1 - (999 / 1000) ^ S t) in nth i x' 0 - nth i x 0 = - (rate t * (g * s) / (Rabs g * s + 1 / 10000000)).
Proof.
  intros rate f w t st x st' x' i g E E' Hi H s. destruct (coordinate_step rate f w t st x st' x' i E E' Hi) as (_ & _ & P3).
  destruct (constant_moments rate f w (S t) st' x' i g E' Hi) as [M V]; [intros u su y Hu; apply H; lia|]. rewrite P3, M, V.
  pose proof (pow_in1 beta_1 t ltac:(unfold beta_1; lra)) as B1. pose proof (pow_in1 beta_2 t ltac:(unfold beta_2; lra)) as B2.
  replace (sqrt (g ^ 2 * (1 - beta_2 ^ S t))) with (Rabs g * s).
  2:{ unfold s. rewrite sqrt_mult; [|apply pow2_ge_0 | unfold beta_2 in *; lra]. rewrite <- (sqrt_Rsqr_abs g). unfold Rsqr. f_equal. f_equal. ring. }
  unfold adam_alpha. replace (t + 1)%nat with (S t) by lia. fold beta_2 in s. change (sqrt (1 - beta_2 ^ S t)) with s. fold epsilon.
  assert (0 <= Rabs g * s) by (apply Rmult_le_pos; [apply Rabs_pos | apply sqrt_pos]). assert (0 < epsilon) by (unfold epsilon; lra). field. split; lra.
Qed.

(* ---------- an example ---------- *)
Lemma twice_sin : twice sin.
Proof. exists cos, (fun x => - sin x). intros x. split; auto_derive; auto; ring. Qed.
Lemma cosh_pos : forall x, 0 < cosh x.
Proof. intros x. unfold cosh. pose proof (exp_pos x). pose proof (exp_pos (- x)). lra. Qed.
Lemma twice_tanh : twice tanh.
Proof.
  assert (D : forall x, is_derive tanh x (1 - tanh x ^ 2)).
  { intros x. unfold tanh, sinh, cosh. pose proof (exp_pos x). pose proof (exp_pos (- x)). auto_derive; [lra|]. field. lra. }
  exists (fun x => 1 - tanh x ^ 2), (fun x => - (2 * tanh x * (1 - tanh x ^ 2))). intros x. split; [apply D|].
  apply (is_derive_ext (fun x => minus 1 (tanh x * tanh x))); [intros t; unfold minus, plus, opp; cbn; ring|].
  replace (- (2 * tanh x * (1 - tanh x ^ 2))) with (minus 0 ((1 - tanh x ^ 2) * tanh x + tanh x * (1 - tanh x ^ 2))) by (unfold minus, plus, opp; cbn; ring).
  apply (is_derive_minus (fun _ => 1) (fun x => tanh x * tanh x)); [exact (is_derive_const 1 x) | apply (is_derive_mult tanh tanh); auto using Rmult_comm].
Qed.
(* tanh network 2-1-1, and the linear network a x + b y + c *)
Definition tanh_net : net := {| n_act := tanh; n_attention := false; n_layers := [(true, ([[1]; [2]], [0])); (false, ([[3]], [1]))] |}.
Definition linear_net (a b c : R) : net := {| n_act := tanh; n_attention := false; n_layers := [(false, ([[a]; [b]], [c]))] |}.
Definition eps_1 : list (string * R) := [("eps"%string, 1)].
Lemma tanh_trains : forall beta, trains (tiny pde_loss_poisson_inverse) 1 1 1 tanh_net beta (inverse_at (tiny pde_loss_poisson_inverse) tanh_net beta (Some []) eps_1) 6.
Proof.
  intros beta. split; [apply tiny_fits|]. split; [reflexivity|]. split; [reflexivity|]. split; [exact twice_tanh|].
  apply (tr_inverse (tiny pde_loss_poisson_inverse) tanh_net beta (Some []) eps_1 eq_refl (proj2 (tiny_fits _)) (or_introl eq_refl)).
  exists [2; 1; 1]%nat. repeat split; intros; cbn in *; destruct i as [|[|i]]; auto; lia.
Qed.
Lemma linear_trains : forall a b c beta, trains (tiny pde_loss_poisson) 1 1 1 (linear_net a b c) beta (standard_at (tiny pde_loss_poisson) (linear_net a b c) beta (Some eps_1)) 3.
Proof.
  intros a b c beta. split; [apply tiny_fits|]. split; [reflexivity|]. split; [reflexivity|]. split; [exact twice_tanh|].
  apply (tr_standard (tiny pde_loss_poisson) (linear_net a b c) beta _ eps_1 1 0 0 0 eq_refl (fl_poisson eps_1 1 eq_refl)).
  exists [2; 1]%nat. repeat split; intros; cbn in *; destruct i as [|i]; auto; lia.
Qed.
Lemma linear_total : forall a b c beta x y z, total_is (standard_at (tiny pde_loss_poisson) (linear_net a b c) beta (Some eps_1) [x; y; z]) ((x - 2) ^ 2 + beta * (x + z - 2) ^ 2).
Proof.
  intros a b c beta x y z. assert (P : pointwise (network_of (with_weights (linear_net a b c) [x; y; z])) (fun p => x * fst p + y * snd p + z) (fun _ => (x, y))).
  { intros p. destruct (filled_pointwise (linear_net a b c) 3 (fun k => nth k [x; y; z] 0) eq_refl) with (b := p) as [E1 E2]; [exists [2; 1]%nat; repeat split; intros; cbn in *; destruct i as [|i]; auto; lia | cbn; lia|].
    change (listed 3 (fun k => nth k [x; y; z] 0)) with [x; y; z] in E1, E2. 
    assert (U : forall q, out_at (linear_net a b c) 3 0 (fun k => nth k [x; y; z] 0) q = x * fst q + y * snd q + z) by (intros q; unfold out_at; cbn; unfold vsum; cbn; ring).
    split; [rewrite E1; f_equal; apply map_ext; intros q | rewrite E2; apply map_ext; intros q].
    - now rewrite U.
    - assert (Gx : Derive (fun t => out_at (linear_net a b c) 3 0 (fun k => nth k [x; y; z] 0) (t, snd q)) (fst q) = x).
      { apply is_derive_unique. apply (is_derive_ext (fun t => x * t + y * snd q + z)); [intros t; now rewrite U | auto_derive; auto; ring]. }
      assert (Gy : Derive (fun t => out_at (linear_net a b c) 3 0 (fun k => nth k [x; y; z] 0) (fst q, t)) (snd q) = y).
      { apply is_derive_unique. apply (is_derive_ext (fun t => x * fst q + y * t + z)); [intros t; now rewrite U | auto_derive; auto; ring]. }
      unfold grad. now rewrite Gx, Gy. }
  eexists. split.
  - exact (standard_value _ 1 1 1 _ beta (proj1 (tiny_fits _)) eq_refl _ _ _ _ _ _ _ _ (fl_poisson eps_1 1 eq_refl) eq_refl P).
  - cbn [l_total]. rewrite tiny_pde. change (m_dir_in (tiny pde_loss_poisson)) with [(1, 0)]. change (m_dir_act (tiny pde_loss_poisson)) with [[2]]. rewrite tiny_misfit. f_equal. ring.
Qed.
Lemma linear_gradient : forall a b c beta x y z, gradients (standard_at (tiny pde_loss_poisson) (linear_net a b c) beta (Some eps_1)) [x; y; z] =
  [2 * (x - 2) + beta * (2 * (x + z - 2)); 0; beta * (2 * (x + z - 2))].
Proof.
  intros a b c beta x y z. unfold gradients. cbn [length seq map upd nth].
  assert (T : forall x y z, loss_sum (standard_at (tiny pde_loss_poisson) (linear_net a b c) beta (Some eps_1) [x; y; z]) = (x - 2) ^ 2 + beta * (x + z - 2) ^ 2).
  { intros x' y' z'. destruct (linear_total a b c beta x' y' z') as (L & -> & E). cbn [loss_sum]. rewrite E. unfold vsum. cbn. ring. }
  f_equal; [|f_equal; [|f_equal]]; apply is_derive_unique.
  - apply (is_derive_ext (fun t => (t - 2) ^ 2 + beta * (t + z - 2) ^ 2)); [intros t; symmetry; apply T | auto_derive; auto; ring].
  - apply (is_derive_ext (fun t => (x - 2) ^ 2 + beta * (x + z - 2) ^ 2)); [intros t; symmetry; apply T | auto_derive; auto; ring].
  - apply (is_derive_ext (fun t => (x - 2) ^ 2 + beta * (x + t - 2) ^ 2)); [intros t; symmetry; apply T | auto_derive; auto; ring].
Qed.
