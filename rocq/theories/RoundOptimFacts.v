(* Proofs for C89: Adam in floating-point arithmetic. *)
From Coq Require Import String ZArith List Reals Lra Lia Psatz.
From Flocq Require Import Core.
From Verif Require SpecRound RoundFacts Nets NetFacts.
From Verif Require Import Num Py Rounding Optim RoundOptim SpecRoundOptim ListFacts.
Import ListNotations.
Local Open Scope R_scope.

Lemma rel_factor : forall u x y, 0 <= u -> Rabs (y - x) <= u * Rabs x -> exists d, Rabs d <= u /\ y = x * (1 + d).
Proof.
  intros u x y Hu H. destruct (Req_dec x 0) as [->|N].
  - exists 0. rewrite Rabs_R0 in *. split; [exact Hu|]. rewrite Rmult_0_r in H. pose proof (Rabs_pos (y - 0)).
    destruct (Req_dec (y - 0) 0) as [E|E]; [lra | apply Rabs_pos_lt in E; lra].
  - exists ((y - x) / x). split; [|field; exact N]. unfold Rdiv. rewrite Rabs_mult, Rabs_inv.
    pose proof (Rabs_pos_lt x N). apply Rmult_le_reg_r with (Rabs x); [exact H0|]. rewrite Rmult_assoc, Rinv_l by lra. lra.
Qed.
Lemma abs_both : forall x b, Rabs x <= b -> - b <= x <= b.
Proof. intros x b H. pose proof (Rle_abs x). pose proof (Rle_abs (- x)). rewrite Rabs_Ropp in *. lra. Qed.
Lemma betas : forall t, (1 <= t)%nat -> 0 < (9 / 10) ^ t <= 9 / 10 /\ 2 * (9 / 10) ^ t - (9 / 10) ^ t * (9 / 10) ^ t <= (999 / 1000) ^ t <= 999 / 1000.
Proof.
  intros t H. induction t as [|t IH]; [lia|]. destruct t as [|t]; [cbn [pow]; lra|].
  destruct (IH ltac:(lia)) as ((P & A) & B & C). change ((9 / 10) ^ S (S t)) with (9 / 10 * (9 / 10) ^ S t). change ((999 / 1000) ^ S (S t)) with (999 / 1000 * (999 / 1000) ^ S t).
  set (a := (9 / 10) ^ S t) in *. set (b := (999 / 1000) ^ S t) in *. clearbody a b. nra.
Qed.

Section Arith.
Variables (o : update_arith) (u : R).
Hypothesis OK : update_ok o u.
Local Notation rnd := (o_rnd o).
Lemma uu : 0 <= u <= 1 / 1000000. Proof. exact (ou_u _ _ OK). Qed.
Lemma rr : forall x, exists d, - u <= d <= u /\ rnd x = x * (1 + d).
Proof. intros x. destruct (rel_factor u x (rnd x) (proj1 uu) (ou_rel _ _ OK x)) as (d & H & E). exists d. split; [exact (abs_both _ _ H) | exact E]. Qed.
Lemma rabs : forall x, (1 - u) * Rabs x <= Rabs (rnd x) <= (1 + u) * Rabs x.
Proof.
  intros x. destruct (rr x) as (d & H & ->). rewrite Rabs_mult, (Rabs_right (1 + d)) by (pose proof uu; lra). pose proof (Rabs_pos x). split; nra.
Qed.
Lemma rnd_0 : rnd 0 = 0.
Proof. destruct (rr 0) as (d & _ & ->). ring. Qed.

(* the moments: m^2 <= 54 v *)
Lemma fl_m_form : forall m g, exists a d, 999 / 10000 <= a <= 1001 / 10000 /\ - u <= d <= u /\ fl_m o m g = ((1 - a) * m + a * g) * (1 + d).
Proof.
  intros m g. unfold fl_m.  destruct (rr (g - m)) as (d1 & H1 & E1). destruct (rr (rnd (g - m) * o_c1 o)) as (d2 & H2 & E2). destruct (rr (m + rnd (rnd (g - m) * o_c1 o))) as (d3 & H3 & E3).
  exists (o_c1 o * ((1 + d1) * (1 + d2))), d3. pose proof (abs_both _ _ (ou_c1 _ _ OK)) as C. pose proof uu as U. split; [|split; [exact H3|]].
  - assert (T : 1 - 3 / 1000000 <= (1 + d1) * (1 + d2) <= 1 + 3 / 1000000) by (split; nra). split; nra.
  - rewrite E3, E2, E1. ring.
Qed.
Lemma fl_v_form : forall v g, exists b d, 99998 / 100000000 <= b <= 100002 / 100000000 /\ - u <= d <= u /\
  exists h, (1 - u) * (g * g) <= h /\ fl_v o v g = ((1 - b) * v + b * h) * (1 + d).
Proof.
  intros v g. unfold fl_v.  destruct (rr (g * g)) as (d0 & H0 & E0). destruct (rr (rnd (g * g) - v)) as (d1 & H1 & E1). destruct (rr (rnd (rnd (g * g) - v) * o_c2 o)) as (d2 & H2 & E2).
  destruct (rr (v + rnd (rnd (rnd (g * g) - v) * o_c2 o))) as (d3 & H3 & E3).
  exists (o_c2 o * ((1 + d1) * (1 + d2))), d3. pose proof (abs_both _ _ (ou_c2 _ _ OK)) as C. pose proof uu as U. split; [|split; [exact H3|]].
  - assert (T : 1 - 3 / 1000000 <= (1 + d1) * (1 + d2) <= 1 + 3 / 1000000) by (split; nra). split; nra.
  - exists (g * g * (1 + d0)). split; [nra|]. rewrite E3, E2, E1, E0. ring.
Qed.
Lemma moments : forall m v g, 0 <= v -> m * m <= 54 * v -> 0 <= fl_v o v g /\ fl_m o m g * fl_m o m g <= 54 * fl_v o v g.
Proof.
  intros m v g V M. destruct (fl_m_form m g) as (a & d & A & D & ->). destruct (fl_v_form v g) as (b & e & B & F & h & Hh & ->). pose proof uu as U.
  set (G := g * g) in *. assert (HG : 0 <= G) by (unfold G; nra).
  assert (S : ((1 - a) * m + a * g) * ((1 - a) * m + a * g) <= 16 / 13 * ((1 - a) * (1 - a)) * (m * m) + 16 / 3 * (a * a) * G).
  { pose proof (Rle_0_sqr (3 * ((1 - a) * m) - 13 * (a * g))) as K. unfold Rsqr in K. unfold G.
    assert (E : 16 / 13 * ((1 - a) * (1 - a)) * (m * m) + 16 / 3 * (a * a) * (g * g) - ((1 - a) * m + a * g) * ((1 - a) * m + a * g) =
      (3 * ((1 - a) * m) - 13 * (a * g)) * (3 * ((1 - a) * m) - 13 * (a * g)) / 39) by field. lra. }
  assert (A1 : (1 - a) * (1 - a) <= 81019 / 100000) by nra. assert (A2 : a * a <= 1003 / 100000) by nra.
  assert (S1 : ((1 - a) * m + a * g) * ((1 - a) * m + a * g) <= 99717 / 100000 * (54 * v) + 535 / 10000 * G).
  { eapply Rle_trans; [exact S|]. assert (16 / 13 * ((1 - a) * (1 - a)) * (m * m) <= 99717 / 100000 * (54 * v)).
    { assert (0 <= m * m) by nra. apply Rle_trans with (99717 / 100000 * (m * m)); nra. }
    assert (16 / 3 * (a * a) * G <= 535 / 10000 * G) by (apply Rmult_le_compat_r; lra). lra. }
  set (p := ((1 - a) * m + a * g)) in *.
  assert (Q : 998989 / 1000000 * v + 9997 / 10000000 * G <= (1 - b) * v + b * h).
  { assert (9997 / 10000000 * G <= b * h).
    { apply Rle_trans with (b * ((1 - u) * G)); [|apply Rmult_le_compat_l; lra]. assert (9997 / 10000000 <= b * (1 - u)) by nra. nra. }
    nra. }
  set (q := (1 - b) * v + b * h) in *. assert (P0 : 0 <= p * p) by nra. assert (Q0 : 0 <= q) by nra.
  split; [nra|]. replace (p * (1 + d) * (p * (1 + d))) with (p * p * ((1 + d) * (1 + d))) by ring.
  assert (D2 : (1 + d) * (1 + d) <= 1000003 / 1000000) by nra.
  apply Rle_trans with (p * p * (1000003 / 1000000)); [nra|].
  apply Rle_trans with (54 * (q * (999999 / 1000000))); [|nra]. nra.
Qed.

(* the rate *)
Lemma alpha_bound : forall lr t, Rabs (fl_alpha o lr t) <= 1007 / 1000 * Rabs lr.
Proof.
  intros lr t. unfold fl_alpha.  pose proof uu as U. destruct (betas (t + 1) ltac:(lia)) as ((a0 & a1) & b0 & b1).
  pose proof (abs_both _ _ (ou_p1 _ _ OK (t + 1)%nat)) as P1. pose proof (abs_both _ _ (ou_p2 _ _ OK (t + 1)%nat)) as P2.
  set (a := (9 / 10) ^ (t + 1)) in *. set (b := (999 / 1000) ^ (t + 1)) in *. set (p1 := o_p1 o (t + 1)) in *. set (p2 := o_p2 o (t + 1)) in *. clearbody a b p1 p2.
  set (x := 1 - p1). assert (X : 999 / 10000 <= x) by (unfold x; lra).
  assert (Y : 0 < 1 - p2 <= 10062 / 10000 * x * (10062 / 10000 * x)).
  { split; [lra|]. apply Rle_trans with ((1 - a) * (1 - a) + 1 / 10000); [nra|]. assert (1 - a <= x + 1 / 10000) by (unfold x; lra).
    apply Rle_trans with ((x + 1 / 10000) * (x + 1 / 10000) + 1 / 10000); nra. }
  set (z := 10063 / 10000 * x). destruct (rr (1 - p2)) as (d & D & E).
  assert (Z : 0 <= rnd (1 - p2) <= z * z).
  { rewrite E. split; [nra|]. apply Rle_trans with ((1 - p2) * (1000001 / 1000000)); [nra|]. unfold z. nra. }
  assert (S : 0 <= sqrt (rnd (1 - p2)) <= z).
  { split; [apply sqrt_pos|]. rewrite <- (sqrt_square z) by (unfold z; lra). apply sqrt_le_1; nra. }
  pose proof (rabs (sqrt (rnd (1 - p2)))) as S'. rewrite (Rabs_right (sqrt (rnd (1 - p2)))) in S' by lra.
  set (s := rnd (sqrt (rnd (1 - p2)))) in *. clearbody s. pose proof (rabs (rnd lr * s)) as N. rewrite Rabs_mult in N. pose proof (rabs lr) as L.
  set (n := rnd (rnd lr * s)) in *. destruct (rr x) as (e & F & EX). fold x. set (k := rnd x) in *. assert (K : 999999 / 1000000 * x <= k) by (rewrite EX; nra).
  assert (K0 : 0 < k) by lra. pose proof (rabs (n / k)) as W. clearbody n k. set (l := Rabs lr) in *. assert (l0 : 0 <= l) by apply Rabs_pos. set (l' := Rabs (rnd lr)) in *. set (sa := Rabs s) in *.
  assert (sa0 : 0 <= sa) by apply Rabs_pos.
  assert (L1 : l' <= 1000001 / 1000000 * l) by nra. assert (S1 : sa <= 1000001 / 1000000 * z) by nra.
  assert (l'0 : 0 <= l') by apply Rabs_pos.
  assert (N1 : Rabs n <= 1000001 / 1000000 * (1000001 / 1000000 * l * (1000001 / 1000000 * z))).
  { apply Rle_trans with ((1 + u) * (l' * sa)); [lra|]. assert (0 <= l' * sa) by nra. apply Rle_trans with (1000001 / 1000000 * (l' * sa)); [nra|]. apply Rmult_le_compat_l; [lra|]. apply Rmult_le_compat; assumption. }
  assert (Q : Rabs (n / k) <= 10065 / 10000 * l).
  { unfold Rdiv. rewrite Rabs_mult, Rabs_inv, (Rabs_right k) by lra. apply Rmult_le_reg_r with k; [exact K0|]. rewrite Rmult_assoc, Rinv_l, Rmult_1_r by lra.
    eapply Rle_trans; [exact N1|]. unfold z. assert (0 <= l * x) by nra. assert (999999 / 1000000 * (l * x) <= l * k) by nra. nra. }
  pose proof (Rabs_pos (n / k)). nra.
Qed.
(* the step *)
Lemma shift_bound : forall lr t m v, 0 <= v -> m * m <= 54 * v ->
  Rabs (rnd (rnd (m * fl_alpha o lr t) / rnd (rnd (sqrt v) + o_eps o))) <= 743 / 100 * Rabs lr.
Proof.
  intros lr t m v V M. pose proof uu as U. pose proof (alpha_bound lr t) as A. set (al := fl_alpha o lr t) in *. pose proof (ou_eps _ _ OK) as E. pose proof (sqrt_pos v) as R0. pose proof (sqrt_sqrt v V) as R2. set (r := sqrt v) in *.
  assert (M1 : Rabs m <= 735 / 100 * r).
  { apply Rsqr_incr_0_var; [|lra]. unfold Rsqr. rewrite <- Rabs_mult, Rabs_right by nra. nra. }
  destruct (rr r) as (d & D & ER). destruct (rr (rnd r + o_eps o)) as (e & F & EK).
  assert (K : 999997 / 1000000 * r <= rnd (rnd r + o_eps o) /\ 0 < rnd (rnd r + o_eps o)).
  { assert (999999 / 1000000 * r <= rnd r) by (rewrite ER; nra). rewrite EK. split; nra. }
  set (k := rnd (rnd r + o_eps o)) in *. pose proof (rabs (m * al)) as N. rewrite Rabs_mult in N. set (n := rnd (m * al)) in *. pose proof (rabs (n / k)) as W.
  assert (Q : Rabs (n / k) <= 736 / 100 * Rabs al).
  { unfold Rdiv. rewrite Rabs_mult, Rabs_inv, (Rabs_right k) by lra. apply Rmult_le_reg_r with k; [lra|]. rewrite Rmult_assoc, Rinv_l, Rmult_1_r by lra.
    pose proof (Rabs_pos al). pose proof (Rabs_pos m). set (b := Rabs al) in *. assert (Rabs m * b <= 735 / 100 * r * b) by (apply Rmult_le_compat_r; lra). assert (0 <= r * b) by nra.
    apply Rle_trans with (1000001 / 1000000 * (735 / 100 * (r * b))); [nra|]. assert (999997 / 1000000 * (r * b) <= b * k) by nra. nra. }
  pose proof (Rabs_pos (n / k)). pose proof (Rabs_pos lr). nra.
Qed.
Lemma new_bound : forall lr t x m v, 0 <= v -> m * m <= 54 * v -> Rabs (fl_new o (fl_alpha o lr t) x m v - x) <= 15 / 2 * Rabs lr + u * Rabs x.
Proof.
  intros lr t x m v V M. pose proof uu as U. pose proof (shift_bound lr t m v V M) as S. unfold fl_new.  set (s := rnd (rnd (m * fl_alpha o lr t) / rnd (rnd (sqrt v) + o_eps o))) in *.
  pose proof (ou_rel _ _ OK (x - s)) as H.  replace (rnd (x - s) - x) with (rnd (x - s) - (x - s) + - s) by ring.
  eapply Rle_trans; [apply Rabs_triang|]. rewrite Rabs_Ropp. assert (T : Rabs (x - s) <= Rabs x + Rabs s) by (unfold Rminus; eapply Rle_trans; [apply Rabs_triang | rewrite Rabs_Ropp; lra]).
  pose proof (Rabs_pos s). pose proof (Rabs_pos x). pose proof (Rabs_pos lr). nra.
Qed.

(* runs *)
Variables (rate : nat -> R) (gs : nat -> list R) (w : list R).
Hypothesis Lg : forall t, length (gs t) = length w.
Lemma run_shape : forall t, let s := fl_run o rate gs w t in ad_iterations (fst s) = t /\ length (ad_m (fst s)) = length w /\ length (ad_v (fst s)) = length w /\ length (snd s) = length w.
Proof.
  induction t as [|t IH]; cbn zeta in *.
  - cbn. rewrite !repeat_length. repeat split.
  - destruct IH as (I & M & V & X). cbn [fl_run]. unfold fl_apply. cbn [fst snd ad_iterations ad_m ad_v]. rewrite I.
    assert (L1 : forall (f : R -> R -> R) l, length l = length w -> length (map2 f l (gs t)) = length w) by (intros f l Hl; rewrite map2_length, Hl, Lg; lia).
    split; [reflexivity|]. split; [apply L1, M|]. split; [apply L1, V|]. rewrite map2_length, combine_length, !L1 by assumption. lia.
Qed.
Lemma run_nth : forall t i, (i < length w)%nat -> let s := fl_run o rate gs w t in let s' := fl_run o rate gs w (S t) in let g := nth i (gs t) 0 in
  nth i (ad_m (fst s')) 0 = fl_m o (nth i (ad_m (fst s)) 0) g /\ nth i (ad_v (fst s')) 0 = fl_v o (nth i (ad_v (fst s)) 0) g /\
  nth i (snd s') 0 = fl_new o (fl_alpha o (rate t) t) (nth i (snd s) 0) (nth i (ad_m (fst s')) 0) (nth i (ad_v (fst s')) 0).
Proof.
  intros t i Hi. cbv zeta. destruct (run_shape t) as (I & M & V & X). cbn [fl_run]. unfold fl_apply. cbn [fst snd ad_iterations ad_m ad_v]. rewrite I.
  assert (L1 : forall (f : R -> R -> R) l, length l = length w -> length (map2 f l (gs t)) = length w) by (intros f l Hl; rewrite map2_length, Hl, Lg; lia).
  split; [apply map2_nth; rewrite ?M, ?Lg; exact Hi|]. split; [apply map2_nth; rewrite ?V, ?Lg; exact Hi|].
  erewrite (map2_nth _ _ _ i 0 (0, 0)); [|rewrite X; exact Hi | rewrite combine_length, !L1 by assumption; lia].
  rewrite combine_nth by (rewrite !L1 by assumption; reflexivity). reflexivity.
Qed.
Lemma run_moments : forall t i, (i < length w)%nat -> let st := fst (fl_run o rate gs w t) in
  0 <= nth i (ad_v st) 0 /\ nth i (ad_m st) 0 * nth i (ad_m st) 0 <= 54 * nth i (ad_v st) 0.
Proof.
  intros t i Hi. induction t as [|t IH]; cbv zeta in *.
  - cbn [fl_run fst adam_init ad_m ad_v]. rewrite !nth_repeat. lra.
  - destruct (run_nth t i Hi) as (-> & -> & _). apply moments; apply IH.
Qed.
Lemma run_bound : forall t i, (i < length w)%nat ->
  Rabs (nth i (snd (fl_run o rate gs w (S t))) 0 - nth i (snd (fl_run o rate gs w t)) 0) <= 15 / 2 * Rabs (rate t) + u * Rabs (nth i (snd (fl_run o rate gs w t)) 0).
Proof.
  intros t i Hi. destruct (run_nth t i Hi) as (_ & _ & ->). destruct (run_moments (S t) i Hi) as [V M]. apply new_bound; assumption.
Qed.
Lemma run_travel : forall t i, (i < length w)%nat ->
  Rabs (nth i (snd (fl_run o rate gs w t)) 0 - nth i w 0) <= ((1 + u) ^ t - 1) * Rabs (nth i w 0) + (1 + u) ^ t * (15 / 2 * vsum (map (fun s => Rabs (rate s)) (seq 0 t))).
Proof.
  intros t i Hi. pose proof uu as U. induction t as [|t IH].
  - cbn [fl_run snd pow seq map]. replace (nth i w 0 - nth i w 0) with 0 by ring. rewrite Rabs_R0. change (vsum (@nil R)) with (IZR 0). lra.
  - pose proof (run_bound t i Hi) as S. set (x := nth i (snd (fl_run o rate gs w t)) 0) in *. set (x' := nth i (snd (fl_run o rate gs w (Datatypes.S t))) 0) in *. set (b := nth i w 0) in *.
    rewrite seq_S, map_app, vsum_app. cbn [map Nat.add]. set (V := vsum (map (fun s => Rabs (rate s)) (seq 0 t))) in *.
    change (vsum [Rabs (rate t)]) with (Rabs (rate t) + 0). rewrite Rplus_0_r. pose proof (Rabs_pos (rate t)) as R0. set (r := Rabs (rate t)) in *.
    assert (X : Rabs x <= Rabs (x - b) + Rabs b) by (replace x with (x - b + b) at 1 by ring; apply Rabs_triang).
    assert (Y : Rabs (x' - b) <= Rabs (x' - x) + Rabs (x - b)) by (replace (x' - b) with (x' - x + (x - b)) by ring; apply Rabs_triang).
    change ((1 + u) ^ Datatypes.S t) with ((1 + u) * (1 + u) ^ t). assert (P : 1 <= (1 + u) ^ t) by (apply pow_R1_Rle; lra). set (p := (1 + u) ^ t) in *.
    set (xb := Rabs (x - b)) in *. set (B := Rabs b) in *. set (D := Rabs (x' - x)) in *.
    assert (Z : Rabs (x' - b) <= (1 + u) * xb + u * B + 15 / 2 * r) by nra.
    assert (W : (1 + u) * xb <= (1 + u) * ((p - 1) * B + p * (15 / 2 * V))) by (apply Rmult_le_compat_l; lra).
    assert (T : r <= (1 + u) * p * r) by (assert (1 <= (1 + u) * p) by nra; nra). nra.
Qed.
Lemma run_idle : forall t i, (i < length w)%nat -> o_rnd o (nth i w 0) = nth i w 0 -> (forall s, (s < t)%nat -> nth i (gs s) 0 = 0) -> nth i (snd (fl_run o rate gs w t)) 0 = nth i w 0.
Proof.
  intros t i Hi Hw Hg. enough (E : nth i (snd (fl_run o rate gs w t)) 0 = nth i w 0 /\ nth i (ad_m (fst (fl_run o rate gs w t))) 0 = 0) by apply E.
  induction t as [|t IH]; [cbn [fl_run fst snd adam_init ad_m]; rewrite nth_repeat; split; reflexivity|].
  destruct (IH (fun s H => Hg s (Nat.lt_lt_succ_r _ _ H))) as [X M]. destruct (run_nth t i Hi) as (EM & _ & EX). cbv zeta in *.
  rewrite M, (Hg t (Nat.lt_succ_diag_r t)) in EM.
  assert (M' : nth i (ad_m (fst (fl_run o rate gs w (S t)))) 0 = 0).
  { rewrite EM. unfold fl_m. replace (0 - 0) with 0 by ring. rewrite rnd_0. replace (0 * o_c1 o) with 0 by ring. rewrite rnd_0. replace (0 + 0) with 0 by ring. apply rnd_0. }
  split; [|exact M']. rewrite EX, M', X. unfold fl_new. rewrite Rmult_0_l, rnd_0. unfold Rdiv. rewrite Rmult_0_l, rnd_0, Rminus_0_r. exact Hw.
Qed.
(* a step that the rounding of the subtraction absorbs *)
Lemma run_frozen : forall (th : R) t i, (i < length w)%nat -> let x := nth i (snd (fl_run o rate gs w t)) 0 in
  (forall s, Rabs s <= th * Rabs x -> o_rnd o (x - s) = x) -> (forall s, (t <= s)%nat -> 743 / 100 * Rabs (rate s) <= th * Rabs x) ->
  forall s, (t <= s)%nat -> nth i (snd (fl_run o rate gs w s)) 0 = x.
Proof.
  intros th t i Hi x Ha Hr s Hs. induction Hs as [|s Hs IH]; [reflexivity|].
  destruct (run_nth s i Hi) as (_ & _ & E). cbv zeta in E. rewrite E, IH. unfold fl_new. apply Ha.
  destruct (run_moments (S s) i Hi) as [V M]. eapply Rle_trans; [apply shift_bound; assumption | apply Hr, Hs].
Qed.
End Arith.

(* IEEE arithmetic *)
Lemma nearest_rel : forall prec x, (1 < prec)%Z -> Rabs (nearest prec x - x) <= bpow radix2 (- prec) * Rabs x.
Proof. intros prec x H. exact (SpecRound.rd_rel _ _ _ (RoundFacts.nearest_rounding prec H) x). Qed.
Lemma absorb_pos : forall prec x s, (1 < prec)%Z -> generic_format radix2 (FLX_exp prec) x -> 0 < x -> Rabs s <= bpow radix2 (- (prec + 2)) * x -> nearest prec (x - s) = x.
Proof.
  intros prec x s Hp F X S. assert (P0 : Prec_gt_0 prec) by (unfold Prec_gt_0; lia). pose proof (abs_both _ _ S) as B.
  assert (N : x <> 0) by lra. pose proof (bpow_mag_gt radix2 x) as G. rewrite Rabs_right in G by lra.
  set (e := (mag radix2 x - 1 - prec)%Z). assert (H1 : Rabs s < bpow radix2 e / 2).
  { eapply Rle_lt_trans; [exact S|]. apply Rlt_le_trans with (bpow radix2 (- (prec + 2)) * bpow radix2 (mag radix2 x)).
    - apply Rmult_lt_compat_l; [apply bpow_gt_0 | exact G].
    - rewrite <- bpow_plus. replace (bpow radix2 e / 2) with (bpow radix2 (e + - (1))) by (rewrite bpow_plus; cbn; lra). apply bpow_le. unfold e. lia. }
  assert (U : succ radix2 (FLX_exp prec) x >= x + bpow radix2 e).
  { rewrite succ_eq_pos by lra. rewrite ulp_neq_0 by exact N. unfold cexp, FLX_exp. apply Rle_ge, Rplus_le_compat_l, bpow_le. unfold e. lia. }
  assert (D : pred radix2 (FLX_exp prec) x <= x - bpow radix2 e).
  { rewrite pred_eq_pos by lra. unfold pred_pos. case Req_bool_spec; intros _.
    - unfold FLX_exp, e. apply Rle_refl.
    - rewrite ulp_neq_0 by exact N. unfold cexp, FLX_exp. assert (bpow radix2 e <= bpow radix2 (mag radix2 x - prec)) by (apply bpow_le; unfold e; lia). lra. }
  pose proof (abs_both _ _ (Rlt_le _ _ H1)). pose proof (Rle_abs s). pose proof (Rle_abs (- s)). rewrite Rabs_Ropp in *.
  unfold nearest. apply Rle_antisym.
  - apply round_N_le_midp; [typeclasses eauto | exact F | lra].
  - apply round_N_ge_midp; [typeclasses eauto | exact F | lra].
Qed.
Lemma absorb : forall prec x s, (1 < prec)%Z -> nearest prec x = x -> Rabs s <= bpow radix2 (- (prec + 2)) * Rabs x -> nearest prec (x - s) = x.
Proof.
  intros prec x s Hp E S. assert (P0 : Prec_gt_0 prec) by (unfold Prec_gt_0; lia). assert (F : generic_format radix2 (FLX_exp prec) x) by (rewrite <- E; apply generic_format_round; typeclasses eauto).
  destruct (Rtotal_order x 0) as [L|[Z|G]].
  - rewrite (Rabs_left x) in S by exact L. replace (x - s) with (- (- x - - s)) by ring. unfold nearest. rewrite round_NE_opp. fold (nearest prec (- x - - s)).
    rewrite absorb_pos; [ring | exact Hp | apply generic_format_opp, F | lra | rewrite Rabs_Ropp; exact S].
  - rewrite Z, Rabs_R0, Rmult_0_r in S. pose proof (Rabs_pos s). assert (s = 0) by (destruct (Req_dec s 0) as [->|K]; [reflexivity | apply Rabs_pos_lt in K; lra]). subst s. rewrite Rminus_0_r. exact E.
  - rewrite (Rabs_right x) in S by lra. apply absorb_pos; assumption.
Qed.
Lemma pow_close : forall b c q t, 0 <= b <= q -> 0 <= c <= q -> q < 1 -> Rabs (c ^ t - b ^ t) <= Rabs (c - b) / (1 - q).
Proof.
  intros b c q t B C Q. pose proof (Rabs_pos (c - b)) as P. assert (D0 : 0 <= Rabs (c - b) / (1 - q)) by (apply Rmult_le_pos; [exact P | left; apply Rinv_0_lt_compat; lra]).
  induction t as [|t IH]; [cbn; replace (1 - 1) with 0 by ring; rewrite Rabs_R0; exact D0|].
  cbn [pow]. replace (c * c ^ t - b * b ^ t) with (c * (c ^ t - b ^ t) + (c - b) * b ^ t) by ring. eapply Rle_trans; [apply Rabs_triang|]. rewrite !Rabs_mult, (Rabs_right c) by lra.
  assert (T : 0 <= b ^ t <= 1) by (split; [apply pow_le; lra | rewrite <- (pow1 t); apply pow_incr; lra]). rewrite (Rabs_right (b ^ t)) by lra.
  set (d := Rabs (c - b)) in *. set (k := d / (1 - q)) in *. assert (E : k * (1 - q) = d) by (unfold k; field; lra). set (y := Rabs (c ^ t - b ^ t)) in *. assert (0 <= y) by apply Rabs_pos. nra.
Qed.
Lemma nearest_form : forall prec k x, (1 < prec)%Z -> bpow radix2 (- prec) <= k -> exists d, - k <= d <= k /\ nearest prec x = x * (1 + d).
Proof.
  intros prec k x H K. destruct (rel_factor _ _ _ (bpow_ge_0 radix2 (- prec)) (nearest_rel prec x H)) as (d & D & E). exists d. split; [|exact E]. apply abs_both in D. lra.
Qed.
Lemma ieee_update_ok : forall prec, (24 <= prec)%Z -> update_ok (ieee_update prec) (bpow radix2 (- prec)).
Proof.
  intros prec H. assert (U : 0 < bpow radix2 (- prec) <= 6 / 100000000).
  { split; [apply bpow_gt_0|]. apply Rle_trans with (bpow radix2 (- (24))); [apply bpow_le; lia | cbn; lra]. }
  assert (V : bpow radix2 (- (53)) <= 1 / 1000000000000) by (cbn; lra).
  assert (N : forall x, exists d, - (6 / 100000000) <= d <= 6 / 100000000 /\ nearest prec x = x * (1 + d)) by (intros x; apply nearest_form; [lia | apply U]).
  assert (N53 : forall x, exists d, - (1 / 1000000000000) <= d <= 1 / 1000000000000 /\ nearest 53 x = x * (1 + d)) by (intros x; apply nearest_form; [lia | exact V]).
  assert (PW : forall b t, 0 <= b <= 999 / 1000 -> Rabs (nearest prec (nearest prec b ^ t) - b ^ t) <= 1 / 10000).
  { intros b t B. destruct (N b) as (d & D & E). destruct (N (nearest prec b ^ t)) as (e & F & ->). set (c := nearest prec b) in *. assert (C : 0 <= c <= 9992 / 10000) by (rewrite E; split; nra).
    pose proof (pow_close b c (9992 / 10000) t ltac:(lra) C ltac:(lra)) as P. assert (K : Rabs (c - b) <= 6 / 100000000) by (apply Rabs_le; rewrite E; split; nra).
    assert (T : 0 <= c ^ t <= 1) by (split; [apply pow_le; lra | rewrite <- (pow1 t); apply pow_incr; lra]). replace (Rabs (c - b) / (1 - 9992 / 10000)) with (1250 * Rabs (c - b)) in P by field.
    apply abs_both in P. apply Rabs_le. set (y := c ^ t) in *. set (z := b ^ t) in *. clearbody y z. split; nra. }
  constructor; cbn [ieee_update o_rnd o_c1 o_c2 o_eps o_p1 o_p2].
  - lra.
  - intros x. apply nearest_rel. lia.
  - destruct (N53 beta_1) as (d1 & D1 & ->). destruct (N53 (1 - beta_1 * (1 + d1))) as (d2 & D2 & ->). destruct (N ((1 - beta_1 * (1 + d1)) * (1 + d2))) as (d3 & D3 & ->). unfold beta_1.
    set (p := (1 - 9 / 10 * (1 + d1)) * (1 + d2)). assert (1 / 10 - 1 / 100000000000 <= p <= 1 / 10 + 1 / 100000000000) by (unfold p; split; nra). apply Rabs_le. split; nra.
  - destruct (N53 beta_2) as (d1 & D1 & ->). destruct (N53 (1 - beta_2 * (1 + d1))) as (d2 & D2 & ->). destruct (N ((1 - beta_2 * (1 + d1)) * (1 + d2))) as (d3 & D3 & ->). unfold beta_2.
    set (p := (1 - 999 / 1000 * (1 + d1)) * (1 + d2)). assert (1 / 1000 - 1 / 100000000000 <= p <= 1 / 1000 + 1 / 100000000000) by (unfold p; split; nra). apply Rabs_le. split; nra.
  - destruct (N epsilon) as (d & D & ->). unfold epsilon. nra.
  - intros t. apply PW. unfold beta_1. lra.
  - intros t. apply PW. unfold beta_2. lra.
Qed.
Lemma ieee_frozen : forall prec rate gs w t i, (24 <= prec)%Z -> (forall s, length (gs s) = length w) -> (i < length w)%nat ->
  nearest prec (nth i w 0) = nth i w 0 -> let run := fl_run (ieee_update prec) rate gs w in let x := nth i (snd (run t)) 0 in
  (forall s, (t <= s)%nat -> 8 * Rabs (rate s) <= bpow radix2 (- (prec + 2)) * Rabs x) -> forall s, (t <= s)%nat -> nth i (snd (run s)) 0 = x.
Proof.
  intros prec rate gs w t i Hp Lg Hi Hw run x Hr. assert (P0 : Prec_gt_0 prec) by (unfold Prec_gt_0; lia).
  assert (E : nearest prec x = x).
  { unfold x, run. destruct t as [|t]; [exact Hw|]. destruct (run_nth (ieee_update prec) rate gs w Lg t i Hi) as (_ & _ & ->). unfold fl_new. cbn [ieee_update o_rnd].
    unfold nearest at 1. apply round_generic; [typeclasses eauto|]. apply generic_format_round; typeclasses eauto. }
  apply (run_frozen _ _ (ieee_update_ok prec Hp) rate gs w Lg (bpow radix2 (- (prec + 2))) t i Hi).
  - intros s Hs. cbn [ieee_update o_rnd]. apply absorb; [lia | exact E | exact Hs].
  - intros s Hs. pose proof (Hr s Hs). pose proof (Rabs_pos (rate s)). fold run. fold x. lra.
Qed.
Lemma schedule_small : forall lr0 r n a, 0 <= r < 1 -> (1 <= n)%nat -> 0 < a -> exists T, forall t, (T <= t)%nat -> Rabs (lr0 * r ^ (t / n)) <= a.
Proof.
  intros lr0 r n a Hr Hn Ha. pose proof (Rabs_pos lr0) as P. assert (Y : 0 < a / (Rabs lr0 + 1)) by (apply Rdiv_lt_0_compat; lra).
  destruct (pow_lt_1_zero r ltac:(rewrite Rabs_right; lra) _ Y) as [N HN]. exists (n * N)%nat. intros t Ht. rewrite Rabs_mult.
  pose proof (HN (t / n)%nat (Nat.div_le_lower_bound t n N ltac:(lia) Ht)) as K. pose proof (Rabs_pos (r ^ (t / n))) as Q. set (q := Rabs (r ^ (t / n))) in *.
  assert (E : a / (Rabs lr0 + 1) * (Rabs lr0 + 1) = a) by (field; lra). nra.
Qed.
Lemma ieee_stops : forall prec k d lr0 n r rate a, (24 <= prec)%Z -> dget String.eqb d "initial_learning_rate"%string = Ok (Nets.LNum lr0) -> dget String.eqb d "use_lr_scheduler"%string = Ok (Nets.LBool true) ->
  dget String.eqb d "decay_steps"%string = Ok (Nets.LNum (INR n)) -> dget String.eqb d "decay_rate"%string = Ok (Nets.LNum r) -> Nets.learning_rate k d = Ok rate ->
  (1 <= n)%nat -> 0 <= r < 1 -> 0 < a -> exists T, forall gs w i, (forall s, length (gs s) = length w) -> (i < length w)%nat -> nearest prec (nth i w 0) = nth i w 0 ->
  let run := fl_run (ieee_update prec) rate gs w in a <= Rabs (nth i (snd (run T)) 0) -> forall s, (T <= s)%nat -> nth i (snd (run s)) 0 = nth i (snd (run T)) 0.
Proof.
  intros prec k d lr0 n r rate a Hp H0 H1 H2 H3 Hf Hn Hr Ha. set (b := bpow radix2 (- (prec + 2))). assert (B : 0 < b) by apply bpow_gt_0.
  destruct (schedule_small lr0 r n (b * a / 8) Hr Hn ltac:(assert (0 < b * a) by nra; lra)) as [T HT]. exists T. intros gs w i Lg Hi Hw run Hx.
  apply (ieee_frozen prec rate gs w T i Hp Lg Hi Hw). intros s Hs. fold run. fold b.
  rewrite (NetFacts.rate_nat k d lr0 (INR n) r _ rate H0 H1 H2 H3 Hf n eq_refl Hn eq_refl s). pose proof (HT s Hs). nra.
Qed.
