(* Maximum principle on a rectangle; the error of a network in terms of its residual and its boundary misfit. *)
From Coq Require Import String ZArith List Arith Lia Bool Reals Lra.
From Coquelicot Require Import Coquelicot.
From Verif Require Import SpecProblem SpecInit SpecMax.
Import ListNotations.
Local Open Scope R_scope.

(* ---------- one variable ---------- *)
Lemma inner_max : forall (h h' : R -> R) s a b x, (forall t, is_derive h t (h' t)) -> is_derive h' x s -> a < x < b -> (forall t, a <= t <= b -> h t <= h x) -> h' x = 0 /\ s <= 0.
Proof.
  intros h h' s a b x H H2 Hx Hm.
  assert (Z : h' x = 0).
  { assert (pr : derivable_pt h x) by (exists (h' x); apply is_derive_Reals, H).
    assert (E : derive_pt h x pr = h' x) by (apply derive_pt_eq, is_derive_Reals, H). rewrite <- E.
    apply (deriv_maximum h a b x pr); try lra. intros t Ht1 Ht2. apply Hm. lra. }
  split; [exact Z|]. destruct (Rle_dec s 0) as [L|L]; [exact L|]. exfalso. apply Rnot_le_lt in L.
  apply is_derive_Reals in H2. destruct (H2 (s / 2) ltac:(lra)) as [d Hd].
  set (e := Rmin (d / 2) ((b - x) / 2)). assert (He : 0 < e) by (unfold e; apply Rmin_glb_lt; [pose proof (cond_pos d); lra | lra]).
  assert (He1 : e < d) by (unfold e; pose proof (cond_pos d); pose proof (Rmin_l (d / 2) ((b - x) / 2)); lra).
  assert (He2 : x + e <= b) by (unfold e; pose proof (Rmin_r (d / 2) ((b - x) / 2)); lra).
  destruct (MVT_gen h x (x + e) h') as (c & Hc & E).
  - intros t Ht. apply H.
  - intros t Ht. apply continuity_pt_filterlim. apply (ex_derive_continuous h). eexists. apply H.
  - rewrite Rmin_left, Rmax_right in Hc by lra. pose proof (Hm (x + e) ltac:(lra)) as M.
    destruct (Req_dec c x) as [-> | N].
    + rewrite Z in E.
      (* take the point in the middle *)
      destruct (MVT_cor2 h h' x (x + e) ltac:(lra)) as (c' & E' & Hc'); [intros t _; apply is_derive_Reals, H|].
      pose proof (Hd (c' - x) ltac:(lra) ltac:(rewrite Rabs_pos_eq by lra; lra)) as K. replace (x + (c' - x)) with c' in K by ring. rewrite Z, Rminus_0_r in K.
      apply Rabs_def2 in K. assert (0 < h' c' / (c' - x)) by lra. assert (0 < h' c') by (replace (h' c') with (h' c' / (c' - x) * (c' - x)) by (field; lra); apply Rmult_lt_0_compat; lra). nra.
    + pose proof (Hd (c - x) ltac:(lra) ltac:(rewrite Rabs_pos_eq by lra; lra)) as K. replace (x + (c - x)) with c in K by ring. rewrite Z, Rminus_0_r in K.
      apply Rabs_def2 in K. assert (0 < h' c / (c - x)) by lra. assert (0 < h' c) by (replace (h' c) with (h' c / (c - x) * (c - x)) by (field; lra); apply Rmult_lt_0_compat; lra). nra.
Qed.

(* ---------- a steep function has a maximum on the rectangle ---------- *)
Definition clamp (a b t : R) : R := Rmax a (Rmin b t).
Lemma clamp_in : forall a b t, a <= b -> a <= clamp a b t <= b.
Proof. intros a b t H. unfold clamp, Rmax, Rmin. destruct (Rle_dec b t); destruct (Rle_dec a _); lra. Qed.
Lemma clamp_id : forall a b t, a <= t <= b -> clamp a b t = t.
Proof. intros a b t H. unfold clamp, Rmax, Rmin. destruct (Rle_dec b t); destruct (Rle_dec a _); lra. Qed.
Lemma clamp_near : forall a b s t, a <= b -> Rabs (clamp a b s - clamp a b t) <= Rabs (s - t).
Proof.
  intros a b s t H. unfold clamp, Rmax, Rmin. unfold Rabs.
  destruct (Rle_dec b s); destruct (Rle_dec b t); repeat destruct (Rle_dec a _); repeat destruct (Rcase_abs _); lra.
Qed.
Lemma lipschitz_max : forall (h : R -> R) C a b, a <= b -> 0 <= C -> (forall s t, Rabs (h s - h t) <= C * Rabs (s - t)) -> exists x, a <= x <= b /\ forall t, a <= t <= b -> h t <= h x.
Proof.
  intros h C a b Hab HC H. destruct (continuity_ab_maj h a b Hab) as (x & Hx1 & Hx2).
  - intros c _ eps He. exists (eps / (C + 1)). split; [apply Rdiv_lt_0_compat; lra|]. intros t [_ Ht]. cbn in *. unfold R_dist in *.
    eapply Rle_lt_trans; [apply H|]. apply Rle_lt_trans with ((C + 1) * Rabs (t - c)); [pose proof (Rabs_pos (t - c)); nra|].
    apply Rmult_lt_compat_l with (r := C + 1) in Ht; [|lra]. replace ((C + 1) * (eps / (C + 1))) with eps in Ht by (field; lra). exact Ht.
  - exists x. split; auto.
Qed.
Lemma box_max : forall xl yl F C, fst xl <= snd xl -> fst yl <= snd yl -> 0 <= C -> steepness_on (in_box xl yl) F C ->
  exists q, in_box xl yl q /\ forall p, in_box xl yl p -> F p <= F q.
Proof.
  intros [a b] [c d] F C Hx Hy HC HF. cbn [fst snd] in *. set (h := fun x y => F (clamp a b x, clamp c d y)).
  assert (Hh : forall x y x' y', Rabs (h x y - h x' y') <= C * Rmax (Rabs (x - x')) (Rabs (y - y'))).
  { intros x y x' y'. unfold h. eapply Rle_trans; [apply HF; split; cbn; now apply clamp_in|]. apply Rmult_le_compat_l; [exact HC|]. unfold far. cbn [fst snd].
    apply Rmax_lub; [eapply Rle_trans; [apply clamp_near; exact Hx | apply Rmax_l] | eapply Rle_trans; [apply clamp_near; exact Hy | apply Rmax_r]]. }
  assert (Hhx : forall y x x', Rabs (h x y - h x' y) <= C * Rabs (x - x')).
  { intros y x x'. eapply Rle_trans; [apply Hh|]. rewrite Rminus_eq_0, Rabs_R0, Rmax_left by apply Rabs_pos. lra. }
  assert (Hhy : forall x y y', Rabs (h x y - h x y') <= C * Rabs (y - y')).
  { intros x y y'. eapply Rle_trans; [apply Hh|]. rewrite Rminus_eq_0, Rabs_R0, Rmax_right by apply Rabs_pos. lra. }
  assert (Hm : forall y, { m | is_lub (fun v => exists x, a <= x <= b /\ v = h x y) m }).
  { intros y. apply completeness.
    - destruct (lipschitz_max (fun x => h x y) C a b Hx HC (Hhx y)) as (x0 & _ & M). exists (h x0 y). intros v (x & Hxx & ->). now apply M.
    - exists (h a y), a. split; [lra | reflexivity]. }
  set (m := fun y => proj1_sig (Hm y)).
  assert (Ma : forall y, exists x, a <= x <= b /\ m y = h x y /\ forall t, a <= t <= b -> h t y <= h x y).
  { intros y. destruct (lipschitz_max (fun x => h x y) C a b Hx HC (Hhx y)) as (x0 & Hx0 & M). exists x0. split; [exact Hx0|]. split; [|exact M].
    unfold m. destruct (Hm y) as [v [V1 V2]]. cbn. apply Rle_antisym; [apply V2; intros w (x & Hxx & ->); now apply M | apply V1; eauto]. }
  assert (Ml : forall s t, Rabs (m s - m t) <= C * Rabs (s - t)).
  { assert (G : forall s t, m s - m t <= C * Rabs (s - t)).
    { intros s t. destruct (Ma s) as (x & Hxx & -> & _). destruct (Ma t) as (x' & _ & -> & M). pose proof (M x Hxx). pose proof (Hhy x s t) as K. apply Rabs_le_between in K. lra. }
    intros s t. apply Rabs_le. split; [|apply G]. pose proof (G t s) as K. rewrite Rabs_minus_sym in K. lra. }
  destruct (lipschitz_max m C c d Hy HC Ml) as (y & Hyy & M). destruct (Ma y) as (x & Hxx & E & _). exists (x, y). split; [split; cbn; assumption|].
  intros [s t] [Hs Ht]. cbn [fst snd] in *. destruct (Ma t) as (x' & _ & E' & M'). specialize (M' s Hs). specialize (M t Ht).
  unfold h in *. rewrite (clamp_id a b s Hs) in M'. rewrite (clamp_id c d t Ht) in *. rewrite (clamp_id a b x Hxx), (clamp_id c d y Hyy) in E. lra.
Qed.

(* ---------- comparison ---------- *)
Lemma second_partials_lin : forall u ux uy uxx uyy v vx vy vxx vyy a b, second_partials u ux uy uxx uyy -> second_partials v vx vy vxx vyy ->
  second_partials (fun x y => a * u x y + b * v x y) (fun x y => a * ux x y + b * vx x y) (fun x y => a * uy x y + b * vy x y) (fun x y => a * uxx x y + b * vxx x y) (fun x y => a * uyy x y + b * vyy x y).
Proof.
  intros u ux uy uxx uyy v vx vy vxx vyy a b H K x y. destruct (H x y) as (A1 & A2 & A3 & A4). destruct (K x y) as (B1 & B2 & B3 & B4).
  split; [|split; [|split]]; apply (is_derive_plus (K := R_AbsRing) (V := R_NormedModule)); now apply is_derive_scal.
Qed.
Lemma steep_lin : forall D u v a b Cu Cv, steepness_on D u Cu -> steepness_on D v Cv -> steepness_on D (fun p => a * u p + b * v p) (Rabs a * Cu + Rabs b * Cv).
Proof.
  intros D u v a b Cu Cv Hu Hv p q Hp Hq. replace (a * u p + b * v p - (a * u q + b * v q)) with (a * (u p - u q) + b * (v p - v q)) by ring.
  eapply Rle_trans; [apply Rabs_triang|]. rewrite !Rabs_mult. pose proof (Hu p q Hp Hq). pose proof (Hv p q Hp Hq). pose proof (Rabs_pos a). pose proof (Rabs_pos b). nra.
Qed.
Section Compare.
Variables (al bx bn g top rho : R) (xl yl : R * R) (phi px py pxx pyy : R -> R -> R) (Cp : R).
Hypothesis Hal : 0 < al.
Hypothesis Hrho : 0 < rho.
Hypothesis Hx : fst xl <= snd xl.
Hypothesis Hy : fst yl <= snd yl.
Hypothesis HCp : 0 <= Cp.
Hypothesis Hsteep : steepness_on (in_box xl yl) (fun p => phi (fst p) (snd p)) Cp.
Hypothesis Hrange : forall x y, in_box xl yl (x, y) -> 1 <= phi x y <= top.
Hypothesis Hphi : second_partials phi px py pxx pyy.
Hypothesis Hop : forall x y, in_box xl yl (x, y) -> rho <= applied al bx bn g phi px py pxx pyy x y.
Variables (w wx wy wxx wyy : R -> R -> R) (Cw m r : R).
Hypothesis HCw : 0 <= Cw.
Hypothesis Hw : second_partials w wx wy wxx wyy.
Hypothesis Hws : steepness_on (in_box xl yl) (fun p => w (fst p) (snd p)) Cw.
Hypothesis Hm : 0 <= m.
Hypothesis Hres : forall x y, in_box xl yl (x, y) -> applied al bx bn g w wx wy wxx wyy x y <= r.
Hypothesis Hrim : forall p, on_rim xl yl p -> w (fst p) (snd p) <= m.
Lemma far_box : forall p q, in_box xl yl p -> in_box xl yl q -> far p q <= (snd xl - fst xl) + (snd yl - fst yl).
Proof. intros p q [A B] [C D]. unfold far. apply Rmax_lub; apply Rabs_le; lra. Qed.
Lemma ratio_steep : exists C, 0 <= C /\ steepness_on (in_box xl yl) (fun p => w (fst p) (snd p) / phi (fst p) (snd p)) C.
Proof.
  set (o := (fst xl, fst yl)). assert (Ho : in_box xl yl o) by (split; cbn; lra). set (B := Rabs (w (fst o) (snd o)) + Cw * ((snd xl - fst xl) + (snd yl - fst yl))).
  assert (HB : forall p, in_box xl yl p -> Rabs (w (fst p) (snd p)) <= B).
  { intros p Hp. pose proof (Hws p o Hp Ho) as K. cbv beta in K. pose proof (Rmult_le_compat_l Cw _ _ HCw (far_box p o Hp Ho)). unfold B.
    pose proof (Rabs_triang_inv (w (fst p) (snd p)) (w (fst o) (snd o))). lra. }
  assert (B0 : 0 <= B) by (eapply Rle_trans; [apply Rabs_pos | exact (HB o Ho)]).
  exists (B * Cp + Cw). split; [pose proof (Rmult_le_pos _ _ B0 HCp); lra|]. intros p q Hp Hq. pose proof (HB p Hp) as K1. pose proof (Hsteep p q Hp Hq) as K2. pose proof (Hws p q Hp Hq) as K3. cbv beta in K2, K3.
  assert (F0 : 0 <= far p q) by (unfold far; eapply Rle_trans; [apply Rabs_pos | apply Rmax_l]).
  destruct p as [x y], q as [x' y']. cbn [fst snd] in *. destruct (Hrange x y Hp) as [P1 _]. destruct (Hrange x' y' Hq) as [Q1 _].
  replace (w x y / phi x y - w x' y' / phi x' y') with (- (w x y * (phi x y - phi x' y')) / (phi x y * phi x' y') + (w x y - w x' y') / phi x' y') by (field; lra).
  eapply Rle_trans; [apply Rabs_triang|]. rewrite Rmult_plus_distr_r. apply Rplus_le_compat.
  - unfold Rdiv. rewrite Rabs_mult, Rabs_Ropp, Rabs_mult. assert (V : 0 < / (phi x y * phi x' y') <= 1).
    { split; [apply Rinv_0_lt_compat; nra|]. rewrite <- Rinv_1. apply Rinv_le_contravar; nra. }
    rewrite (Rabs_pos_eq (/ _)) by lra. apply Rle_trans with (Rabs (w x y) * Rabs (phi x y - phi x' y')).
    + pose proof (Rmult_le_pos _ _ (Rabs_pos (w x y)) (Rabs_pos (phi x y - phi x' y'))). nra.
    + rewrite Rmult_assoc. apply Rmult_le_compat; auto using Rabs_pos.
  - unfold Rdiv. rewrite Rabs_mult. assert (V : 0 < / phi x' y' <= 1) by (split; [apply Rinv_0_lt_compat; lra | rewrite <- Rinv_1; apply Rinv_le_contravar; lra]).
    rewrite (Rabs_pos_eq (/ _)) by lra. pose proof (Rabs_pos (w x y - w x' y')). nra.
Qed.
Lemma compare : forall x y, in_box xl yl (x, y) -> w x y <= phi x y * Rmax m (r / rho).
Proof.
  destruct ratio_steep as (C & HC & HS). destruct (box_max xl yl _ C Hx Hy HC HS) as ([a b] & Hq & Mx). cbn [fst snd] in *.
  set (M := w a b / phi a b) in *. destruct (Hrange a b Hq) as [Q1 _]. assert (EM : w a b = M * phi a b) by (unfold M; field; lra).
  assert (Le : forall s t, in_box xl yl (s, t) -> w s t <= M * phi s t).
  { intros s t Hst. pose proof (Mx (s, t) Hst) as K. cbn in K. destruct (Hrange s t Hst) as [P1 _]. replace (w s t) with (w s t / phi s t * phi s t) by (field; lra). apply Rmult_le_compat_r; lra. }
  assert (KM : M <= Rmax m (r / rho)).
  { destruct Hq as [Ha Hb]. cbn [fst snd] in Ha, Hb.
    destruct (Rle_dec M 0) as [N|N]; [eapply Rle_trans; [exact N|]; eapply Rle_trans; [exact Hm | apply Rmax_l]|]. apply Rnot_le_lt in N.
    assert (Rim : on_rim xl yl (a, b) -> M <= Rmax m (r / rho)).
    { intros Hr. pose proof (Hrim _ Hr) as K. cbn in K. eapply Rle_trans; [|apply Rmax_l]. nra. }
    destruct (Req_dec a (fst xl)) as [->|N1]; [apply Rim; split; [split; cbn; lra | cbn; auto]|]. destruct (Req_dec a (snd xl)) as [->|N2]; [apply Rim; split; [split; cbn; lra | cbn; auto]|].
    destruct (Req_dec b (fst yl)) as [->|N3]; [apply Rim; split; [split; cbn; lra | cbn; auto]|]. destruct (Req_dec b (snd yl)) as [->|N4]; [apply Rim; split; [split; cbn; lra | cbn; auto 6]|].
    pose proof (second_partials_lin _ _ _ _ _ _ _ _ _ _ 1 (- M) Hw Hphi) as S. assert (Hin : in_box xl yl (a, b)) by (split; cbn; lra).
    destruct (inner_max (fun t => 1 * w t b + - M * phi t b) (fun t => 1 * wx t b + - M * px t b) (1 * wxx a b + - M * pxx a b) (fst xl) (snd xl) a) as [X1 X2].
    { intros t. apply (S t b). } { apply (S a b). } { lra. } { intros t Ht. pose proof (Le t b ltac:(split; cbn; lra)). lra. }
    destruct (inner_max (fun t => 1 * w a t + - M * phi a t) (fun t => 1 * wy a t + - M * py a t) (1 * wyy a b + - M * pyy a b) (fst yl) (snd yl) b) as [Y1 Y2].
    { intros t. apply (S a t). } { apply (S a b). } { lra. } { intros t Ht. pose proof (Le a t ltac:(split; cbn; lra)). lra. }
    pose proof (Hres a b Hin) as R1. pose proof (Hop a b Hin) as R2. unfold applied in R1, R2. eapply Rle_trans; [|apply Rmax_r].
    assert (K : M * (- al * (pxx a b + pyy a b) + (bx * px a b + bn * py a b) + g * phi a b) <= r).
    { assert (E1 : wx a b = M * px a b) by lra. assert (E2 : wy a b = M * py a b) by lra. rewrite E1, E2, EM in R1. nra. }
    apply Rmult_le_reg_r with rho; [exact Hrho|]. replace (r / rho * rho) with r by (field; lra). nra. }
  intros x y Hp. eapply Rle_trans; [apply (Le x y Hp)|]. rewrite Rmult_comm. apply Rmult_le_compat_l; [destruct (Hrange x y Hp); lra | exact KM].
Qed.
End Compare.

(* ---------- two functions with nearly the same equation and boundary values ---------- *)
Lemma applied_lin : forall al bx bn g sg a b u ux uy uxx uyy v vx vy vxx vyy x y,
  applied (sg * al) (sg * bx) (sg * bn) (sg * g) (fun x y => a * u x y + b * v x y) (fun x y => a * ux x y + b * vx x y) (fun x y => a * uy x y + b * vy x y)
    (fun x y => a * uxx x y + b * vxx x y) (fun x y => a * uyy x y + b * vyy x y) x y =
  sg * (a * applied al bx bn g u ux uy uxx uyy x y + b * applied al bx bn g v vx vy vxx vyy x y).
Proof. intros. unfold applied. ring. Qed.
Lemma stability : forall sg al bx bn g xl yl phi top rho u v f r m K L, barrier sg al bx bn g xl yl phi top rho -> fst xl <= snd xl -> fst yl <= snd yl ->
  residual_below al bx bn g xl yl u f r -> residual_below al bx bn g xl yl v f 0 -> 0 <= K -> 0 <= L ->
  steepness_on (in_box xl yl) (fun p => u (fst p) (snd p)) K -> steepness_on (in_box xl yl) (fun p => v (fst p) (snd p)) L ->
  0 <= m -> (forall p, on_rim xl yl p -> Rabs (u (fst p) (snd p) - v (fst p) (snd p)) <= m) ->
  forall x y, in_box xl yl (x, y) -> Rabs (u x y - v x y) <= top * Rmax m (r / rho).
Proof.
  intros sg al bx bn g xl yl phi top rho u v f r m K L [Hsg Hor Hrho (Cp & HCp & HC) Hrange (px & py & pxx & pyy & Hphi & Hop)] Hx Hy (ux & uy & uxx & uyy & Hu & Ru) (vx & vy & vxx & vyy & Hv & Rv) HK HL Su Sv Hm Hrim x y Hp.
  assert (Hop' : forall x y, in_box xl yl (x, y) -> rho <= applied (sg * al) (sg * bx) (sg * bn) (sg * g) phi px py pxx pyy x y).
  { intros s t Hst. specialize (Hop s t Hst). unfold applied in *. lra. }
  assert (G : forall e, e = 1 \/ e = -1 -> e * u x y + - e * v x y <= phi x y * Rmax m (r / rho)).
  { intros e He. assert (Ae : Rabs e = 1 /\ Rabs (- e) = 1) by (rewrite Rabs_Ropp; destruct He as [-> | ->]; [rewrite Rabs_R1 | rewrite Rabs_m1]; lra). destruct Ae as [Ae1 Ae2].
    apply (compare (sg * al) (sg * bx) (sg * bn) (sg * g) top rho xl yl phi px py pxx pyy Cp Hor Hrho Hx Hy HCp HC Hrange Hphi Hop'
      (fun x y => e * u x y + - e * v x y) (fun x y => e * ux x y + - e * vx x y) (fun x y => e * uy x y + - e * vy x y) (fun x y => e * uxx x y + - e * vxx x y) (fun x y => e * uyy x y + - e * vyy x y) (K + L) m r); [lra | apply (second_partials_lin _ _ _ _ _ _ _ _ _ _ e (- e) Hu Hv) | | exact Hm | | | exact Hp].
    - pose proof (steep_lin (in_box xl yl) _ _ e (- e) K L Su Sv) as S. rewrite Ae1, Ae2, !Rmult_1_l in S. exact S.
    - intros s t Hst. rewrite applied_lin. specialize (Ru s t Hst). specialize (Rv s t Hst). apply Rabs_le_between in Ru. apply Rabs_le_between in Rv.
      destruct Hsg as [-> | ->], He as [-> | ->]; lra.
    - intros p Hr. specialize (Hrim p Hr). apply Rabs_le_between in Hrim. destruct He as [-> | ->]; lra. }
  assert (T : phi x y * Rmax m (r / rho) <= top * Rmax m (r / rho)).
  { apply Rmult_le_compat_r; [eapply Rle_trans; [exact Hm | apply Rmax_l] | apply Hrange; exact Hp]. }
  pose proof (G 1 ltac:(now left)). pose proof (G (-1) ltac:(now right)). apply Rabs_le. lra.
Qed.

(* ---------- barriers ---------- *)
(* diffusion, convection and a reaction that is not negative *)
Lemma exp_mono : forall a b, a <= b -> exp a <= exp b.
Proof. intros a b [H | ->]; [left; now apply exp_increasing | right; reflexivity]. Qed.
Lemma exp_steep : forall lam lo hi s t, 0 <= lam -> lo <= s <= hi -> lo <= t <= hi -> Rabs (exp (lam * (s - lo)) - exp (lam * (t - lo))) <= lam * exp (lam * (hi - lo)) * Rabs (s - t).
Proof.
  intros lam lo hi s t Hl Hs Ht.
  assert (G : forall s t, lo <= s <= hi -> lo <= t <= hi -> s <= t -> Rabs (exp (lam * (s - lo)) - exp (lam * (t - lo))) <= lam * exp (lam * (hi - lo)) * Rabs (s - t)).
  { clear s t Hs Ht. intros s t Hs Ht Hst. destruct (Req_dec s t) as [-> | N]; [rewrite !Rminus_eq_0, Rabs_R0; lra|].
    destruct (MVT_cor2 (fun z => exp (lam * (z - lo))) (fun z => lam * exp (lam * (z - lo))) s t ltac:(lra)) as (c & E & Hc).
    { intros z _. apply is_derive_Reals. auto_derive; [exact I | unfold Rminus, Rdiv; ring]. }
    rewrite Rabs_minus_sym, E, Rabs_mult, (Rabs_minus_sym s t). apply Rmult_le_compat_r; [apply Rabs_pos|].
    rewrite Rabs_pos_eq by (apply Rmult_le_pos; [exact Hl | left; apply exp_pos]). apply Rmult_le_compat_l; [exact Hl|].
    assert (L : lam * (c - lo) <= lam * (hi - lo)) by nra. destruct L as [L | ->]; [left; now apply exp_increasing | right; reflexivity]. }
  destruct (Rle_dec s t) as [H|H]; [now apply G|]. rewrite Rabs_minus_sym, (Rabs_minus_sym s t). apply G; lra.
Qed.
Lemma exp_barrier : forall al bx bn g xl yl, 0 < al -> 0 <= g -> let lam := (Rabs bx + 1) / al in
  barrier 1 al bx bn g xl yl (fun x _ => 1 + exp (lam * (snd xl - fst xl)) - exp (lam * (x - fst xl))) (exp (lam * (snd xl - fst xl))) lam.
Proof.
  intros al bx bn g [lo hi] yl Hal Hg lam. cbn [fst snd]. assert (Hl : 0 < lam) by (apply Rdiv_lt_0_compat; [pose proof (Rabs_pos bx); lra | exact Hal]).
  assert (El : al * lam = Rabs bx + 1) by (unfold lam; field; lra).
  assert (Ran : forall x y, in_box (lo, hi) yl (x, y) -> 1 <= exp (lam * (x - lo)) <= exp (lam * (hi - lo))).
  { intros x y [Hx _]. cbn in Hx. split; [rewrite <- exp_0|]; apply exp_mono; nra. }
  split; [now left | lra | exact Hl | | |].
  - exists (lam * exp (lam * (hi - lo))). split; [apply Rmult_le_pos; [lra | left; apply exp_pos]|]. intros [x y] [x' y'] [Hx _] [Hx' _]. cbn [fst snd] in *.
    replace (1 + exp (lam * (hi - lo)) - exp (lam * (x - lo)) - (1 + exp (lam * (hi - lo)) - exp (lam * (x' - lo)))) with (- (exp (lam * (x - lo)) - exp (lam * (x' - lo)))) by ring.
    rewrite Rabs_Ropp. eapply Rle_trans; [apply (exp_steep lam lo hi); lra|]. apply Rmult_le_compat_l; [apply Rmult_le_pos; [lra | left; apply exp_pos] | apply Rmax_l].
  - intros x y Hp. pose proof (Ran x y Hp). lra.
  - exists (fun x _ => - (lam * exp (lam * (x - lo)))), (fun _ _ => 0), (fun x _ => - (lam * (lam * exp (lam * (x - lo))))), (fun _ _ => 0). split.
    + intros x y. split; [auto_derive; [exact I | unfold Rminus, Rdiv; ring]|]. split; [auto_derive; [exact I | unfold Rminus, Rdiv; ring]|]. split; [auto_derive; [exact I | unfold Rminus, Rdiv; ring]|]. auto_derive; [exact I | unfold Rminus, Rdiv; ring].
    + intros x y Hp. destruct (Ran x y Hp) as [R1 R2]. unfold applied. set (E := exp (lam * (x - lo))) in *.
      replace (1 * (- al * (- (lam * (lam * E)) + 0) + (bx * - (lam * E) + bn * 0) + g * (1 + exp (lam * (hi - lo)) - E)))
        with (lam * E * (al * lam - bx) + g * (1 + exp (lam * (hi - lo)) - E)) by ring.
      assert (P1 : 1 <= al * lam - bx) by (rewrite El; pose proof (Rle_abs bx); lra). assert (P2 : lam <= lam * E) by nra. assert (P3 : lam * E <= lam * E * (al * lam - bx)) by nra.
      assert (0 <= g * (1 + exp (lam * (hi - lo)) - E)) by (apply Rmult_le_pos; lra). lra.
Qed.
(* Helmholtz on a strip that is narrower than half a wave *)
Lemma cos_steep : forall k s t, Rabs (cos (k * s) - cos (k * t)) <= Rabs k * Rabs (s - t).
Proof.
  intros k. assert (G : forall s t, s < t -> Rabs (cos (k * s) - cos (k * t)) <= Rabs k * Rabs (s - t)).
  { intros s t H. destruct (MVT_cor2 (fun z => cos (k * z)) (fun z => - (k * sin (k * z))) s t H) as (c & E & Hc).
    { intros z _. apply is_derive_Reals. auto_derive; [exact I | unfold Rminus, Rdiv; ring]. }
    rewrite Rabs_minus_sym, E, Rabs_mult, Rabs_Ropp, Rabs_mult, (Rabs_minus_sym s t). apply Rmult_le_compat_r; [apply Rabs_pos|].
    pose proof (SIN_bound (k * c)). assert (Rabs (sin (k * c)) <= 1) by (apply Rabs_le; lra). pose proof (Rabs_pos k). nra. }
  intros s t. destruct (Rtotal_order s t) as [H | [-> | H]]; [now apply G | rewrite !Rminus_eq_0, Rabs_R0; lra |].
  rewrite Rabs_minus_sym, (Rabs_minus_sym s t). now apply G.
Qed.
Lemma cos_barrier : forall eps k mu xl yl, 0 < eps -> k ^ 2 < eps * mu ^ 2 -> 0 < mu -> mu * (snd xl - fst xl) < PI -> fst xl <= snd xl -> let half := cos (mu * ((snd xl - fst xl) / 2)) in
  barrier (-1) (- eps) 0 0 (k ^ 2) xl yl (fun x _ => cos (mu * (x - (fst xl + snd xl) / 2)) / half) (/ half) (eps * mu ^ 2 - k ^ 2).
Proof.
  intros eps k mu [lo hi] yl He Hk Hmu Hpi Hlo half. cbn [fst snd] in *.
  assert (Hh : 0 < half) by (apply cos_gt_0; pose proof PI_RGT_0; nra). assert (Vh : 0 < / half) by now apply Rinv_0_lt_compat.
  assert (Ran : forall x y, in_box (lo, hi) yl (x, y) -> half <= cos (mu * (x - (lo + hi) / 2)) <= 1).
  { intros x y [Hx _]. cbn in Hx. split; [|apply COS_bound]. unfold half. assert (Ab : Rabs (mu * (x - (lo + hi) / 2)) <= mu * ((hi - lo) / 2)) by (apply Rabs_le; nra).
    assert (Ec : cos (mu * (x - (lo + hi) / 2)) = cos (Rabs (mu * (x - (lo + hi) / 2)))).
    { unfold Rabs. destruct (Rcase_abs _); [now rewrite cos_neg | reflexivity]. }
    rewrite Ec. pose proof (Rabs_pos (mu * (x - (lo + hi) / 2))) as A0. pose proof PI_RGT_0. destruct Ab as [Ab | ->]; [|right; reflexivity]. left. apply cos_decreasing_1; try lra; nra. }
  split; [now right | lra | lra | | |].
  - exists (mu * / half). split; [apply Rmult_le_pos; lra|]. intros [x y] [x' y'] _ _. cbn [fst snd]. unfold Rdiv. rewrite <- Rmult_minus_distr_r, Rabs_mult, (Rabs_pos_eq (/ half)) by lra.
    replace (mu * / half * far (x, y) (x', y')) with (mu * far (x, y) (x', y') * / half) by ring. apply Rmult_le_compat_r; [lra|].
    eapply Rle_trans; [apply cos_steep|]. rewrite (Rabs_pos_eq mu) by lra. apply Rmult_le_compat_l; [lra|].
    replace (x - (lo + hi) * / 2 - (x' - (lo + hi) * / 2)) with (x - x') by ring. apply Rmax_l.
  - intros x y Hp. destruct (Ran x y Hp) as [R1 R2]. split.
    + apply Rmult_le_reg_r with half; [exact Hh|]. unfold Rdiv. rewrite Rmult_assoc, Rinv_l, !Rmult_1_r, Rmult_1_l by lra. exact R1.
    + unfold Rdiv. rewrite <- (Rmult_1_l (/ half)) at 2. apply Rmult_le_compat_r; lra.
  - exists (fun x _ => - (mu * sin (mu * (x - (lo + hi) / 2))) / half), (fun _ _ => 0), (fun x _ => - (mu ^ 2 * cos (mu * (x - (lo + hi) / 2))) / half), (fun _ _ => 0). split.
    + intros x y. split; [auto_derive; [exact I | unfold Rminus, Rdiv; ring]|]. split; [auto_derive; [exact I | unfold Rminus, Rdiv; ring]|]. split; [auto_derive; [exact I | unfold Rminus, Rdiv; ring]|]. auto_derive; [exact I | unfold Rminus, Rdiv; ring].
    + intros x y Hp. destruct (Ran x y Hp) as [R1 R2]. unfold applied. set (c := cos (mu * (x - (lo + hi) / 2))) in *.
      replace (-1 * (- - eps * (- (mu ^ 2 * c) / half + 0) + (0 * (- (mu * sin (mu * (x - (lo + hi) / 2))) / half) + 0 * 0) + k ^ 2 * (c / half))) with ((eps * mu ^ 2 - k ^ 2) * (c / half)) by (field; lra).
      assert (1 <= c / half). { apply Rmult_le_reg_r with half; [exact Hh|]. unfold Rdiv. rewrite Rmult_assoc, Rinv_l, Rmult_1_r, Rmult_1_l by lra. exact R1. }
      nra.
Qed.
