(* What the loss functions compute (C31, C32, C34). *)
From Coq Require Import String ZArith List Arith Lia Bool Reals Lra.
From Verif Require Import Num Py Basis Tensor Physics RCalc PolyFacts ListFacts Spec PyFacts TensorFacts SpecTrain.
Import ListNotations.
Local Open Scope R_scope.

Lemma tmv_mk : forall b r c t v, (0 < b)%nat ->
  tmv (mk3 b r c t) (mk b c v) = Ok (mk r b (fun k i => Sum (fun q => t i k q * v i q) c)).
Proof. intros. unfold tmv. rewrite matvec_mk. cbn [bind]. now rewrite transpose_mk. Qed.
Lemma tmv_fits : forall t v C T Q, shape3 t C T Q -> has_shape v C Q -> (0 < C)%nat ->
  tmv t v = Ok (mk T C (fun r c => weak t v Q c r)).
Proof.
  intros t v C T Q Ht Hv HC. rewrite (mk3_of _ _ _ _ Ht) at 1. rewrite (mk_of _ _ _ Hv) at 1.
  rewrite tmv_mk by auto. reflexivity.
Qed.
Lemma mean_square_mk : forall T C f, (0 < T)%nat -> mean_square (mk T C f) = tab C (fun c => mean_sq T (fun r => f r c)).
Proof.
  intros. unfold mean_square. rewrite msquare_mk, reduce_mean0_mk by auto. apply tab_ext. intros c Hc.
  unfold mean_sq. f_equal. change Sum with rsum. apply rsum_ext. intros. lra.
Qed.

Lemma pget_has : forall d k v, has d k v -> pget (Some d) k = Ok v.
Proof. auto. Qed.

Ltac run_loss :=
  repeat first
    [ rewrite tmv_mk by assumption
    | erewrite tmv_fits by eassumption
    | rewrite bc2_mk
    | rewrite mscale_mk
    | match goal with H : has _ ?k _ |- context [pget (Some _) ?k] => rewrite (pget_has _ _ _ H) end
    | progress cbn [bind] ].

Section Losses.
Variables (V Gx Gy : list (mat R)) (u ux uy F : mat R) (C T Q : nat).
Hypothesis H : fits V Gx Gy u ux uy F C T Q.

Notation W := (fun t v c r => weak t v Q c r).
Definition Rpoisson eps c r := eps * (W Gx ux c r + W Gy uy c r) - entry F r c.
Definition Rcd eps b_x b_y k c r :=
  eps * (W Gx ux c r + W Gy uy c r) + (b_x * W V ux c r + b_y * W V uy c r) + k * W V u c r - entry F r c.
Definition Rhelm eps k c r := - eps * (W Gx ux c r + W Gy uy c r) + k ^ 2 * W V u c r - entry F r c.

Lemma F_mk : F = mk T C (entry F).
Proof. apply mk_of. apply H. Qed.

Lemma poisson_value : forall d eps, has d "eps" eps ->
  loss_poisson V Gx Gy u ux uy F (Some d) = Ok (tab C (fun c => mean_sq T (Rpoisson eps c))).
Proof.
  intros d eps Hd. destruct H. unfold loss_poisson. run_loss. rewrite F_mk at 1. run_loss.
  now rewrite mean_square_mk.
Qed.
Lemma poisson_inverse_value : forall bp d eps, has d "eps" eps ->
  loss_poisson_inverse V Gx Gy u ux uy F bp (Some d) = Ok (tab C (fun c => mean_sq T (Rpoisson eps c))).
Proof.
  intros bp d eps Hd. destruct H. unfold loss_poisson_inverse. run_loss. rewrite F_mk at 1. run_loss.
  now rewrite mean_square_mk.
Qed.
Lemma cd_tail_value : forall dif d b_x b_y k, has d "b_x" b_x -> has d "b_y" b_y -> has d "c" k ->
  cd_tail V u ux uy F (mk T C dif) (Some d) =
  Ok (tab C (fun c => mean_sq T (fun r => dif r c + (b_x * W V ux c r + b_y * W V uy c r) + k * W V u c r - entry F r c))).
Proof.
  intros. destruct H. unfold cd_tail. run_loss. rewrite F_mk at 1. run_loss. now rewrite mean_square_mk.
Qed.
Lemma cd2d_value : forall d eps b_x b_y k, has d "eps" eps -> has d "b_x" b_x -> has d "b_y" b_y -> has d "c" k ->
  loss_cd2d V Gx Gy u ux uy F (Some d) = Ok (tab C (fun c => mean_sq T (Rcd eps b_x b_y k c))).
Proof.
  intros. pose proof H as [? ? ? ? ? ? ? ? ?]. unfold loss_cd2d. run_loss.
  erewrite cd_tail_value by eassumption. reflexivity.
Qed.
Lemma cd2d_inverse_value : forall d ip eps b_x b_y k, has ip "eps" eps -> has d "b_x" b_x -> has d "b_y" b_y -> has d "c" k ->
  loss_cd2d_inverse V Gx Gy u ux uy F (Some d) (Some ip) = Ok (tab C (fun c => mean_sq T (Rcd eps b_x b_y k c))).
Proof.
  intros. pose proof H as [? ? ? ? ? ? ? ? ?]. unfold loss_cd2d_inverse. run_loss.
  erewrite cd_tail_value by eassumption. reflexivity.
Qed.
Lemma helmholtz_value : forall d eps k, has d "eps" eps -> has d "k" k ->
  loss_helmholtz V Gx Gy u ux uy F (Some d) = Ok (tab C (fun c => mean_sq T (Rhelm eps k c))).
Proof.
  intros d eps k He Hk. destruct H. unfold loss_helmholtz. run_loss. rewrite F_mk at 1. run_loss.
  rewrite mean_square_mk by auto. f_equal. apply tab_ext. intros c Hc. unfold mean_sq. f_equal.
  change Sum with rsum. apply rsum_ext. intros r Hr. unfold Rhelm. to_R. change (IZR (-1)) with (-1). f_equal. ring.
Qed.
Lemma cd2d_inverse_domain_value : forall d e rest b_x b_y k, has_shape e C Q -> has d "b_x" b_x -> has d "b_y" b_y -> has d "c" k ->
  loss_cd2d_inverse_domain V Gx Gy u ux uy F (Some d) (e :: rest) =
  Ok (tab C (fun c => mean_sq T (fun r =>
    Sum (fun q => entry3 Gx c r q * (entry ux c q * entry e c q)) Q + Sum (fun q => entry3 Gy c r q * (entry uy c q * entry e c q)) Q
    + (b_x * W V ux c r + b_y * W V uy c r) + k * W V u c r - entry F r c))).
Proof.
  intros. pose proof H as [? HGx HGy ? Hux Huy ? ? ?]. unfold loss_cd2d_inverse_domain.
  rewrite (mk_of _ _ _ Hux) at 1. rewrite (mk_of e C Q) at 1 by auto. rewrite bc2_mk. cbn [bind].
  rewrite (mk3_of _ _ _ _ HGx) at 1. rewrite tmv_mk by auto. cbn [bind].
  rewrite (mk_of _ _ _ Huy) at 1. rewrite (mk_of e C Q) at 1 by auto. rewrite bc2_mk. cbn [bind].
  rewrite (mk3_of _ _ _ _ HGy) at 1. rewrite tmv_mk by auto. cbn [bind].
  rewrite bc2_mk. cbn [bind]. erewrite cd_tail_value by eassumption. reflexivity.
Qed.

(* missing parameters *)
Lemma dget_lacks : forall d k, lacks d k -> dget String.eqb d k = Err KeyError.
Proof.
  unfold lacks. induction d as [|[k' v] d IH]; simpl; intros k Hn; auto.
  destruct (String.eqb_spec k k'); [subst; tauto|]. apply IH. tauto.
Qed.
End Losses.

Lemma mean_sq_nonneg : forall T res, 0 <= mean_sq T res.
Proof.
  intros. unfold mean_sq. destruct T.
  - simpl. unfold Rdiv. lra.
  - apply Rmult_le_pos. apply rsum_nonneg. intros. apply pow2_ge_0.
    apply Rlt_le, Rinv_0_lt_compat. apply lt_0_INR. lia.
Qed.
Lemma Sum_sq_0 : forall T res, Sum (fun r => res r ^ 2) T = 0 -> forall r, (r < T)%nat -> res r = 0.
Proof.
  induction T; simpl; intros res Hs r Hr; [lia|].
  assert (0 <= Sum (fun r => res r * (res r * 1)) T).
  { apply (rsum_nonneg (fun r => res r * (res r * 1))). intros. nra. }
  assert (E : res T * (res T * 1) = 0) by nra.
  destruct (Nat.eq_dec r T); [subst; nra|]. apply IHT; [|lia]. simpl. nra.
Qed.
Lemma mean_sq_zero : forall T res, (0 < T)%nat -> mean_sq T res = 0 <-> forall r, (r < T)%nat -> res r = 0.
Proof.
  intros T res HT. assert (0 < INR T) by (apply lt_0_INR; auto). unfold mean_sq. split.
  - intros E. apply Sum_sq_0. apply Rmult_integral in E. destruct E as [E|E]; auto.
    exfalso. apply Rinv_neq_0_compat in E; auto. lra.
  - intros E. replace (Sum (fun r => res r ^ 2) T) with 0; [unfold Rdiv; lra|].
    symmetry. change Sum with rsum. rewrite (rsum_ext _ (fun _ => 0)). apply rsum_0. intros. rewrite E by auto. ring.
Qed.
Lemma mean_sq_ext : forall T f g, (forall r, (r < T)%nat -> f r ^ 2 = g r ^ 2) -> mean_sq T f = mean_sq T g.
Proof. intros. unfold mean_sq. f_equal. change Sum with rsum. now apply rsum_ext. Qed.

(* ---------- the statements of C31, C32 ---------- *)
(* Per cell the mean over T tests of the squared residual; non-negative; zero exactly when
   every equation of the cell holds. *)
Definition is_mean_sq (l : list R) (C T : nat) (res : nat -> nat -> R) : Prop :=
  length l = C /\ forall c, (c < C)%nat ->
    nth c l 0 = Sum (fun r => res c r ^ 2) T / INR T /\ 0 <= nth c l 0 /\
    (nth c l 0 = 0 <-> forall r, (r < T)%nat -> res c r = 0).
Lemma is_mean_sq_tab : forall C T res, (0 < T)%nat -> is_mean_sq (tab C (fun c => mean_sq T (res c))) C T res.
Proof.
  intros C T res HT. split; [apply tab_length|]. intros c Hc. rewrite tab_nth by auto.
  split; [reflexivity|]. split; [apply mean_sq_nonneg | now apply mean_sq_zero].
Qed.

Definition bparams (d : pdict R) : list (string * pyval R) := [("bilinear_params"%string, VDict d)].
Definition iparams (d : pdict R) : list (string * pyval R) := [("inverse_params_dict"%string, VDict d)].
Definition plist (l : list (mat R)) : list (string * pyval R) := [("inverse_params_list"%string, VList l)].

Section Calls.
Variables (V Gx Gy : list (mat R)) (u ux uy F : mat R).
Lemma call_poisson : forall d, call_kw pde_loss_poisson (args V Gx Gy u ux uy F ++ bparams d) = loss_poisson V Gx Gy u ux uy F d.
Proof. reflexivity. Qed.
Lemma call_cd2d : forall d, call_kw pde_loss_cd2d (args V Gx Gy u ux uy F ++ bparams d) = loss_cd2d V Gx Gy u ux uy F d.
Proof. reflexivity. Qed.
Lemma call_helmholtz : forall d, call_kw pde_loss_helmholtz (args V Gx Gy u ux uy F ++ bparams d) = loss_helmholtz V Gx Gy u ux uy F d.
Proof. reflexivity. Qed.
Lemma call_poisson_inverse : forall d ip, call_kw pde_loss_poisson_inverse (args V Gx Gy u ux uy F ++ bparams d ++ iparams ip) =
  loss_poisson_inverse V Gx Gy u ux uy F d ip.
Proof. reflexivity. Qed.
Lemma call_cd2d_inverse : forall d ip, call_kw pde_loss_cd2d_inverse (args V Gx Gy u ux uy F ++
  [("bilinear_params_dict"%string, VDict d); ("inverse_param_dict"%string, VDict ip)]) = loss_cd2d_inverse V Gx Gy u ux uy F d ip.
Proof. reflexivity. Qed.
Lemma call_domain : forall d l, call_kw pde_loss_cd2d_inverse_domain (args V Gx Gy u ux uy F ++ bparams d ++ plist l) =
  loss_cd2d_inverse_domain V Gx Gy u ux uy F d l.
Proof. reflexivity. Qed.

Variables (C T Q : nat).
Hypothesis H : fits V Gx Gy u ux uy F C T Q.
Let I t v c r := Sum (fun q => entry3 t c r q * entry v c q) Q.

Lemma poisson_spec : forall d eps, has d "eps" eps -> exists l,
  call_kw pde_loss_poisson (args V Gx Gy u ux uy F ++ bparams (Some d)) = Ok l /\
  is_mean_sq l C T (fun c r => eps * (I Gx ux c r + I Gy uy c r) - entry F r c).
Proof.
  intros. eexists. rewrite call_poisson. split; [eapply poisson_value; eauto|].
  apply (is_mean_sq_tab C T (Rpoisson Gx Gy ux uy F Q eps)). apply H.
Qed.
Lemma poisson_inverse_spec : forall d ip eps, has ip "eps" eps -> exists l,
  call_kw pde_loss_poisson_inverse (args V Gx Gy u ux uy F ++ bparams d ++ iparams (Some ip)) = Ok l /\
  is_mean_sq l C T (fun c r => eps * (I Gx ux c r + I Gy uy c r) - entry F r c).
Proof.
  intros. eexists. rewrite call_poisson_inverse. split; [eapply poisson_inverse_value; eauto|].
  apply (is_mean_sq_tab C T (Rpoisson Gx Gy ux uy F Q eps)). apply H.
Qed.
Lemma cd2d_spec : forall d eps b_x b_y k, has d "eps" eps -> has d "b_x" b_x -> has d "b_y" b_y -> has d "c" k -> exists l,
  call_kw pde_loss_cd2d (args V Gx Gy u ux uy F ++ bparams (Some d)) = Ok l /\
  is_mean_sq l C T (fun c r => eps * (I Gx ux c r + I Gy uy c r) + (b_x * I V ux c r + b_y * I V uy c r) + k * I V u c r - entry F r c).
Proof.
  intros. eexists. rewrite call_cd2d. split; [eapply cd2d_value; eauto|].
  apply (is_mean_sq_tab C T (Rcd V Gx Gy u ux uy F Q eps b_x b_y k)). apply H.
Qed.
Lemma cd2d_inverse_spec : forall d ip eps b_x b_y k, has ip "eps" eps -> has d "b_x" b_x -> has d "b_y" b_y -> has d "c" k -> exists l,
  call_kw pde_loss_cd2d_inverse (args V Gx Gy u ux uy F ++
    [("bilinear_params_dict"%string, VDict (Some d)); ("inverse_param_dict"%string, VDict (Some ip))]) = Ok l /\
  is_mean_sq l C T (fun c r => eps * (I Gx ux c r + I Gy uy c r) + (b_x * I V ux c r + b_y * I V uy c r) + k * I V u c r - entry F r c).
Proof.
  intros. eexists. rewrite call_cd2d_inverse. split; [eapply cd2d_inverse_value; eauto|].
  apply (is_mean_sq_tab C T (Rcd V Gx Gy u ux uy F Q eps b_x b_y k)). apply H.
Qed.
Lemma domain_spec : forall d e b_x b_y k, has_shape e C Q -> has d "b_x" b_x -> has d "b_y" b_y -> has d "c" k -> exists l,
  call_kw pde_loss_cd2d_inverse_domain (args V Gx Gy u ux uy F ++ bparams (Some d) ++ plist [e]) = Ok l /\
  is_mean_sq l C T (fun c r =>
    Sum (fun q => entry3 Gx c r q * (entry ux c q * entry e c q)) Q + Sum (fun q => entry3 Gy c r q * (entry uy c q * entry e c q)) Q
    + (b_x * I V ux c r + b_y * I V uy c r) + k * I V u c r - entry F r c).
Proof.
  intros. eexists. rewrite call_domain. split; [eapply cd2d_inverse_domain_value; eauto|].
  match goal with |- is_mean_sq _ _ _ ?f => apply (is_mean_sq_tab C T f) end. apply H.
Qed.
Lemma helmholtz_spec : forall d eps k, has d "eps" eps -> has d "k" k -> exists l,
  call_kw pde_loss_helmholtz (args V Gx Gy u ux uy F ++ bparams (Some d)) = Ok l /\
  is_mean_sq l C T (fun c r => - (eps * (I Gx ux c r + I Gy uy c r)) + k ^ 2 * I V u c r - entry F r c).
Proof.
  intros d eps k He Hk. eexists. rewrite call_helmholtz. split; [eapply helmholtz_value; eauto|].
  replace (tab C _) with (tab C (fun c => mean_sq T (fun r => - (eps * (I Gx ux c r + I Gy uy c r)) + k ^ 2 * I V u c r - entry F r c))).
  { match goal with |- is_mean_sq _ _ _ ?f => apply (is_mean_sq_tab C T f) end. apply H. }
  apply tab_ext. intros c Hc. apply mean_sq_ext. intros r Hr. unfold Rhelm. f_equal. unfold I, weak. ring.
Qed.

(* missing parameters, or None for the dictionary *)
Lemma missing_param : forall d, 
  (lacks d "eps" -> call_kw pde_loss_poisson (args V Gx Gy u ux uy F ++ bparams (Some d)) = Err KeyError /\
     call_kw pde_loss_cd2d (args V Gx Gy u ux uy F ++ bparams (Some d)) = Err KeyError /\
     call_kw pde_loss_helmholtz (args V Gx Gy u ux uy F ++ bparams (Some d)) = Err KeyError) /\
  (forall eps, has d "eps" eps -> lacks d "b_x" \/ lacks d "b_y" \/ lacks d "c" ->
     call_kw pde_loss_cd2d (args V Gx Gy u ux uy F ++ bparams (Some d)) = Err KeyError) /\
  (forall eps, has d "eps" eps -> lacks d "k" ->
     call_kw pde_loss_helmholtz (args V Gx Gy u ux uy F ++ bparams (Some d)) = Err KeyError) /\
  (call_kw pde_loss_poisson (args V Gx Gy u ux uy F ++ bparams None) = Err TypeError /\
   call_kw pde_loss_cd2d (args V Gx Gy u ux uy F ++ bparams None) = Err TypeError /\
   call_kw pde_loss_helmholtz (args V Gx Gy u ux uy F ++ bparams None) = Err TypeError).
Proof.
  intros d. rewrite !call_poisson, !call_cd2d, !call_helmholtz. pose proof H as [? ? ? ? ? ? ? ? ?].
  assert (L : forall k, lacks d k -> pget (Some d) k = Err KeyError) by (intros; now apply dget_lacks).
  unfold loss_poisson, loss_cd2d, loss_helmholtz. run_loss.
  split; [intros Hl; rewrite (L _ Hl); auto|]. split; [|split; [|auto]].
  - intros eps He Hl. run_loss. unfold cd_tail. run_loss.
    assert (X : forall k, pget (Some d) k = Err KeyError \/ exists v, pget (Some d) k = Ok v).
    { intros k. destruct (pget (Some d) k) eqn:E; eauto. left. clear - E. unfold pget in E.
      induction d as [|[k' v'] r IH]; simpl in E; [congruence|]. destruct (String.eqb k k'); [discriminate|auto]. }
    destruct (X "b_x"%string) as [-> | [vx Ex]]; [reflexivity|]. rewrite Ex. cbn [bind].
    destruct (X "b_y"%string) as [-> | [vy Ey]]; [reflexivity|]. rewrite Ey. cbn [bind]. rewrite !mscale_mk, bc2_mk. cbn [bind].
    destruct Hl as [Hl|[Hl|Hl]]; apply L in Hl; try congruence. rewrite Hl. reflexivity.
  - intros eps He Hl. run_loss. rewrite (L _ Hl). reflexivity.
Qed.

(* ---------- C32 ---------- *)
Lemma consistency_zero : forall d dp eps, has d "eps" eps -> has d "b_x" 0 -> has d "b_y" 0 -> has d "c" 0 -> has dp "eps" eps ->
  call_kw pde_loss_cd2d (args V Gx Gy u ux uy F ++ bparams (Some d)) =
  call_kw pde_loss_poisson (args V Gx Gy u ux uy F ++ bparams (Some dp)).
Proof.
  intros. rewrite call_cd2d, call_poisson. erewrite cd2d_value, poisson_value by eauto.
  apply (f_equal Ok). apply tab_ext. intros c Hc. apply mean_sq_ext. intros r Hr. unfold Rcd, Rpoisson. f_equal. ring.
Qed.
Lemma consistency_inverse : forall d ip bp eps, has d "eps" eps -> has ip "eps" eps ->
  call_kw pde_loss_poisson_inverse (args V Gx Gy u ux uy F ++ bparams bp ++ iparams (Some ip)) =
  call_kw pde_loss_poisson (args V Gx Gy u ux uy F ++ bparams (Some d)).
Proof. intros. rewrite call_poisson_inverse, call_poisson. erewrite poisson_inverse_value, poisson_value by eauto. reflexivity. Qed.
Lemma consistency_cd_inverse : forall d dp ip eps b_x b_y k, has d "eps" eps -> has d "b_x" b_x -> has d "b_y" b_y -> has d "c" k ->
  has ip "eps" eps -> has dp "b_x" b_x -> has dp "b_y" b_y -> has dp "c" k ->
  call_kw pde_loss_cd2d_inverse (args V Gx Gy u ux uy F ++
    [("bilinear_params_dict"%string, VDict (Some dp)); ("inverse_param_dict"%string, VDict (Some ip))]) =
  call_kw pde_loss_cd2d (args V Gx Gy u ux uy F ++ bparams (Some d)).
Proof. intros. rewrite call_cd2d_inverse, call_cd2d. erewrite cd2d_inverse_value, cd2d_value by eauto. reflexivity. Qed.
Lemma consistency_domain : forall d dp e eps b_x b_y k, has d "eps" eps -> has d "b_x" b_x -> has d "b_y" b_y -> has d "c" k ->
  has dp "b_x" b_x -> has dp "b_y" b_y -> has dp "c" k ->
  has_shape e C Q -> (forall c q, (c < C)%nat -> (q < Q)%nat -> entry e c q = eps) ->
  call_kw pde_loss_cd2d_inverse_domain (args V Gx Gy u ux uy F ++ bparams (Some dp) ++ plist [e]) =
  call_kw pde_loss_cd2d (args V Gx Gy u ux uy F ++ bparams (Some d)).
Proof.
  intros. rewrite call_domain, call_cd2d. erewrite cd2d_inverse_domain_value, cd2d_value by eauto.
  apply (f_equal Ok). apply tab_ext. intros c Hc. apply mean_sq_ext. intros r Hr. unfold Rcd, weak. f_equal.
  assert (Ex : forall t v, Sum (fun q => entry3 t c r q * (entry v c q * entry e c q)) Q = eps * Sum (fun q => entry3 t c r q * entry v c q) Q).
  { intros t v. change Sum with rsum. rewrite <- rsum_scal. apply rsum_ext. intros q Hq. match goal with K : forall c q, _ |- _ => rewrite K by auto end. ring. }
  rewrite !Ex. ring.
Qed.
Lemma consistency_helmholtz : forall d dh F' eps k, has dh "eps" eps -> has dh "k" k ->
  has d "eps" eps -> has d "b_x" 0 -> has d "b_y" 0 -> has d "c" (- k ^ 2) ->
  has_shape F' T C -> (forall r c, (r < T)%nat -> (c < C)%nat -> entry F' r c = - entry F r c) ->
  call_kw pde_loss_helmholtz (args V Gx Gy u ux uy F ++ bparams (Some dh)) =
  call_kw pde_loss_cd2d (args V Gx Gy u ux uy F' ++ bparams (Some d)).
Proof.
  intros d dh F' eps k H0 H1 H2 H3 H4 H5 H6 H7. pose proof H as [? ? ? ? ? ? ? ? ?].
  assert (H' : fits V Gx Gy u ux uy F' C T Q) by (constructor; auto).
  rewrite call_helmholtz. change (call_kw pde_loss_cd2d _) with (loss_cd2d V Gx Gy u ux uy F' (Some d)).
  erewrite (helmholtz_value V Gx Gy u ux uy F C T Q H) by eauto. erewrite (cd2d_value V Gx Gy u ux uy F' C T Q H') by eauto.
  apply (f_equal Ok). apply tab_ext. intros c Hc. apply mean_sq_ext. intros r Hr. unfold Rcd, Rhelm. rewrite H7 by auto. ring.
Qed.
End Calls.
