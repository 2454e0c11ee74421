(* Rounding errors of the training step (C67). *)
From Coq Require Import String ZArith List Arith Lia Bool Reals Lra Psatz Permutation.
From Flocq Require Import Core Relative.
From Verif Require Import Num Py PyFacts Basis Tensor Physics Train RCalc PolyFacts ListFacts Spec TensorFacts SpecTrain PhysicsFacts TrainFacts Rounding SpecRound.
Import ListNotations.
Local Open Scope R_scope.

(* ---------- one rounding operation ---------- *)
Section Near.
Variables (rnd : R -> R) (u : R) (N : Z).
Hypothesis Hr : rounding rnd u N.
Let g (k : nat) : R := (1 + u) ^ k.
Definition near (k : nat) (b x x' : R) : Prop := Rabs x <= b /\ Rabs (x' - x) <= ((1 + u) ^ k - 1) * b.

Lemma g_ge1 : forall k, 1 <= (1 + u) ^ k.
Proof. intros k. pose proof (rd_u _ _ _ Hr). apply pow_R1_Rle. lra. Qed.
Lemma g_mono : forall k l, (k <= l)%nat -> (1 + u) ^ k <= (1 + u) ^ l.
Proof. intros k l H. pose proof (rd_u _ _ _ Hr). apply Rle_pow; [lra | exact H]. Qed.
Lemma near_mono : forall k l b c x x', near k b x x' -> (k <= l)%nat -> b <= c -> near l c x x'.
Proof.
  intros k l b c x x' [A B] Hk Hb. split; [lra|]. pose proof (g_ge1 k). pose proof (g_mono k l Hk). pose proof (Rabs_pos x).
  apply Rle_trans with (((1 + u) ^ k - 1) * b); [exact B|]. apply Rmult_le_compat; lra.
Qed.
Lemma near_same : forall k x, near k (Rabs x) x x.
Proof.
  intros k x. split; [lra|]. replace (x - x) with 0 by ring. rewrite Rabs_R0. pose proof (g_ge1 k). pose proof (Rabs_pos x). apply Rmult_le_pos; lra.
Qed.
Lemma near_rnd : forall k b x x', near k b x x' -> near (S k) b x (rnd x').
Proof.
  intros k b x x' [A B]. split; [exact A|]. pose proof (rd_rel _ _ _ Hr x') as E. pose proof (rd_u _ _ _ Hr) as Hu.
  replace (rnd x' - x) with ((rnd x' - x') + (x' - x)) by ring. eapply Rle_trans; [apply Rabs_triang|].
  assert (F : Rabs x' <= b + ((1 + u) ^ k - 1) * b).
  { replace x' with (x + (x' - x)) by ring. eapply Rle_trans; [apply Rabs_triang|]. lra. }
  apply Rle_trans with (u * (b + ((1 + u) ^ k - 1) * b) + ((1 + u) ^ k - 1) * b).
  - apply Rplus_le_compat; [|exact B]. eapply Rle_trans; [exact E|]. now apply Rmult_le_compat_l.
  - simpl. right. ring.
Qed.
Lemma near_cast : forall x, near 1 (Rabs x) x (rnd x).
Proof. intros x. apply near_rnd, near_same. Qed.
Lemma near_add : forall k b c x x' y y', near k b x x' -> near k c y y' -> near (S k) (b + c) (x + y) (rnd (x' + y')).
Proof.
  intros k b c x x' y y' [A B] [C D]. apply near_rnd. split.
  - eapply Rle_trans; [apply Rabs_triang|]. lra.
  - replace (x' + y' - (x + y)) with ((x' - x) + (y' - y)) by ring. eapply Rle_trans; [apply Rabs_triang|]. lra.
Qed.
Lemma near_opp : forall k b x x', near k b x x' -> near k b (- x) (- x').
Proof. intros k b x x' [A B]. split; [now rewrite Rabs_Ropp|]. replace (- x' - - x) with (- (x' - x)) by ring. now rewrite Rabs_Ropp. Qed.
Lemma near_sub : forall k b c x x' y y', near k b x x' -> near k c y y' -> near (S k) (b + c) (x - y) (rnd (x' - y')).
Proof. intros k b c x x' y y' H K. unfold Rminus. apply near_add; [exact H | now apply near_opp]. Qed.
Lemma near_mul : forall k l b c x x' y y', near k b x x' -> near l c y y' -> near (S (k + l)) (b * c) (x * y) (rnd (x' * y')).
Proof.
  intros k l b c x x' y y' [A B] [C D]. apply near_rnd. pose proof (Rabs_pos x). pose proof (Rabs_pos y). pose proof (g_ge1 k). pose proof (g_ge1 l). split.
  - rewrite Rabs_mult. apply Rmult_le_compat; lra.
  - replace (x' * y' - x * y) with ((x' - x) * (y' - y) + (x' - x) * y + x * (y' - y)) by ring.
    eapply Rle_trans; [apply Rabs_triang|]. eapply Rle_trans; [apply Rplus_le_compat_r, Rabs_triang|]. rewrite !Rabs_mult, pow_add.
    pose proof (Rabs_pos (x' - x)). pose proof (Rabs_pos (y' - y)).
    apply Rle_trans with ((((1 + u) ^ k - 1) * b) * (((1 + u) ^ l - 1) * c) + (((1 + u) ^ k - 1) * b) * c + b * (((1 + u) ^ l - 1) * c)).
    + apply Rplus_le_compat; [apply Rplus_le_compat|]; apply Rmult_le_compat; lra.
    + right. ring.
Qed.
Lemma near_div : forall k b x x' d, 0 < d -> near k b x x' -> near (S k) (b / d) (x / d) (rnd (x' / d)).
Proof.
  intros k b x x' d Hd [A B]. apply near_rnd. assert (Hi : 0 < / d) by now apply Rinv_0_lt_compat. unfold Rdiv. split.
  - rewrite Rabs_mult, (Rabs_pos_eq (/ d)) by lra. apply Rmult_le_compat_r; lra.
  - replace (x' * / d - x * / d) with ((x' - x) * / d) by ring. rewrite Rabs_mult, (Rabs_pos_eq (/ d)) by lra.
    rewrite <- Rmult_assoc. apply Rmult_le_compat_r; lra.
Qed.
Lemma rnd0 : rnd 0 = 0.
Proof. pose proof (rd_rel _ _ _ Hr 0) as E. rewrite Rabs_R0, Rmult_0_r in E. pose proof (Rabs_pos (rnd 0 - 0)). assert (K : Rabs (rnd 0 - 0) = 0) by lra.
  destruct (Req_dec (rnd 0 - 0) 0); [lra|]. now apply Rabs_no_R0 in H0. Qed.
Lemma near_vsum : forall {X} (l : list X) k (b f f' : X -> R), (forall i, In i l -> near k (b i) (f i) (f' i)) ->
  near (k + length l) (vsum (map b l)) (vsum (map f l)) (@vsum R (Num_rnd rnd) (map f' l)).
Proof.
  intros X l k b f f' H. induction l as [|a l IH].
  - change (near (k + 0) 0 0 (rnd 0)). rewrite rnd0. split; [rewrite Rabs_R0; lra|]. replace (0 - 0) with 0 by ring. rewrite Rabs_R0. lra.
  - cbn [map length]. change (near (k + S (length l)) (b a + vsum (map b l)) (f a + vsum (map f l)) (rnd (f' a + @vsum R (Num_rnd rnd) (map f' l)))).
    replace (k + S (length l))%nat with (S (k + length l)) by lia. apply near_add.
    + apply near_mono with k (b a); [apply H; now left | lia | lra].
    + apply IH. intros i Hi. apply H. now right.
Qed.
Lemma near_sum : forall n k (b f f' : nat -> R), (forall i, (i < n)%nat -> near k (b i) (f i) (f' i)) ->
  near (k + n) (Sum b n) (Sum f n) (@vsum R (Num_rnd rnd) (tab n f')).
Proof.
  intros n k b f f' H. rewrite <- !tab_vsum. unfold tab. replace (k + n)%nat with (k + length (seq 0 n))%nat by now rewrite seq_length.
  apply near_vsum. intros i Hi. apply in_seq in Hi. apply H. lia.
Qed.
Lemma near_nofnat : forall n, (Z.of_nat n <= N)%Z -> @nofnat R (Num_rnd rnd) n = INR n.
Proof. intros n H. unfold nofnat. cbn. rewrite (rd_int _ _ _ Hr) by lia. now rewrite <- INR_IZR_INZ. Qed.
(* the mean of squares *)
Lemma near_mean_sq : forall n k (b f f' : nat -> R), (0 < n)%nat -> (Z.of_nat n <= N)%Z -> (forall i, (i < n)%nat -> near k (b i) (f i) (f' i)) ->
  near (2 * k + n + 2) (Sum (fun i => b i ^ 2) n / INR n) (Sum (fun i => f i ^ 2) n / INR n)
    (@vmean R (Num_rnd rnd) (tab n (fun i => rnd (f' i * f' i)))).
Proof.
  intros n k b f f' Hn HN H. unfold vmean. rewrite tab_length, near_nofnat by exact HN. cbn [ndiv Num_rnd].
  replace (2 * k + n + 2)%nat with (S (S (k + k) + n)) by lia. apply near_div; [now apply lt_0_INR|].
  apply near_sum. intros i Hi. simpl. rewrite !Rmult_1_r. apply near_mul; auto.
Qed.
End Near.

(* ---------- the training step for any operations on R ---------- *)
Section Ops.
Variable I : Num R.
Notation "x +' y" := (@nadd R I x y) (at level 50, left associativity).
Notation "x -' y" := (@nsub R I x y) (at level 50, left associativity).
Notation "x *' y" := (@nmul R I x y) (at level 40, left associativity).
Lemma o_mscale : forall a r c f, @mscale R I a (mk r c f) = mk r c (fun i j => a *' f i j).
Proof. intros. unfold mscale, mk. rewrite tab_map. apply tab_ext. intros. now rewrite tab_map. Qed.
Lemma o_transpose : forall r c f, (0 < r)%nat -> @transpose R I (mk r c f) = mk c r (fun i j => f j i).
Proof.
  intros r c f H. unfold transpose. rewrite width_mk by auto. unfold mk at 2. unfold tab at 1.
  apply map_ext_in. intros j Hj. apply in_seq in Hj. unfold mk. rewrite tab_map. apply tab_ext. intros i Hi.
  now rewrite tab_nth by lia.
Qed.
Definition o_weak (t : list (mat R)) (v : mat R) (Q c r : nat) : R := @vsum R I (tab Q (fun q => entry3 t c r q *' entry v c q)).
Lemma o_tmv : forall t v C T Q, shape3 t C T Q -> has_shape v C Q -> (0 < C)%nat ->
  @tmv R I t v = Ok (mk T C (fun r c => o_weak t v Q c r)).
Proof.
  intros t v C T Q Ht Hv HC. rewrite (mk3_of _ _ _ _ Ht) at 1. rewrite (mk_of _ _ _ Hv) at 1. unfold tmv, matvec, mk3. unfold mk at 2.
  erewrite bcastM_tab with (k := fun c => tab T (fun r => o_weak t v Q c r)).
  - cbn [bind]. change (tab C (fun c => tab T (fun r => o_weak t v Q c r))) with (mk C T (fun c r => o_weak t v Q c r)). now rewrite o_transpose.
  - intros i Hi. unfold mat_vec, mk. apply tab_mapM. intros k Hk. rewrite !tab_length, Nat.eqb_refl. apply (f_equal Ok).
    unfold dot, vmul. rewrite tab_map2. reflexivity.
Qed.
Definition o_mean_sq (T : nat) (res : nat -> R) : R := @vmean R I (tab T (fun r => res r *' res r)).
Lemma o_mean_square : forall T C f, (0 < T)%nat -> @mean_square R I (mk T C f) = tab C (fun c => o_mean_sq T (fun r => f r c)).
Proof.
  intros. unfold mean_square, reduce_mean0.
  replace (@msquare R I (mk T C f)) with (mk T C (fun i j => f i j *' f i j)).
  - rewrite o_transpose by auto. unfold mk. rewrite tab_map. reflexivity.
  - unfold msquare, mk. rewrite tab_map. apply tab_ext. intros. now rewrite tab_map.
Qed.
Ltac run_o := repeat first
    [ erewrite o_tmv by eassumption
    | rewrite bc2_mk
    | rewrite o_mscale
    | match goal with H : has _ ?k _ |- context [@pget R (Some _) ?k] => rewrite (pget_has _ _ _ H) end
    | progress cbn [bind] ].

Section Losses.
Variables (V Gx Gy : list (mat R)) (u ux uy F : mat R) (C T Q : nat).
Hypothesis H : fits V Gx Gy u ux uy F C T Q.
Notation W := (fun t v c r => o_weak t v Q c r).
Definition Opoisson eps c r := (eps *' (W Gx ux c r +' W Gy uy c r)) -' entry F r c.
Definition Ocd eps b_x b_y k c r :=
  ((eps *' (W Gx ux c r +' W Gy uy c r)) +' ((b_x *' W V ux c r) +' (b_y *' W V uy c r)) +' (k *' W V u c r)) -' entry F r c.
Definition Ohelm eps k c r := ((@nofZ R I (-1) *' (eps *' (W Gx ux c r +' W Gy uy c r))) +' ((k *' k) *' W V u c r)) -' entry F r c.
Definition prod (v e : mat R) : mat R := mk C Q (fun c q => entry v c q *' entry e c q).
Definition Odom e b_x b_y k c r :=
  ((W Gx (prod ux e) c r +' W Gy (prod uy e) c r) +' ((b_x *' W V ux c r) +' (b_y *' W V uy c r)) +' (k *' W V u c r)) -' entry F r c.

Lemma o_poisson : forall d eps, has d "eps" eps -> @loss_poisson R I V Gx Gy u ux uy F (Some d) = Ok (tab C (fun c => o_mean_sq T (Opoisson eps c))).
Proof.
  intros d eps Hd. pose proof (F_mk _ _ _ _ _ _ _ _ _ _ H) as E. destruct H. unfold loss_poisson. run_o. rewrite E at 1. run_o. now rewrite o_mean_square.
Qed.
Lemma o_poisson_inverse : forall bp d eps, has d "eps" eps ->
  @loss_poisson_inverse R I V Gx Gy u ux uy F bp (Some d) = Ok (tab C (fun c => o_mean_sq T (Opoisson eps c))).
Proof.
  intros bp d eps Hd. pose proof (F_mk _ _ _ _ _ _ _ _ _ _ H) as E. destruct H. unfold loss_poisson_inverse. run_o. rewrite E at 1. run_o. now rewrite o_mean_square.
Qed.
Lemma o_cd_tail : forall dif d b_x b_y k, has d "b_x" b_x -> has d "b_y" b_y -> has d "c" k ->
  @cd_tail R I V u ux uy F (mk T C dif) (Some d) =
  Ok (tab C (fun c => o_mean_sq T (fun r => (dif r c +' ((b_x *' W V ux c r) +' (b_y *' W V uy c r)) +' (k *' W V u c r)) -' entry F r c))).
Proof.
  intros. pose proof (F_mk _ _ _ _ _ _ _ _ _ _ H) as E. destruct H. unfold cd_tail. run_o. rewrite E at 1. run_o. now rewrite o_mean_square.
Qed.
Lemma o_cd2d : forall d eps b_x b_y k, has d "eps" eps -> has d "b_x" b_x -> has d "b_y" b_y -> has d "c" k ->
  @loss_cd2d R I V Gx Gy u ux uy F (Some d) = Ok (tab C (fun c => o_mean_sq T (Ocd eps b_x b_y k c))).
Proof.
  intros. pose proof H as [? ? ? ? ? ? ? ? ?]. unfold loss_cd2d. run_o. erewrite o_cd_tail by eassumption. reflexivity.
Qed.
Lemma o_helmholtz : forall d eps k, has d "eps" eps -> has d "k" k ->
  @loss_helmholtz R I V Gx Gy u ux uy F (Some d) = Ok (tab C (fun c => o_mean_sq T (Ohelm eps k c))).
Proof.
  intros d eps k He Hk. pose proof (F_mk _ _ _ _ _ _ _ _ _ _ H) as E. destruct H. unfold loss_helmholtz. run_o. rewrite E at 1. run_o. now rewrite o_mean_square.
Qed.
Lemma o_domain : forall d e rest b_x b_y k, has_shape e C Q -> has d "b_x" b_x -> has d "b_y" b_y -> has d "c" k ->
  @loss_cd2d_inverse_domain R I V Gx Gy u ux uy F (Some d) (e :: rest) = Ok (tab C (fun c => o_mean_sq T (Odom e b_x b_y k c))).
Proof.
  intros d e rest b_x b_y k He Hb1 Hb2 Hk. pose proof H as [? HGx HGy ? Hux Huy ? ? ?]. unfold loss_cd2d_inverse_domain.
  assert (Ex : @bc2 R (@nmul R I) ux e = Ok (prod ux e)) by (rewrite (mk_of _ _ _ Hux) at 1; rewrite (mk_of e C Q) at 1 by auto; apply bc2_mk).
  assert (Ey : @bc2 R (@nmul R I) uy e = Ok (prod uy e)) by (rewrite (mk_of _ _ _ Huy) at 1; rewrite (mk_of e C Q) at 1 by auto; apply bc2_mk).
  rewrite Ex, Ey. cbn [bind]. rewrite (o_tmv Gx (prod ux e) C T Q) by (auto; apply mk_shape). cbn [bind].
  rewrite (o_tmv Gy (prod uy e) C T Q) by (auto; apply mk_shape). cbn [bind]. rewrite bc2_mk. cbn [bind].
  erewrite o_cd_tail by eassumption. reflexivity.
Qed.
End Losses.

Definition o_misfit (U : R * R -> R) (pts : list (R * R)) (vals : mat R) : R :=
  o_mean_sq (length pts) (fun i => U (nth i pts (0, 0)) -' entry vals i 0).
Lemma o_data_loss : forall U pts vals, pts <> [] -> has_shape vals (length pts) 1 ->
  @data_loss R I (map (fun p => [U p]) pts) vals = Ok [o_misfit U pts vals].
Proof.
  intros U pts vals Hp Hv. assert (0 < length pts)%nat by (destruct pts; simpl; [congruence | lia]).
  unfold data_loss. set (D := length pts) in *.
  assert (E : map (fun p => [U p]) pts = mk D 1 (fun i _ => U (nth i pts (0, 0)))).
  { unfold mk. rewrite (tab_of pts (0, 0)) at 1. rewrite tab_map. reflexivity. }
  rewrite E. rewrite (mk_of _ _ _ Hv) at 1. rewrite bc2_mk. cbn [bind]. apply (f_equal Ok).
  change (@mean_square R I (mk D 1 (fun i j => U (nth i pts (0, 0)) -' entry vals i j)) = [o_misfit U pts vals]).
  rewrite o_mean_square by auto. unfold tab at 1. cbn [seq map]. reflexivity.
Qed.
Section Steps.
Variables (m : model R) (nn : network R) (C T Q : nat) (beta : R).
Hypothesis Hm : model_fits m C T Q.
Hypothesis Hc : m_cells m = C.
Section One.
Variables (U : R * R -> R) (G : R * R -> R * R).
Hypothesis Hn : pointwise nn U G.
Let u := at_points U (m_x m) C Q.
Let ux := at_points (fun p => fst (G p)) (m_x m) C Q.
Let uy := at_points (fun p => snd (G p)) (m_x m) C Q.
Let kw bp := (args (m_val m) (m_gx m) (m_gy m) u ux uy (m_force m) ++ [("bilinear_params"%string, VDict bp)]).
Definition o_pde (res : nat -> nat -> R) : R := @n0 R I +' @vsum R I (tab C (fun c => o_mean_sq T (res c))).
Lemma o_standard : forall bp res, call_kw (m_loss m) (kw bp) = Ok (tab C (fun c => o_mean_sq T (res c))) ->
  @train_standard R I m nn beta bp = Ok {| l_pde := o_pde res; l_dirichlet := [o_misfit U (m_dir_in m) (m_dir_act m)]; l_sensor := [];
    l_total := [o_pde res +' (beta *' o_misfit U (m_dir_in m) (m_dir_act m))] |}.
Proof.
  intros bp res E. unfold train_standard. rewrite (proj1 (Hn (m_dir_in m))), (proj1 (Hn (m_x m))), (proj2 (Hn (m_x m))). cbn [bind].
  rewrite concat_singletons, (predictions_ok m C T Q) by auto. cbn [bind]. rewrite base_args. fold u ux uy. unfold kw in E. rewrite E. cbn [bind].
  rewrite o_data_loss by apply Hm. reflexivity.
Qed.
Lemma o_hard : forall bp res, call_kw (m_loss m) (kw bp) = Ok (tab C (fun c => o_mean_sq T (res c))) ->
  @train_hard R I m nn beta bp = Ok {| l_pde := o_pde res; l_dirichlet := [@n0 R I]; l_sensor := []; l_total := [o_pde res] |}.
Proof.
  intros bp res E. unfold train_hard. rewrite (proj1 (Hn (m_x m))), (proj2 (Hn (m_x m))). cbn [bind].
  rewrite concat_singletons, (predictions_ok m C T Q) by auto. cbn [bind]. rewrite base_args. fold u ux uy. unfold kw in E. rewrite E. reflexivity.
Qed.
Lemma o_inverse : forall bp ip res, sensors_fit m ->
  call_kw (m_loss m) (kw bp ++ [("inverse_params_dict"%string, VDict ip)]) = Ok (tab C (fun c => o_mean_sq T (res c))) ->
  @train_inverse R I m nn beta bp ip = Ok {| l_pde := o_pde res; l_dirichlet := [o_misfit U (m_dir_in m) (m_dir_act m)];
    l_sensor := [o_misfit U (m_sensor_in m) (m_sensor_act m)];
    l_total := [(o_pde res +' (beta *' o_misfit U (m_dir_in m) (m_dir_act m))) +' (@nofZ R I 10 *' o_misfit U (m_sensor_in m) (m_sensor_act m))] |}.
Proof.
  intros bp ip res [Hs1 Hs2] E. unfold train_inverse.
  rewrite (proj1 (Hn (m_dir_in m))), (proj1 (Hn (m_sensor_in m))), (proj1 (Hn (m_x m))), (proj2 (Hn (m_x m))). cbn [bind].
  rewrite concat_singletons, (predictions_ok m C T Q) by auto. cbn [bind]. rewrite base_args. fold u ux uy. unfold kw in E. rewrite E. cbn [bind].
  rewrite o_data_loss by apply Hm. cbn [bind]. rewrite o_data_loss by auto. reflexivity.
Qed.
End One.
Section Two.
Variables (U E : R * R -> R) (G : R * R -> R * R).
Hypothesis Hn : pointwise2 nn U E G.
Let u := at_points U (m_x m) C Q.
Let e := at_points E (m_x m) C Q.
Let ux := at_points (fun p => fst (G p)) (m_x m) C Q.
Let uy := at_points (fun p => snd (G p)) (m_x m) C Q.
Lemma o_domain_step : forall bp res, sensors_fit m ->
  call_kw (m_loss m) (args (m_val m) (m_gx m) (m_gy m) u ux uy (m_force m) ++
    [("bilinear_params"%string, VDict bp); ("inverse_params_list"%string, VList [e])]) = Ok (tab C (fun c => o_mean_sq T (res c))) ->
  @train_inverse_domain R I m nn beta bp = Ok {| l_pde := o_pde res; l_dirichlet := [o_misfit U (m_dir_in m) (m_dir_act m)];
    l_sensor := [o_misfit U (m_sensor_in m) (m_sensor_act m)];
    l_total := [(o_pde res +' (beta *' o_misfit U (m_dir_in m) (m_dir_act m))) +' (@nofZ R I 10 *' o_misfit U (m_sensor_in m) (m_sensor_act m))] |}.
Proof.
  intros bp res [Hs1 Hs2] Ek. unfold train_inverse_domain.
  rewrite (proj1 (Hn (m_dir_in m))), (proj1 (Hn (m_sensor_in m))), (proj1 (Hn (m_x m))), (proj2 (Hn (m_x m))). cbn [bind].
  rewrite !column0, column1. cbn [bind].
  rewrite (predictions_ok m C T Q) by auto. cbn [bind].
  pose proof Hm as [HV HGx HGy Hx HF HC HT HQ _ _].
  rewrite (last_dim_shape _ _ _ _ HV HC HT), Hc, reshape_ok by (rewrite map_length; auto). cbn [bind]. rewrite base_args.
  replace (mk C Q (fun i j => nth (i * Q + j) (map E (m_x m)) 0)) with e.
  2:{ apply mk_ext. intros i j Hi Hj. symmetry. apply (nth_map_lt E). rewrite Hx. nia. }
  fold u ux uy. rewrite <- app_assoc. cbn [app].
  match goal with |- bind (call_kw _ ?k) _ = _ => match type of Ek with call_kw _ ?k' = _ => change k with k' end end. rewrite Ek. cbn [bind].
  unfold as_column. rewrite !map_map. rewrite o_data_loss by apply Hm. cbn [bind]. rewrite o_data_loss by auto. reflexivity.
Qed.
End Two.
End Steps.
End Ops.

(* ---------- casts ---------- *)
Lemma shape_map : forall (f : R -> R) m r c, has_shape m r c -> has_shape (map (map f) m : mat R) r c.
Proof.
  intros f m r c [L H]. split; [now rewrite map_length|]. intros row Hr. apply in_map_iff in Hr. destruct Hr as [x [<- Hx]]. rewrite map_length. auto.
Qed.
Lemma shape3_map : forall (f : R -> R) t b r c, shape3 t b r c -> shape3 (map (map (map f)) t) b r c.
Proof.
  intros f t b r c [L H]. split; [now rewrite map_length|]. intros m Hm. apply in_map_iff in Hm. destruct Hm as [x [<- Hx]]. apply shape_map. auto.
Qed.
Lemma entry_map : forall (f : R -> R) m i j, f 0 = 0 -> entry (map (map f) m) i j = f (entry m i j).
Proof.
  intros f m i j H. unfold entry. change (@nil R) with (map f []). rewrite map_nth. rewrite <- H at 1. now rewrite map_nth.
Qed.
Lemma entry3_map : forall (f : R -> R) t i j k, f 0 = 0 -> entry3 (map (map (map f)) t) i j k = f (entry3 t i j k).
Proof. intros f t i j k H. unfold entry3. change (@nil (list R)) with (map (map f) []). rewrite map_nth. now apply entry_map. Qed.
Lemma fits_cast : forall rnd l m C T Q, model_fits m C T Q -> model_fits (cast_tables rnd m l) C T Q.
Proof. intros rnd l m C T Q []. constructor; cbn; auto using shape_map, shape3_map. Qed.
Lemma sensors_cast : forall rnd l m, sensors_fit m -> sensors_fit (cast_tables rnd m l).
Proof. intros rnd l m [A B]. split; cbn; auto using shape_map. Qed.
Lemma has_cast : forall rnd d k v, has d k v -> has (cast_params rnd d) k (rnd v).
Proof.
  intros rnd d k v. unfold has. induction d as [|[k0 v0] d IH]; cbn; [discriminate|]. destruct (String.eqb k k0); [congruence | exact IH].
Qed.

(* ---------- rounded against exact ---------- *)
Lemma Sum_same : forall (f g : nat -> R) n, (forall i, (i < n)%nat -> f i = g i) -> Sum f n = Sum g n.
Proof. exact rsum_ext. Qed.
Lemma sum_pull : forall a (f g : nat -> R) n, Sum (fun q => f q * (a * g q)) n = a * Sum (fun q => f q * g q) n.
Proof. intros. rewrite <- (rsum_scal a). apply rsum_ext. intros. ring. Qed.
Section Bound.
Variables (rnd : R -> R) (u : R) (N : Z).
Hypothesis Hr : rounding rnd u N.
Notation IR := Num_R.
Notation IF := (Num_rnd rnd).
Notation near := (near u).
Lemma n_weak : forall t v Q c r, near (Q + 2) (Sum (fun q => Rabs (entry3 t c r q) * Rabs (entry v c q)) Q)
  (o_weak IR t v Q c r) (o_weak IF (map (map (map rnd)) t) v Q c r).
Proof.
  intros. unfold o_weak. rewrite tab_vsum. rewrite Nat.add_comm. apply (near_sum rnd u N Hr). intros q Hq.
  rewrite entry3_map by apply (rnd0 rnd u N Hr). apply (near_mul rnd u N Hr 1 0); [apply near_cast with N | apply near_same with rnd N]; exact Hr.
Qed.
Lemma n_weak2 : forall t v e C Q c r, (c < C)%nat -> near (Q + 3) (Sum (fun q => Rabs (entry3 t c r q) * (Rabs (entry v c q) * Rabs (entry e c q))) Q)
  (o_weak IR t (prod IR C Q v e) Q c r) (o_weak IF (map (map (map rnd)) t) (prod IF C Q v e) Q c r).
Proof.
  intros. unfold o_weak. rewrite tab_vsum. rewrite Nat.add_comm. apply (near_sum rnd u N Hr). intros q Hq.
  rewrite entry3_map by apply (rnd0 rnd u N Hr). unfold prod. rewrite !mk_entry by auto. apply (near_mul rnd u N Hr 1 1).
  - apply near_cast with N; exact Hr.
  - apply (near_mul rnd u N Hr 0 0); apply near_same with rnd N; exact Hr.
Qed.

Variables (m : model R) (C T Q : nat) (U : R * R -> R) (G : R * R -> R * R).
Let P c q := nth (c * Q + q) (m_x m) (0, 0).
Notation vu := (at_points U (m_x m) C Q).
Notation vx := (at_points (fun p => fst (G p)) (m_x m) C Q).
Notation vy := (at_points (fun p => snd (G p)) (m_x m) C Q).
Notation c3 := (map (map (map rnd))).
Notation c2 := (map (map rnd)).
Lemma n_at : forall t (f : R * R -> R) c r, (c < C)%nat -> near (Q + 2) (Sum (fun q => Rabs (entry3 t c r q) * Rabs (f (P c q))) Q)
  (o_weak IR t (at_points f (m_x m) C Q) Q c r) (o_weak IF (c3 t) (at_points f (m_x m) C Q) Q c r).
Proof.
  intros t f c r Hc. eapply near_mono; [exact Hr | apply n_weak | lia | right]. apply rsum_ext. intros q Hq. unfold at_points. rewrite mk_entry by auto. reflexivity.
Qed.
Lemma n_force : forall c r, near 1 (Rabs (entry (m_force m) r c)) (entry (m_force m) r c) (entry (c2 (m_force m)) r c).
Proof. intros. rewrite entry_map by apply (rnd0 rnd u N Hr). apply near_cast with N; exact Hr. Qed.
Ltac grow := eapply near_mono; [exact Hr | | | apply Rle_refl].
Lemma size_const : forall a c r, size_res m Q U G (fun _ => a) 0 0 0 c r =
  Rabs a * (Sum (fun q => Rabs (entry3 (m_gx m) c r q) * Rabs (fst (G (P c q)))) Q + Sum (fun q => Rabs (entry3 (m_gy m) c r q) * Rabs (snd (G (P c q)))) Q) + Rabs (entry (m_force m) r c).
Proof.
  intros. unfold size_res. cbv zeta. rewrite Rabs_R0, !Rmult_0_l, !sum_pull. unfold P. ring.
Qed.
Lemma size_const3 : forall a bx bn g c r, size_res m Q U G (fun _ => a) bx bn g c r =
  Rabs a * (Sum (fun q => Rabs (entry3 (m_gx m) c r q) * Rabs (fst (G (P c q)))) Q + Sum (fun q => Rabs (entry3 (m_gy m) c r q) * Rabs (snd (G (P c q)))) Q) +
  (Rabs bx * Sum (fun q => Rabs (entry3 (m_val m) c r q) * Rabs (fst (G (P c q)))) Q + Rabs bn * Sum (fun q => Rabs (entry3 (m_val m) c r q) * Rabs (snd (G (P c q)))) Q) +
  Rabs g * Sum (fun q => Rabs (entry3 (m_val m) c r q) * Rabs (U (P c q))) Q + Rabs (entry (m_force m) r c).
Proof.
  intros. pose proof (size_const a c r) as E. unfold size_res in *. rewrite Rabs_R0, !Rmult_0_l in E. unfold P in *. lra.
Qed.
Lemma n_dif : forall a c r, (c < C)%nat -> near (Q + 5)
  (Rabs a * (Sum (fun q => Rabs (entry3 (m_gx m) c r q) * Rabs (fst (G (P c q)))) Q + Sum (fun q => Rabs (entry3 (m_gy m) c r q) * Rabs (snd (G (P c q)))) Q))
  (a * (o_weak IR (m_gx m) vx Q c r + o_weak IR (m_gy m) vy Q c r))
  (rnd (rnd a * rnd (o_weak IF (c3 (m_gx m)) vx Q c r + o_weak IF (c3 (m_gy m)) vy Q c r))).
Proof.
  intros a c r Hc. grow; [apply (near_mul rnd u N Hr 1 (S (Q + 2)))|lia].
  - apply near_cast with N; exact Hr.
  - apply (near_add rnd u N Hr); now apply n_at.
Qed.
Lemma n_conv : forall bx bn c r, (c < C)%nat -> near (Q + 5)
  (Rabs bx * Sum (fun q => Rabs (entry3 (m_val m) c r q) * Rabs (fst (G (P c q)))) Q + Rabs bn * Sum (fun q => Rabs (entry3 (m_val m) c r q) * Rabs (snd (G (P c q)))) Q)
  (bx * o_weak IR (m_val m) vx Q c r + bn * o_weak IR (m_val m) vy Q c r)
  (rnd (rnd (rnd bx * o_weak IF (c3 (m_val m)) vx Q c r) + rnd (rnd bn * o_weak IF (c3 (m_val m)) vy Q c r))).
Proof.
  intros bx bn c r Hc. grow; [apply (near_add rnd u N Hr (S (1 + (Q + 2))))|lia]; apply (near_mul rnd u N Hr 1 (Q + 2)); try (apply near_cast with N; exact Hr); now apply n_at.
Qed.
Lemma n_react : forall g c r, (c < C)%nat -> near (Q + 4) (Rabs g * Sum (fun q => Rabs (entry3 (m_val m) c r q) * Rabs (U (P c q))) Q)
  (g * o_weak IR (m_val m) vu Q c r) (rnd (rnd g * o_weak IF (c3 (m_val m)) vu Q c r)).
Proof.
  intros g c r Hc. grow; [apply (near_mul rnd u N Hr 1 (Q + 2))|lia]; [apply near_cast with N; exact Hr | now apply n_at].
Qed.
Lemma n_poisson : forall eps c r, (c < C)%nat -> near (Q + 8) (size_res m Q U G (fun _ => eps) 0 0 0 c r)
  (Opoisson IR (m_gx m) (m_gy m) vx vy (m_force m) Q eps c r) (Opoisson IF (c3 (m_gx m)) (c3 (m_gy m)) vx vy (c2 (m_force m)) Q (rnd eps) c r).
Proof.
  intros eps c r Hc. rewrite size_const. unfold Opoisson. grow; [apply (near_sub rnd u N Hr (Q + 5))|lia].
  - now apply n_dif.
  - grow; [apply n_force | lia].
Qed.
Lemma n_cd : forall eps bx bn g c r, (c < C)%nat -> near (Q + 8) (size_res m Q U G (fun _ => eps) bx bn g c r)
  (Ocd IR (m_val m) (m_gx m) (m_gy m) vu vx vy (m_force m) Q eps bx bn g c r)
  (Ocd IF (c3 (m_val m)) (c3 (m_gx m)) (c3 (m_gy m)) vu vx vy (c2 (m_force m)) Q (rnd eps) (rnd bx) (rnd bn) (rnd g) c r).
Proof.
  intros eps bx bn g c r Hc. rewrite size_const3. unfold Ocd. grow; [apply (near_sub rnd u N Hr (Q + 7))|lia].
  - grow; [apply (near_add rnd u N Hr (Q + 6))|lia].
    + grow; [apply (near_add rnd u N Hr (Q + 5))|lia]; [now apply n_dif | now apply n_conv].
    + grow; [now apply n_react | lia].
  - grow; [apply n_force | lia].
Qed.
Lemma n_helm : forall eps k c r, (1 <= N)%Z -> (c < C)%nat -> near (Q + 8) (size_res m Q U G (fun _ => - eps) 0 0 (k ^ 2) c r)
  (Ohelm IR (m_val m) (m_gx m) (m_gy m) vu vx vy (m_force m) Q eps k c r)
  (Ohelm IF (c3 (m_val m)) (c3 (m_gx m)) (c3 (m_gy m)) vu vx vy (c2 (m_force m)) Q (rnd eps) (rnd k) c r).
Proof.
  intros eps k c r HN Hc. rewrite size_const3, Rabs_R0, !Rmult_0_l, !Rplus_0_r, Rabs_Ropp. unfold Ohelm. grow; [apply (near_sub rnd u N Hr (Q + 7))|lia].
  - grow; [apply (near_add rnd u N Hr (Q + 6))|lia].
    + match goal with |- RoundFacts.near _ _ ?b _ _ => replace b with (Rabs (-1) * b) by (rewrite Rabs_left by lra; lra) end.
      grow; [apply (near_mul rnd u N Hr 0 (Q + 5))|lia]; [|now apply n_dif].
      cbn [nofZ Num_rnd Num_R]. rewrite (rd_int _ _ _ Hr) by lia. apply near_same with rnd N; exact Hr.
    + replace (k ^ 2) with (k * k) by ring. rewrite Rabs_mult. grow; [apply (near_mul rnd u N Hr 3 (Q + 2))|lia]; [|now apply n_at].
      apply (near_mul rnd u N Hr 1 1); apply near_cast with N; exact Hr.
  - grow; [apply n_force | lia].
Qed.
Lemma n_domain : forall E bx bn g c r, (c < C)%nat -> near (Q + 8) (size_res m Q U G E bx bn g c r)
  (Odom IR (m_val m) (m_gx m) (m_gy m) vu vx vy (m_force m) C Q (at_points E (m_x m) C Q) bx bn g c r)
  (Odom IF (c3 (m_val m)) (c3 (m_gx m)) (c3 (m_gy m)) vu vx vy (c2 (m_force m)) C Q (at_points E (m_x m) C Q) (rnd bx) (rnd bn) (rnd g) c r).
Proof.
  intros E bx bn g c r Hc. unfold Odom.
  replace (size_res m Q U G E bx bn g c r) with
    (((Sum (fun q => Rabs (entry3 (m_gx m) c r q) * (Rabs (entry vx c q) * Rabs (entry (at_points E (m_x m) C Q) c q))) Q +
       Sum (fun q => Rabs (entry3 (m_gy m) c r q) * (Rabs (entry vy c q) * Rabs (entry (at_points E (m_x m) C Q) c q))) Q) +
      (Rabs bx * Sum (fun q => Rabs (entry3 (m_val m) c r q) * Rabs (fst (G (P c q)))) Q + Rabs bn * Sum (fun q => Rabs (entry3 (m_val m) c r q) * Rabs (snd (G (P c q)))) Q)) +
      Rabs g * Sum (fun q => Rabs (entry3 (m_val m) c r q) * Rabs (U (P c q))) Q + Rabs (entry (m_force m) r c)).
  2:{ unfold size_res.
      rewrite (Sum_same (fun q => Rabs (entry3 (m_gx m) c r q) * (Rabs (entry vx c q) * Rabs (entry (at_points E (m_x m) C Q) c q)))
        (fun q => Rabs (entry3 (m_gx m) c r q) * (Rabs (E (nth (c * Q + q) (m_x m) (0, 0))) * Rabs (fst (G (nth (c * Q + q) (m_x m) (0, 0)))))) Q)
        by (intros q Hq; unfold at_points; rewrite !mk_entry by auto; ring).
      rewrite (Sum_same (fun q => Rabs (entry3 (m_gy m) c r q) * (Rabs (entry vy c q) * Rabs (entry (at_points E (m_x m) C Q) c q)))
        (fun q => Rabs (entry3 (m_gy m) c r q) * (Rabs (E (nth (c * Q + q) (m_x m) (0, 0))) * Rabs (snd (G (nth (c * Q + q) (m_x m) (0, 0)))))) Q)
        by (intros q Hq; unfold at_points; rewrite !mk_entry by auto; ring).
      unfold P. ring. }
  grow; [apply (near_sub rnd u N Hr (Q + 7))|lia].
  - grow; [apply (near_add rnd u N Hr (Q + 6))|lia].
    + grow; [apply (near_add rnd u N Hr (Q + 5))|lia]; [|now apply n_conv].
      grow; [apply (near_add rnd u N Hr (Q + 3))|lia]; now apply n_weak2.
    + grow; [now apply n_react | lia].
  - grow; [apply n_force | lia].
Qed.
Lemma n_mean : forall n k b res res', (0 < n)%nat -> (Z.of_nat n <= N)%Z -> (forall i, (i < n)%nat -> near k (b i) (res i) (res' i)) ->
  near (2 * k + n + 2) (mean_sq n b) (o_mean_sq IR n res) (o_mean_sq IF n res').
Proof using Hr.
  intros n k b res res' Hn HN H. unfold o_mean_sq, mean_sq. replace (@vmean R IR (tab n (fun r => @nmul R IR (res r) (res r)))) with (Sum (fun r => res r ^ 2) n / INR n).
  - apply (near_mean_sq rnd u N Hr); auto.
  - unfold vmean. rewrite tab_vsum, tab_length, nofnat_R. cbn. f_equal. apply rsum_ext. intros. ring.
Qed.
Hypothesis HT : (Z.of_nat T <= N)%Z.
Hypothesis HT0 : (0 < T)%nat.
Lemma n_pde : forall b res res', (forall c r, (c < C)%nat -> near (Q + 8) (b c r) (res c r) (res' c r)) ->
  near (2 * Q + T + C + 19) (Sum (fun c => mean_sq T (b c)) C) (o_pde IR C T res) (o_pde IF C T res').
Proof.
  intros b res res' H. unfold o_pde. cbn [nadd Num_rnd Num_R n0 nofZ]. unfold n0. cbn [nofZ Num_rnd Num_R]. rewrite (rnd0 rnd u N Hr), tab_vsum.
  rewrite !Rplus_0_l. grow; [apply near_rnd with N; [exact Hr|]; apply (near_sum rnd u N Hr) with (k := (2 * (Q + 8) + T + 2)%nat)|lia].
  intros c Hc. apply n_mean; auto.
Qed.
Lemma n_misfit : forall pts vals, pts <> [] -> (Z.of_nat (length pts) <= N)%Z ->
  near (length pts + 6) (size_data U pts vals) (o_misfit IR U pts vals) (o_misfit IF U pts (c2 vals)).
Proof using Hr.
  clear HT HT0. intros pts vals Hp HN. assert (0 < length pts)%nat by (destruct pts; simpl; [congruence | lia]).
  unfold o_misfit. change (size_data U pts vals) with (mean_sq (length pts) (fun i => Rabs (U (nth i pts (0, 0))) + Rabs (entry vals i 0))).
  grow; [apply n_mean with (k := 2%nat); auto|lia].
  intros i Hi. apply (near_sub rnd u N Hr 1).
  - apply near_same with rnd N; exact Hr.
  - rewrite entry_map by apply (rnd0 rnd u N Hr). apply near_cast with N; exact Hr.
Qed.
End Bound.

(* ---------- the four training steps ---------- *)
Section Steps.
Variables (rnd : R -> R) (u : R) (N : Z).
Hypothesis Hr : rounding rnd u N.
Notation IF := (Num_rnd rnd).
Variables (m : model R) (C T Q : nat) (nn : network R) (beta : R).
Hypothesis Hm : model_fits m C T Q.
Hypothesis Hc : m_cells m = C.
Hypothesis HT : (Z.of_nat T <= N)%Z.
Let D := length (m_dir_in m).
Let S := length (m_sensor_in m).
Notation c3 := (map (map (map rnd))).
Notation c2 := (map (map rnd)).
Ltac grow := eapply near_mono; [exact Hr | | | apply Rle_refl].
(* the two evaluations of a forward loss function *)
Lemma forward_pair : forall loss d al bx bn g U G, forward_loss loss d al bx bn g ->
  exists res res',
  (forall (mm : model R), m_loss mm = loss Num_R -> m_val mm = m_val m -> m_gx mm = m_gx m -> m_gy mm = m_gy m -> m_force mm = m_force m -> m_x mm = m_x m ->
    call_kw (m_loss mm) (args (m_val mm) (m_gx mm) (m_gy mm) (at_points U (m_x mm) C Q) (at_points (fun p => fst (G p)) (m_x mm) C Q) (at_points (fun p => snd (G p)) (m_x mm) C Q) (m_force mm) ++
      [("bilinear_params"%string, VDict (Some d))]) = Ok (tab C (fun c => o_mean_sq Num_R T (res c)))) /\
  call_kw (loss IF) (args (c3 (m_val m)) (c3 (m_gx m)) (c3 (m_gy m)) (at_points U (m_x m) C Q) (at_points (fun p => fst (G p)) (m_x m) C Q) (at_points (fun p => snd (G p)) (m_x m) C Q) (c2 (m_force m)) ++
      [("bilinear_params"%string, VDict (Some (cast_params rnd d)))]) = Ok (tab C (fun c => o_mean_sq IF T (res' c))) /\
  (forall c r, (c < C)%nat -> near u (Q + 8) (size_res m Q U G (fun _ => al) bx bn g c r) (res c r) (res' c r)).
Proof.
  intros loss d al bx bn g U G H.
  pose proof (at_points_fits m C T Q U (fun p => fst (G p)) (fun p => snd (G p)) Hm) as F.
  pose proof (at_points_fits _ C T Q U (fun p => fst (G p)) (fun p => snd (G p)) (fits_cast rnd (loss IF) m C T Q Hm)) as F'.
  cbn [cast_tables m_val m_gx m_gy m_x m_force] in F'.
  destruct H as [d eps He | d eps b_x b_y c He Hx Hy Hcc | d eps k He Hk].
  - eexists. eexists. split; [|split; [exact (o_poisson IF _ _ _ _ _ _ _ _ _ _ F' _ _ (has_cast rnd _ _ _ He))|]].
    + intros mm -> -> -> -> -> ->. exact (o_poisson Num_R _ _ _ _ _ _ _ _ _ _ F _ _ He).
    + intros. eapply n_poisson; eauto.
  - eexists. eexists. split; [|split; [exact (o_cd2d IF _ _ _ _ _ _ _ _ _ _ F' _ _ _ _ _ (has_cast rnd _ _ _ He) (has_cast rnd _ _ _ Hx) (has_cast rnd _ _ _ Hy) (has_cast rnd _ _ _ Hcc))|]].
    + intros mm -> -> -> -> -> ->. exact (o_cd2d Num_R _ _ _ _ _ _ _ _ _ _ F _ _ _ _ _ He Hx Hy Hcc).
    + intros. eapply n_cd; eauto.
  - eexists. eexists. split; [|split; [exact (o_helmholtz IF _ _ _ _ _ _ _ _ _ _ F' _ _ _ (has_cast rnd _ _ _ He) (has_cast rnd _ _ _ Hk))|]].
    + intros mm -> -> -> -> -> ->. exact (o_helmholtz Num_R _ _ _ _ _ _ _ _ _ _ F _ _ _ He Hk).
    + intros. eapply n_helm; eauto. pose proof (mf_T _ _ _ _ Hm). lia.
Qed.
Lemma near_beta : forall k b x x', near u k b x x' -> near u (k + 2) (Rabs beta * b) (beta * x) (rnd (rnd beta * x')).
Proof. intros k b x x' H. grow; [apply (near_mul rnd u N Hr 1 k) | lia]; [apply near_cast with N; exact Hr | exact H]. Qed.
Lemma near_ten : forall k b x x', (10 <= N)%Z -> near u k b x x' -> near u (k + 2) (10 * b) (10 * x) (rnd (rnd 10 * x')).
Proof.
  intros k b x x' HN H. rewrite (rd_int _ _ _ Hr 10) by lia. replace (10 * b) with (Rabs 10 * b) by (rewrite Rabs_pos_eq by lra; ring).
  grow; [apply (near_mul rnd u N Hr 0 k) | lia]; [apply near_same with rnd N; exact Hr | exact H].
Qed.
Lemma r_standard : forall loss d al bx bn g U G, m_loss m = loss Num_R -> forward_loss loss d al bx bn g -> pointwise nn U G -> (Z.of_nat D <= N)%Z ->
  exists p b t p' b' t',
    train_standard m nn beta (Some d) = Ok {| l_pde := p; l_dirichlet := [b]; l_sensor := []; l_total := [t] |} /\
    rounded_standard rnd m loss nn beta d = Ok {| l_pde := p'; l_dirichlet := [b']; l_sensor := []; l_total := [t'] |} /\
    within u (2 * Q + T + C + 19) (size_pde m C T Q U G (fun _ => al) bx bn g) p p' /\
    within u (D + 6) (size_data U (m_dir_in m) (m_dir_act m)) b b' /\
    within u (2 * Q + T + C + D + 20) (size_pde m C T Q U G (fun _ => al) bx bn g + Rabs beta * size_data U (m_dir_in m) (m_dir_act m)) t t'.
Proof.
  intros loss d al bx bn g U G Hl Hf Hn HD.
  destruct (forward_pair loss d al bx bn g U G Hf) as [res [res' [E [E' Hres]]]].
  specialize (E m Hl eq_refl eq_refl eq_refl eq_refl eq_refl).
  pose proof (n_pde rnd u N Hr C T Q HT (mf_T _ _ _ _ Hm) _ _ _ Hres) as NP.
  pose proof (n_misfit rnd u N Hr U (m_dir_in m) (m_dir_act m) (mf_dir _ _ _ _ Hm) HD) as NB.
  do 6 eexists. split; [|split; [|split; [|split]]].
  - exact (o_standard Num_R m nn C T Q beta Hm Hc U G Hn (Some d) res E).
  - exact (o_standard IF (cast_tables rnd m (loss IF)) nn C T Q (rnd beta) (fits_cast rnd _ m C T Q Hm) Hc U G Hn _ res' E').
  - apply NP.
  - apply NB.
  - eapply near_mono; [exact Hr | apply (near_add rnd u N Hr (2 * Q + T + C + D + 19)) | lia | apply Rle_refl].
    + grow; [exact NP | lia].
    + grow; [exact (near_beta _ _ _ _ NB) | fold D; lia].
Qed.
Lemma r_hard : forall loss d al bx bn g U G, m_loss m = loss Num_R -> forward_loss loss d al bx bn g -> pointwise nn U G ->
  exists t t',
    train_hard m nn beta (Some d) = Ok {| l_pde := t; l_dirichlet := [0]; l_sensor := []; l_total := [t] |} /\
    rounded_hard rnd m loss nn beta d = Ok {| l_pde := t'; l_dirichlet := [0]; l_sensor := []; l_total := [t'] |} /\
    within u (2 * Q + T + C + 19) (size_pde m C T Q U G (fun _ => al) bx bn g) t t'.
Proof.
  intros loss d al bx bn g U G Hl Hf Hn.
  destruct (forward_pair loss d al bx bn g U G Hf) as [res [res' [E [E' Hres]]]].
  specialize (E m Hl eq_refl eq_refl eq_refl eq_refl eq_refl).
  pose proof (n_pde rnd u N Hr C T Q HT (mf_T _ _ _ _ Hm) _ _ _ Hres) as NP.
  do 2 eexists. split; [|split].
  - exact (o_hard Num_R m nn C T Q beta Hm Hc U G Hn (Some d) res E).
  - unfold rounded_hard. rewrite (o_hard IF (cast_tables rnd m (loss IF)) nn C T Q (rnd beta) (fits_cast rnd _ m C T Q Hm) Hc U G Hn _ res' E').
    change (@n0 R IF) with (rnd 0). rewrite (rnd0 rnd u N Hr). reflexivity.
  - apply NP.
Qed.
Section Sensors.
Hypothesis Hs : sensors_fit m.
Hypothesis HD : (Z.of_nat D <= N)%Z.
Hypothesis HS : (Z.of_nat S <= N)%Z.
Hypothesis H10 : (10 <= N)%Z.
Lemma near_total : forall U sp p p', near u (2 * Q + T + C + 19) sp p p' ->
  near u (2 * Q + T + C + D + S + 21) (sp + Rabs beta * size_data U (m_dir_in m) (m_dir_act m) + 10 * size_data U (m_sensor_in m) (m_sensor_act m))
    (p + beta * o_misfit Num_R U (m_dir_in m) (m_dir_act m) + 10 * o_misfit Num_R U (m_sensor_in m) (m_sensor_act m))
    (rnd (rnd (p' + rnd (rnd beta * o_misfit IF U (m_dir_in m) (c2 (m_dir_act m)))) + rnd (rnd 10 * o_misfit IF U (m_sensor_in m) (c2 (m_sensor_act m))))).
Proof.
  intros U sp p p' NP.
  pose proof (n_misfit rnd u N Hr U (m_dir_in m) (m_dir_act m) (mf_dir _ _ _ _ Hm) HD) as NB.
  pose proof (n_misfit rnd u N Hr U (m_sensor_in m) (m_sensor_act m) (proj1 Hs) HS) as NS.
  fold D in NB. fold S in NS.
  eapply near_mono; [exact Hr | apply (near_add rnd u N Hr (2 * Q + T + C + D + S + 20)) | lia | apply Rle_refl].
  - eapply near_mono; [exact Hr | apply (near_add rnd u N Hr (2 * Q + T + C + D + 19)) | lia | apply Rle_refl].
    + grow; [exact NP | lia].
    + grow; [exact (near_beta _ _ _ _ NB) | lia].
  - grow; [exact (near_ten _ _ _ _ H10 NS) | lia].
Qed.
Lemma r_inverse : forall bp ip eps U G, m_loss m = pde_loss_poisson_inverse -> has ip "eps" eps -> pointwise nn U G ->
  exists L L' t t', train_inverse m nn beta bp (Some ip) = Ok L /\ rounded_inverse rnd m (@pde_loss_poisson_inverse R) nn beta bp ip = Ok L' /\
    l_total L = [t] /\ l_total L' = [t'] /\
    within u (2 * Q + T + C + D + S + 21) (size_pde m C T Q U G (fun _ => eps) 0 0 0 + Rabs beta * size_data U (m_dir_in m) (m_dir_act m) +
      10 * size_data U (m_sensor_in m) (m_sensor_act m)) t t'.
Proof.
  intros bp ip eps U G Hl He Hn.
  pose proof (at_points_fits m C T Q U (fun p => fst (G p)) (fun p => snd (G p)) Hm) as F.
  pose proof (at_points_fits _ C T Q U (fun p => fst (G p)) (fun p => snd (G p)) (fits_cast rnd (@pde_loss_poisson_inverse R IF) m C T Q Hm)) as F'.
  pose proof (n_pde rnd u N Hr C T Q HT (mf_T _ _ _ _ Hm) _ _ _ (fun c r Hcc => n_poisson rnd u N Hr m C Q U G eps c r Hcc)) as NP.
  pose proof (near_total U _ _ _ NP) as NT.
  do 4 eexists. split; [|split; [|split; [|split]]].
  - apply (o_inverse Num_R m nn C T Q beta Hm Hc U G Hn bp (Some ip)); [exact Hs|]. rewrite Hl.
    exact (o_poisson_inverse Num_R _ _ _ _ _ _ _ _ _ _ F bp _ _ He).
  - apply (o_inverse IF (cast_tables rnd m (@pde_loss_poisson_inverse R IF)) nn C T Q (rnd beta) (fits_cast rnd _ m C T Q Hm) Hc U G Hn _ _); [now apply sensors_cast|].
    exact (o_poisson_inverse IF _ _ _ _ _ _ _ _ _ _ F' _ _ _ (has_cast rnd _ _ _ He)).
  - reflexivity.
  - reflexivity.
  - apply NT.
Qed.
Lemma r_domain : forall d b_x b_y k U E G, m_loss m = pde_loss_cd2d_inverse_domain -> has d "b_x" b_x -> has d "b_y" b_y -> has d "c" k -> pointwise2 nn U E G ->
  exists L L' t t', train_inverse_domain m nn beta (Some d) = Ok L /\ rounded_domain rnd m (@pde_loss_cd2d_inverse_domain R) nn beta d = Ok L' /\
    l_total L = [t] /\ l_total L' = [t'] /\
    within u (2 * Q + T + C + D + S + 21) (size_pde m C T Q U G E b_x b_y k + Rabs beta * size_data U (m_dir_in m) (m_dir_act m) +
      10 * size_data U (m_sensor_in m) (m_sensor_act m)) t t'.
Proof.
  intros d b_x b_y k U E G Hl Hx Hy Hk Hn.
  pose proof (at_points_fits m C T Q U (fun p => fst (G p)) (fun p => snd (G p)) Hm) as F.
  pose proof (at_points_fits _ C T Q U (fun p => fst (G p)) (fun p => snd (G p)) (fits_cast rnd (@pde_loss_cd2d_inverse_domain R IF) m C T Q Hm)) as F'.
  pose proof (n_pde rnd u N Hr C T Q HT (mf_T _ _ _ _ Hm) _ _ _ (fun c r Hcc => n_domain rnd u N Hr m C Q U G E b_x b_y k c r Hcc)) as NP.
  pose proof (near_total U _ _ _ NP) as NT.
  assert (He : has_shape (at_points E (m_x m) C Q) C Q) by apply mk_shape.
  do 4 eexists. split; [|split; [|split; [|split]]].
  - apply (o_domain_step Num_R m nn C T Q beta Hm Hc U E G Hn (Some d)); [exact Hs|]. rewrite Hl.
    exact (o_domain Num_R _ _ _ _ _ _ _ _ _ _ F _ _ [] _ _ _ He Hx Hy Hk).
  - apply (o_domain_step IF (cast_tables rnd m (@pde_loss_cd2d_inverse_domain R IF)) nn C T Q (rnd beta) (fits_cast rnd _ m C T Q Hm) Hc U E G Hn); [now apply sensors_cast|].
    exact (o_domain IF _ _ _ _ _ _ _ _ _ _ F' _ _ [] _ _ _ He (has_cast rnd _ _ _ Hx) (has_cast rnd _ _ _ Hy) (has_cast rnd _ _ _ Hk)).
  - reflexivity.
  - reflexivity.
  - apply NT.
Qed.
End Sensors.
End Steps.

(* ---------- sums in any order ---------- *)
Lemma perm_vsum : forall (l l' : list R), Permutation l l' -> vsum l = vsum l'.
Proof.
  induction 1 as [|a l l' H IH|a b l|]; [reflexivity | | | congruence].
  - change (a + vsum l = a + vsum l'). now rewrite IH.
  - change (b + (a + vsum l) = a + (b + vsum l)). ring.
Qed.
Lemma app_vsum : forall (l l' : list R), vsum (l ++ l') = vsum l + vsum l'.
Proof.
  induction l as [|a l IH]; intros l'; [symmetry; apply Rplus_0_l|]. change (a + vsum (l ++ l') = a + vsum l + vsum l'). rewrite IH. ring.
Qed.
Lemma rs_near : forall rnd u N, rounding rnd u N -> forall l s, rounded_sum rnd l s -> near u (length l - 1) (vsum (map Rabs l)) (vsum l) s /\ (0 < length l)%nat.
Proof.
  intros rnd u N Hr l s H. induction H as [x | l l1 l2 s1 s2 HP H1 [IH1 L1] H2 [IH2 L2]].
  - split; [|cbn; lia]. replace (vsum (map Rabs [x])) with (Rabs x) by (symmetry; apply Rplus_0_r). replace (vsum [x]) with x by (symmetry; apply Rplus_0_r). apply near_same with rnd N; exact Hr.
  - rewrite (perm_vsum _ _ HP), (perm_vsum _ _ (Permutation_map Rabs HP)), (Permutation_length HP), map_app, !app_vsum, app_length. split; [|lia].
    eapply near_mono; [exact Hr | apply (near_add rnd u N Hr (length l1 + length l2 - 2)) | lia | apply Rle_refl].
    + eapply near_mono; [exact Hr | exact IH1 | lia | apply Rle_refl].
    + eapply near_mono; [exact Hr | exact IH2 | lia | apply Rle_refl].
Qed.
Lemma any_order : forall rnd u N l s, rounding rnd u N -> rounded_sum rnd l s ->
  Rabs (s - vsum l) <= ((1 + u) ^ (length l - 1) - 1) * vsum (map Rabs l).
Proof. intros rnd u N l s Hr H. apply (rs_near rnd u N Hr l s H). Qed.

(* ---------- rounding to nearest ---------- *)
Lemma nearest_rounding : forall prec, (1 < prec)%Z -> rounding (nearest prec) (bpow radix2 (- prec)) (2 ^ prec).
Proof.
  intros prec Hp. assert (P0 : Prec_gt_0 prec) by (unfold Prec_gt_0; lia). constructor.
  - apply bpow_ge_0.
  - intros x. unfold nearest. pose proof (relative_error_N_FLX radix2 prec P0 (fun x => negb (Z.even x)) x) as E.
    replace (bpow radix2 (- prec)) with (/ 2 * bpow radix2 (- prec + 1)); [exact E|].
    rewrite bpow_plus. change (bpow radix2 1) with 2. field.
  - intros z Hz. unfold nearest. apply round_generic; [apply valid_rnd_N|].
    destruct (Z.eq_dec (Z.abs z) (2 ^ prec)) as [e|ne].
    + assert (F : generic_format radix2 (FLX_exp prec) (IZR (2 ^ prec))).
      { replace (IZR (2 ^ prec)) with (bpow radix2 prec) by (change 2%Z with (radix_val radix2) at 1; now rewrite IZR_Zpower by lia).
        apply generic_format_bpow. unfold FLX_exp. lia. }
      destruct (Z.abs_spec z) as [[_ a]|[_ a]]; rewrite a in e; [now rewrite e|].
      replace z with (- (2 ^ prec))%Z by lia. rewrite opp_IZR. now apply generic_format_opp.
    + apply generic_format_FLX. exists (Float radix2 z 0); [unfold F2R; cbn; ring|]. cbn. change (Z.abs z < 2 ^ prec)%Z. lia.
Qed.
Lemma growth : forall u K, 0 <= u -> 2 * INR K * u <= 1 -> (1 + u) ^ K - 1 <= 2 * INR K * u.
Proof.
  intros u K Hu. induction K as [|K IH]; intros H; [simpl; lra|]. rewrite S_INR in *. pose proof (pos_INR K).
  assert (2 * INR K * u <= 1) by nra. specialize (IH H1). simpl. nra.
Qed.
Lemma within_nearest : forall prec K b t t', (1 < prec)%Z -> (2 * Z.of_nat K <= 2 ^ prec)%Z -> 0 <= b ->
  within (bpow radix2 (- prec)) K b t t' -> Rabs (t' - t) <= 2 * INR K * bpow radix2 (- prec) * b.
Proof.
  intros prec K b t t' Hp HK Hb H. eapply Rle_trans; [exact H|]. apply Rmult_le_compat_r; [exact Hb|]. apply growth; [apply bpow_ge_0|].
  apply Rmult_le_reg_r with (bpow radix2 prec); [apply bpow_gt_0|]. rewrite Rmult_assoc, <- bpow_plus.
  replace (- prec + prec)%Z with 0%Z by lia. change (bpow radix2 0) with 1. rewrite Rmult_1_r, Rmult_1_l.
  apply IZR_le in HK. rewrite mult_IZR, <- INR_IZR_INZ in HK. replace (bpow radix2 prec) with (IZR (2 ^ prec)); [exact HK|].
  change 2%Z with (radix_val radix2) at 1. now rewrite IZR_Zpower by lia.
Qed.

(* ---------- rounded losses are not negative ---------- *)
Section Sign.
Variables (rnd : R -> R) (u : R) (N : Z).
Hypothesis Hr : rounding rnd u N.
Hypothesis Hu : u <= 1.
Notation IF := (Num_rnd rnd).
Lemma rnd_nonneg : forall x, 0 <= x -> 0 <= rnd x.
Proof.
  intros x Hx. pose proof (rd_rel _ _ _ Hr x) as E. rewrite (Rabs_pos_eq x Hx) in E. pose proof (rd_u _ _ _ Hr).
  apply Rabs_le_inv in E. nra.
Qed.
Lemma vsum_rnd_nonneg : forall l, Forall (fun x => 0 <= x) l -> 0 <= @vsum R IF l.
Proof.
  induction 1 as [|a l Ha _ IH]; [change (0 <= rnd 0); apply rnd_nonneg; lra|]. change (0 <= rnd (a + @vsum R IF l)). apply rnd_nonneg. lra.
Qed.
Lemma o_mean_sq_nonneg : forall n res, 0 <= o_mean_sq IF n res.
Proof.
  intros n res. unfold o_mean_sq, vmean. change (0 <= rnd (@vsum R IF (tab n (fun r => rnd (res r * res r))) / rnd (IZR (Z.of_nat (length (tab n (fun r => rnd (res r * res r)))))))).
  apply rnd_nonneg. rewrite tab_length.
  assert (0 <= @vsum R IF (tab n (fun r => rnd (res r * res r)))).
  { apply vsum_rnd_nonneg. apply Forall_forall. intros x Hx. unfold tab in Hx. apply in_map_iff in Hx. destruct Hx as [i [<- _]]. apply rnd_nonneg. apply Rle_0_sqr. }
  assert (Hd : 0 <= rnd (IZR (Z.of_nat n))) by (apply rnd_nonneg; apply IZR_le; lia).
  destruct (Req_dec (rnd (IZR (Z.of_nat n))) 0) as [e|e].
  - rewrite e. unfold Rdiv. rewrite Rinv_0. lra.
  - apply Rmult_le_pos; [exact H|]. left. apply Rinv_0_lt_compat. lra.
Qed.
Lemma o_pde_nonneg : forall C T res, 0 <= o_pde IF C T res.
Proof.
  intros C T res. unfold o_pde. change (0 <= rnd (rnd 0 + @vsum R IF (tab C (fun c => o_mean_sq IF T (res c))))). apply rnd_nonneg. rewrite (rnd0 rnd u N Hr), Rplus_0_l.
  apply vsum_rnd_nonneg, Forall_forall. intros x Hx. unfold tab in Hx. apply in_map_iff in Hx. destruct Hx as [i [<- _]]. apply o_mean_sq_nonneg.
Qed.
Lemma r_nonneg : forall m C T Q nn beta loss d al bx bn g U G L, model_fits m C T Q -> m_cells m = C -> (Z.of_nat T <= N)%Z -> forward_loss loss d al bx bn g -> pointwise nn U G -> 0 <= beta ->
  rounded_standard rnd m loss nn beta d = Ok L \/ rounded_hard rnd m loss nn beta d = Ok L ->
  0 <= l_pde L /\ Forall (fun x => 0 <= x) (l_dirichlet L) /\ Forall (fun x => 0 <= x) (l_total L).
Proof.
  intros m C T Q nn beta loss d al bx bn g U G L Hm Hc HT Hf Hn Hb H.
  destruct (forward_pair rnd u N Hr m C T Q Hm Hc HT loss d al bx bn g U G Hf) as [_ [res' [_ [E' _]]]].
  pose proof (o_pde_nonneg C T res') as P0.
  assert (M0 : 0 <= o_misfit IF U (m_dir_in m) (map (map rnd) (m_dir_act m))) by apply o_mean_sq_nonneg.
  destruct H as [H|H].
  - pose proof (o_standard IF (cast_tables rnd m (loss IF)) nn C T Q (rnd beta) (fits_cast rnd _ m C T Q Hm) Hc U G Hn _ res' E') as E.
    unfold rounded_standard in H. rewrite E in H. injection H as <-. cbn [l_pde l_dirichlet l_total]. split; [exact P0|]. split; (apply Forall_cons; [|apply Forall_nil]); [exact M0|].
    change (0 <= rnd (o_pde IF C T res' + rnd (rnd beta * o_misfit IF U (m_dir_in m) (map (map rnd) (m_dir_act m))))). apply rnd_nonneg.
    pose proof (rnd_nonneg _ (Rmult_le_pos _ _ (rnd_nonneg _ Hb) M0)). lra.
  - pose proof (o_hard IF (cast_tables rnd m (loss IF)) nn C T Q (rnd beta) (fits_cast rnd _ m C T Q Hm) Hc U G Hn _ res' E') as E.
    unfold rounded_hard in H. rewrite E in H. injection H as <-. cbn [l_pde l_dirichlet l_total]. split; [exact P0|]. split; (apply Forall_cons; [|apply Forall_nil]); [|exact P0].
    change (0 <= rnd 0). apply rnd_nonneg. lra.
Qed.
End Sign.

(* ---------- single and double precision ---------- *)
Lemma size_pde_nonneg : forall m C T Q U G e bx bn g, (0 < T)%nat -> 0 <= size_pde m C T Q U G e bx bn g.
Proof. intros. unfold size_pde. apply rsum_nonneg. intros c _. now apply mean_sq_nonneg. Qed.
Lemma size_data_nonneg : forall U pts vals, 0 <= size_data U pts vals.
Proof.
  intros. change (size_data U pts vals) with (mean_sq (length pts) (fun i => Rabs (U (nth i pts (0, 0))) + Rabs (entry vals i 0))). apply mean_sq_nonneg.
Qed.
Lemma nearest_standard : forall prec m C T Q nn beta loss d al bx bn g U G, (1 < prec)%Z ->
  model_fits m C T Q -> m_cells m = C -> m_loss m = loss Num_R -> forward_loss loss d al bx bn g -> pointwise nn U G ->
  (2 * Z.of_nat (2 * Q + T + C + length (m_dir_in m) + 20) <= 2 ^ prec)%Z ->
  exists L L' t t', train_standard m nn beta (Some d) = Ok L /\ rounded_standard (nearest prec) m loss nn beta d = Ok L' /\
    l_total L = [t] /\ l_total L' = [t'] /\
    Rabs (t' - t) <= 2 * INR (2 * Q + T + C + length (m_dir_in m) + 20) * bpow radix2 (- prec) *
      (size_pde m C T Q U G (fun _ => al) bx bn g + Rabs beta * size_data U (m_dir_in m) (m_dir_act m)).
Proof.
  intros prec m C T Q nn beta loss d al bx bn g U G Hp Hm Hc Hl Hf Hn HK.
  destruct (r_standard _ _ _ (nearest_rounding prec Hp) m C T Q nn beta Hm Hc ltac:(lia) loss d al bx bn g U G Hl Hf Hn ltac:(lia))
    as [p [b [t [p' [b' [t' [E [E' [_ [_ W]]]]]]]]]].
  do 4 eexists. split; [exact E|]. split; [exact E'|]. split; [reflexivity|]. split; [reflexivity|].
  apply (within_nearest prec); auto.
  apply Rplus_le_le_0_compat; [apply size_pde_nonneg; apply Hm | apply Rmult_le_pos; [apply Rabs_pos | apply size_data_nonneg]].
Qed.
