(* Rounding errors of the training step when the network is rounded too (C86). *)
From Coq Require Import String ZArith List Arith Lia Bool Reals Lra Psatz.
From Flocq Require Import Core Relative.
From Verif Require Import Num Py PyFacts Basis Tensor Physics Train RCalc PolyFacts ListFacts Spec TensorFacts SpecTrain PhysicsFacts TrainFacts Rounding SpecRound RoundFacts.
Import ListNotations.
Local Open Scope R_scope.

Section Bound.
Variables (rnd : R -> R) (u : R) (N : Z).
Hypothesis Hr : rounding rnd u N.
Notation IR := Num_R.
Notation IF := (Num_rnd rnd).
Notation near := (near u).
Variable kn : nat.
Lemma n_weak : forall t (s : nat -> R) v v' Q c r, (forall q, (q < Q)%nat -> near kn (Rabs (s q)) (entry v c q) (entry v' c q)) ->
  near (Q + kn + 2) (Sum (fun q => Rabs (entry3 t c r q) * Rabs (s q)) Q)
  (o_weak IR t v Q c r) (o_weak IF (map (map (map rnd)) t) v' Q c r).
Proof.
  intros t s v v' Q c r H. unfold o_weak. rewrite tab_vsum. replace (Q + kn + 2)%nat with (S (1 + kn) + Q)%nat by lia. apply (near_sum rnd u N Hr). intros q Hq.
  rewrite entry3_map by apply (rnd0 rnd u N Hr). apply (near_mul rnd u N Hr 1 kn); [apply near_cast with N; exact Hr | now apply H].
Qed.
Lemma n_weak2 : forall t (s d : nat -> R) v v' e e' C Q c r, (c < C)%nat -> (forall q, (q < Q)%nat -> near kn (Rabs (s q)) (entry v c q) (entry v' c q)) ->
  (forall q, (q < Q)%nat -> near kn (Rabs (d q)) (entry e c q) (entry e' c q)) ->
  near (Q + 2 * kn + 3) (Sum (fun q => Rabs (entry3 t c r q) * (Rabs (s q) * Rabs (d q))) Q)
  (o_weak IR t (prod IR C Q v e) Q c r) (o_weak IF (map (map (map rnd)) t) (prod IF C Q v' e') Q c r).
Proof.
  intros t s d v v' e e' C Q c r Hc Hv He. unfold o_weak. rewrite tab_vsum. replace (Q + 2 * kn + 3)%nat with (S (1 + S (kn + kn)) + Q)%nat by lia. apply (near_sum rnd u N Hr). intros q Hq.
  rewrite entry3_map by apply (rnd0 rnd u N Hr). unfold prod. rewrite !mk_entry by auto. apply (near_mul rnd u N Hr 1 (S (kn + kn))).
  - apply near_cast with N; exact Hr.
  - apply (near_mul rnd u N Hr kn kn); auto.
Qed.

Variables (m : model R) (C T Q : nat) (U U' SU : R * R -> R) (G G' SG : R * R -> R * R).
Hypothesis HU : forall p, near kn (Rabs (SU p)) (U p) (U' p).
Hypothesis HGx : forall p, near kn (Rabs (fst (SG p))) (fst (G p)) (fst (G' p)).
Hypothesis HGy : forall p, near kn (Rabs (snd (SG p))) (snd (G p)) (snd (G' p)).
Let P c q := nth (c * Q + q) (m_x m) (0, 0).
Notation vu := (at_points U (m_x m) C Q).
Notation vx := (at_points (fun p => fst (G p)) (m_x m) C Q).
Notation vy := (at_points (fun p => snd (G p)) (m_x m) C Q).
Notation wu := (at_points U' (m_x m) C Q).
Notation wx := (at_points (fun p => fst (G' p)) (m_x m) C Q).
Notation wy := (at_points (fun p => snd (G' p)) (m_x m) C Q).
Notation c3 := (map (map (map rnd))).
Notation c2 := (map (map rnd)).
Lemma n_at : forall t (f f' s : R * R -> R) c r, (forall p, near kn (Rabs (s p)) (f p) (f' p)) -> (c < C)%nat -> near (Q + kn + 2) (Sum (fun q => Rabs (entry3 t c r q) * Rabs (s (P c q))) Q)
  (o_weak IR t (at_points f (m_x m) C Q) Q c r) (o_weak IF (c3 t) (at_points f' (m_x m) C Q) Q c r).
Proof.
  intros t f f' s c r H Hc. apply (n_weak t (fun q => s (P c q))). intros q Hq. unfold at_points. rewrite !mk_entry by auto. apply H.
Qed.
Lemma n_force : forall c r, near 1 (Rabs (entry (m_force m) r c)) (entry (m_force m) r c) (entry (c2 (m_force m)) r c).
Proof. intros. rewrite entry_map by apply (rnd0 rnd u N Hr). apply near_cast with N; exact Hr. Qed.
Ltac atp := first [apply (n_at _ _ _ SU); [exact HU | assumption] | apply (n_at _ _ _ (fun p => fst (SG p))); [exact HGx | assumption] | apply (n_at _ _ _ (fun p => snd (SG p))); [exact HGy | assumption]].
Ltac grow := eapply near_mono; [exact Hr | | | apply Rle_refl].
Lemma size_const : forall a c r, size_res m Q SU SG (fun _ => a) 0 0 0 c r =
  Rabs a * (Sum (fun q => Rabs (entry3 (m_gx m) c r q) * Rabs (fst (SG (P c q)))) Q + Sum (fun q => Rabs (entry3 (m_gy m) c r q) * Rabs (snd (SG (P c q)))) Q) + Rabs (entry (m_force m) r c).
Proof.
  intros. unfold size_res. cbv zeta. rewrite Rabs_R0, !Rmult_0_l, !sum_pull. unfold P. ring.
Qed.
Lemma size_const3 : forall a bx bn g c r, size_res m Q SU SG (fun _ => a) bx bn g c r =
  Rabs a * (Sum (fun q => Rabs (entry3 (m_gx m) c r q) * Rabs (fst (SG (P c q)))) Q + Sum (fun q => Rabs (entry3 (m_gy m) c r q) * Rabs (snd (SG (P c q)))) Q) +
  (Rabs bx * Sum (fun q => Rabs (entry3 (m_val m) c r q) * Rabs (fst (SG (P c q)))) Q + Rabs bn * Sum (fun q => Rabs (entry3 (m_val m) c r q) * Rabs (snd (SG (P c q)))) Q) +
  Rabs g * Sum (fun q => Rabs (entry3 (m_val m) c r q) * Rabs (SU (P c q))) Q + Rabs (entry (m_force m) r c).
Proof.
  intros. pose proof (size_const a c r) as E. unfold size_res in *. rewrite Rabs_R0, !Rmult_0_l in E. unfold P in *. lra.
Qed.
Lemma n_dif : forall a c r, (c < C)%nat -> near (Q + kn + 5)
  (Rabs a * (Sum (fun q => Rabs (entry3 (m_gx m) c r q) * Rabs (fst (SG (P c q)))) Q + Sum (fun q => Rabs (entry3 (m_gy m) c r q) * Rabs (snd (SG (P c q)))) Q))
  (a * (o_weak IR (m_gx m) vx Q c r + o_weak IR (m_gy m) vy Q c r))
  (rnd (rnd a * rnd (o_weak IF (c3 (m_gx m)) wx Q c r + o_weak IF (c3 (m_gy m)) wy Q c r))).
Proof.
  intros a c r Hc. grow; [apply (near_mul rnd u N Hr 1 (S (Q + kn + 2)))|lia].
  - apply near_cast with N; exact Hr.
  - apply (near_add rnd u N Hr); atp.
Qed.
Lemma n_conv : forall bx bn c r, (c < C)%nat -> near (Q + kn + 5)
  (Rabs bx * Sum (fun q => Rabs (entry3 (m_val m) c r q) * Rabs (fst (SG (P c q)))) Q + Rabs bn * Sum (fun q => Rabs (entry3 (m_val m) c r q) * Rabs (snd (SG (P c q)))) Q)
  (bx * o_weak IR (m_val m) vx Q c r + bn * o_weak IR (m_val m) vy Q c r)
  (rnd (rnd (rnd bx * o_weak IF (c3 (m_val m)) wx Q c r) + rnd (rnd bn * o_weak IF (c3 (m_val m)) wy Q c r))).
Proof.
  intros bx bn c r Hc. grow; [apply (near_add rnd u N Hr (S (1 + (Q + kn + 2))))|lia]; apply (near_mul rnd u N Hr 1 (Q + kn + 2)); try (apply near_cast with N; exact Hr); atp.
Qed.
Lemma n_react : forall g c r, (c < C)%nat -> near (Q + kn + 4) (Rabs g * Sum (fun q => Rabs (entry3 (m_val m) c r q) * Rabs (SU (P c q))) Q)
  (g * o_weak IR (m_val m) vu Q c r) (rnd (rnd g * o_weak IF (c3 (m_val m)) wu Q c r)).
Proof.
  intros g c r Hc. grow; [apply (near_mul rnd u N Hr 1 (Q + kn + 2))|lia]; [apply near_cast with N; exact Hr | atp].
Qed.
Lemma n_poisson : forall eps c r, (c < C)%nat -> near (Q + kn + 8) (size_res m Q SU SG (fun _ => eps) 0 0 0 c r)
  (Opoisson IR (m_gx m) (m_gy m) vx vy (m_force m) Q eps c r) (Opoisson IF (c3 (m_gx m)) (c3 (m_gy m)) wx wy (c2 (m_force m)) Q (rnd eps) c r).
Proof.
  intros eps c r Hc. rewrite size_const. unfold Opoisson. grow; [apply (near_sub rnd u N Hr (Q + kn + 5))|lia].
  - now apply n_dif.
  - grow; [apply n_force | lia].
Qed.
Lemma n_cd : forall eps bx bn g c r, (c < C)%nat -> near (Q + kn + 8) (size_res m Q SU SG (fun _ => eps) bx bn g c r)
  (Ocd IR (m_val m) (m_gx m) (m_gy m) vu vx vy (m_force m) Q eps bx bn g c r)
  (Ocd IF (c3 (m_val m)) (c3 (m_gx m)) (c3 (m_gy m)) wu wx wy (c2 (m_force m)) Q (rnd eps) (rnd bx) (rnd bn) (rnd g) c r).
Proof.
  intros eps bx bn g c r Hc. rewrite size_const3. unfold Ocd. grow; [apply (near_sub rnd u N Hr (Q + kn + 7))|lia].
  - grow; [apply (near_add rnd u N Hr (Q + kn + 6))|lia].
    + grow; [apply (near_add rnd u N Hr (Q + kn + 5))|lia]; [now apply n_dif | now apply n_conv].
    + grow; [now apply n_react | lia].
  - grow; [apply n_force | lia].
Qed.
Lemma n_helm : forall eps k c r, (1 <= N)%Z -> (c < C)%nat -> near (Q + kn + 8) (size_res m Q SU SG (fun _ => - eps) 0 0 (k ^ 2) c r)
  (Ohelm IR (m_val m) (m_gx m) (m_gy m) vu vx vy (m_force m) Q eps k c r)
  (Ohelm IF (c3 (m_val m)) (c3 (m_gx m)) (c3 (m_gy m)) wu wx wy (c2 (m_force m)) Q (rnd eps) (rnd k) c r).
Proof.
  intros eps k c r HN Hc. rewrite size_const3, Rabs_R0, !Rmult_0_l, !Rplus_0_r, Rabs_Ropp. unfold Ohelm. grow; [apply (near_sub rnd u N Hr (Q + kn + 7))|lia].
  - grow; [apply (near_add rnd u N Hr (Q + kn + 6))|lia].
    + match goal with |- RoundFacts.near _ _ ?b _ _ => replace b with (Rabs (-1) * b) by (rewrite Rabs_left by lra; lra) end.
      grow; [apply (near_mul rnd u N Hr 0 (Q + kn + 5))|lia]; [|now apply n_dif].
      cbn [nofZ Num_rnd Num_R]. rewrite (rd_int _ _ _ Hr) by lia. apply near_same with rnd N; exact Hr.
    + replace (k ^ 2) with (k * k) by ring. rewrite Rabs_mult. grow; [apply (near_mul rnd u N Hr 3 (Q + kn + 2))|lia]; [|atp].
      apply (near_mul rnd u N Hr 1 1); apply near_cast with N; exact Hr.
  - grow; [apply n_force | lia].
Qed.
Lemma n_domain : forall E E' SE bx bn g c r, (forall p, near kn (Rabs (SE p)) (E p) (E' p)) -> (c < C)%nat -> near (Q + 2 * kn + 8) (size_res m Q SU SG SE bx bn g c r)
  (Odom IR (m_val m) (m_gx m) (m_gy m) vu vx vy (m_force m) C Q (at_points E (m_x m) C Q) bx bn g c r)
  (Odom IF (c3 (m_val m)) (c3 (m_gx m)) (c3 (m_gy m)) wu wx wy (c2 (m_force m)) C Q (at_points E' (m_x m) C Q) (rnd bx) (rnd bn) (rnd g) c r).
Proof.
  intros E E' SE bx bn g c r HE Hc. unfold Odom.
  replace (size_res m Q SU SG SE bx bn g c r) with
    (((Sum (fun q => Rabs (entry3 (m_gx m) c r q) * (Rabs (fst (SG (P c q))) * Rabs (SE (P c q)))) Q +
       Sum (fun q => Rabs (entry3 (m_gy m) c r q) * (Rabs (snd (SG (P c q))) * Rabs (SE (P c q)))) Q) +
      (Rabs bx * Sum (fun q => Rabs (entry3 (m_val m) c r q) * Rabs (fst (SG (P c q)))) Q + Rabs bn * Sum (fun q => Rabs (entry3 (m_val m) c r q) * Rabs (snd (SG (P c q)))) Q)) +
      Rabs g * Sum (fun q => Rabs (entry3 (m_val m) c r q) * Rabs (SU (P c q))) Q + Rabs (entry (m_force m) r c)).
  2:{ unfold size_res, P.
      rewrite (Sum_same (fun q => Rabs (entry3 (m_gx m) c r q) * (Rabs (fst (SG (nth (c * Q + q) (m_x m) (0, 0)))) * Rabs (SE (nth (c * Q + q) (m_x m) (0, 0)))))
        (fun q => Rabs (entry3 (m_gx m) c r q) * (Rabs (SE (nth (c * Q + q) (m_x m) (0, 0))) * Rabs (fst (SG (nth (c * Q + q) (m_x m) (0, 0)))))) Q) by (intros; ring).
      rewrite (Sum_same (fun q => Rabs (entry3 (m_gy m) c r q) * (Rabs (snd (SG (nth (c * Q + q) (m_x m) (0, 0)))) * Rabs (SE (nth (c * Q + q) (m_x m) (0, 0)))))
        (fun q => Rabs (entry3 (m_gy m) c r q) * (Rabs (SE (nth (c * Q + q) (m_x m) (0, 0))) * Rabs (snd (SG (nth (c * Q + q) (m_x m) (0, 0)))))) Q) by (intros; ring).
      ring. }
  grow; [apply (near_sub rnd u N Hr (Q + 2 * kn + 7))|lia].
  - grow; [apply (near_add rnd u N Hr (Q + 2 * kn + 6))|lia].
    + grow; [apply (near_add rnd u N Hr (Q + 2 * kn + 5))|lia]; [|grow; [now apply n_conv | lia]].
      grow; [apply (near_add rnd u N Hr (Q + 2 * kn + 3))|lia].
      * apply (n_weak2 _ (fun q => fst (SG (P c q))) (fun q => SE (P c q))); auto; intros q Hq; unfold at_points; rewrite !mk_entry by auto; [apply HGx | apply HE].
      * apply (n_weak2 _ (fun q => snd (SG (P c q))) (fun q => SE (P c q))); auto; intros q Hq; unfold at_points; rewrite !mk_entry by auto; [apply HGy | apply HE].
    + grow; [now apply n_react | lia].
  - grow; [apply n_force | lia].
Qed.
Lemma n_mean : forall n k b res res', (0 < n)%nat -> (Z.of_nat n <= N)%Z -> (forall i, (i < n)%nat -> near k (b i) (res i) (res' i)) ->
  near (2 * k + n + 2) (mean_sq n b) (o_mean_sq IR n res) (o_mean_sq IF n res').
Proof using Hr.
  intros n k b res res' Hn HN H. unfold o_mean_sq, mean_sq. replace (@vmean R IR (tab n (fun r => @nmul R IR (res r) (res r)))) with (Sum (fun r => res r ^ 2) n / INR n).
  - apply (near_mean_sq rnd u N Hr); auto.
  - unfold vmean. rewrite tab_vsum, tab_length, nofnat_R. cbn. f_equal. apply rsum_ext. intros. ring.
Qed.
Hypothesis HT : (Z.of_nat T <= N)%Z.
Hypothesis HT0 : (0 < T)%nat.
Lemma n_pde : forall j b res res', (forall c r, (c < C)%nat -> near (Q + j + 8) (b c r) (res c r) (res' c r)) ->
  near (2 * Q + 2 * j + T + C + 19) (Sum (fun c => mean_sq T (b c)) C) (o_pde IR C T res) (o_pde IF C T res').
Proof.
  intros j b res res' H. unfold o_pde. cbn [nadd Num_rnd Num_R n0 nofZ]. unfold n0. cbn [nofZ Num_rnd Num_R]. rewrite (rnd0 rnd u N Hr), tab_vsum.
  rewrite !Rplus_0_l. grow; [apply near_rnd with N; [exact Hr|]; apply (near_sum rnd u N Hr) with (k := (2 * (Q + j + 8) + T + 2)%nat)|lia].
  intros c Hc. apply n_mean; auto.
Qed.
Lemma n_misfit : forall pts vals, pts <> [] -> (Z.of_nat (length pts) <= N)%Z ->
  near (length pts + 2 * kn + 6) (size_data SU pts vals) (o_misfit IR U pts vals) (o_misfit IF U' pts (c2 vals)).
Proof using Hr HU.
  clear HT HT0. intros pts vals Hp HN. assert (0 < length pts)%nat by (destruct pts; simpl; [congruence | lia]).
  unfold o_misfit. change (size_data SU pts vals) with (mean_sq (length pts) (fun i => Rabs (SU (nth i pts (0, 0))) + Rabs (entry vals i 0))).
  grow; [apply n_mean with (k := (kn + 2)%nat); auto|lia].
  intros i Hi. replace (kn + 2)%nat with (S (kn + 1)) by lia. apply (near_sub rnd u N Hr (kn + 1)).
  - grow; [apply HU | lia].
  - rewrite entry_map by apply (rnd0 rnd u N Hr). grow; [apply near_cast with N; exact Hr | lia].
Qed.
End Bound.

(* ---------- the four training steps ---------- *)
Section Steps.
Variables (rnd : R -> R) (u : R) (N : Z).
Hypothesis Hr : rounding rnd u N.
Notation IF := (Num_rnd rnd).
Variables (m : model R) (C T Q : nat) (nn nn' : network R) (beta : R) (kn : nat).
Variables (U U' SU : R * R -> R) (G G' SG : R * R -> R * R).
Hypothesis HU : forall p, near u kn (Rabs (SU p)) (U p) (U' p).
Hypothesis HGx : forall p, near u kn (Rabs (fst (SG p))) (fst (G p)) (fst (G' p)).
Hypothesis HGy : forall p, near u kn (Rabs (snd (SG p))) (snd (G p)) (snd (G' p)).
Hypothesis Hm : model_fits m C T Q.
Hypothesis Hc : m_cells m = C.
Hypothesis HT : (Z.of_nat T <= N)%Z.
Let D := length (m_dir_in m).
Let S := length (m_sensor_in m).
Notation c3 := (map (map (map rnd))).
Notation c2 := (map (map rnd)).
Ltac grow := eapply near_mono; [exact Hr | | | apply Rle_refl].
(* the two evaluations of a forward loss function *)
Lemma forward_pair : forall loss d al bx bn g, forward_loss loss d al bx bn g ->
  exists res res',
  (forall (mm : model R), m_loss mm = loss Num_R -> m_val mm = m_val m -> m_gx mm = m_gx m -> m_gy mm = m_gy m -> m_force mm = m_force m -> m_x mm = m_x m ->
    call_kw (m_loss mm) (args (m_val mm) (m_gx mm) (m_gy mm) (at_points U (m_x mm) C Q) (at_points (fun p => fst (G p)) (m_x mm) C Q) (at_points (fun p => snd (G p)) (m_x mm) C Q) (m_force mm) ++
      [("bilinear_params"%string, VDict (Some d))]) = Ok (tab C (fun c => o_mean_sq Num_R T (res c)))) /\
  call_kw (loss IF) (args (c3 (m_val m)) (c3 (m_gx m)) (c3 (m_gy m)) (at_points U' (m_x m) C Q) (at_points (fun p => fst (G' p)) (m_x m) C Q) (at_points (fun p => snd (G' p)) (m_x m) C Q) (c2 (m_force m)) ++
      [("bilinear_params"%string, VDict (Some (cast_params rnd d)))]) = Ok (tab C (fun c => o_mean_sq IF T (res' c))) /\
  (forall c r, (c < C)%nat -> near u (Q + kn + 8) (size_res m Q SU SG (fun _ => al) bx bn g c r) (res c r) (res' c r)).
Proof.
  intros loss d al bx bn g H.
  pose proof (at_points_fits m C T Q U (fun p => fst (G p)) (fun p => snd (G p)) Hm) as F.
  pose proof (at_points_fits _ C T Q U' (fun p => fst (G' p)) (fun p => snd (G' p)) (fits_cast rnd (loss IF) m C T Q Hm)) as F'.
  cbn [cast_tables m_val m_gx m_gy m_x m_force] in F'.
  destruct H as [d eps He | d eps b_x b_y c He Hx Hy Hcc | d eps k He Hk].
  - eexists. eexists. split; [|split; [exact (o_poisson IF _ _ _ _ _ _ _ _ _ _ F' _ _ (has_cast rnd _ _ _ He))|]].
    + intros mm -> -> -> -> -> ->. exact (o_poisson Num_R _ _ _ _ _ _ _ _ _ _ F _ _ He).
    + intros. eapply n_poisson; eauto.
  - eexists. eexists. split; [|split; [exact (o_cd2d IF _ _ _ _ _ _ _ _ _ _ F' _ _ _ _ _ (has_cast rnd _ _ _ He) (has_cast rnd _ _ _ Hx) (has_cast rnd _ _ _ Hy) (has_cast rnd _ _ _ Hcc))|]].
    + intros mm -> -> -> -> -> ->. exact (o_cd2d Num_R _ _ _ _ _ _ _ _ _ _ F _ _ _ _ _ He Hx Hy Hcc).
    + intros. eapply n_cd; eauto.
  - eexists. eexists. split; [|split; [exact (o_helmholtz IF _ _ _ _ _ _ _ _ _ _ F' _ _ _ (has_cast rnd _ _ _ He) (has_cast rnd _ _ _ Hk))|]].
    + intros mm -> -> -> -> -> ->. exact (o_helmholtz Num_R _ _ _ _ _ _ _ _ _ _ F _ _ _ He Hk).
    + intros. eapply n_helm; eauto. pose proof (mf_T _ _ _ _ Hm). lia.
Qed.
Lemma near_beta : forall k b x x', near u k b x x' -> near u (k + 2) (Rabs beta * b) (beta * x) (rnd (rnd beta * x')).
Proof. intros k b x x' H. grow; [apply (near_mul rnd u N Hr 1 k) | lia]; [apply near_cast with N; exact Hr | exact H]. Qed.
Lemma near_ten : forall k b x x', (10 <= N)%Z -> near u k b x x' -> near u (k + 2) (10 * b) (10 * x) (rnd (rnd 10 * x')).
Proof.
  intros k b x x' HN H. rewrite (rd_int _ _ _ Hr 10) by lia. replace (10 * b) with (Rabs 10 * b) by (rewrite Rabs_pos_eq by lra; ring).
  grow; [apply (near_mul rnd u N Hr 0 k) | lia]; [apply near_same with rnd N; exact Hr | exact H].
Qed.
Lemma r_standard : forall loss d al bx bn g, m_loss m = loss Num_R -> forward_loss loss d al bx bn g -> pointwise nn U G -> pointwise nn' U' G' -> (Z.of_nat D <= N)%Z ->
  exists p b t p' b' t',
    train_standard m nn beta (Some d) = Ok {| l_pde := p; l_dirichlet := [b]; l_sensor := []; l_total := [t] |} /\
    rounded_standard rnd m loss nn' beta d = Ok {| l_pde := p'; l_dirichlet := [b']; l_sensor := []; l_total := [t'] |} /\
    within u (2 * Q + 2 * kn + T + C + 19) (size_pde m C T Q SU SG (fun _ => al) bx bn g) p p' /\
    within u (D + 2 * kn + 6) (size_data SU (m_dir_in m) (m_dir_act m)) b b' /\
    within u (2 * Q + 4 * kn + T + C + D + 20) (size_pde m C T Q SU SG (fun _ => al) bx bn g + Rabs beta * size_data SU (m_dir_in m) (m_dir_act m)) t t'.
Proof.
  intros loss d al bx bn g Hl Hf Hn Hn' HD.
  destruct (forward_pair loss d al bx bn g Hf) as [res [res' [E [E' Hres]]]].
  specialize (E m Hl eq_refl eq_refl eq_refl eq_refl eq_refl).
  pose proof (n_pde rnd u N Hr C T Q HT (mf_T _ _ _ _ Hm) kn _ _ _ Hres) as NP.
  pose proof (n_misfit rnd u N Hr kn U U' SU HU (m_dir_in m) (m_dir_act m) (mf_dir _ _ _ _ Hm) HD) as NB.
  do 6 eexists. split; [|split; [|split; [|split]]].
  - exact (o_standard Num_R m nn C T Q beta Hm Hc U G Hn (Some d) res E).
  - exact (o_standard IF (cast_tables rnd m (loss IF)) nn' C T Q (rnd beta) (fits_cast rnd _ m C T Q Hm) Hc U' G' Hn' _ res' E').
  - apply NP.
  - apply NB.
  - eapply near_mono; [exact Hr | apply (near_add rnd u N Hr (2 * Q + 4 * kn + T + C + D + 19)) | lia | apply Rle_refl].
    + grow; [exact NP | lia].
    + grow; [exact (near_beta _ _ _ _ NB) | fold D; lia].
Qed.
Lemma r_hard : forall loss d al bx bn g, m_loss m = loss Num_R -> forward_loss loss d al bx bn g -> pointwise nn U G -> pointwise nn' U' G' ->
  exists t t',
    train_hard m nn beta (Some d) = Ok {| l_pde := t; l_dirichlet := [0]; l_sensor := []; l_total := [t] |} /\
    rounded_hard rnd m loss nn' beta d = Ok {| l_pde := t'; l_dirichlet := [0]; l_sensor := []; l_total := [t'] |} /\
    within u (2 * Q + 2 * kn + T + C + 19) (size_pde m C T Q SU SG (fun _ => al) bx bn g) t t'.
Proof.
  intros loss d al bx bn g Hl Hf Hn Hn'.
  destruct (forward_pair loss d al bx bn g Hf) as [res [res' [E [E' Hres]]]].
  specialize (E m Hl eq_refl eq_refl eq_refl eq_refl eq_refl).
  pose proof (n_pde rnd u N Hr C T Q HT (mf_T _ _ _ _ Hm) kn _ _ _ Hres) as NP.
  do 2 eexists. split; [|split].
  - exact (o_hard Num_R m nn C T Q beta Hm Hc U G Hn (Some d) res E).
  - unfold rounded_hard. rewrite (o_hard IF (cast_tables rnd m (loss IF)) nn' C T Q (rnd beta) (fits_cast rnd _ m C T Q Hm) Hc U' G' Hn' _ res' E').
    change (@n0 R IF) with (rnd 0). rewrite (rnd0 rnd u N Hr). reflexivity.
  - apply NP.
Qed.
Section Sensors.
Hypothesis Hs : sensors_fit m.
Hypothesis HD : (Z.of_nat D <= N)%Z.
Hypothesis HS : (Z.of_nat S <= N)%Z.
Hypothesis H10 : (10 <= N)%Z.
Lemma near_total : forall j sp p p', (j <= 2 * kn)%nat -> near u (2 * Q + 2 * j + T + C + 19) sp p p' ->
  near u (2 * Q + 4 * kn + T + C + D + S + 21) (sp + Rabs beta * size_data SU (m_dir_in m) (m_dir_act m) + 10 * size_data SU (m_sensor_in m) (m_sensor_act m))
    (p + beta * o_misfit Num_R U (m_dir_in m) (m_dir_act m) + 10 * o_misfit Num_R U (m_sensor_in m) (m_sensor_act m))
    (rnd (rnd (p' + rnd (rnd beta * o_misfit IF U' (m_dir_in m) (c2 (m_dir_act m)))) + rnd (rnd 10 * o_misfit IF U' (m_sensor_in m) (c2 (m_sensor_act m))))).
Proof.
  intros j sp p p' Hj NP.
  pose proof (n_misfit rnd u N Hr kn U U' SU HU (m_dir_in m) (m_dir_act m) (mf_dir _ _ _ _ Hm) HD) as NB.
  pose proof (n_misfit rnd u N Hr kn U U' SU HU (m_sensor_in m) (m_sensor_act m) (proj1 Hs) HS) as NS.
  fold D in NB. fold S in NS.
  eapply near_mono; [exact Hr | apply (near_add rnd u N Hr (2 * Q + 4 * kn + T + C + D + S + 20)) | lia | apply Rle_refl].
  - eapply near_mono; [exact Hr | apply (near_add rnd u N Hr (2 * Q + 4 * kn + T + C + D + 19)) | lia | apply Rle_refl].
    + grow; [exact NP | lia].
    + grow; [exact (near_beta _ _ _ _ NB) | lia].
  - grow; [exact (near_ten _ _ _ _ H10 NS) | lia].
Qed.
Lemma r_inverse : forall bp ip eps, m_loss m = pde_loss_poisson_inverse -> has ip "eps" eps -> pointwise nn U G -> pointwise nn' U' G' ->
  exists L L' t t', train_inverse m nn beta bp (Some ip) = Ok L /\ rounded_inverse rnd m (@pde_loss_poisson_inverse R) nn' beta bp ip = Ok L' /\
    l_total L = [t] /\ l_total L' = [t'] /\
    within u (2 * Q + 4 * kn + T + C + D + S + 21) (size_pde m C T Q SU SG (fun _ => eps) 0 0 0 + Rabs beta * size_data SU (m_dir_in m) (m_dir_act m) +
      10 * size_data SU (m_sensor_in m) (m_sensor_act m)) t t'.
Proof.
  intros bp ip eps Hl He Hn Hn'.
  pose proof (at_points_fits m C T Q U (fun p => fst (G p)) (fun p => snd (G p)) Hm) as F.
  pose proof (at_points_fits _ C T Q U' (fun p => fst (G' p)) (fun p => snd (G' p)) (fits_cast rnd (@pde_loss_poisson_inverse R IF) m C T Q Hm)) as F'.
  pose proof (n_pde rnd u N Hr C T Q HT (mf_T _ _ _ _ Hm) kn _ _ _ (fun c r Hcc => n_poisson rnd u N Hr kn m C Q SU G G' SG HGx HGy eps c r Hcc)) as NP.
  pose proof (near_total kn _ _ _ ltac:(lia) NP) as NT.
  do 4 eexists. split; [|split; [|split; [|split]]].
  - apply (o_inverse Num_R m nn C T Q beta Hm Hc U G Hn bp (Some ip)); [exact Hs|]. rewrite Hl.
    exact (o_poisson_inverse Num_R _ _ _ _ _ _ _ _ _ _ F bp _ _ He).
  - apply (o_inverse IF (cast_tables rnd m (@pde_loss_poisson_inverse R IF)) nn' C T Q (rnd beta) (fits_cast rnd _ m C T Q Hm) Hc U' G' Hn' _ _); [now apply sensors_cast|].
    exact (o_poisson_inverse IF _ _ _ _ _ _ _ _ _ _ F' _ _ _ (has_cast rnd _ _ _ He)).
  - reflexivity.
  - reflexivity.
  - apply NT.
Qed.
Lemma r_domain : forall d b_x b_y k E E' SE, (forall p, near u kn (Rabs (SE p)) (E p) (E' p)) -> m_loss m = pde_loss_cd2d_inverse_domain -> has d "b_x" b_x -> has d "b_y" b_y -> has d "c" k -> pointwise2 nn U E G -> pointwise2 nn' U' E' G' ->
  exists L L' t t', train_inverse_domain m nn beta (Some d) = Ok L /\ rounded_domain rnd m (@pde_loss_cd2d_inverse_domain R) nn' beta d = Ok L' /\
    l_total L = [t] /\ l_total L' = [t'] /\
    within u (2 * Q + 4 * kn + T + C + D + S + 21) (size_pde m C T Q SU SG SE b_x b_y k + Rabs beta * size_data SU (m_dir_in m) (m_dir_act m) +
      10 * size_data SU (m_sensor_in m) (m_sensor_act m)) t t'.
Proof.
  intros d b_x b_y k E E' SE HE Hl Hx Hy Hk Hn Hn'.
  pose proof (at_points_fits m C T Q U (fun p => fst (G p)) (fun p => snd (G p)) Hm) as F.
  pose proof (at_points_fits _ C T Q U' (fun p => fst (G' p)) (fun p => snd (G' p)) (fits_cast rnd (@pde_loss_cd2d_inverse_domain R IF) m C T Q Hm)) as F'.
  pose proof (n_pde rnd u N Hr C T Q HT (mf_T _ _ _ _ Hm) (2 * kn) _ _ _ (fun c r Hcc => n_domain rnd u N Hr kn m C Q U U' SU G G' SG HU HGx HGy E E' SE b_x b_y k c r HE Hcc)) as NP.
  pose proof (near_total (2 * kn) _ _ _ ltac:(lia) NP) as NT.
  assert (He : has_shape (at_points E (m_x m) C Q) C Q) by apply mk_shape. assert (He' : has_shape (at_points E' (m_x m) C Q) C Q) by apply mk_shape.
  do 4 eexists. split; [|split; [|split; [|split]]].
  - apply (o_domain_step Num_R m nn C T Q beta Hm Hc U E G Hn (Some d)); [exact Hs|]. rewrite Hl.
    exact (o_domain Num_R _ _ _ _ _ _ _ _ _ _ F _ _ [] _ _ _ He Hx Hy Hk).
  - apply (o_domain_step IF (cast_tables rnd m (@pde_loss_cd2d_inverse_domain R IF)) nn' C T Q (rnd beta) (fits_cast rnd _ m C T Q Hm) Hc U' E' G' Hn'); [now apply sensors_cast|].
    exact (o_domain IF _ _ _ _ _ _ _ _ _ _ F' _ _ [] _ _ _ He' (has_cast rnd _ _ _ Hx) (has_cast rnd _ _ _ Hy) (has_cast rnd _ _ _ Hk)).
  - reflexivity.
  - reflexivity.
  - apply NT.
Qed.
End Sensors.
End Steps.
