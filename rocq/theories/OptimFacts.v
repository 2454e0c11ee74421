(* The gradient of the training step and what Adam does with it (C74-C76). *)
From Coq Require Import String ZArith List Arith Bool Lia Reals Lra FunctionalExtensionality.
From Coquelicot Require Import Coquelicot.
From Verif Require Import Num Py Basis Tensor Physics Train PolyFacts ListFacts PyFacts Spec TensorFacts SpecTrain SpecRound Nets NetFacts Optim JetFacts SpecShape ShapeFacts SpecOptim.
Import ListNotations.
Local Open Scope R_scope.

(* ---------- functions of the variables with a linear derivative ---------- *)
Section Dlin.
Variables (n : nat) (w0 : nat -> R).
Definition dlin (F : (nat -> R) -> R) : Prop := exists D, lin n D /\ forall v, is_derive (fun s => F (shift w0 v s)) 0 (D v).
Lemma dlin_ext : forall F G, (forall w, F w = G w) -> dlin G -> dlin F.
Proof. intros F G E (D & L & H). exists D. split; auto. intros v. eapply is_derive_ext; [|apply H]. intros; now rewrite E. Qed.
Lemma dlin_const : forall c, dlin (fun _ => c).
Proof. intros c. exists (fun _ => 0). split; [apply lin_0 | intros; apply (is_derive_const c)]. Qed.
Lemma dlin_plus : forall F G, dlin F -> dlin G -> dlin (fun w => F w + G w).
Proof.
  intros F G (D & L & H) (E & M & K). exists (fun v => D v + E v). split; [now apply lin_plus|]. intros v. now apply (derive_add (fun s => F _) (fun s => G _)).
Qed.
Lemma dlin_mult : forall F G, dlin F -> dlin G -> dlin (fun w => F w * G w).
Proof.
  intros F G (D & L & H) (E & M & K). exists (fun v => G w0 * D v + F w0 * E v). split; [apply lin_plus; now apply lin_scal|]. intros v.
  pose proof (derive_mul _ _ _ _ _ (H v) (K v)) as X. cbv beta in X. rewrite shift_0, Rmult_comm in X. exact X.
Qed.
Lemma dlin_scal : forall c F, dlin F -> dlin (fun w => c * F w).
Proof. intros. apply dlin_mult; auto. apply dlin_const. Qed.
Lemma dlin_minus_const : forall c F, dlin F -> dlin (fun w => F w - c).
Proof. intros c F H. apply (dlin_ext _ (fun w => F w + - c)); [intros; ring|]. apply dlin_plus; auto. apply dlin_const. Qed.
Lemma dlin_div : forall c F, dlin F -> dlin (fun w => F w / c).
Proof. intros c F H. apply (dlin_mult F (fun _ => / c)); auto. apply dlin_const. Qed.
Lemma dlin_sq : forall F, dlin F -> dlin (fun w => F w ^ 2).
Proof. intros F H. apply (dlin_ext _ (fun w => F w * F w)); [intros; ring | now apply dlin_mult]. Qed.
Lemma dlin_sum : forall N (F : nat -> (nat -> R) -> R), (forall i, dlin (F i)) -> dlin (fun w => Sum (fun i => F i w) N).
Proof. intros N F H. induction N as [|N IH]; [apply (dlin_const 0)|]. cbn [Sum]. now apply dlin_plus. Qed.
Lemma jet_dlin : forall q t0, jet n w0 q t0 -> dlin (fun w => q w t0) /\ dlin (fun w => Derive (q w) t0).
Proof.
  intros q t0 (qs & qt & qts & L1 & L2 & D1 & D2 & D3). split; [exists qs; auto|]. exists qts. split; auto. intros v.
  eapply is_derive_ext; [|apply D3]. intros s. cbv beta. symmetry. apply is_derive_unique, D2.
Qed.

Section Loss.
Variables (m : model R) (C T Q : nat) (bx bn g : R).
Variables (a U : (nat -> R) -> R * R -> R) (G : (nat -> R) -> R * R -> R * R).
Hypothesis Ha : forall p, dlin (fun w => a w p).
Hypothesis HU : forall p, dlin (fun w => U w p).
Hypothesis HG : forall p, dlin (fun w => fst (G w p)) /\ dlin (fun w => snd (G w p)).
Lemma dlin_lhs : forall c r, dlin (fun w => lhs m Q (a w) bx bn g (U w) (G w) c r).
Proof.
  intros c r. set (p := fun q => nth (c * Q + q) (m_x m) (0, 0)). unfold lhs. cbv zeta.
  assert (S1 : forall (k : nat -> R) (F : nat -> (nat -> R) -> R), (forall q, dlin (F q)) -> dlin (fun w => Sum (fun q => k q * F q w) Q)).
  { intros k F H. apply (dlin_sum Q (fun q w => k q * F q w)). intros q. now apply dlin_scal. }
  apply dlin_plus; [apply dlin_plus; [apply dlin_plus; [apply dlin_plus|apply dlin_scal]|apply dlin_scal]|apply dlin_scal].
  - exact (S1 (fun q => entry3 (m_gx m) c r q) (fun q w => a w (p q) * fst (G w (p q))) (fun q => dlin_mult _ _ (Ha (p q)) (proj1 (HG (p q))))).
  - exact (S1 (fun q => entry3 (m_gy m) c r q) (fun q w => a w (p q) * snd (G w (p q))) (fun q => dlin_mult _ _ (Ha (p q)) (proj2 (HG (p q))))).
  - exact (S1 (fun q => entry3 (m_val m) c r q) (fun q w => fst (G w (p q))) (fun q => proj1 (HG (p q)))).
  - exact (S1 (fun q => entry3 (m_val m) c r q) (fun q w => snd (G w (p q))) (fun q => proj2 (HG (p q)))).
  - exact (S1 (fun q => entry3 (m_val m) c r q) (fun q w => U w (p q)) (fun q => HU (p q))).
Qed.
Lemma dlin_pde : dlin (fun w => pde_value m C T Q (a w) bx bn g (U w) (G w)).
Proof.
  unfold pde_value, norm2, mean_sq.
  set (e := fun c r w => lhs m Q (a w) bx bn g (U w) (G w) c r - entry (m_force m) r c).
  exact (dlin_sum C (fun c w => Sum (fun r => e c r w ^ 2) T / INR T) (fun c => dlin_div (INR T) (fun w => Sum (fun r => e c r w ^ 2) T)
    (dlin_sum T (fun r w => e c r w ^ 2) (fun r => dlin_sq (e c r) (dlin_minus_const _ _ (dlin_lhs c r)))))).
Qed.
Lemma dlin_misfit : forall pts vals, dlin (fun w => misfit (U w) pts vals).
Proof.
  intros pts vals. unfold misfit. set (e := fun i w => U w (nth i pts (0, 0)) - entry vals i 0).
  exact (dlin_div (INR (length pts)) (fun w => Sum (fun i => e i w ^ 2) (length pts))
    (dlin_sum (length pts) (fun i w => e i w ^ 2) (fun i => dlin_sq (e i) (dlin_minus_const _ _ (HU _))))).
Qed.
End Loss.
End Dlin.

(* ---------- the network as a function of the variables ---------- *)
Definition listed (n : nat) (w : nat -> R) : list R := map w (seq 0 n).
Lemma listed_nth : forall w, listed (length w) (fun k => nth k w 0) = w.
Proof.
  intros w. unfold listed. apply nth_ext with 0 0; [now rewrite map_length, seq_length|]. intros k Hk. rewrite map_length, seq_length in Hk.
  rewrite (nth_map_lt _ _ _ _ 0%nat) by (rewrite seq_length; lia). rewrite seq_nth by lia. reflexivity.
Qed.
Lemma listed_length : forall n w, length (listed n w) = n.
Proof. intros. unfold listed. now rewrite map_length, seq_length. Qed.
Lemma listed_entry : forall n w k, (k < n)%nat -> nth k (listed n w) 0 = w k.
Proof. intros n w k H. unfold listed. rewrite (nth_map_lt _ _ _ _ 0%nat) by (rewrite seq_length; lia). now rewrite seq_nth by lia. Qed.
Definition out_at (nt : net) (n j : nat) (w : nat -> R) (p : R * R) : R :=
  nth j (net_row (act_of nt) (fill_layers (n_layers nt) (listed n w)) [fst p; snd p]) 0.
Lemma act_twice : forall nt, twice (n_act nt) -> forall b, twice (act_of nt b).
Proof.
  intros nt H [|]; [exact H|]. exists (fun _ => 1), (fun _ => 0). intros x. split; [apply (is_derive_id x) | apply (is_derive_const 1)].
Qed.
Lemma row_jet : forall nt n w0 c t0 j, twice (n_act nt) -> jrow n w0 c t0 ->
  jet n w0 (fun w t => nth j (net_row (act_of nt) (fill_layers (n_layers nt) (listed n w)) (c w t)) 0) t0.
Proof.
  intros nt n w0 c t0 j Hf Hc. set (ws := map (fun k (w : nat -> R) (_ : R) => w k) (seq 0 n)).
  assert (Hw : List.Forall (fun q => jet n w0 q t0) ws).
  { apply Forall_forall. intros q Hq. apply in_map_iff in Hq as (k & <- & Hk). apply in_seq in Hk. apply jet_var. lia. }
  destruct (net_jrow n w0 (act_of nt) (fill_layers (n_layers nt) ws) c t0 (act_twice nt Hf)) as (l & E & Hl); [|exact Hc|].
  - apply (fill_layers_all (fun q => jet n w0 q t0)). exact Hw.
  - eapply jet_ext; [|exact (jet_nth n w0 l j t0 Hl)]. intros w t. cbv beta. rewrite <- E. do 2 f_equal.
    unfold listed. replace (map w (seq 0 n)) with (map (fun q : (nat -> R) -> R -> R => q w t) ws) by (unfold ws; rewrite map_map; reflexivity).
    now rewrite fill_layers_map.
Qed.
Lemma out_jet_x : forall nt n w0 j p, twice (n_act nt) -> jet n w0 (fun w t => out_at nt n j w (t, snd p)) (fst p).
Proof.
  intros nt n w0 j p Hf. apply (row_jet nt n w0 (fun _ t => [t; snd p]) (fst p) j Hf).
  exists [fun _ t => t; fun _ _ => snd p]. split; [reflexivity|]. constructor; [apply (jet_coord n w0 (fun t => t)), ex_derive_id | constructor; [apply jet_const | constructor]].
Qed.
Lemma out_jet_y : forall nt n w0 j p, twice (n_act nt) -> jet n w0 (fun w t => out_at nt n j w (fst p, t)) (snd p).
Proof.
  intros nt n w0 j p Hf. apply (row_jet nt n w0 (fun _ t => [fst p; t]) (snd p) j Hf).
  exists [fun _ _ => fst p; fun _ t => t]. split; [reflexivity|]. constructor; [apply jet_const | constructor; [apply (jet_coord n w0 (fun t => t)), ex_derive_id | constructor]].
Qed.
Lemma out_dlin : forall nt n w0 j, twice (n_act nt) -> (forall p, dlin n w0 (fun w => out_at nt n j w p)) /\
  forall p, dlin n w0 (fun w => fst (grad (out_at nt n j w) p)) /\ dlin n w0 (fun w => snd (grad (out_at nt n j w) p)).
Proof.
  intros nt n w0 j Hf. split.
  - intros [x y]. exact (proj1 (jet_dlin n w0 _ _ (out_jet_x nt n w0 j (x, y) Hf))).
  - intros p. unfold grad. cbn [fst snd]. split; [exact (proj2 (jet_dlin n w0 _ _ (out_jet_x nt n w0 j p Hf))) | exact (proj2 (jet_dlin n w0 _ _ (out_jet_y nt n w0 j p Hf)))].
Qed.
(* with a factor and a lift, as in a hard constraint *)
Lemma hard_dlin : forall nt n w0 (h1 h0 : R * R -> R), twice (n_act nt) -> partials h1 -> partials h0 ->
  let H w p := h1 p * out_at nt n 0 w p + h0 p in
  (forall p, dlin n w0 (fun w => H w p)) /\ forall p, dlin n w0 (fun w => fst (grad (H w) p)) /\ dlin n w0 (fun w => snd (grad (H w) p)).
Proof.
  intros nt n w0 h1 h0 Hf P1 P0 H.
  assert (Jx : forall p, jet n w0 (fun w t => H w (t, snd p)) (fst p)).
  { intros p. unfold H. apply jet_plus; [apply jet_mult; [apply (jet_coord n w0 (fun t => h1 (t, snd p))); apply P1 | now apply out_jet_x] | apply (jet_coord n w0 (fun t => h0 (t, snd p))); apply P0]. }
  assert (Jy : forall p, jet n w0 (fun w t => H w (fst p, t)) (snd p)).
  { intros p. unfold H. apply jet_plus; [apply jet_mult; [apply (jet_coord n w0 (fun t => h1 (fst p, t))); apply P1 | now apply out_jet_y] | apply (jet_coord n w0 (fun t => h0 (fst p, t))); apply P0]. }
  split.
  - intros [x y]. exact (proj1 (jet_dlin n w0 _ _ (Jx (x, y)))).
  - intros p. unfold grad. cbn [fst snd]. split; [exact (proj2 (jet_dlin n w0 _ _ (Jx p))) | exact (proj2 (jet_dlin n w0 _ _ (Jy p)))].
Qed.
(* the network with replaced variables *)
Lemma filled_rows : forall nt k w, n_attention nt = false -> chain nt k -> (length (weights_of nt) <= length w)%nat ->
  let F p := net_row (act_of nt) (fill_layers (n_layers nt) w) [fst p; snd p] in
  (forall b, call (with_weights nt w) b = Ok (map F b)) /\ forall p, length (F p) = k.
Proof.
  intros nt k w Ha Hc Hl F. destruct (chain_fits nt k Hc) as [Hf Ho].
  destruct (fits_shapes (n_layers nt) (fill_layers (n_layers nt) w) 2 (fill_shapes _ _ Hl)) as [Ef Eo]. split.
  - intros b. apply (call_plain (with_weights nt w) b Ha). cbn [n_layers with_weights]. now rewrite Ef.
  - intros p. unfold F. rewrite net_row_width. cbn [length]. now rewrite Eo.
Qed.
Lemma filled_pointwise : forall nt n w, n_attention nt = false -> chain nt 1 -> (length (weights_of nt) <= n)%nat ->
  pointwise (network_of (with_weights nt (listed n w))) (out_at nt n 0 w) (grad (out_at nt n 0 w)).
Proof.
  intros nt n w Ha Hc Hl. destruct (filled_rows nt 1 (listed n w) Ha Hc) as [E L]; [now rewrite listed_length|]. cbv zeta in E, L.
  assert (Eb : forall b, call (with_weights nt (listed n w)) b = Ok (map (fun p => [out_at nt n 0 w p]) b)).
  { intros b. rewrite E. apply (f_equal Ok). apply map_ext. intros p. apply one_entry, L. }
  intros b. split; [apply Eb|]. cbn [nn_grad network_of]. rewrite (tape_rows _ _ _ b Eb). apply map_ext. intros p. unfold grad.
  f_equal; apply Derive_ext; intros t; cbn; now rewrite !vsum_cons, !vsum_nil, !Rplus_0_r.
Qed.
Lemma filled_pointwise2 : forall nt n w, n_attention nt = false -> chain nt 2 -> (length (weights_of nt) <= n)%nat ->
  pointwise2 (network_of (with_weights nt (listed n w))) (out_at nt n 0 w) (out_at nt n 1 w) (grad (out_at nt n 0 w)).
Proof.
  intros nt n w Ha Hc Hl. destruct (filled_rows nt 2 (listed n w) Ha Hc) as [E L]; [now rewrite listed_length|]. cbv zeta in E, L.
  assert (Eb : forall b, call (with_weights nt (listed n w)) b = Ok (map (fun p => [out_at nt n 0 w p; out_at nt n 1 w p]) b)).
  { intros b. rewrite E. apply (f_equal Ok). apply map_ext. intros p. apply two_entries, L. }
  intros b. split; [apply Eb|]. cbn [nn_grad network_of]. rewrite (tape_rows _ _ _ b Eb). apply map_ext. intros p. unfold grad.
  f_equal; apply Derive_ext; intros t; cbn; now rewrite !vsum_cons, !vsum_nil, !Rplus_0_r.
Qed.
Lemma filled_hard : forall nt n w (h : R * R -> R -> R), n_attention nt = false -> chain nt 1 -> (length (weights_of nt) <= n)%nat ->
  pointwise (hard_network (Some (fun b y => map2 (fun p row => map (h p) row) b y)) (with_weights nt (listed n w)))
    (fun p => h p (out_at nt n 0 w p)) (grad (fun p => h p (out_at nt n 0 w p))).
Proof.
  intros nt n w h Ha Hc Hl. pose proof (filled_pointwise nt n w Ha Hc Hl) as P.
  assert (Eb : forall b, call_hard (Some (fun b y => map2 (fun p row => map (h p) row) b y)) (with_weights nt (listed n w)) b = Ok (map (fun p => [h p (out_at nt n 0 w p)]) b)).
  { intros b. unfold call_hard. destruct (P b) as [Eo _]. cbn [nn_out network_of] in Eo. rewrite Eo. cbn [bind]. apply (f_equal Ok).
    clear. induction b as [|p b IH]; cbn; auto. f_equal. apply IH. }
  intros b. split; [apply Eb|]. cbn [nn_grad hard_network]. rewrite (tape_rows _ _ _ b Eb). apply map_ext. intros p. unfold grad.
  f_equal; apply Derive_ext; intros t; cbn; now rewrite !vsum_cons, !vsum_nil, !Rplus_0_r.
Qed.

(* ---------- from linear derivatives to the gradient ---------- *)
Lemma along_listed : forall w v s, length v = length w -> along w v s = listed (length w) (shift (fun k => nth k w 0) (fun k => nth k v 0) s).
Proof.
  intros w v s L. unfold along. apply nth_ext with 0 0; [rewrite map2_length, listed_length; lia|].
  intros k Hk. rewrite map2_length in Hk. rewrite listed_entry by lia. rewrite map2_nth with (da := 0) (db := 0) by lia. reflexivity.
Qed.
Lemma upd_listed : forall (w : list R) k x, (k < length w)%nat ->
  upd w k x = listed (length w) (shift (fun i => nth i w 0) (fun i => if Nat.eqb i k then 1 else 0) (x - nth k w 0)).
Proof.
  intros w k x Hk. unfold upd. assert (F : length (firstn k w) = k) by (rewrite firstn_length; lia).
  apply nth_ext with 0 0; [rewrite listed_length, app_length; cbn [length]; rewrite F, skipn_length; lia|].
  intros i Hi. rewrite app_length in Hi. cbn [length] in Hi. rewrite F, skipn_length in Hi. rewrite listed_entry by lia. unfold shift.
  destruct (Nat.eqb_spec i k) as [-> | Hn].
  - rewrite app_nth2 by lia. rewrite F, Nat.sub_diag. cbn. ring.
  - rewrite Rmult_0_r, Rplus_0_r. destruct (Nat.lt_ge_cases i k) as [Hl | Hg].
    + rewrite app_nth1 by lia. rewrite <- (firstn_skipn k w) at 2. rewrite app_nth1 by lia. reflexivity.
    + rewrite app_nth2 by lia. rewrite F. destruct (i - k)%nat as [|d] eqn:E; [lia|]. cbn [nth].
      rewrite <- (firstn_skipn (S k) w) at 2. rewrite app_nth2 by (rewrite firstn_length; lia). f_equal. rewrite firstn_length. lia.
Qed.
Lemma loss_sum_total : forall r v, total_is r v -> loss_sum r = v.
Proof. intros r v (L & -> & E). cbn [loss_sum]. rewrite E. rewrite vsum_cons, vsum_nil. ring. Qed.
Lemma gradients_differentiable : forall f w (l : (nat -> R) -> R), (forall x, total_is (f (listed (length w) x)) (l x)) ->
  dlin (length w) (fun k => nth k w 0) l -> differentiable_at f w.
Proof.
  intros f w l Ht (D & [g Hg] & HD). set (n := length w) in *. set (w0 := fun k => nth k w 0) in *.
  assert (G : forall k, (k < n)%nat -> nth k (gradients f w) 0 = g k).
  { intros k Hk. unfold gradients. fold n. rewrite (nth_map_lt _ _ _ _ 0%nat) by (rewrite seq_length; lia). rewrite seq_nth by lia. cbn [Nat.add].
    apply is_derive_unique. set (e := fun i => if Nat.eqb i k then 1 else 0).
    apply (is_derive_ext (fun x => l (shift w0 e (x - w0 k)))).
    { intros x. rewrite (upd_listed w k x Hk). symmetry. apply loss_sum_total. fold n. apply Ht. }
    assert (Hg' : D e = g k).
    { rewrite Hg. unfold e. change Sum with rsum. rewrite (rsum_single _ n k Hk); [rewrite Nat.eqb_refl; ring|]. intros i _ Hn. apply Nat.eqb_neq in Hn. rewrite Hn. ring. }
    pose proof (HD e) as X. rewrite Hg' in X.
    change (nth k w 0) with (w0 k). replace (g k) with (g k * 1) by ring.
    apply (is_derive_after (fun s => l (shift w0 e s)) (fun x => x - w0 k)); [now rewrite Rminus_eq_0|]. auto_derive; auto. }
  split; [unfold gradients; now rewrite map_length, seq_length|]. intros v Hv. exists (fun s => l (shift w0 (fun k => nth k v 0) s)). split.
  - intros s. rewrite (along_listed w v s Hv). apply Ht.
  - replace (pairing (gradients f w) v) with (D (fun k => nth k v 0)); [apply HD|]. rewrite Hg. unfold pairing. rewrite Hv. fold n. apply rsum_ext. intros k Hk. now rewrite G.
Qed.

(* ---------- C74 ---------- *)
Lemma eps_position : forall (ip : list (string * R)), In "eps"%string (map fst ip) ->
  exists i, (i < length ip)%nat /\ forall l : list R, length l = length ip -> has (combine (map fst ip) l) "eps" (nth i l 0).
Proof.
  intros ip. induction ip as [|[k v] ip IH]; intros H; [destruct H|]. unfold has in *. cbn [map fst] in *. destruct (String.eqb_spec k "eps") as [-> | Hn].
  - exists 0%nat. split; [cbn; lia|]. intros [|a l] Hl; [discriminate|]. reflexivity.
  - destruct H as [H | H]; [congruence|]. destruct (IH H) as (i & Hi & E). exists (S i). split; [cbn; lia|]. intros [|a l] Hl; [discriminate|].
    cbn [combine dget nth]. destruct (String.eqb "eps" k) eqn:B; [apply String.eqb_eq in B; congruence|]. apply E. now injection Hl.
Qed.
Section Differentiable.
Variables (m : model R) (C T Q : nat) (nt : net) (beta : R).
Hypothesis Hm : model_fits m C T Q.
Hypothesis Hc : m_cells m = C.
Hypothesis Hat : n_attention nt = false.
Hypothesis Hact : twice (n_act nt).
Lemma standard_differentiable : forall loss d al bx bn g w, m_loss m = loss Num_R -> forward_loss loss d al bx bn g -> chain nt 1 ->
  length w = length (weights_of nt) -> differentiable_at (standard_at m nt beta (Some d)) w.
Proof.
  intros loss d al bx bn g w Hl Hf Hch Hw. set (n := length w). set (w0 := fun k => nth k w 0). destruct (out_dlin nt n w0 0 Hact) as [DU DG].
  apply (gradients_differentiable _ w (fun x => pde_value m C T Q (fun _ => al) bx bn g (out_at nt n 0 x) (grad (out_at nt n 0 x)) +
    beta * misfit (out_at nt n 0 x) (m_dir_in m) (m_dir_act m))).
  - intros x. eapply total_intro; [exact (standard_value m C T Q _ beta Hm Hc loss d al bx bn g _ _ Hf Hl (filled_pointwise nt n x Hat Hch ltac:(unfold n; lia))) | reflexivity].
  - fold n w0. apply dlin_plus; [|apply dlin_scal, dlin_misfit; exact DU].
    apply (dlin_pde n w0 m C T Q bx bn g (fun _ _ => al)); [intros; apply dlin_const | exact DU | exact DG].
Qed.
Lemma hard_differentiable : forall loss d al bx bn g (h1 h0 : R * R -> R) w, m_loss m = loss Num_R -> forward_loss loss d al bx bn g -> chain nt 1 ->
  partials h1 -> partials h0 -> length w = length (weights_of nt) ->
  differentiable_at (hard_at m (Some (fun b y => map2 (fun p row => map (fun v => h1 p * v + h0 p) row) b y)) nt beta (Some d)) w.
Proof.
  intros loss d al bx bn g h1 h0 w Hl Hf Hch P1 P0 Hw. set (n := length w). set (w0 := fun k => nth k w 0).
  destruct (hard_dlin nt n w0 h1 h0 Hact P1 P0) as [DU DG]. set (H := fun w p => h1 p * out_at nt n 0 w p + h0 p) in *.
  apply (gradients_differentiable _ w (fun x => pde_value m C T Q (fun _ => al) bx bn g (H x) (grad (H x)))).
  - intros x. eapply total_intro; [exact (hard_value m C T Q _ beta Hm Hc loss d al bx bn g _ _ Hf Hl (filled_hard nt n x (fun p v => h1 p * v + h0 p) Hat Hch ltac:(unfold n; lia))) | reflexivity].
  - fold n w0. apply (dlin_pde n w0 m C T Q bx bn g (fun _ _ => al)); [intros; apply dlin_const | exact DU | exact DG].
Qed.
Lemma plain_hard_differentiable : forall loss d al bx bn g w, m_loss m = loss Num_R -> forward_loss loss d al bx bn g -> chain nt 1 ->
  length w = length (weights_of nt) -> differentiable_at (hard_at m None nt beta (Some d)) w.
Proof.
  intros loss d al bx bn g w Hl Hf Hch Hw. set (n := length w). set (w0 := fun k => nth k w 0). destruct (out_dlin nt n w0 0 Hact) as [DU DG].
  apply (gradients_differentiable _ w (fun x => pde_value m C T Q (fun _ => al) bx bn g (out_at nt n 0 x) (grad (out_at nt n 0 x)))).
  - intros x. assert (P : pointwise (hard_network None (with_weights nt (listed n x))) (out_at nt n 0 x) (grad (out_at nt n 0 x))).
    { intros b. destruct (hard_default (with_weights nt (listed n x)) b None) as [-> ->]. apply (filled_pointwise nt n x Hat Hch ltac:(unfold n; lia)). }
    eapply total_intro; [exact (hard_value m C T Q _ beta Hm Hc loss d al bx bn g _ _ Hf Hl P) | reflexivity].
  - fold n w0. apply (dlin_pde n w0 m C T Q bx bn g (fun _ _ => al)); [intros; apply dlin_const | exact DU | exact DG].
Qed.
Lemma dlin_coord : forall n w0 k, (k < n)%nat -> dlin n w0 (fun w => w k).
Proof. intros n w0 k Hk. exists (fun v => v k). split; [now apply lin_coord|]. intros v. unfold shift. auto_derive; auto. ring. Qed.
Lemma inverse_differentiable : forall bp ip w, m_loss m = pde_loss_poisson_inverse -> sensors_fit m -> In "eps"%string (map fst ip) -> chain nt 1 ->
  length w = length (variables nt ip) -> differentiable_at (inverse_at m nt beta bp ip) w.
Proof.
  intros bp ip w Hl Hs Hk Hch Hw. unfold variables in Hw. rewrite app_length, map_length in Hw. destruct (eps_position ip Hk) as (i & Hi & He).
  set (n := length w). set (w0 := fun k => nth k w 0). destruct (out_dlin nt n w0 0 Hact) as [DU DG]. set (N := length (weights_of nt)) in *.
  apply (gradients_differentiable _ w (fun x => pde_value m C T Q (fun _ => x (N + i)%nat) 0 0 0 (out_at nt n 0 x) (grad (out_at nt n 0 x)) +
    beta * misfit (out_at nt n 0 x) (m_dir_in m) (m_dir_act m) + 10 * misfit (out_at nt n 0 x) (m_sensor_in m) (m_sensor_act m))).
  - intros x. eapply total_intro; [refine (inverse_value m C T Q _ beta Hm Hc bp _ (x (N + i)%nat) _ _ Hl _ (filled_pointwise nt n x Hat Hch ltac:(unfold n; lia)) Hs) | reflexivity].
    unfold params_at. fold n N. replace (x (N + i)%nat) with (nth i (skipn N (listed n x)) 0); [apply He; rewrite skipn_length, listed_length; unfold n; lia|].
    rewrite <- (listed_entry n x (N + i)) by (unfold n; lia). rewrite <- (firstn_skipn N (listed n x)) at 2.
    rewrite app_nth2; rewrite firstn_length, listed_length; [|unfold n; lia]. f_equal. unfold n; lia.
  - fold n w0. apply dlin_plus; [apply dlin_plus|]; [|apply dlin_scal, dlin_misfit; exact DU | apply dlin_scal, dlin_misfit; exact DU].
    apply (dlin_pde n w0 m C T Q 0 0 0 (fun x _ => x (N + i)%nat)); [intros; apply dlin_coord; unfold n; lia | exact DU | exact DG].
Qed.
Lemma domain_differentiable : forall d b_x b_y k w, m_loss m = pde_loss_cd2d_inverse_domain -> sensors_fit m -> has d "b_x" b_x -> has d "b_y" b_y -> has d "c" k -> chain nt 2 ->
  length w = length (weights_of nt) -> differentiable_at (domain_at m nt beta (Some d)) w.
Proof.
  intros d b_x b_y k w Hl Hs Hx Hy Hk Hch Hw. set (n := length w). set (w0 := fun k => nth k w 0).
  destruct (out_dlin nt n w0 0 Hact) as [DU DG]. destruct (out_dlin nt n w0 1 Hact) as [DE _].
  apply (gradients_differentiable _ w (fun x => pde_value m C T Q (out_at nt n 1 x) b_x b_y k (out_at nt n 0 x) (grad (out_at nt n 0 x)) +
    beta * misfit (out_at nt n 0 x) (m_dir_in m) (m_dir_act m) + 10 * misfit (out_at nt n 0 x) (m_sensor_in m) (m_sensor_act m))).
  - intros x. eapply total_intro; [exact (domain_value m C T Q _ beta Hm Hc d b_x b_y k _ _ _ Hl Hx Hy Hk (filled_pointwise2 nt n x Hat Hch ltac:(unfold n; lia)) Hs) | reflexivity].
  - fold n w0. apply dlin_plus; [apply dlin_plus|]; [|apply dlin_scal, dlin_misfit; exact DU | apply dlin_scal, dlin_misfit; exact DU].
    apply (dlin_pde n w0 m C T Q b_x b_y k (fun x => out_at nt n 1 x)); [exact DE | exact DU | exact DG].
Qed.
End Differentiable.
