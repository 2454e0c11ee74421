(* The example scripts: plots, training loop, tables and files. *)
From Coq Require Import String Ascii ZArith List Arith Lia Bool Reals Lra Sorted.
From Coq Require DecimalString DecimalNat.
From Verif Require Import Num Py PyFacts Jacobi Quadrature Basis Transform Cell Space Tensor Data Physics Train Geometry Nets Metrics Problems Driver
  RCalc PolyFacts ListFacts Spec SpecGeom SpecTrain SpecMesh SpecWeak SpecDriver QuadFacts CellFacts2 SpaceFacts TensorFacts PhysicsFacts DataFacts TrainFacts PipelineFacts
  MeshFacts FileFacts ExternalFacts NetFacts MetricFacts WeakFacts.
Import ListNotations.
Local Open Scope R_scope.

(* ---------- contour plots ---------- *)
Lemma chunks_length : forall {T} r c (l : list T), length (chunks r c l) = r.
Proof. induction r; intros; cbn [chunks length]; auto. Qed.
Lemma nth_firstn_lt : forall {T} n (l : list T) j d, (j < n)%nat -> nth j (firstn n l) d = nth j l d.
Proof.
  induction n as [|n IH]; intros l j d H; [lia|]. destruct l as [|x l]; [now destruct j|]. destruct j; cbn; auto. apply IH. lia.
Qed.
Lemma nth_skipn_add : forall {T} n (l : list T) j d, nth j (skipn n l) d = nth (n + j) l d.
Proof. induction n as [|n IH]; intros l j d; auto. destruct l as [|x l]; [now destruct j|]. cbn. apply IH. Qed.
Lemma chunks_row : forall {T} r c (l : list T) i j d, (i < r)%nat -> (j < c)%nat -> nth j (nth i (chunks r c l) []) d = nth (i * c + j) l d.
Proof.
  induction r as [|r IH]; intros c l i j d Hi Hj; [lia|]. cbn [chunks]. destruct i as [|i]; cbn [nth].
  - now apply nth_firstn_lt.
  - rewrite IH by lia. rewrite nth_skipn_add. f_equal. simpl. lia.
Qed.
Lemma chunks_shape : forall {T} r c (l : list T), (r * c)%nat = length l -> has_shape (chunks r c l) r c.
Proof.
  intros T r c. split; [apply chunks_length|]. revert l H. induction r as [|r IH]; intros l H row Hr; [destruct Hr|].
  cbn [chunks] in Hr. destruct Hr as [<- | Hr]; [rewrite firstn_length; simpl in H; lia|].
  eapply IH; [|exact Hr]. rewrite skipn_length. simpl in H. lia.
Qed.
Lemma contour_ok : forall (ntx nty : Z) (pts : list (R * R)) z, let nx := Z.to_nat ntx in let ny := Z.to_nat nty in
  length pts = (nx * ny)%nat -> length z = (nx * ny)%nat ->
  exists X Y Zm, contour_args ntx nty pts z = Ok (X, Y, Zm) /\ has_shape X nx ny /\ has_shape Y nx ny /\ has_shape Zm nx ny /\
    forall i j, (i < nx)%nat -> (j < ny)%nat -> (i * ny + j < length pts)%nat /\
      entry X i j = fst (nth (i * ny + j) pts (0, 0)) /\ entry Y i j = snd (nth (i * ny + j) pts (0, 0)) /\ entry Zm i j = nth (i * ny + j) z 0.
Proof.
  intros ntx nty pts z nx ny Hp Hz. unfold contour_args, np_reshape. fold nx. fold ny. rewrite !map_length, Hp, Hz, Nat.eqb_refl. cbn [bind].
  do 3 eexists. split; [reflexivity|]. split; [|split; [|split]]; try (apply chunks_shape; rewrite ?map_length; congruence).
  intros i j Hi Hj. assert (i * ny + j < length pts)%nat by (rewrite Hp; nia). unfold entry. rewrite !chunks_row by auto. split; [now rewrite <- Hp|].
  split; [|split; auto]; apply nth_map_lt; lia.
Qed.
Lemma contour_points : forall (g : geom R) vtk xl yl pts z X Y Zm, g_method g = "internal"%string -> g_limits g = Some (xl, yl) ->
  (1 <= g_ntx g)%Z -> (1 <= g_nty g)%Z -> get_test_points g vtk = Ok pts -> contour_args (g_ntx g) (g_nty g) pts z = Ok (X, Y, Zm) ->
  let nx := Z.to_nat (g_ntx g) in let ny := Z.to_nat (g_nty g) in
  forall i j, (i < nx)%nat -> (j < ny)%nat ->
    entry X i j = grid_coord (fst xl) (snd xl) nx ((i * ny + j) mod nx) /\ entry Y i j = grid_coord (fst yl) (snd yl) ny ((i * ny + j) / nx).
Proof.
  intros g vtk xl yl pts z X Y Zm Hm Hl Hx Hy Ep Ec nx ny i j Hi Hj.
  destruct (test_points_internal g vtk xl yl Hm Hl ltac:(lia) ltac:(lia)) as (pts' & E' & L & P). rewrite Ep in E'. injection E' as <-.
  fold nx ny in L, P.
  assert (Hz : length z = (nx * ny)%nat).
  { unfold contour_args, np_reshape in Ec. fold nx ny in Ec. rewrite !map_length, L, Nat.eqb_refl in Ec. cbn [bind] in Ec.
    destruct (Nat.eqb_spec (nx * ny) (length z)); [auto | discriminate]. }
  destruct (contour_ok (g_ntx g) (g_nty g) pts z L Hz) as (X' & Y' & Z' & E & _ & _ & _ & Q). rewrite Ec in E. injection E as <- <- <-.
  destruct (Q i j Hi Hj) as (K & -> & -> & _). fold ny. set (k := (i * ny + j)%nat) in *. fold ny in K. rewrite L in K.
  assert (nx <> 0)%nat by lia. assert (k mod nx < nx)%nat by now apply Nat.mod_upper_bound.
  assert (k / nx < ny)%nat by (apply Nat.div_lt_upper_bound; auto).
  rewrite (Nat.div_mod k nx) at 1 3 by auto. rewrite (Nat.mul_comm nx), P by auto. auto.
Qed.
Lemma contour_grid : forall (g : geom R) vtk xl yl pts z X Y Zm, g_method g = "internal"%string -> g_limits g = Some (xl, yl) ->
  (2 <= g_ntx g)%Z -> (2 <= g_nty g)%Z -> fst xl < snd xl -> fst yl < snd yl ->
  get_test_points g vtk = Ok pts -> contour_args (g_ntx g) (g_nty g) pts z = Ok (X, Y, Zm) ->
  let nx := Z.to_nat (g_ntx g) in let ny := Z.to_nat (g_nty g) in
  (columns_and_rows X Y nx ny <-> g_ntx g = g_nty g) /\
  (g_ntx g = g_nty g -> forall i j, (i < nx)%nat -> (j < nx)%nat ->
     entry X i j = grid_coord (fst xl) (snd xl) nx j /\ entry Y i j = grid_coord (fst yl) (snd yl) nx i) /\
  ~ (forall i j j', (i < nx)%nat -> (j < ny)%nat -> (j' < ny)%nat -> entry X i j = entry X i j').
Proof.
  intros g vtk xl yl pts z X Y Zm Hm Hl Hx Hy Lx Ly Ep Ec nx ny.
  pose proof (contour_points g vtk xl yl pts z X Y Zm Hm Hl ltac:(lia) ltac:(lia) Ep Ec) as P. cbv zeta in P. fold nx ny in P.
  assert (N1 : (2 <= nx)%nat) by (unfold nx; lia). assert (N2 : (2 <= ny)%nat) by (unfold ny; lia).
  assert (D : g_ntx g = g_nty g -> forall i j, (i < nx)%nat -> (j < nx)%nat ->
     entry X i j = grid_coord (fst xl) (snd xl) nx j /\ entry Y i j = grid_coord (fst yl) (snd yl) nx i).
  { intros E i j Hi Hj. assert (Q : ny = nx) by (unfold nx, ny; now rewrite E). rewrite Q in P. destruct (P i j Hi Hj) as [-> ->].
    rewrite Nat.add_comm, Nat.mod_add, Nat.div_add, Nat.mod_small, Nat.div_small by lia. auto. }
  split; [split|split]; auto.
  - intros [CX CY]. destruct (Z.eq_dec (g_ntx g) (g_nty g)) as [|Ne]; auto. exfalso. assert (Q : nx <> ny) by (unfold nx, ny; lia).
    specialize (CX 1%nat 0%nat 0%nat ltac:(lia) ltac:(lia) ltac:(lia)). rewrite (proj1 (P 1 0 ltac:(lia) ltac:(lia))%nat), (proj1 (P 0 0 ltac:(lia) ltac:(lia))%nat) in CX.
    apply coord_inj in CX; auto; try (apply Nat.mod_upper_bound; lia).
    replace (1 * ny + 0)%nat with ny in CX by lia. replace (0 * ny + 0)%nat with 0%nat in CX by lia. rewrite Nat.mod_0_l in CX by lia.
    pose proof (Nat.div_mod ny nx ltac:(lia)) as DM. rewrite CX, Nat.add_0_r in DM. assert (nx < ny)%nat by (clear -DM N2 Q; generalize dependent (ny / nx)%nat; intros [|[|q]] DM; nia).
    specialize (CY 0%nat nx 0%nat ltac:(lia) ltac:(lia) ltac:(lia)). rewrite (proj2 (P 0%nat nx ltac:(lia) ltac:(lia))), (proj2 (P 0 0 ltac:(lia) ltac:(lia))%nat) in CY.
    replace (0 * ny + nx)%nat with nx in CY by lia. replace (0 * ny + 0)%nat with 0%nat in CY by lia.
    rewrite Nat.div_same, Nat.div_0_l in CY by lia. apply coord_inj in CY; auto; lia.
  - intros E. assert (Q : ny = nx) by (unfold nx, ny; now rewrite E). rewrite Q. split; intros.
    + now rewrite (proj1 (D E i j ltac:(auto) ltac:(auto))), (proj1 (D E i' j ltac:(auto) ltac:(auto))).
    + now rewrite (proj2 (D E i j ltac:(auto) ltac:(auto))), (proj2 (D E i j' ltac:(auto) ltac:(auto))).
  - intros C. specialize (C 0%nat 0%nat 1%nat ltac:(lia) ltac:(lia) ltac:(lia)).
    rewrite (proj1 (P 0%nat 0%nat ltac:(lia) ltac:(lia))), (proj1 (P 0%nat 1%nat ltac:(lia) ltac:(lia))) in C.
    apply coord_inj in C; auto; try (apply Nat.mod_upper_bound; lia). rewrite !Nat.mod_small in C by lia. lia.
Qed.
Lemma contour_values : forall ntx nty (pts : list (R * R)) (f : R -> R -> R) X Y Zm,
  contour_args ntx nty pts (map (fun p => f (fst p) (snd p)) pts) = Ok (X, Y, Zm) ->
  forall i j, (i < Z.to_nat ntx)%nat -> (j < Z.to_nat nty)%nat ->
    entry Zm i j = f (entry X i j) (entry Y i j) /\ In (entry X i j, entry Y i j) pts.
Proof.
  intros ntx nty pts f X Y Zm E i j Hi Hj.
  assert (L : length pts = (Z.to_nat ntx * Z.to_nat nty)%nat).
  { unfold contour_args, np_reshape in E. rewrite !map_length in E. destruct (Nat.eqb_spec (Z.to_nat ntx * Z.to_nat nty) (length pts)); [auto | discriminate]. }
  destruct (contour_ok ntx nty pts (map (fun p => f (fst p) (snd p)) pts) L) as (X' & Y' & Z' & E' & _ & _ & _ & Q); [now rewrite map_length|].
  rewrite E in E'. injection E' as <- <- <-. destruct (Q i j Hi Hj) as (K & E1 & E2 & E3). rewrite E3.
  rewrite (nth_map_lt _ pts _ 0 (0, 0)) by auto. split; [now rewrite <- E1, <- E2|]. rewrite E1, E2, <- surjective_pairing. now apply nth_In.
Qed.

(* ---------- the training loop ---------- *)
Definition dueb (n upd : Z) (t : nat) : bool := orb (Z.eqb ((Z.of_nat t + 1) mod upd) 0) (Z.eqb (Z.of_nat t) (n - 1)).
Lemma dueb_spec : forall n upd, upd <> 0%Z -> forall t, dueb n upd t = true <-> due n upd t.
Proof.
  intros n upd Hu t. unfold dueb, due. rewrite orb_true_iff, !Z.eqb_eq, (Z.mod_divide _ _ Hu). intuition lia.
Qed.
Section LoopFacts.
Variables (step : nat -> result (losses R)) (predict : nat -> result (list R)) (exact : list R) (n upd : Z).
Variable show : nat -> list R -> list R -> files -> result files.
Notation dueb := (dueb n upd).
(* what one report records *)
Definition reported (t : nat) (v : npfloat) (x : errors6 * list R * list R) : Prop :=
  exists pred d errs a b c e f, predict (S t) = Ok pred /\ np_subtract exact pred = Ok d /\ compute_errors_combined (arr exact) (arr pred) = Ok errs /\
    errs = (a, b, c, e, v, f) /\ x = (errs, pred, np_abs d).
Inductive looped : list nat -> progress -> progress -> Prop :=
| Stop : forall p, looped [] p p
| Quiet : forall t l p p' L, step t = Ok L -> dueb t = false ->
    looped l {| p_loss := p_loss p ++ [l_total L]; p_test := p_test p; p_last := p_last p; p_files := p_files p |} p' -> looped (t :: l) p p'
| Loud : forall t l p p' L v x fs, step t = Ok L -> dueb t = true -> reported t v x -> show t (snd (fst x)) (snd x) (p_files p) = Ok fs ->
    looped l {| p_loss := p_loss p ++ [l_total L]; p_test := p_test p ++ [v]; p_last := Some x; p_files := fs |} p' -> looped (t :: l) p p'.
Lemma loop_looped : forall l p p', epochs_loop step predict exact n upd show p l = Ok p' -> looped l p p' /\ (l <> [] -> upd <> 0%Z).
Proof.
  induction l as [|t l IH]; intros p p' E; cbn [epochs_loop] in E.
  - injection E as <-. split; [constructor | congruence].
  - unfold one_epoch in E. destruct (step t) as [L|] eqn:Es; [|discriminate]. cbn [bind] in E.
    unfold report_due in E. destruct (Z.eqb_spec upd 0) as [|Hu]; [discriminate|]. cbn [bind] in E. fold (dueb t) in E.
    destruct (dueb t) eqn:Ed.
    + destruct (predict (S t)) as [pred|] eqn:Ep; [|discriminate]. cbn [bind] in E.
      destruct (np_subtract exact pred) as [d|] eqn:Esub; [|discriminate]. cbn [bind] in E.
      destruct (compute_errors_combined (arr exact) (arr pred)) as [errs|] eqn:Ee; [|discriminate]. cbn [bind] in E.
      destruct (as_float (l_dirichlet L)) as [w1|]; [|discriminate]. destruct (as_float (l_total L)) as [w2|]; [|discriminate]. cbn [bind] in E.
      destruct errs as [[[[[a b] c] e] v] f]. destruct (show t pred (np_abs d) (p_files p)) as [fs|] eqn:Ef; [|discriminate]. cbn [bind] in E.
      apply IH in E. split; auto. eapply (Loud t l p p' L v (a, b, c, e, v, f, pred, np_abs d)); [exact Es | exact Ed | | exact Ef | apply E].
      exists pred, d, (a, b, c, e, v, f), a, b, c, e, f. auto.
    + cbn [bind] in E. apply IH in E. split; auto. eapply Quiet; eauto. apply E.
Qed.
Lemma looped_loss : forall l p p', looped l p p' -> exists vs, p_loss p' = p_loss p ++ vs /\ Forall2 (fun t v => exists L, step t = Ok L /\ v = l_total L) l vs.
Proof.
  induction 1 as [p | t l p p' L Es Ed H (vs & E & F) | t l p p' L v x fs Es Ed Hr Hs H (vs & E & F)].
  - exists []. rewrite app_nil_r. auto.
  - exists (l_total L :: vs). cbn [p_loss] in E. rewrite <- app_assoc in E. split; [exact E | constructor; eauto].
  - exists (l_total L :: vs). cbn [p_loss] in E. rewrite <- app_assoc in E. split; [exact E | constructor; eauto].
Qed.
Lemma looped_test : forall l p p', looped l p p' -> exists vs, p_test p' = p_test p ++ vs /\ Forall2 (fun t v => exists x, reported t v x) (filter dueb l) vs.
Proof.
  induction 1 as [p | t l p p' L Es Ed H (vs & E & F) | t l p p' L v x fs Es Ed Hr Hs H (vs & E & F)]; cbn [filter].
  - exists []. rewrite app_nil_r. auto.
  - rewrite Ed. exists vs. auto.
  - rewrite Ed. exists (v :: vs). cbn [p_test] in E. rewrite <- app_assoc in E. split; [exact E | constructor; eauto].
Qed.
Lemma looped_last : forall l t p p', looped (l ++ [t]) p p' -> dueb t = true -> exists v x fs, p_last p' = Some x /\ reported t v x /\ show t (snd (fst x)) (snd x) fs = Ok (p_files p').
Proof.
  induction l as [|s l IH]; intros t p p' H Ht; cbn [app] in H.
  - inversion H; subst; [congruence|]. match goal with K : looped [] _ _ |- _ => inversion K; subst end. cbn [p_last p_files]. eauto 6.
  - inversion H; subst; eapply IH; eauto.
Qed.
Lemma looped_none : forall p p', looped [] p p' -> p' = p.
Proof. now inversion 1. Qed.
End LoopFacts.

Lemma filter_sorted : forall f (l : list nat), StronglySorted lt l -> StronglySorted lt (filter f l).
Proof.
  intros f. induction 1 as [|a l S IH F]; cbn [filter]; [constructor|]. destruct (f a); auto. constructor; auto.
  rewrite Forall_forall in *. intros x Hx. apply filter_In in Hx. apply F, Hx.
Qed.
Lemma seq_sorted : forall k s, StronglySorted lt (seq s k).
Proof. induction k as [|k IH]; intros s; cbn [seq]; constructor; auto. rewrite Forall_forall. intros x Hx. apply in_seq in Hx. lia. Qed.
Lemma Forall2_nth2 : forall {A B} (P : A -> B -> Prop) l m a b, Forall2 P l m -> length m = length l /\ forall k, (k < length l)%nat -> P (nth k l a) (nth k m b).
Proof.
  induction 1 as [|x y l m H F [L IH]]; cbn [length]; [split; [auto | intros; lia]|]. split; [lia|]. intros [|k] Hk; cbn [nth]; auto. apply IH. lia.
Qed.
Lemma combined_l1 : forall u v a b c d e f, compute_errors_combined u v = Ok (a, b, c, d, e, f) -> compute_l1_error (flatten u) (flatten v) = Ok e.
Proof.
  intros u v a b c d e f H. unfold compute_errors_combined in H.
  destruct (compute_l2_error _ _) as [x1|]; [|discriminate]. destruct (compute_linf_error _ _) as [x2|]; [|discriminate].
  destruct (compute_l2_error_relative _ _) as [x3|]; [|discriminate]. destruct (compute_linf_error_relative _ _) as [x4|]; [|discriminate].
  destruct (compute_l1_error _ _) as [x5|]; [|discriminate]. destruct (compute_l1_error_relative _ _) as [x6|]; [|discriminate].
  cbn [bind] in H. injection H as <- <- <- <- <- <-. reflexivity.
Qed.

Section Report.
Variables (pb : problem) (sc : script) (i : settings) (weights : nat -> net) (m : model R) (pts : list (R * R)).
Variable exact : list R.
Variable show : nat -> list R -> list R -> files -> result files.
Hypothesis Hshow : forall t pred err fs fs', show t pred err fs = Ok fs' -> length pred = length exact.
Lemma loop_reports_against : forall fs p r, train_loop (step_of sc pb i m weights) (predict_of sc weights pts) exact (i_epochs i) (i_update i) show fs = Ok p ->
  finish i pts exact p = Ok r -> reports_against exact pb sc i weights m r /\ r_points r = pts /\ r_files r = p_files p.
Proof.
  intros fs p r E F. unfold train_loop in E. apply loop_looped in E. destruct E as [E Hu].
  set (n := Z.to_nat (i_epochs i)) in *.
  destruct (Nat.eq_dec n 0) as [Z0|Z0].
  { rewrite Z0 in E. apply looped_none in E. subst p. discriminate. }
  assert (He : (1 <= i_epochs i)%Z) by (unfold n in Z0; lia).
  assert (Hu' : i_update i <> 0%Z) by (apply Hu; destruct n; [lia | discriminate]).
  destruct (looped_loss _ _ _ _ _ _ _ _ _ E) as (vs & El & Fl). cbn [p_loss app] in El.
  destruct (looped_test _ _ _ _ _ _ _ _ _ E) as (ws & Et & Ft). cbn [p_test app] in Et.
  assert (Es : seq 0 n = seq 0 (n - 1) ++ [(n - 1)%nat]) by (replace n with (S (n - 1)) at 1 by lia; rewrite seq_S; reflexivity).
  assert (Dl : dueb (i_epochs i) (i_update i) (n - 1) = true) by (apply dueb_spec; [exact Hu' | right; subst n; clear -He; lia]).
  rewrite Es in E. destruct (looped_last _ _ _ _ _ _ _ _ _ _ E Dl) as (v & x & fs' & Ex & Hr & Sh).
  destruct Hr as (pred & d & errs & a & b & c & e & f & Ep & Ed & Ee & -> & ->). cbn [fst snd] in Sh.
  unfold finish in F. rewrite Ex in F. injection F as <-. cbn [r_points r_files].
  split; [|auto]. apply Hshow in Sh. replace (S (n - 1)) with n in Ep by lia.
  unfold np_subtract in Ed. rewrite Sh, Nat.eqb_refl in Ed. injection Ed as <-.
  constructor; cbn [r_loss r_test r_errors r_pred r_exact r_error r_saved r_points]; auto.
  - rewrite El. destruct (Forall2_nth2 _ _ _ 0%nat [] Fl) as [L _]. now rewrite L, seq_length.
  - intros t Ht. rewrite El. destruct (Forall2_nth2 _ _ _ 0%nat [] Fl) as [_ P]. rewrite seq_length in P. specialize (P t Ht). rewrite seq_nth in P by exact Ht.
    destruct P as (L & EL & ->). exists L. split; [|reflexivity]. unfold step_of in EL. rewrite Nat.add_0_l in EL.
    replace (params_as_tensors (fun r : R => r) (pb_params pb)) with (pb_params pb) in EL; [exact EL|].
    unfold params_as_tensors. rewrite <- (map_id (pb_params pb)) at 1. apply map_ext. now intros [].
  - unfold predict_of in Ep. destruct (nn_out (the_network sc (weights n)) pts) as [y|] eqn:Ey; [|discriminate]. cbn [bind] in Ep. injection Ep as <-.
    exists y. auto.
  - split; [exact Sh|]. unfold np_abs. rewrite map_length, map2_length, Sh. apply Nat.min_id.
  - intros k Hk. unfold np_abs. rewrite (nth_map_lt _ _ _ 0 0) by (rewrite map2_length; lia). f_equal. apply map2_nth; lia.
  - exists (filter (dueb (i_epochs i) (i_update i)) (seq 0 n)). split; [apply filter_sorted, seq_sorted|]. split.
    + intros t. rewrite filter_In, in_seq, dueb_spec by auto. intuition lia.
    + rewrite Et. destruct (Forall2_nth2 _ _ _ 0%nat NaN Ft) as [L P]. split; [exact L|]. intros k Hk. specialize (P k Hk).
      destruct P as (x & pred' & d' & errs' & a' & b' & c' & e' & f' & Ep' & _ & Ee' & -> & _). exists pred'. split.
      * unfold predict_of in Ep'. destruct (nn_out _ pts) as [y|] eqn:Ey; [|discriminate]. cbn [bind] in Ep'. injection Ep' as <-. exists y. auto.
      * apply combined_l1 in Ee'. exact Ee'.
Qed.
End Report.
Lemma loop_reports : forall pb sc i weights m pts show, let exact := map (fun p => pb_exact pb (fst p) (snd p)) pts in
  (forall t pred err fs fs', show t pred err fs = Ok fs' -> length pred = length pts) ->
  forall fs p r, train_loop (step_of sc pb i m weights) (predict_of sc weights pts) exact (i_epochs i) (i_update i) show fs = Ok p ->
  finish i pts exact p = Ok r -> reports pb sc i weights m r /\ r_points r = pts /\ r_files r = p_files p.
Proof.
  intros pb sc i weights m pts show exact Hshow fs p r E F. assert (Le : length exact = length pts) by apply map_length.
  destruct (loop_reports_against pb sc i weights m pts exact show) with (fs := fs) (p := p) (r := r) as (H & P & Q); auto.
  { intros t pred err f f' K. rewrite Le. eapply Hshow; eauto. }
  refine (conj _ (conj P Q)). destruct H as [H1 H2 H3 H4 H5 H6 H7 H8 H9 H10 H11]. rewrite Le in H8, H9.
  constructor; rewrite ?H6, ?P; auto; try (rewrite P in H7; auto). destruct H11 as (ts & K1 & K2 & K3 & K4). exists ts. rewrite P in K4. auto.
Qed.

(* ---------- runs on an internal mesh ---------- *)
Lemma reshape_inv : forall {T} r c (l : list T) x, np_reshape r c l = Ok x -> length l = (r * c)%nat.
Proof. intros T r c l x H. unfold np_reshape in H. destruct (Nat.eqb_spec (r * c) (length l)); [auto | discriminate]. Qed.
Lemma contour_inv : forall ntx nty pts z a, contour_args ntx nty pts z = Ok a -> length pts = (Z.to_nat ntx * Z.to_nat nty)%nat /\ length z = length pts.
Proof.
  intros ntx nty pts z a H. unfold contour_args in H.
  destruct (np_reshape _ _ (map fst pts)) as [X|] eqn:E1; [|discriminate]. destruct (np_reshape _ _ (map snd pts)) as [Y|] eqn:E2; [|discriminate].
  cbn [bind] in H. destruct (np_reshape _ _ z) as [Zm|] eqn:E3; [|discriminate].
  apply reshape_inv in E1, E3. rewrite map_length in E1. split; congruence.
Qed.
Lemma plots_length : forall i pts t pred err fs fs', show_plots i pts t pred err fs = Ok fs' -> length pred = length pts.
Proof.
  intros i pts t pred err fs fs' H. unfold show_plots in H. destruct (contour_args _ _ pts pred) as [a|] eqn:E; [|discriminate].
  now apply contour_inv in E.
Qed.
Lemma internal_reports : forall e lhs1 o template vtk pb sc i weights fs r,
  run_internal e lhs1 o template vtk pb sc i weights fs = Ok r ->
  exists cells mo bd m, generate_quad_mesh_internal e lhs1 (i_xlim i) (i_ylim i) (i_ncx i) (i_ncy i) (i_nb i) = Ok (cells, mo, bd) /\
    build o pb sc i cells bd = Ok m /\ reports pb sc i weights m r /\
    length (r_points r) = (Z.to_nat (i_ntx i) * Z.to_nat (i_nty i))%nat /\
    (i_method i = "internal"%string -> forall j k, (j < Z.to_nat (i_ntx i))%nat -> (k < Z.to_nat (i_nty i))%nat ->
       nth (k * Z.to_nat (i_ntx i) + j) (r_points r) (0, 0) =
       (grid_coord (fst (i_xlim i)) (snd (i_xlim i)) (Z.to_nat (i_ntx i)) j, grid_coord (fst (i_ylim i)) (snd (i_ylim i)) (Z.to_nat (i_nty i)) k)).
Proof.
  intros e lhs1 o template vtk pb sc i weights fs r H. unfold run_internal in H.
  destruct (check_dtype (i_dtype i)); [|discriminate]. cbn [bind] in H.
  destruct (make_geometry (i_mesh_type i) (i_method i) (i_ntx i) (i_nty i) (i_output_path i) false) as [g|] eqn:Eg; [|discriminate]. cbn [bind] in H.
  unfold call_internal in H.
  destruct (generate_quad_mesh_internal e lhs1 (i_xlim i) (i_ylim i) (i_ncx i) (i_ncy i) (i_nb i)) as [[[cells mo] bd]|] eqn:Em; [|discriminate].
  assert (Fg : g_method g = i_method i /\ g_ntx g = i_ntx i /\ g_nty g = i_nty i /\ g_optimized g = false).
  { unfold make_geometry in Eg. destruct (negb _); [discriminate|]. destruct (negb _); [discriminate|]. injection Eg as <-. auto. }
  destruct Fg as (F1 & F2 & F3 & F4). rewrite F4 in H.
  destruct (generate_vtk_for_test (set_limits g (i_xlim i, i_ylim i)) template fs) as [x fs'] eqn:Ev. destruct x; [|discriminate]. cbn [bind] in H.
  destruct (build o pb sc i cells bd) as [m|] eqn:Eb; [|discriminate]. cbn [bind] in H.
  destruct (get_test_points (set_limits g (i_xlim i, i_ylim i)) vtk) as [pts|] eqn:Ep; [|discriminate]. cbn [bind] in H.
  destruct (contour_args (i_ntx i) (i_nty i) pts _) as [ca|] eqn:Ec; [|discriminate]. cbn [bind] in H.
  destruct (plot_contour ca); [|discriminate]. cbn [bind] in H.
  destruct (train_loop _ _ _ _ _ _ _) as [p|] eqn:El; [|discriminate]. cbn [bind] in H.
  destruct (loop_reports pb sc i weights m pts _ (plots_length i pts) _ _ _ El H) as (Hr & Hp & _).
  exists cells, mo, bd, m. refine (conj eq_refl (conj Eb (conj Hr _))). rewrite Hp. apply contour_inv in Ec. split; [apply Ec|].
  intros Hm j k Hj Hk.
  destruct (test_points_internal (set_limits g (i_xlim i, i_ylim i)) vtk (i_xlim i) (i_ylim i)) as (pts' & Ep' & _ & P);
    cbn [set_limits g_method g_limits g_ntx g_nty]; try congruence; try lia.
  rewrite Ep in Ep'. injection Ep' as <-. cbn [set_limits g_ntx g_nty] in P. rewrite F2, F3 in P. now apply P.
Qed.

Definition scalar_losses (x : result (losses R)) : Prop := exists L a b, x = Ok L /\ l_dirichlet L = [a] /\ l_total L = [b].
Lemma loop_runs : forall step predict (exact : list R) n upd show fs (Inv : files -> Prop), upd <> 0%Z -> exact <> [] -> Inv fs ->
  (forall t, scalar_losses (step t)) -> (forall t, exists pred, predict t = Ok pred /\ length pred = length exact) ->
  (forall t pred err fs, length pred = length exact -> length err = length exact -> Inv fs -> exists fs', show t pred err fs = Ok fs' /\ Inv fs') ->
  exists p, train_loop step predict exact n upd show fs = Ok p /\ Inv (p_files p).
Proof.
  intros step predict exact n upd show fs Inv Hu Hne H0 Hs Hp Hsh. unfold train_loop.
  assert (G : forall l p, Inv (p_files p) -> exists p', epochs_loop step predict exact n upd show p l = Ok p' /\ Inv (p_files p')).
  { clear H0 fs. induction l as [|t l IH]; intros p Hi; cbn [epochs_loop]; [eauto|].
    unfold one_epoch. destruct (Hs t) as (L & a & b & -> & Ed & Et). cbn [bind]. unfold report_due. destruct (Z.eqb_spec upd 0); [contradiction|]. cbn [bind].
    destruct (orb _ _); [|cbn [bind]; apply IH, Hi]. destruct (Hp (S t)) as (pred & -> & Lp). cbn [bind].
    assert (Cm : comparable (arr exact) (arr pred)) by (split; cbn; auto).
    pose proof (sub_eq _ _ Cm) as Es. cbn [arr a_data] in Es. rewrite Es. cbn [bind].
    rewrite combined_eq, (l2_eq _ _ Cm), (linf_eq _ _ Cm), (l1_eq _ _ Cm). destruct (relative_eq _ _ Cm) as (R1 & R2 & R3). rewrite R1, R2, R3.
    cbn [bind]. rewrite Ed, Et. cbn [as_float bind].
    destruct (Hsh t pred (np_abs (dist exact pred)) (p_files p) Lp) as (fs' & -> & Hi'); auto.
    - unfold np_abs. now rewrite map_length, dist_length.
    - cbn [bind]. apply IH. exact Hi'. }
  apply G. exact H0.
Qed.
(* the exceptions of the loop *)
Lemma loop_zero : forall step predict exact n show fs, (1 <= n)%Z -> (forall t, scalar_losses (step t)) -> train_loop step predict exact n 0 show fs = Err ZeroDivisionError.
Proof.
  intros step predict exact n show fs Hn Hs. unfold train_loop. destruct (Z.to_nat n) eqn:E; [lia|]. cbn [seq epochs_loop]. unfold one_epoch.
  destruct (Hs 0%nat) as (L & a & b & -> & _). reflexivity.
Qed.
Lemma loop_empty : forall step predict exact n upd show fs, (n <= 0)%Z -> train_loop step predict exact n upd show fs =
  Ok {| p_loss := []; p_test := []; p_last := None; p_files := fs |}.
Proof. intros. unfold train_loop. replace (Z.to_nat n) with 0%nat by lia. reflexivity. Qed.
Lemma loop_last : forall step predict exact n upd show fs p, (1 <= n)%Z -> train_loop step predict exact n upd show fs = Ok p -> exists x, p_last p = Some x.
Proof.
  intros step predict exact n upd show fs p Hn E. unfold train_loop in E. apply loop_looped in E. destruct E as [E Hu].
  assert (Es : seq 0 (Z.to_nat n) = seq 0 (Z.to_nat n - 1) ++ [(Z.to_nat n - 1)%nat]) by (replace (Z.to_nat n) with (S (Z.to_nat n - 1)) at 1 by lia; rewrite seq_S; reflexivity).
  rewrite Es in E. destruct (looped_last _ _ _ _ _ _ _ _ _ _ E) as (v & x & fs' & Ex & _); [|eauto].
  apply dueb_spec; [apply Hu; rewrite Es; now destruct (seq 0 (Z.to_nat n - 1)) | right; lia].
Qed.

(* one training step of a script *)
Lemma call_ok : forall loss d al bx bn g m C T Q u ux uy, equation loss d al bx bn g -> fits (m_val m) (m_gx m) (m_gy m) u ux uy (m_force m) C T Q ->
  exists l, call_kw loss (args (m_val m) (m_gx m) (m_gy m) u ux uy (m_force m) ++ bparams (Some d)) = Ok l.
Proof.
  intros loss d al bx bn g m C T Q u ux uy He Hf. destruct He.
  - destruct (poisson_spec _ _ _ _ _ _ _ _ _ _ Hf d eps H) as (l & E & _). eauto.
  - destruct (cd2d_spec _ _ _ _ _ _ _ _ _ _ Hf d eps b_x b_y c H H0 H1 H2) as (l & E & _). eauto.
  - destruct (helmholtz_spec _ _ _ _ _ _ _ _ _ _ Hf d eps k H H0) as (l & E & _). eauto.
Qed.
Lemma train_step_ok : forall sc m nn C T Q U G beta d al bx bn g, model_fits m C T Q -> m_cells m = C -> pointwise nn U G -> equation (m_loss m) d al bx bn g ->
  scalar_losses (train_step sc m nn beta (Some d)).
Proof.
  intros sc m nn C T Q U G beta d al bx bn g Hm Hc Hn He.
  assert (Hf : fits (m_val m) (m_gx m) (m_gy m) (at_points U (m_x m) C Q) (at_points (fun p => fst (G p)) (m_x m) C Q) (at_points (fun p => snd (G p)) (m_x m) C Q) (m_force m) C T Q)
    by now apply at_points_fits.
  destruct (call_ok _ _ _ _ _ _ _ _ _ _ _ _ _ He Hf) as (l & El). unfold bparams in El.
  pose proof (standard_ok m nn C T Q beta (Some d) Hm U G Hn Hc) as ES. pose proof (hard_ok m nn C T Q beta (Some d) Hm U G Hn Hc) as EH.
  rewrite El in ES, EH. cbv zeta in ES, EH. unfold train_step. destruct (sc_kind sc); rewrite ?ES, ?EH; do 3 eexists; (split; [reflexivity | cbn; auto]).
Qed.

(* the space, the handler and the model *)
Lemma build_ok : forall o pb sc i cells bd, oracle_ok o (Z.to_nat (i_quad_order i)) -> good_settings sc i -> cells <> [] ->
  (forall tag pts, In (tag, pts) bd -> pts <> []) -> bd <> [] -> (length bd <= 15)%nat ->
  (forall tag pts, In (tag, pts) bd -> In tag (map fst (pb_bound pb))) ->
  exists m, build o pb sc i cells bd = Ok m /\ m_cells m = length cells /\ m_loss m = sc_loss sc /\
    model_fits m (length cells) (Z.to_nat (i_fe_order i) * Z.to_nat (i_fe_order i)) (Z.to_nat (i_quad_order i) * Z.to_nat (i_quad_order i)).
Proof.
  intros o pb sc i cells bd Ho Hg Hc Hp Hb H15 Ht. destruct Hg as [D1 D2 D3 D4 D5 D6 D7 D8 [f D9] D10].
  assert (Hlen : lengths_ok o (Z.to_nat (cf_quad_order (space_config i)))) by exact (oracle_lengths _ _ Ho).
  assert (S : exists sp, make_space o (space_config i) cells bd (pb_bound pb) (i_mesh_plot i) = Ok sp).
  { apply (space_iff o (space_config i) cells bd (pb_bound pb) _ Hlen). refine (conj Hc (conj _ (conj _ _))).
    - intros c _. constructor; cbn [space_config cf_cell_type cf_fe_order cf_quad_order cf_fe_type cf_quad_type cf_trafo]; auto.
    - intros tag pts Hin _. eapply Ht, Hin.
    - auto. }
  destruct S as [sp S]. destruct (handler_spec o (space_config i) cells _ _ _ sp Hlen S (pb_rhs pb)) as (h & Eh & _).
  assert (D : exists dir, get_dirichlet_input bd (pb_bound pb) = Ok dir).
  { unfold get_dirichlet_input. pose proof S as S'. apply make_space_inv in S'. destruct S' as (_ & _ & Ed & _). rewrite Ed. cbn [bind]. eauto. }
  destruct D as [dir D].
  pose proof (construct_ok (layer_dims sc i) D7 D8 (sc_kind sc) (length cells) (i_rates i) f (i_attention i) D9 ltac:(intro; contradiction)) as Ec.
  exists (model_of h dir ([], []) (sc_loss sc) (length cells)). unfold build. rewrite S. cbn [bind]. rewrite Eh. cbn [bind]. rewrite D. cbn [bind]. rewrite Ec. cbn [bind].
  refine (conj eq_refl (conj eq_refl (conj eq_refl _))).
  apply (pipeline_fits o (space_config i) cells _ _ _ sp (pb_rhs pb) h dir ([], []) (sc_loss sc) _ Hlen S Eh D).
  destruct (dirichlet_input_shape _ _ _ D) as [_ Dd]. destruct (dirichlet_rows _ _ _ _ Dd) as (Ex & _).
  rewrite Ex. destruct bd as [|[tag [|q qs]] bd]; [congruence | exfalso; now apply (Hp tag []); [left|] | discriminate].
Qed.

Lemma predictions_ok2 : forall sc weights pts, (forall t, exists U G, pointwise (the_network sc (weights t)) U G) -> forall t, exists pred, predict_of sc weights pts t = Ok pred /\ length pred = length pts.
Proof.
  intros sc weights pts Hn t. destruct (Hn t) as (U & G & P). unfold predict_of. rewrite (proj1 (P pts)). cbn [bind]. eexists. split; [reflexivity|].
  clear. induction pts as [|p l IH]; cbn; auto.
Qed.
Lemma steps_ok : forall pb sc i m C T Q weights al bx bn g, model_fits m C T Q -> m_cells m = C -> m_loss m = sc_loss sc ->
  (forall t, exists U G, pointwise (the_network sc (weights t)) U G) -> equation (sc_loss sc) (pb_params pb) al bx bn g ->
  forall t, scalar_losses (step_of sc pb i m weights t).
Proof.
  intros pb sc i m C T Q weights al bx bn g Hm Hc Hl Hn He t. destruct (Hn t) as (U & G & P). unfold step_of.
  replace (params_as_tensors (fun r : R => r) (pb_params pb)) with (pb_params pb).
  - eapply train_step_ok; eauto. rewrite Hl. exact He.
  - unfold params_as_tensors. rewrite <- (map_id (pb_params pb)) at 1. apply map_ext. now intros [].
Qed.

Section RunInternal.
Variables (e : numpy R) (lhs1 : nat -> nat -> list R) (o : quad_oracle R) (template : string) (vtk : result (list (list R))).
Variables (pb : problem) (sc : script) (i : settings) (weights : nat -> net) (fs : files).
Variables (al bx bn g : R).
Hypothesis He : numpy_ok e.
Hypothesis Hl : sampler_ok lhs1.
Hypothesis Ho : oracle_ok o (Z.to_nat (i_quad_order i)).
Hypothesis Hg : good_settings sc i.
Hypothesis Hm : i_method i = "internal"%string.
Hypothesis Hx : fst (i_xlim i) < snd (i_xlim i).
Hypothesis Hy : fst (i_ylim i) < snd (i_ylim i).
Hypothesis Hc : (1 <= i_ncx i)%Z /\ (1 <= i_ncy i)%Z.
Hypothesis Hb : (4 <= i_nb i)%Z.
Hypothesis Ht : (2 <= i_ntx i)%Z /\ (2 <= i_nty i)%Z.
Hypothesis Hd : forall t, In t [1000; 1001; 1002; 1003]%Z -> In t (map fst (pb_bound pb)).
Hypothesis Heq : equation (sc_loss sc) (pb_params pb) al bx bn g.
Hypothesis Hn : forall t, exists U G, pointwise (the_network sc (weights t)) U G.

Lemma contour_plots : forall pts z, length pts = (Z.to_nat (i_ntx i) * Z.to_nat (i_nty i))%nat -> length z = length pts ->
  exists a, contour_args (i_ntx i) (i_nty i) pts z = Ok a /\ plot_contour a = Ok tt.
Proof.
  intros pts z L Lz. destruct (contour_ok (i_ntx i) (i_nty i) pts z L ltac:(congruence)) as (X & Y & Zm & E & _ & _ & [S1 S2] & _).
  exists (X, Y, Zm). split; [exact E|]. unfold plot_contour. rewrite S1. destruct (Nat.ltb_spec (Z.to_nat (i_ntx i)) 2); [lia|].
  destruct (Nat.ltb_spec (length (nth 0 Zm [])) 2) as [K|K]; [|reflexivity]. rewrite (S2 (nth 0 Zm [])) in K by (apply nth_In; lia). lia.
Qed.
Lemma run_prefix : exists m pts fs', let exact := map (fun p => pb_exact pb (fst p) (snd p)) pts in
  (forall t, scalar_losses (step_of sc pb i m weights t)) /\ length pts = (Z.to_nat (i_ntx i) * Z.to_nat (i_nty i))%nat /\
  run_internal e lhs1 o template vtk pb sc i weights fs =
  (do p <- train_loop (step_of sc pb i m weights) (predict_of sc weights pts) exact (i_epochs i) (i_update i) (show_plots i pts) fs'; finish i pts exact p).
Proof.
  pose proof Hg as [D1 D2 _ _ _ _ _ _ _ _]. destruct (i_xlim i) as [x0 x1] eqn:Ex. destruct (i_ylim i) as [y0 y1] eqn:Ey. cbn [fst snd] in Hx, Hy.
  destruct (generate_quad_mesh_internal e lhs1 (x0, x1) (y0, y1) (i_ncx i) (i_ncy i) (i_nb i)) as [[[cells mo] bd]|] eqn:E.
  2:{ rewrite internal_ok in E; auto; try lia; try (intro; lra); try tauto. discriminate. }
  pose proof (tile_count e lhs1 x0 x1 y0 y1 (i_ncx i) (i_ncy i) (i_nb i) cells mo bd He Hl ltac:(lia) ltac:(lia) ltac:(lia) E Hx Hy) as TC.
  pose proof (boundary_returned _ _ _ _ _ _ _ _ _ _ _ _ E) as B.
  destruct (boundary_sides lhs1 x0 x1 y0 y1 (i_nb i) Hl ltac:(lia)) as (b & r & t & l & B' & L1 & L2 & L3 & L4 & _). rewrite B in B'. injection B' as ->.
  assert (K4 : (1 <= Z.to_nat (i_nb i / 4))%nat) by (assert (1 <= i_nb i / 4)%Z by (apply Z.div_le_lower_bound; lia); lia).
  destruct (build_ok o pb sc i cells [(1000%Z, b); (1001%Z, r); (1002%Z, t); (1003%Z, l)] Ho Hg) as (m & Em & M1 & M2 & M3); try (simpl; lia); try discriminate.
  { intros ->. cbn [length] in TC. assert (1 <= Z.to_nat (i_ncx i) * Z.to_nat (i_ncy i))%nat by nia. lia. }
  { intros tag pts Hin ->. repeat destruct Hin as [Hin | Hin]; try (injection Hin as _ ->; simpl in *; lia). destruct Hin. }
  { intros tag pts Hin. apply Hd. repeat destruct Hin as [Hin | Hin]; try (injection Hin as <- _; simpl; tauto). destruct Hin. }
  set (g' := {| g_method := "internal"; g_ntx := i_ntx i; g_nty := i_nty i; g_folder := i_output_path i; g_optimized := false;
                g_limits := Some ((x0, x1), (y0, y1)); g_file := None |}).
  destruct (test_points_internal g' vtk (x0, x1) (y0, y1) eq_refl eq_refl) as (pts & Ep & Lp & _); try (cbn; lia).
  cbn [g' g_ntx g_nty] in Lp.
  exists m, pts, (dset String.eqb fs (template_path g') template). cbv zeta.
  split; [eapply steps_ok; eauto|]. split; [exact Lp|].
  unfold run_internal, check_dtype. rewrite D2, Hm, Ex, Ey. 
  assert (Dt : orb (String.eqb (i_dtype i) "float64") (String.eqb (i_dtype i) "float32") = true) by (destruct D1 as [<- | [<- | []]]; reflexivity).
  rewrite Dt. cbn [bind].
  change (make_geometry "quadrilateral" "internal" (i_ntx i) (i_nty i) (i_output_path i) false) with
    (Ok {| g_method := "internal"; g_ntx := i_ntx i; g_nty := i_nty i; g_folder := i_output_path i; g_optimized := false; g_limits := @None ((R * R) * (R * R)); g_file := None |}).
  cbn [bind]. unfold call_internal. rewrite E. cbn [g_optimized]. unfold set_limits. cbn [g_method g_ntx g_nty g_folder g_optimized g_file]. fold g'.
  change (generate_vtk_for_test g' template fs) with (@Ok unit tt, dset String.eqb fs (template_path g') template). cbn [bind].
  rewrite Em. cbn [bind]. rewrite Ep. cbn [bind].
  destruct (contour_plots pts (map (fun p => pb_exact pb (fst p) (snd p)) pts) Lp) as (a & -> & Epl); [apply map_length|]. cbn [bind]. rewrite Epl. reflexivity.
Qed.
Lemma internal_runs : (1 <= i_epochs i)%Z -> i_update i <> 0%Z -> exists r, run_internal e lhs1 o template vtk pb sc i weights fs = Ok r.
Proof.
  intros H1 H2. destruct run_prefix as (m & pts & fs' & Hs & Lp & ->).
  destruct (loop_runs (step_of sc pb i m weights) (predict_of sc weights pts) (map (fun p => pb_exact pb (fst p) (snd p)) pts) (i_epochs i) (i_update i) (show_plots i pts) fs' (fun _ => True))
    as (p & Ep & _); auto.
  - intros K. apply map_eq_nil in K. subst pts. cbn [length] in Lp. nia.
  - rewrite map_length. now apply predictions_ok2.
  - rewrite map_length. intros t pred err fs0 Hp1 Hp2 _. unfold show_plots.
    destruct (contour_plots pts pred Lp Hp1) as (a & -> & Ea). cbn [bind]. rewrite Ea. cbn [bind].
    destruct (contour_plots pts err Lp Hp2) as (b & -> & Eb). cbn [bind]. rewrite Eb. cbn [bind]. eauto.
  - rewrite Ep. cbn [bind]. destruct (loop_last _ _ _ _ _ _ _ _ H1 Ep) as (x & Ex). unfold finish. rewrite Ex. destruct x as [[? ?] ?]. eauto.
Qed.
Lemma internal_no_epoch : (i_epochs i <= 0)%Z -> run_internal e lhs1 o template vtk pb sc i weights fs = Err NameError.
Proof. intros H1. destruct run_prefix as (m & pts & fs' & Hs & Lp & ->). rewrite loop_empty by exact H1. reflexivity. Qed.
Lemma internal_no_period : (1 <= i_epochs i)%Z -> i_update i = 0%Z -> run_internal e lhs1 o template vtk pb sc i weights fs = Err ZeroDivisionError.
Proof. intros H1 H2. destruct run_prefix as (m & pts & fs' & Hs & Lp & ->). rewrite H2, loop_zero by auto. reflexivity. Qed.
End RunInternal.

(* networks of the scripts *)
Lemma script_pointwise : forall sc (dims : list Z) w, (2 <= length dims)%nat -> nth 0 dims 0%Z = 2%Z -> nth (length dims - 1) dims 0%Z = 1%Z ->
  widths dims w -> n_attention w = false ->
  (sc_kind sc = Hard -> sc_constraint sc = None \/ exists h : R * R -> R -> R, sc_constraint sc = Some (fun b y => map2 (fun p row => map (h p) row) b y)) ->
  exists U G, pointwise (the_network sc w) U G.
Proof.
  intros sc dims w L D0 D1 W A Hh. pose proof (widths_chain dims w L D0 W) as C. unfold chain in *. cbv beta zeta in C. rewrite D1 in C.
  destruct (plain_pointwise w A C) as (U & _ & P & _). unfold the_network.
  assert (Pl : exists U G, pointwise (network_of w) U G) by eauto.
  destruct (sc_kind sc) eqn:K; auto. destruct (Hh eq_refl) as [-> | [h ->]].
  - exists U, (grad U). intros b. destruct (hard_default w b None) as [-> ->]. apply P.
  - destruct (hard_pointwise h w A C) as (V & _ & Q). eauto.
Qed.

(* ---------- strings ---------- *)
Lemma app_cancel : forall a b c : string, (a ++ b = a ++ c)%string -> b = c.
Proof. induction a as [|x a IH]; intros b c H; auto. cbn in H. injection H as H. auto. Qed.
Lemma str_app_length : forall a b : string, String.length (a ++ b) = (String.length a + String.length b)%nat.
Proof. induction a as [|x a IH]; intros b; cbn; auto. Qed.
Lemma app_cancel_r : forall a b c : string, (a ++ c = b ++ c)%string -> a = b.
Proof.
  induction a as [|x a IH]; intros [|y b] c H; auto; cbn in H.
  - apply (f_equal String.length) in H. cbn in H. rewrite str_app_length in H. lia.
  - apply (f_equal String.length) in H. cbn in H. rewrite str_app_length in H. lia.
  - injection H as -> H. f_equal. eauto.
Qed.
Lemma decimal_inj : forall a b, decimal a = decimal b -> a = b.
Proof.
  intros a b H. unfold decimal in H.
  assert (N : forall n, Nat.to_uint n <> Decimal.Nil).
  { intros n K. assert (S0 : exists u, Nat.to_uint n = Decimal.unorm u) by (exists (Nat.to_uint n); now rewrite <- DecimalNat.Unsigned.to_of, DecimalNat.Unsigned.of_to).
    destruct S0 as [u Eu]. rewrite K in Eu. unfold Decimal.unorm in Eu. destruct (Decimal.nzhead u); discriminate. }
  apply (f_equal DecimalString.NilZero.uint_of_string) in H. rewrite !DecimalString.NilZero.usu in H by auto. injection H as H.
  now apply DecimalNat.Unsigned.to_uint_inj.
Qed.
Lemma path_inj : forall i t t', vtk_path i t = vtk_path i t' -> t = t'.
Proof.
  intros i t t' H. unfold vtk_path in H. do 3 apply app_cancel in H. apply app_cancel_r in H. apply decimal_inj in H. lia.
Qed.
Lemma path_template : forall (g : geom R) i t, g_folder g = i_output_path i -> template_path g <> vtk_path i t.
Proof.
  intros g i t Hf H. unfold template_path, vtk_path in H. rewrite Hf in H. do 2 apply app_cancel in H. destruct (String.eqb _ _); discriminate.
Qed.

(* ---------- the .vtk files ---------- *)
Lemma cols3 : forall (a b c : list R), length a = length b -> length b = length c ->
  let rows := map2 (fun x yz => [x; fst yz; snd yz]) a (combine b c) in
  map (fun row => nth 0 row 0) rows = a /\ map (fun row => nth 1 row 0) rows = b /\ map (fun row => nth 2 row 0) rows = c.
Proof.
  induction a as [|x a IH]; intros [|y b] [|z c] H1 H2; try discriminate; cbn; auto.
  destruct (IH b c ltac:(now injection H1) ltac:(now injection H2)) as (E1 & E2 & E3). cbv zeta in *. now rewrite E1, E2, E3.
Qed.
Section Vtk.
Variables (fmt : R -> string) (g : geom R) (i : settings) (exact : list R) (content : string).
Hypothesis Hf : g_folder g = i_output_path i.
Definition the_head : string := catl (upto_point_data (lines content)).
Definition text (pred err : list R) : string := (the_head ++ data_array fmt "Sol" pred ++ data_array fmt "Exact" exact ++ data_array fmt "Error" err)%string.
Lemma show_ok : forall t pred err fs, length pred = length exact -> length err = length exact -> dget String.eqb fs (template_path g) = Ok content ->
  show_vtk fmt g i exact t pred err fs = Ok (dset String.eqb fs (vtk_path i t) (text pred err)).
Proof.
  intros t pred err fs L1 L2 Hc. unfold show_vtk. rewrite L1, L2, Nat.eqb_refl. cbn [andb negb].
  destruct (cols3 pred exact err L1 (eq_sym L2)) as (E1 & E2 & E3). cbv zeta in E1, E2, E3.
  unfold write_vtk. rewrite Hc. cbn [vtk_names length Nat.eqb negb bind seq map nth]. change (@n0 R _) with 0. rewrite E1, E2, E3.
  fold the_head. apply f_equal, f_equal. unfold text. f_equal. rewrite !vtk_column_eq. unfold catl at 1. cbn [fold_right]. rewrite append_nil_r. reflexivity.
Qed.
Lemma show_inv : forall t pred err fs fs', show_vtk fmt g i exact t pred err fs = Ok fs' -> length pred = length exact /\ length err = length exact.
Proof.
  intros t pred err fs fs' H. unfold show_vtk in H.
  destruct (Nat.eqb_spec (length pred) (length exact)) as [E1|]; [|discriminate]. destruct (Nat.eqb_spec (length exact) (length err)) as [E2|]; [|discriminate]. auto.
Qed.
Lemma dget_set : forall (fs : files) p q s, dget String.eqb (dset String.eqb fs p s) q = if String.eqb q p then Ok s else dget String.eqb fs q.
Proof. intros fs p q s. destruct (String.eqb_spec q p) as [-> | N]; [apply dget_dset_same | now apply dget_dset_other]. Qed.
Section Loop.
Variables (step : nat -> result (losses R)) (predict : nat -> result (list R)) (n upd : Z).
Lemma looped_files : forall l p p', looped step predict exact n upd (show_vtk fmt g i exact) l p p' -> NoDup l -> dget String.eqb (p_files p) (template_path g) = Ok content ->
  dget String.eqb (p_files p') (template_path g) = Ok content /\
  (forall t, In t l -> dueb n upd t = true -> exists pred, predict (S t) = Ok pred /\ length pred = length exact /\
     dget String.eqb (p_files p') (vtk_path i t) = Ok (text pred (map2 (fun a b => Rabs (a - b)) exact pred))) /\
  (forall q, (forall t, In t l -> dueb n upd t = true -> q <> vtk_path i t) -> dget String.eqb (p_files p') q = dget String.eqb (p_files p) q).
Proof.
  induction 1 as [p | t l p p' L Es Ed H IH | t l p p' L v x fs Es Ed Hr Hs H IH]; intros Nd Hc.
  - split; [exact Hc|]. split; [intros t [] | auto].
  - inversion Nd; subst. cbn [p_files] in IH. destruct (IH ltac:(auto) Hc) as (A & B & C). split; [exact A|]. split.
    + intros t' [<- | Ht] D; [congruence | auto].
    + intros q Hq. apply C. intros t' Ht'. apply Hq. now right.
  - inversion Nd as [|? ? Nt Nd']; subst. cbn [p_files] in IH.
    destruct Hr as (pred & d & errs & a & b & c & e & f & Ep & Esub & Ee & -> & ->). cbn [fst snd] in Hs.
    destruct (show_inv _ _ _ _ _ Hs) as [L1 L2]. rewrite show_ok in Hs by auto. injection Hs as <-.
    unfold np_subtract in Esub. rewrite L1, Nat.eqb_refl in Esub. injection Esub as <-.
    assert (Ea : np_abs (map2 Rminus exact pred) = map2 (fun a b => Rabs (a - b)) exact pred).
    { clear. revert pred. induction exact as [|x l IH]; intros [|y p]; cbn; auto. f_equal. apply IH. }
    rewrite Ea in IH. destruct IH as (A & B & C); [auto|..].
    { rewrite dget_set. destruct (String.eqb_spec (template_path g) (vtk_path i t)) as [K|]; [now apply path_template in K | exact Hc]. }
    split; [exact A|]. split.
    + intros t' [<- | Ht] D; [|auto]. exists pred. split; [exact Ep|]. split; [exact L1|].
      rewrite C; [now rewrite dget_set, String.eqb_refl|]. intros t' Ht' _ K. apply path_inj in K. now subst t'.
    + intros q Hq. rewrite C by (intros t' Ht'; apply Hq; now right). rewrite dget_set.
      destruct (String.eqb_spec q (vtk_path i t)) as [K|]; [|reflexivity]. exfalso. apply (Hq t); auto. now left.
Qed.
End Loop.
End Vtk.

Lemma external_files_with : forall exact_of e lhs2 o file template vtk fmt pb sc i weights fs r,
  run_external_with exact_of e lhs2 o file template vtk fmt pb sc i weights fs = Ok r ->
  let n := Z.to_nat (i_epochs i) in
  exists cells raw m rows head exact,
    read_mesh e lhs2 file (i_mesh_file i) (i_level i) (i_sampling i) (sc_refinement sc i) = Ok (cells, raw) /\
    build o pb sc i cells (boundary_xy raw) = Ok m /\ exact_of (r_points r) = Ok exact /\ reports_against exact pb sc i weights m r /\
    i_method i = "external"%string /\ vtk = Ok rows /\ r_points r = map xy rows /\
    (* one file for every report ... *)
    (forall t, (t < n)%nat -> due (i_epochs i) (i_update i) t -> exists pred, answers sc weights (r_points r) (S t) pred /\
       dget String.eqb (r_files r) (vtk_path i t) = Ok (prediction_text fmt head pred (r_exact r))) /\
    (* ... headed by the template, and no other file is touched *)
    dget String.eqb (r_files r) (i_output_path i ++ "/external.vtk")%string = Ok template /\
    ((exists pre l post, lines template = (pre ++ l :: post)%list /\ (forall x, In x pre -> ~ exists a b, x = (a ++ "POINT_DATA" ++ b)%string) /\
        (exists a b, l = (a ++ "POINT_DATA" ++ b)%string) /\ head = catl (pre ++ [l])%list) \/
     ((forall x, In x (lines template) -> ~ exists a b, x = (a ++ "POINT_DATA" ++ b)%string) /\ head = template)) /\
    (forall q, q <> (i_output_path i ++ "/external.vtk")%string -> (forall t, (t < n)%nat -> due (i_epochs i) (i_update i) t -> q <> vtk_path i t) ->
       dget String.eqb (r_files r) q = dget String.eqb fs q).
Proof.
  intros exact_of e lhs2 o file template vtk fmt pb sc i weights fs r H n. unfold run_external_with in H.
  destruct (check_dtype (i_dtype i)); [|discriminate]. cbn [bind] in H.
  destruct (make_geometry (i_mesh_type i) (i_method i) (i_ntx i) (i_nty i) (i_output_path i) false) as [g|] eqn:Eg; [|discriminate]. cbn [bind] in H.
  assert (Fg : g_method g = i_method i /\ g_folder g = i_output_path i /\ g_limits g = None /\ (i_method i = "internal"%string \/ i_method i = "external"%string)).
  { unfold make_geometry in Eg. destruct (String.eqb_spec (i_method i) "internal") as [M1|M1]; cbn [orb negb] in Eg.
    - destruct (negb _); [discriminate|]. injection Eg as <-. auto.
    - destruct (String.eqb_spec (i_method i) "external") as [M2|M2]; cbn [negb] in Eg; [|discriminate]. destruct (negb _); [discriminate|]. injection Eg as <-. auto. }
  destruct Fg as (F1 & F2 & F3 & F4).
  unfold call_read in H. destruct (read_mesh e lhs2 file (i_mesh_file i) (i_level i) (i_sampling i) (sc_refinement sc i)) as [[cells raw]|] eqn:Er; [|discriminate].
  set (g' := set_file g (i_mesh_file i)) in *.
  assert (Hm : i_method i = "external"%string).
  { destruct F4 as [F4|F4]; auto. exfalso. unfold generate_vtk_for_test in H. cbn [g' set_file g_method g_limits] in H. rewrite F1, F4, F3 in H. discriminate. }
  assert (Et : template_path g' = (i_output_path i ++ "/external.vtk")%string).
  { unfold template_path. cbn [g' set_file g_method g_folder]. rewrite F1, F2, Hm. reflexivity. }
  assert (Ev : generate_vtk_for_test g' template fs = (Ok tt, dset String.eqb fs (template_path g') template)).
  { unfold generate_vtk_for_test. cbn [g' set_file g_method g_file]. rewrite F1, Hm. reflexivity. }
  rewrite Ev in H. cbn [bind fst snd] in H.
  destruct (build o pb sc i cells (boundary_xy raw)) as [m|] eqn:Eb; [|discriminate]. cbn [bind] in H.
  assert (Ep : get_test_points g' vtk = (do rows <- vtk; Ok (map xy rows))).
  { unfold get_test_points. cbn [g' set_file g_method]. rewrite F1, Hm. reflexivity. }
  rewrite Ep in H. destruct vtk as [rows|]; [|discriminate]. cbn [bind] in H. set (pts := map xy rows) in *.
  destruct (exact_of pts) as [exact|] eqn:Ee; [|discriminate]. cbn [bind] in H.
  destruct (train_loop _ _ _ _ _ _ _) as [p|] eqn:El; [|discriminate]. cbn [bind] in H.
  destruct (finish i pts exact p) as [r0|] eqn:Ef; [|discriminate]. cbn [bind] in H.
  assert (Hsh : forall t pred err fs fs', show_vtk fmt g' i exact t pred err fs = Ok fs' -> length pred = length exact).
  { intros t pred err fs0 fs1 K. apply show_inv in K. destruct K as [K _]. congruence. }
  destruct (loop_reports_against pb sc i weights m pts exact _ Hsh _ _ _ El Ef) as (Hr & Hp & Hfi). pose proof Hr as [P1 P2 P3 P4 P5 P6 P7 P8 P9 P10 P11].
  rewrite Hp in P7.
  assert (Es : np_subtract exact (r_pred r0) = Ok (map2 Rminus exact (r_pred r0))).
  { unfold np_subtract. now rewrite (proj1 P8), Nat.eqb_refl. }
  rewrite Es in H. cbn [bind] in H.
  assert (Fg' : g_folder g' = i_output_path i) by (cbn [g' set_file g_folder]; exact F2).
  unfold train_loop in El. apply loop_looped in El. destruct El as [El _].
  destruct (looped_files fmt g' i exact template Fg' _ _ _ _ _ _ _ El (seq_NoDup _ _)) as (A & B & C).
  { cbn [p_files]. apply dget_dset_same. }
  cbn [p_files] in C. rewrite <- Hfi in A, B, C.
  assert (Ea : np_abs (map2 Rminus exact (r_pred r0)) = map2 (fun a b => Rabs (a - b)) exact (r_pred r0)).
  { clear. generalize (r_pred r0). induction exact as [|x l IH]; intros [|y q]; cbn; auto. f_equal. apply IH. }
  rewrite Ea, (show_ok fmt g' i exact template) in H; auto; [|apply P8 | rewrite map2_length, (proj1 P8); apply Nat.min_id].
  cbn [bind] in H. injection H as <-. cbn [r_files r_points r_exact].
  destruct (write_content fmt g' (r_files r0) [] 0 "" [] template A eq_refl) as (head' & fs0 & Ew & _ & Ec & Hh).
  assert (Hd : head' = the_head template).
  { unfold write_vtk in Ew. rewrite A in Ew. cbn [length Nat.eqb negb seq map] in Ew. injection Ew as <-. rewrite dget_dset_same in Ec. injection Ec as Ec.
    cbn [seq map] in Ec. change (catl []) with ""%string in Ec. rewrite !append_nil_r in Ec. symmetry. exact Ec. }
  exists cells, raw, m, rows, head', exact.
  refine (conj eq_refl (conj Eb (conj _ (conj _ (conj Hm (conj eq_refl (conj _ (conj _ (conj _ (conj Hh _)))))))))).
  - rewrite Hp. exact Ee.
  - destruct Hr. constructor; assumption.
  - rewrite Hp. reflexivity.
  - intros t Ht Hdue. assert (Dt : dueb (i_epochs i) (i_update i) t = true) by now apply dueb_spec.
    rewrite dget_set. destruct (String.eqb_spec (vtk_path i t) (vtk_path i (Z.to_nat (i_epochs i) - 1))) as [K|K].
    + apply path_inj in K. exists (r_pred r0). split.
      * replace (S t) with (r_saved r0) by (rewrite P5; fold n in K |- *; lia). rewrite Hp. exact P7.
      * rewrite P6, Hd. reflexivity.
    + destruct (B t ltac:(apply in_seq; unfold n in Ht; lia) Dt) as (pred & Q1 & Q2 & Q3). exists pred. split.
      * rewrite Hp. unfold predict_of in Q1. destruct (nn_out _ pts) as [y|] eqn:Ey; [|discriminate]. cbn [bind] in Q1. injection Q1 as <-. exists y. auto.
      * rewrite Q3, P6, Hd. reflexivity.
  - rewrite dget_set. rewrite <- Et. destruct (String.eqb_spec (template_path g') (vtk_path i (Z.to_nat (i_epochs i) - 1))) as [K|_]; [now apply path_template in K | exact A].
  - intros q N1 N2. rewrite dget_set. destruct (String.eqb_spec q (vtk_path i (Z.to_nat (i_epochs i) - 1))) as [K|_].
    + exfalso. apply (N2 (n - 1)%nat); [unfold n; lia | right; unfold n; lia | exact K].
    + rewrite C.
      * rewrite dget_set, Et. destruct (String.eqb_spec q (i_output_path i ++ "/external.vtk")%string); [contradiction | reflexivity].
      * intros t Ht Dt. apply N2; [apply in_seq in Ht; unfold n; lia | now apply dueb_spec].
Qed.

Lemma external_files : forall e lhs2 o file template vtk fmt pb sc i weights fs r,
  run_external e lhs2 o file template vtk fmt pb sc i weights fs = Ok r ->
  let n := Z.to_nat (i_epochs i) in
  exists cells raw m rows head,
    read_mesh e lhs2 file (i_mesh_file i) (i_level i) (i_sampling i) (sc_refinement sc i) = Ok (cells, raw) /\
    build o pb sc i cells (boundary_xy raw) = Ok m /\ reports pb sc i weights m r /\
    i_method i = "external"%string /\ vtk = Ok rows /\ r_points r = map xy rows /\
    (* one file for every report ... *)
    (forall t, (t < n)%nat -> due (i_epochs i) (i_update i) t -> exists pred, answers sc weights (r_points r) (S t) pred /\
       dget String.eqb (r_files r) (vtk_path i t) = Ok (prediction_text fmt head pred (r_exact r))) /\
    (* ... headed by the template, and no other file is touched *)
    dget String.eqb (r_files r) (i_output_path i ++ "/external.vtk")%string = Ok template /\
    ((exists pre l post, lines template = (pre ++ l :: post)%list /\ (forall x, In x pre -> ~ exists a b, x = (a ++ "POINT_DATA" ++ b)%string) /\
        (exists a b, l = (a ++ "POINT_DATA" ++ b)%string) /\ head = catl (pre ++ [l])%list) \/
     ((forall x, In x (lines template) -> ~ exists a b, x = (a ++ "POINT_DATA" ++ b)%string) /\ head = template)) /\
    (forall q, q <> (i_output_path i ++ "/external.vtk")%string -> (forall t, (t < n)%nat -> due (i_epochs i) (i_update i) t -> q <> vtk_path i t) ->
       dget String.eqb (r_files r) q = dget String.eqb fs q).
Proof.
  intros e lhs2 o file template vtk fmt pb sc i weights fs r H n. unfold run_external in H.
  destruct (external_files_with _ e lhs2 o file template vtk fmt pb sc i weights fs r H) as (cells & raw & m & rows & head & exact & H1 & H2 & Hx & H3 & H4 & H5 & H6 & H7).
  exists cells, raw, m, rows, head. injection Hx as <-. unfold exact_values in H3. refine (conj H1 (conj H2 (conj _ (conj H4 (conj H5 (conj H6 H7)))))).
  destruct H3 as [P1 P2 P3 P4 P5 P6 P7 P8 P9 P10 P11]. rewrite map_length in P8, P9. constructor; rewrite ?P6; auto.
Qed.

Section RunExternal.
Variables (e : numpy R) (lhs2 : nat -> nat -> list (R * R)) (o : quad_oracle R) (file : string -> result (mesh_file R)) (template : string) (rows : list (list R)).
Variables (fmt : R -> string) (pb : problem) (sc : script) (i : settings) (weights : nat -> net) (fs : files).
Variables (al bx bn g : R) (cells : list (cell R)) (raw : list (Z * list (list R))).
Variables (exact_of : list (R * R) -> result (list R)) (exact : list R).
Hypothesis Hx : exact_of (map xy rows) = Ok exact.
Hypothesis Lx : length exact = length rows.
Hypothesis Ho : oracle_ok o (Z.to_nat (i_quad_order i)).
Hypothesis Hg : good_settings sc i.
Hypothesis Hm : i_method i = "external"%string.
Hypothesis Hr : read_mesh e lhs2 file (i_mesh_file i) (i_level i) (i_sampling i) (sc_refinement sc i) = Ok (cells, raw).
Hypothesis Hc : cells <> [].
Hypothesis Hb : raw <> [] /\ (length raw <= 15)%nat.
Hypothesis Hp : forall tag pts, In (tag, pts) raw -> pts <> [] /\ In tag (map fst (pb_bound pb)).
Hypothesis Hv : rows <> [].
Hypothesis Heq : equation (sc_loss sc) (pb_params pb) al bx bn g.
Hypothesis Hn : forall t, exists U G, pointwise (the_network sc (weights t)) U G.
Lemma external_runs_with : (1 <= i_epochs i)%Z -> i_update i <> 0%Z -> exists r, run_external_with exact_of e lhs2 o file template (Ok rows) fmt pb sc i weights fs = Ok r.
Proof.
  intros H1 H2. pose proof Hg as [D1 D2 _ _ _ _ _ _ _ _].
  assert (Ib : forall tag pts, In (tag, pts) (boundary_xy raw) -> exists l, In (tag, l) raw /\ pts = map xy l).
  { intros tag pts H. unfold boundary_xy in H. apply in_map_iff in H. destruct H as ([tag' l] & K & H). injection K as <- <-. eauto. }
  assert (Lb : length (boundary_xy raw) = length raw) by apply map_length.
  destruct (build_ok o pb sc i cells (boundary_xy raw) Ho Hg Hc) as (m & Em & M1 & M2 & M3).
  { intros tag pts H. destruct (Ib tag pts H) as (l & Hl & ->). intros K. apply map_eq_nil in K. now apply (Hp tag l Hl). }
  { intros K. destruct raw; [apply (proj1 Hb); reflexivity | discriminate]. }
  { lia. }
  { intros tag pts H. destruct (Ib tag pts H) as (l & Hl & ->). now apply (Hp tag l). }
  set (pts := map xy rows) in *.
  set (g' := {| g_method := "external"; g_ntx := i_ntx i; g_nty := i_nty i; g_folder := i_output_path i; g_optimized := false;
                g_limits := @None ((R * R) * (R * R)); g_file := Some (i_mesh_file i) |}).
  assert (Le : length exact = length pts) by (unfold pts; rewrite map_length; exact Lx).
  assert (Sh : forall t pred err fs0, length pred = length exact -> length err = length exact -> dget String.eqb fs0 (template_path g') = Ok template ->
    exists fs1, show_vtk fmt g' i exact t pred err fs0 = Ok fs1 /\ dget String.eqb fs1 (template_path g') = Ok template).
  { intros t pred err fs0 L1 L2 Hd. rewrite (show_ok fmt g' i exact template) by auto. eexists. split; [reflexivity|]. rewrite dget_set.
    destruct (String.eqb_spec (template_path g') (vtk_path i t)) as [K|_]; [now apply path_template in K | exact Hd]. }
  destruct (loop_runs (step_of sc pb i m weights) (predict_of sc weights pts) exact (i_epochs i) (i_update i) (show_vtk fmt g' i exact)
    (dset String.eqb fs (template_path g') template) (fun fs0 => dget String.eqb fs0 (template_path g') = Ok template)) as (p & El & Ip); auto.
  { intros K. rewrite K in Lx. destruct rows; [contradiction | discriminate]. }
  { apply dget_dset_same. }
  { eapply steps_ok; eauto. }
  { rewrite Le. now apply predictions_ok2. }
  assert (Dt : orb (String.eqb (i_dtype i) "float64") (String.eqb (i_dtype i) "float32") = true) by (destruct D1 as [<- | [<- | []]]; reflexivity).
  unfold run_external_with, check_dtype. rewrite D2, Hm, Dt. cbn [bind].
  change (make_geometry "quadrilateral" "external" (i_ntx i) (i_nty i) (i_output_path i) false) with
    (Ok {| g_method := "external"; g_ntx := i_ntx i; g_nty := i_nty i; g_folder := i_output_path i; g_optimized := false; g_limits := @None ((R * R) * (R * R)); g_file := None |}).
  cbn [bind]. unfold call_read. rewrite Hr. unfold set_file. cbn [g_method g_ntx g_nty g_folder g_optimized g_limits]. fold g'.
  change (generate_vtk_for_test g' template fs) with (@Ok unit tt, dset String.eqb fs (template_path g') template). cbn [bind fst snd].
  rewrite Em. cbn [bind]. change (get_test_points g' (Ok rows)) with (Ok pts). cbn [bind]. rewrite Hx. cbn [bind]. rewrite El. cbn [bind].
  destruct (loop_last _ _ _ _ _ _ _ _ H1 El) as (x & Ex).
  destruct (finish i pts exact p) as [r0|] eqn:Ef; [|unfold finish in Ef; rewrite Ex in Ef; destruct x as [[? ?] ?]; discriminate]. cbn [bind].
  assert (Hsh : forall t pred err fs fs', show_vtk fmt g' i exact t pred err fs = Ok fs' -> length pred = length exact).
  { intros t pred err fs0 fs1 K. apply show_inv in K. destruct K as [K _]. congruence. }
  destruct (loop_reports_against pb sc i weights m pts exact _ Hsh _ _ _ El Ef) as (Hrep & Hpt & Hfi). destruct (ra_lengths _ _ _ _ _ _ _ Hrep) as [L1 _].
  assert (Es : np_subtract exact (r_pred r0) = Ok (map2 Rminus exact (r_pred r0))).
  { unfold np_subtract. now rewrite L1, Nat.eqb_refl. }
  rewrite Es. cbn [bind].
  destruct (Sh (Z.to_nat (i_epochs i) - 1)%nat (r_pred r0) (np_abs (map2 Rminus exact (r_pred r0))) (r_files r0)) as (fs1 & -> & _); [congruence | | now rewrite Hfi |].
  - unfold np_abs. rewrite map_length, map2_length. lia.
  - cbn [bind]. eauto.
Qed.
End RunExternal.

(* ---------- tables ---------- *)
Lemma table_rows : forall V (col1 : list string) (col2 : list V), length (print_table col1 col2) = Nat.min (length col1) (length col2) /\
  forall k d1 d2, (k < length col1)%nat -> (k < length col2)%nat -> nth k (print_table col1 col2) (d1, d2) = (nth k col1 d1, nth k col2 d2).
Proof.
  intros V col1 col2. split; [apply combine_length|]. revert col2. unfold print_table. induction col1 as [|a l IH]; intros [|b m] k d1 d2 H1 H2; cbn [length] in *; try lia.
  destruct k; cbn [combine nth]; auto. apply IH; lia.
Qed.
Lemma error_rows : forall u v errs, compute_errors_combined u v = Ok errs -> exists l2 linf l2r linfr l1 l1r,
  compute_l2_error (flatten u) (flatten v) = Ok l2 /\ compute_linf_error (flatten u) (flatten v) = Ok linf /\ compute_l2_error_relative (flatten u) (flatten v) = Ok l2r /\
  compute_linf_error_relative (flatten u) (flatten v) = Ok linfr /\ compute_l1_error (flatten u) (flatten v) = Ok l1 /\ compute_l1_error_relative (flatten u) (flatten v) = Ok l1r /\
  error_table errs = [("L2 Error", l2); ("Linf Error", linf); ("Relative L2 Error", l2r); ("Relative Linf Error", linfr); ("L1 Error", l1); ("Relative L1 Error", l1r)]%string.
Proof.
  intros u v errs H. unfold compute_errors_combined in H.
  destruct (compute_l2_error _ _) as [x1|]; [|discriminate]. destruct (compute_linf_error _ _) as [x2|]; [|discriminate].
  destruct (compute_l2_error_relative _ _) as [x3|]; [|discriminate]. destruct (compute_linf_error_relative _ _) as [x4|]; [|discriminate].
  destruct (compute_l1_error _ _) as [x5|]; [|discriminate]. destruct (compute_l1_error_relative _ _) as [x6|]; [|discriminate].
  cbn [bind] in H. injection H as <-. exists x1, x2, x3, x4, x5, x6. repeat (split; [reflexivity|]). reflexivity.
Qed.
Lemma forward_total : forall st epochs ts t, time_table_forward st epochs ts = Ok t -> row_of "Total Train Time" t = [VReal (vsum ts)] /\ row_of "Mean (s)" t = [VReal (vmean ts)].
Proof. intros st epochs ts t H. unfold time_table_forward in H. destruct (per_second epochs ts); [|discriminate]. injection H as <-. split; reflexivity. Qed.
Lemma inverse_total : forall st epochs ts t, time_table_inverse st epochs ts = Ok t -> row_of "Total Train Time" t = [VReal (vsum (tl ts))].
Proof. intros st epochs ts t H. unfold time_table_inverse in H. destruct (per_second epochs ts); [|discriminate]. injection H as <-. reflexivity. Qed.
Lemma domain_total : forall st epochs ts t, time_table_domain st epochs ts = Ok t -> vsum ts <> 0 /\ row_of "Total Train Time" t = [VInt (trunc (IZR epochs / vsum ts))].
Proof.
  intros st epochs ts t H. unfold time_table_domain, per_second in H. destruct (Req_EM_T (vsum ts) 0); [discriminate|]. injection H as <-. split; [auto | reflexivity].
Qed.
Lemma inverse_total_wrong : forall st epochs t0 ts t, t0 <> 0 -> time_table_inverse st epochs (t0 :: ts) = Ok t -> row_of "Total Train Time" t <> [VReal (vsum (t0 :: ts))].
Proof.
  intros st epochs t0 ts t H0 H. rewrite (inverse_total _ _ _ _ H). cbn [tl]. rewrite vsum_cons. intros K. injection K as K. lra.
Qed.
Lemma trunc_spec : forall x, 0 <= x -> IZR (trunc x) <= x < IZR (trunc x) + 1.
Proof. intros x H. unfold trunc. destruct (Rle_dec 0 x) as [_|]; [|lra]. pose proof (base_Int_part x). lra. Qed.
Lemma forward_rate : forall st epochs ts t, (0 <= epochs)%Z -> (forall x, In x ts -> 0 <= x) -> time_table_forward st epochs ts = Ok t ->
  exists k, row_of "Epochs per second" t = [VInt k] /\ IZR k <= IZR epochs / vsum ts < IZR k + 1.
Proof.
  intros st epochs ts t He Hp H. unfold time_table_forward, per_second in H. destruct (Req_EM_T (vsum ts) 0) as [|N]; [discriminate|]. injection H as <-.
  eexists. split; [reflexivity|]. apply trunc_spec. assert (0 <= vsum ts) by now apply vsum_nonneg.
  apply IZR_le in He. unfold Rdiv. apply Rmult_le_pos; [exact He|]. apply Rlt_le, Rinv_0_lt_compat. lra.
Qed.

(* ---------- the layers ---------- *)
Lemma kernels_fixed : forall sc i f, In sc [main_uniform_poisson; main_uniform_helmholtz; main_hard_poisson; main_complex_poisson] -> learning_rate (sc_kind sc) (i_rates i) = Ok f ->
  built_kernels sc i = Ok [(2, 30); (30, 30); (30, 30); (30, 1)]%nat.
Proof.
  intros sc i f Hs Hf. unfold built_kernels.
  assert (D : layer_dims sc i = fixed_layers /\ sc_kind sc <> Domain) by (repeat destruct Hs as [<- | Hs]; try (split; [reflexivity | discriminate]); destruct Hs).
  destruct D as [D K]. rewrite D.
  rewrite (construct_ok fixed_layers ltac:(cbn; lia) ltac:(intros w Hw; repeat destruct Hw as [<- | Hw]; try lia; destruct Hw) (sc_kind sc) 1 (i_rates i) f (i_attention i) Hf ltac:(intro; contradiction)).
  reflexivity.
Qed.
Lemma kernels_used : forall sc i f, In sc [main_complex_cd; main_complex_helmholtz] -> learning_rate (sc_kind sc) (i_rates i) = Ok f ->
  (2 <= length (i_architecture i))%nat -> (forall w, In w (i_architecture i) -> (1 <= w)%Z) ->
  exists ks, built_kernels sc i = Ok ks /\ length ks = (length (i_architecture i) - 1)%nat /\
    forall k, (k < length (i_architecture i) - 1)%nat -> nth k ks (0, 0)%nat = (Z.to_nat (nth k (i_architecture i) 0%Z), Z.to_nat (nth (k + 1) (i_architecture i) 0%Z)).
Proof.
  intros sc i f Hs Hf L P. unfold built_kernels.
  assert (D : layer_dims sc i = i_architecture i /\ sc_kind sc <> Domain) by (repeat destruct Hs as [<- | Hs]; try (split; [reflexivity | discriminate]); destruct Hs).
  destruct D as [D K]. rewrite D. rewrite (construct_ok (i_architecture i) L P (sc_kind sc) 1 (i_rates i) f (i_attention i) Hf ltac:(intro; contradiction)).
  cbn [bind snd]. eexists. split; [reflexivity|]. rewrite map_length, seq_length. split; [reflexivity|]. intros k Hk. rewrite nth_seq_map by exact Hk. now rewrite Nat.add_0_l.
Qed.

(* ---------- as stated ---------- *)
Lemma contour_square : forall (g : geom R) vtk xl yl pts z X Y Zm, g_method g = "internal"%string -> g_limits g = Some (xl, yl) ->
  (2 <= g_ntx g)%Z -> fst xl < snd xl -> fst yl < snd yl -> g_ntx g = g_nty g ->
  get_test_points g vtk = Ok pts -> contour_args (g_ntx g) (g_nty g) pts z = Ok (X, Y, Zm) ->
  let n := Z.to_nat (g_ntx g) in columns_and_rows X Y n n /\
  forall i j, (i < n)%nat -> (j < n)%nat -> entry X i j = grid_coord (fst xl) (snd xl) n j /\ entry Y i j = grid_coord (fst yl) (snd yl) n i.
Proof.
  intros g vtk xl yl pts z X Y Zm Hm Hl Hx Lx Ly E Ep Ec n.
  destruct (contour_grid g vtk xl yl pts z X Y Zm Hm Hl Hx ltac:(lia) Lx Ly Ep Ec) as (A & B & _). split; [|exact (B E)].
  apply A in E as E'. now rewrite <- E in E'.
Qed.
Lemma contour_rectangular : forall (g : geom R) vtk xl yl pts z X Y Zm, g_method g = "internal"%string -> g_limits g = Some (xl, yl) ->
  (2 <= g_ntx g)%Z -> (2 <= g_nty g)%Z -> fst xl < snd xl -> fst yl < snd yl -> g_ntx g <> g_nty g ->
  get_test_points g vtk = Ok pts -> contour_args (g_ntx g) (g_nty g) pts z = Ok (X, Y, Zm) ->
  let nx := Z.to_nat (g_ntx g) in let ny := Z.to_nat (g_nty g) in
  ~ columns_and_rows X Y nx ny /\ ~ columns_and_rows Y X nx ny.
Proof.
  intros g vtk xl yl pts z X Y Zm Hm Hl Hx Hy Lx Ly N Ep Ec nx ny.
  destruct (contour_grid g vtk xl yl pts z X Y Zm Hm Hl Hx Hy Lx Ly Ep Ec) as (A & _ & B). split; [intros K; now apply A in K|]. intros [_ K]. exact (B K).
Qed.
Lemma internal_outcome : forall e lhs1 o template vtk pb sc i weights fs al bx bn g, numpy_ok e -> sampler_ok lhs1 -> oracle_ok o (Z.to_nat (i_quad_order i)) ->
  good_settings sc i -> i_method i = "internal"%string -> fst (i_xlim i) < snd (i_xlim i) -> fst (i_ylim i) < snd (i_ylim i) ->
  (1 <= i_ncx i)%Z /\ (1 <= i_ncy i)%Z -> (4 <= i_nb i)%Z -> (2 <= i_ntx i)%Z /\ (2 <= i_nty i)%Z ->
  (forall t, In t [1000; 1001; 1002; 1003]%Z -> In t (map fst (pb_bound pb))) -> equation (sc_loss sc) (pb_params pb) al bx bn g ->
  (forall t, exists U G, pointwise (the_network sc (weights t)) U G) ->
  ((1 <= i_epochs i)%Z -> i_update i <> 0%Z -> exists r, run_internal e lhs1 o template vtk pb sc i weights fs = Ok r) /\
  ((i_epochs i <= 0)%Z -> run_internal e lhs1 o template vtk pb sc i weights fs = Err NameError) /\
  ((1 <= i_epochs i)%Z -> i_update i = 0%Z -> run_internal e lhs1 o template vtk pb sc i weights fs = Err ZeroDivisionError).
Proof.
  intros e lhs1 o template vtk pb sc i weights fs al bx bn g H1 H2 H3 H4 H5 H6 H7 H8 H9 H10 H11 H12 H13. split; [|split].
  - eapply internal_runs; eauto.
  - eapply internal_no_epoch; eauto.
  - eapply internal_no_period; eauto.
Qed.
Lemma scripts_pointwise : forall sc i w, In sc [main_uniform_poisson; main_uniform_helmholtz; main_hard_poisson; main_complex_poisson; main_complex_cd; main_complex_helmholtz] ->
  (2 <= length (layer_dims sc i))%nat -> nth 0 (layer_dims sc i) 0%Z = 2%Z -> nth (length (layer_dims sc i) - 1) (layer_dims sc i) 0%Z = 1%Z ->
  widths (layer_dims sc i) w -> n_attention w = false -> exists U G, pointwise (the_network sc w) U G.
Proof.
  intros sc i w Hs L D0 D1 W A. apply (script_pointwise sc (layer_dims sc i) w L D0 D1 W A). intros K.
  repeat destruct Hs as [<- | Hs]; try discriminate; [|destruct Hs]. right. exists (fun p v => ansatz p * v). reflexivity.
Qed.
Lemma vsum_fold : forall l : list R, vsum l = fold_right Rplus 0 l.
Proof. induction l as [|a l IH]; [apply vsum_nil|]. rewrite vsum_cons, IH. reflexivity. Qed.
Lemma vmean_fold : forall l : list R, vmean l = fold_right Rplus 0 l / INR (length l).
Proof. intros l. unfold vmean. rewrite nofnat_R, vsum_fold. reflexivity. Qed.
Lemma forward_table : forall st epochs ts t, (0 <= epochs)%Z -> (forall x, In x ts -> 0 <= x) -> time_table_forward st epochs ts = Ok t ->
  row_of "Total Train Time" t = [VReal (fold_right Rplus 0 ts)] /\ row_of "Mean (s)" t = [VReal (fold_right Rplus 0 ts / INR (length ts))] /\
  exists k, row_of "Epochs per second" t = [VInt k] /\ IZR k <= IZR epochs / fold_right Rplus 0 ts < IZR k + 1.
Proof.
  intros st epochs ts t He Hp H. rewrite <- vmean_fold, <- !vsum_fold. destruct (forward_total _ _ _ _ H) as [A B]. refine (conj A (conj B _)). now apply (forward_rate st).
Qed.
Lemma inverse_table : forall st epochs t0 ts t, t0 <> 0 -> time_table_inverse st epochs (t0 :: ts) = Ok t ->
  row_of "Total Train Time" t = [VReal (fold_right Rplus 0 ts)] /\ row_of "Total Train Time" t <> [VReal (fold_right Rplus 0 (t0 :: ts))].
Proof.
  intros st epochs t0 ts t H0 H. rewrite <- !vsum_fold. split; [now apply inverse_total in H | now apply (inverse_total_wrong st epochs)].
Qed.
Lemma domain_table : forall st epochs ts t, (0 <= epochs)%Z -> (forall x, In x ts -> 0 <= x) -> time_table_domain st epochs ts = Ok t ->
  exists k, row_of "Total Train Time" t = [VInt k] /\ IZR k <= IZR epochs / fold_right Rplus 0 ts < IZR k + 1 /\ row_of "Epochs per second" t = [].
Proof.
  intros st epochs ts t He Hp H. rewrite <- vsum_fold. destruct (domain_total _ _ _ _ H) as [N E]. exists (trunc (IZR epochs / vsum ts)). split; [exact E|].
  split.
  - apply trunc_spec. assert (0 <= vsum ts) by now apply vsum_nonneg. apply IZR_le in He. unfold Rdiv. apply Rmult_le_pos; [exact He|]. apply Rlt_le, Rinv_0_lt_compat. lra.
  - unfold time_table_domain, per_second in H. destruct (Req_EM_T (vsum ts) 0); [discriminate|]. injection H as <-. reflexivity.
Qed.
Lemma mean_rows : forall st epochs ts t, let mean l := fold_right Rplus 0 l / INR (length l) in
  (time_table_inverse st epochs ts = Ok t -> row_of "Mean without first(s)" t = [VReal (mean (tl ts))] /\ row_of "Mean with first(s)" t = [VReal (mean ts)]) /\
  (time_table_domain st epochs ts = Ok t -> row_of "Mean without first(s)" t = [VReal (mean (tl ts))] /\ row_of "Mean with first(s)" t = []).
Proof.
  intros st epochs ts t mean. assert (M : forall l : list R, mean l = vmean l) by (intros l; symmetry; apply vmean_fold).
  split; intros H; rewrite !M; unfold time_table_inverse, time_table_domain, per_second in H; destruct (Req_EM_T (vsum ts) 0); try discriminate; injection H as <-; split; reflexivity.
Qed.
Lemma external_file_runs_with : forall exact_of exact e lhs2 o file template rows fmt pb sc i weights fs al bx bn g mf edges quads tags,
  oracle_ok o (Z.to_nat (i_quad_order i)) -> good_settings sc i -> i_method i = "external"%string ->
  (forall l, sorts l (np_argsort e l)) -> suffix (i_mesh_file i) = ".mesh"%string -> file (i_mesh_file i) = Ok mf ->
  edges_of mf edges -> quads_of mf quads -> first_refs mf tags -> (length edges <= length tags)%nat -> spatial mf ->
  i_sampling i = "uniform"%string -> (0 <= i_level i)%Z -> edges <> [] -> quads <> [] ->
  (exists ts, (length ts <= 15)%nat /\ forall j, (j < length edges)%nat -> In (nth j tags 0%Z) ts /\ In (nth j tags 0%Z) (map fst (pb_bound pb))) ->
  rows <> [] -> exact_of (map xy rows) = Ok exact -> length exact = length rows -> equation (sc_loss sc) (pb_params pb) al bx bn g ->
  (forall t, exists U G, pointwise (the_network sc (weights t)) U G) -> (1 <= i_epochs i)%Z -> i_update i <> 0%Z ->
  exists r, run_external_with exact_of e lhs2 o file template (Ok rows) fmt pb sc i weights fs = Ok r.
Proof.
  intros exact_of exact e lhs2 o file template rows fmt pb sc i weights fs al bx bn g mf edges quads tags Ho Hg Hm Hs Hsu Hf He Hq Ht Hl Hsp Hsa Hle Hne Hnq (ts & L15 & Hts) Hr Hx Lx Heq Hn H1 H2.
  destruct (uniform_boundary e lhs2 file (i_mesh_file i) (i_level i) (sc_refinement sc i) mf edges quads tags Hs Hsu Hf He Hq Ht Hl Hsp Hle) as (cells & bd & Er & Nd & Tg & Rows).
  pose proof (read_cells e lhs2 file (i_mesh_file i) (i_level i) (sc_refinement sc i) mf edges quads tags Hs Hsu Hf He Hq Ht Hl Hsp Hle cells bd Er) as Fc.
  rewrite <- Hsa in Er. eapply (external_runs_with e lhs2 o file template rows fmt pb sc i weights fs al bx bn g cells bd exact_of exact); eauto.
  - intros ->. inversion Fc. subst. now apply Hnq.
  - split.
    + intros ->. destruct edges as [|e0 es]; [now apply Hne|]. destruct (proj2 (Tg (nth 0 tags 0%Z))). exists 0%nat. split; [simpl; lia | reflexivity].
    + rewrite <- (map_length fst). eapply Nat.le_trans; [|exact L15]. apply NoDup_incl_length; [exact Nd|]. intros t Hin. apply Tg in Hin.
      destruct Hin as (j & Hj & <-). now apply Hts.
  - intros tag pts Hin. assert (In tag (map fst bd)) as K by (apply in_map_iff; exists (tag, pts); auto). apply Tg in K. destruct K as (j & Hj & Ej). split.
    + intros ->. destruct (Rows tag [] Hin) as [_ P]. destruct (nth j edges ([], [])) as [a b] eqn:Ee.
      apply (in_nil (a := map2 (fun u v => u + INR 0 / 2 ^ Z.to_nat (i_level i) * (v - u)) a b)). apply P. exists j, 0%nat. rewrite Ee. repeat split; auto. lia.
    + rewrite <- Ej. now apply Hts.
Qed.
Lemma external_file_runs : forall e lhs2 o file template rows fmt pb sc i weights fs al bx bn g mf edges quads tags,
  oracle_ok o (Z.to_nat (i_quad_order i)) -> good_settings sc i -> i_method i = "external"%string ->
  (forall l, sorts l (np_argsort e l)) -> suffix (i_mesh_file i) = ".mesh"%string -> file (i_mesh_file i) = Ok mf ->
  edges_of mf edges -> quads_of mf quads -> first_refs mf tags -> (length edges <= length tags)%nat -> spatial mf ->
  i_sampling i = "uniform"%string -> (0 <= i_level i)%Z -> edges <> [] -> quads <> [] ->
  (exists ts, (length ts <= 15)%nat /\ forall j, (j < length edges)%nat -> In (nth j tags 0%Z) ts /\ In (nth j tags 0%Z) (map fst (pb_bound pb))) ->
  rows <> [] -> equation (sc_loss sc) (pb_params pb) al bx bn g ->
  (forall t, exists U G, pointwise (the_network sc (weights t)) U G) -> (1 <= i_epochs i)%Z -> i_update i <> 0%Z ->
  exists r, run_external e lhs2 o file template (Ok rows) fmt pb sc i weights fs = Ok r.
Proof.
  intros. unfold run_external. eapply (external_file_runs_with _ (exact_values pb (map xy rows))); eauto. unfold exact_values. now rewrite !map_length.
Qed.
