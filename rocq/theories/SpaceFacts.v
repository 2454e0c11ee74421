(* Proofs about Space.v. *)
From Coq Require Import String ZArith List Arith Lia Reals Lra Bool.
From Coquelicot Require Import Coquelicot.
From Verif Require Import Num Py PyFacts Jacobi Quadrature Basis Transform Cell Space Spec SpecGeom RCalc PolyFacts
  ListFacts CellFacts CellFacts2 QuadFacts.
Import ListNotations.
Local Open Scope R_scope.

(* ---------- Dirichlet data (C28) ---------- *)
Section Dirichlet.
Variables (bp : bdict R) (bf : bfun R).

Lemma dirichlet_tag_inv : forall tag pts r, dirichlet_tag bf tag pts = Ok r ->
  map fst r = pts /\ forall p v, In (p, v) r -> exists f, dget Z.eqb bf tag = Ok f /\ v = f (fst p) (snd p).
Proof.
  intros tag pts r H. apply mapM_inv in H. induction H as [|p [p' v] pts r E H [IH1 IH2]]; simpl; [split; tauto|].
  destruct (dget Z.eqb bf tag) as [f|] eqn:Ef; [|discriminate]. cbn [bind] in E. injection E as <- <-.
  split; [now f_equal|]. intros p' v' [Ein|Hin]; [injection Ein as <- <-; eauto | eauto].
Qed.

(* the rows: tags in dictionary order, points in order, values by the tag's function *)
Definition tagged : list (Z * (R * R)) := concat (map (fun tp => map (fun p => (fst tp, p)) (snd tp)) bp).

Lemma dirichlet_rows : forall x y, dirichlet_data bp bf = Ok (x, y) ->
  x = map snd tagged /\ length y = length x /\
  forall i, (i < length x)%nat -> exists f, dget Z.eqb bf (fst (nth i tagged (0%Z, (0, 0)))) = Ok f /\
    nth i y 0 = f (fst (nth i x (0, 0))) (snd (nth i x (0, 0))).
Proof.
  intros x y H. unfold dirichlet_data in H.
  destruct (mapM _ bp) as [rows|] eqn:E; [|discriminate]. cbn [bind] in H. injection H as <- <-.
  apply mapM_inv in E. unfold tagged. rewrite !map_length.
  assert (G : map fst (concat rows) = map snd (concat (map (fun tp : Z * list (R * R) => map (fun p => (fst tp, p)) (snd tp)) bp)) /\
    forall i d, (i < length (concat rows))%nat ->
     exists f, dget Z.eqb bf (fst (nth i (concat (map (fun tp => map (fun p => (fst tp, p)) (snd tp)) bp)) (0%Z, (0, 0)))) = Ok f /\
     snd (nth i (concat rows) d) = f (fst (fst (nth i (concat rows) d))) (snd (fst (nth i (concat rows) d)))).
  { induction E as [|[tag pts] r bp' rows Er E [IH1 IH2]]; simpl; [split; auto; intros; lia|].
    destruct (dirichlet_tag_inv _ _ _ Er) as [T1 T2]. cbn [fst snd] in T1, T2. split.
    - rewrite !map_app, IH1. f_equal. rewrite map_map. simpl. now rewrite map_id.
    - intros i d Hi. rewrite app_length in Hi.
      assert (Ll : length (map (fun p : R * R => (tag, p)) pts) = length r).
      { rewrite map_length, <- T1, map_length. reflexivity. }
      destruct (Nat.lt_ge_cases i (length r)) as [Hl|Hl].
      + rewrite (app_nth1 r) by auto. rewrite app_nth1 by lia.
        rewrite nth_map_lt with (d' := (0, 0)) by (rewrite map_length in Ll; lia). cbn [fst].
        assert (Hin : In (nth i r d) r) by (apply nth_In; auto).
        destruct (nth i r d) as [p v] eqn:En. apply T2 in Hin. exact Hin.
      + rewrite (app_nth2 r) by auto. rewrite app_nth2 by lia. rewrite Ll. apply IH2. lia. }
  destruct G as [G1 G2]. split; [exact G1|]. split; auto.
  intros i Hi. destruct (G2 i ((0, 0), 0) Hi) as (f & Ef & Ev). exists f. split; auto.
  rewrite !nth_map_lt with (d' := ((0, 0), 0)) by auto. exact Ev.
Qed.

Lemma dirichlet_ok_iff : (exists xy, dirichlet_data bp bf = Ok xy) <->
  (forall tag pts, In (tag, pts) bp -> pts <> [] -> In tag (map fst bf)).
Proof.
  unfold dirichlet_data. split.
  - intros [[x y] H] tag pts Hin Hne.
    destruct (mapM _ bp) as [rows|] eqn:E; [|discriminate].
    destruct pts as [|p pts]; [congruence|]. apply mapM_inv in E.
    assert (X : exists r, dirichlet_tag bf tag (p :: pts) = Ok r).
    { clear H Hne. induction E; [destruct Hin|]. destruct Hin as [-> | Hin]; eauto. }
    destruct X as [r X]. unfold dirichlet_tag in X. simpl in X.
    destruct (dget Z.eqb bf tag) eqn:Eg; [|discriminate]. apply dgetZ_ok. eauto.
  - intros H. destruct (mapM_ok (fun tp : Z * list (R * R) => dirichlet_tag bf (fst tp) (snd tp)) bp) as [rows ->].
    + intros [tag pts] Hin. cbn [fst snd]. unfold dirichlet_tag. apply mapM_ok. intros p Hp.
      destruct (proj2 (dgetZ_ok bf tag)) as [f ->]. { eapply H; eauto. intros ->; destruct Hp. }
      cbn [bind]. eauto.
    + cbn [bind]. eauto.
Qed.
Lemma dirichlet_err : forall e, dirichlet_data bp bf = Err e -> e = KeyError.
Proof.
  unfold dirichlet_data. intros e H. destruct (mapM _ bp) eqn:E; [discriminate|]. cbn [bind] in H. injection H as ->.
  apply mapM_err in E. destruct E as ([tag pts] & _ & E). apply mapM_err in E. destruct E as (p & _ & E).
  destruct (dget Z.eqb bf (fst (tag, pts))) eqn:Eg; [discriminate|]. cbn [bind] in E. injection E as ->.
  eapply dgetZ_err; eauto.
Qed.
Lemma tagged_count : length tagged = fold_right (fun tp n => (length (snd tp) + n)%nat) 0%nat bp.
Proof.
  unfold tagged. induction bp as [|[t ps] r IH]; simpl; auto. rewrite app_length, map_length, IH. reflexivity.
Qed.
End Dirichlet.

(* ---------- the vector variant ---------- *)
Section DirichletVector.
Variables (bp : bdict R) (bf : bfunv R) (comp : nat).
Definition row_ok (tag : Z) (p : R * R) (v : R) : Prop :=
  exists f, dget Z.eqb bf tag = Ok f /\ nth_error (f (fst p) (snd p)) comp = Some v.
Lemma vector_rows : forall x y, dirichlet_data_vector bp bf comp = Ok (x, y) ->
  let tagged := concat (map (fun tp => map (fun p => (fst tp, p)) (snd tp)) bp) in
  x = map snd tagged /\ length y = length x /\
  forall i, (i < length x)%nat -> exists f, dget Z.eqb bf (fst (nth i tagged (0%Z, (0, 0)))) = Ok f /\
    nth_error (f (fst (nth i x (0, 0))) (snd (nth i x (0, 0)))) comp = Some (nth i y 0).
Proof.
  intros x y H. unfold dirichlet_data_vector in H. destruct (mapM _ bp) as [rows|] eqn:E; [|discriminate]. cbn [bind] in H. injection H as <- <-.
  cbv zeta. apply mapM_inv in E.
  assert (G : Forall2 (fun (tp : Z * (R * R)) (pv : R * R * R) => snd tp = fst pv /\ row_ok (fst tp) (fst pv) (snd pv))
    (concat (map (fun tp => map (fun p => (fst tp, p)) (snd tp)) bp)) (concat rows)).
  { induction E as [|[tag pts] r bp' rows Er E IH]; cbn [concat map]; [constructor|]. apply Forall2_app; [|exact IH]. cbn [fst snd] in *. clear E IH.
    apply mapM_inv in Er. induction Er as [|p [p' v] pts r Ep Er IH]; cbn [map]; constructor; [|exact IH]. cbn [fst snd].
    destruct (dget Z.eqb bf tag) as [f|] eqn:Ef; [|discriminate]. cbn [bind] in Ep.
    destruct (nth_error (f (fst p) (snd p)) comp) as [w|] eqn:Ew; [|discriminate]. injection Ep as <- <-. split; [reflexivity|]. exists f. auto. }
  clear E. split; [|split; [now rewrite !map_length|]].
  - induction G as [|tp pv l l' [H _] G IH]; cbn [map]; [reflexivity|]. now rewrite IH, H.
  - induction G as [|tp pv l l' [H1 H2] G IH]; cbn [map length]; [intros; lia|]. intros [|i] Hi; cbn [nth].
    + destruct H2 as (f & F1 & F2). exists f. auto.
    + apply IH. lia.
Qed.
Lemma vector_ok_iff : (exists xy, dirichlet_data_vector bp bf comp = Ok xy) <->
  (forall tag pts p, In (tag, pts) bp -> In p pts -> exists f, dget Z.eqb bf tag = Ok f /\ (comp < length (f (fst p) (snd p)))%nat).
Proof.
  unfold dirichlet_data_vector. split.
  - intros [xy H] tag pts p Hin Hp. destruct (mapM _ bp) as [rows|] eqn:E; [|discriminate]. clear H. apply mapM_inv in E.
    induction E as [|tp r bp' rows Er E IH]; [destruct Hin|]. destruct Hin as [-> | Hin]; [|now apply IH]. cbn [fst snd] in Er. clear E IH.
    apply mapM_inv in Er. induction Er as [|q pv pts r Ep Er IH]; [destruct Hp|]. destruct Hp as [-> | Hp]; [|now apply IH].
    destruct (dget Z.eqb bf tag) as [f|] eqn:Ef; [|discriminate]. cbn [bind] in Ep. exists f. split; [reflexivity|].
    apply nth_error_Some. destruct (nth_error _ comp); [discriminate | discriminate].
  - intros H. edestruct (mapM_ok (fun tp : Z * list (R * R) => mapM (fun p => do f <- dget Z.eqb bf (fst tp);
       match nth_error (f (fst p) (snd p)) comp with Some v => Ok (p, v) | None => Err IndexError end) (snd tp)) bp) as [rows ->]; [|cbn [bind]; eauto].
    intros [tag pts] Hin. cbn [fst snd]. apply mapM_ok. intros p Hp. destruct (H tag pts p Hin Hp) as (f & -> & Hf). cbn [bind].
    apply nth_error_Some in Hf. destruct (nth_error _ comp); [eauto | congruence].
Qed.
Lemma vector_err : forall e, dirichlet_data_vector bp bf comp = Err e -> e = KeyError \/ e = IndexError.
Proof.
  unfold dirichlet_data_vector. intros e H. destruct (mapM _ bp) eqn:E; [discriminate|]. cbn [bind] in H. injection H as ->.
  apply mapM_err in E. destruct E as ([tag pts] & _ & E). apply mapM_err in E. destruct E as (p & _ & E). cbn [fst snd] in E.
  destruct (dget Z.eqb bf tag) eqn:Eg; cbn [bind] in E.
  - destruct (nth_error _ comp); [discriminate|]. injection E as <-. now right.
  - injection E as ->. left. eapply dgetZ_err; eauto.
Qed.
End DirichletVector.

(* ---------- plot bookkeeping (C42) ---------- *)
Definition n_points (bp : bdict R) : nat := fold_right (fun tp n => (length (snd tp) + n)%nat) 0%nat bp.

Lemma plot_boundary_spec : forall bp i acc,
  ((forall tag pts, In (tag, pts) bp -> pts <> []) /\ (bp = [] \/ i + length bp <= 15)%nat ->
     plot_boundary i bp acc = Ok (acc + n_points bp + length bp)%nat) /\
  (forall r, plot_boundary i bp acc = Ok r ->
     (forall tag pts, In (tag, pts) bp -> pts <> []) /\ (bp = [] \/ i + length bp <= 15)%nat) /\
  (forall e, plot_boundary i bp acc = Err e -> e = IndexError).
Proof.
  induction bp as [|[tag pts] bp IH]; intros i acc; simpl.
  - split; [intros _; f_equal; lia|]. split; [|discriminate]. intros r _. split; [tauto | auto].
  - destruct pts as [|p pts].
    + split; [intros [H _]; exfalso; apply (H tag []); auto|]. split; [discriminate | congruence].
    + destruct (Nat.ltb_spec (i + 1) n_markers); unfold n_markers in *.
      * destruct (IH (S i) (acc + (length (p :: pts) + 1))%nat) as (I1 & I2 & I3).
        split; [|split; [|apply I3]].
        -- intros [H1 H2]. rewrite I1.
           ++ f_equal. cbn [length n_points fold_right snd]. unfold n_points. lia.
           ++ split; [intros; eapply H1; eauto|]. destruct H2 as [H2|H2]; [discriminate|].
              destruct bp; [auto|]. right. simpl in *. lia.
        -- intros r Hr. apply I2 in Hr. destruct Hr as [H1 H2]. split.
           ++ intros t q [E|Hin]; [injection E as <- <-; discriminate | eauto].
           ++ right. destruct H2 as [-> | H2]; simpl; lia.
      * split; [|split; [discriminate | congruence]].
        intros [_ [H2|H2]]; [discriminate | lia].
Qed.
Lemma plot_iff : forall cells (bp : bdict R), (exists r, generate_plot cells bp = Ok r) <->
  (forall tag pts, In (tag, pts) bp -> pts <> []) /\ (length bp <= 15)%nat.
Proof.
  intros cells bp. unfold generate_plot. destruct (plot_boundary_spec bp 0 0) as (H1 & H2 & H3). split.
  - intros [r H]. destruct (plot_boundary 0 bp 0) eqn:E; [|discriminate].
    destruct (H2 _ eq_refl) as [A B]. split; auto. destruct B as [-> | B]; simpl in *; lia.
  - intros [A B]. rewrite H1; [|split; auto; right; lia]. cbn [bind]. eauto.
Qed.
Lemma plot_count : forall cells (bp : bdict R) r, generate_plot cells bp = Ok r ->
  snd r = (n_points bp + length bp)%nat /\
  fst r = fold_right (fun c n => (length (cd_actual c) + n)%nat) 0%nat cells.
Proof.
  intros cells bp r H. pose proof (proj1 (plot_iff cells bp) (ex_intro _ r H)) as [A B].
  unfold generate_plot in H. destruct (plot_boundary_spec bp 0 0) as (H1 & _ & _).
  rewrite H1 in H by (split; auto; right; lia). cbn [bind] in H. injection H as <-. cbn [fst snd]. split; [lia|].
  assert (G : forall l a, fold_left (fun acc (c : cell_data R) => (acc + length (cd_actual c))%nat) l a =
     (a + fold_right (fun c n => (length (cd_actual c) + n)%nat) 0%nat l)%nat).
  { induction l; simpl; intros; [lia|]. rewrite IHl. lia. }
  rewrite G. reflexivity.
Qed.

(* ---------- the space (C25) ---------- *)
Lemma make_cell_iff : forall o cf c, lengths_ok o (Z.to_nat (cf_quad_order cf)) ->
  (exists d, make_cell o cf c = Ok d) <-> accepted cf c.
Proof.
  intros o cf c Ho. split.
  - intros [d H]. exact (cs_acc _ _ _ _ (make_cell_inv o cf c d Ho H)).
  - apply make_cell_ok; auto.
Qed.

Lemma make_space_inv : forall (o : quad_oracle R) cf cells bp bf plot s, make_space o cf cells bp bf plot = Ok s ->
  cells <> [] /\ mapM (make_cell o cf) cells = Ok (sp_cells s) /\ dirichlet_data bp bf = Ok (sp_dirichlet s) /\
  sp_total_dirichlet_dofs s = length (fst (sp_dirichlet s)) /\
  (plot = true -> generate_plot (sp_cells s) bp = Ok (sp_total_dofs s, sp_total_boundary_dofs s)) /\
  (plot = false -> sp_total_boundary_dofs s = 0%nat /\
     sp_total_dofs s = fold_left (fun acc c => (acc + ncols (cd_val c))%nat) (sp_cells s) 0%nat).
Proof.
  intros o cf cells bp bf plot s H. unfold make_space in H.
  destruct (String.eqb (cf_cell_type cf) "triangle"); [discriminate|].
  unfold set_finite_elements in H. destruct (mapM (make_cell o cf) cells) as [cs|] eqn:E; [|discriminate]. cbn [bind] in H.
  destruct cs as [|c0 cs]; [discriminate|]. cbn [bind] in H.
  destruct plot.
  - destruct (generate_plot (c0 :: cs) bp) as [[a b]|] eqn:Ep; [|discriminate]. cbn [bind] in H.
    destruct (dirichlet_data bp bf) as [dd|] eqn:Ed; [|discriminate]. cbn [bind] in H. injection H as <-. cbn [sp_cells sp_dirichlet
      sp_total_dirichlet_dofs sp_total_dofs sp_total_boundary_dofs fst snd].
    do 5 (split; [now auto || (apply mapM_length in E; destruct cells; discriminate)|]). discriminate.
  - cbn [bind] in H.
    destruct (dirichlet_data bp bf) as [dd|] eqn:Ed; [|discriminate]. cbn [bind] in H. injection H as <-. cbn [sp_cells sp_dirichlet
      sp_total_dirichlet_dofs sp_total_dofs sp_total_boundary_dofs fst snd].
    do 5 (split; [discriminate || now auto || (apply mapM_length in E; destruct cells; discriminate)|]). auto.
Qed.

Lemma space_iff : forall o cf cells bp bf plot, lengths_ok o (Z.to_nat (cf_quad_order cf)) ->
  (exists s, make_space o cf cells bp bf plot = Ok s) <->
  (cells <> [] /\ (forall c, In c cells -> accepted cf c) /\
   (forall tag pts, In (tag, pts) bp -> pts <> [] -> In tag (map fst bf)) /\
   (plot = true -> (forall tag pts, In (tag, pts) bp -> pts <> []) /\ (length bp <= 15)%nat)).
Proof.
  intros o cf cells bp bf plot Ho. split.
  - intros [s H]. apply make_space_inv in H. destruct H as (Hne & Hc & Hd & _ & Hp & _).
    split; auto. split; [|split].
    + intros c Hin. apply (make_cell_iff o cf c Ho). apply mapM_inv in Hc. clear -Hc Hin.
      induction Hc; [destruct Hin|]. destruct Hin as [<-|Hin]; eauto.
    + apply dirichlet_ok_iff. eauto.
    + intros Hpl. apply (plot_iff (sp_cells s) bp). eauto.
  - intros (Hne & Hc & Hd & Hp). unfold make_space.
    assert (Hq : cf_cell_type cf = "quadrilateral"%string).
    { destruct cells as [|c cells]; [congruence|]. exact (ac_cell _ _ (Hc c (or_introl eq_refl))). }
    rewrite Hq. cbn [String.eqb Ascii.eqb Bool.eqb]. unfold set_finite_elements.
    destruct (mapM_ok (make_cell o cf) cells) as [cs E].
    { intros c Hin. apply make_cell_iff; auto. }
    rewrite E. cbn [bind]. destruct cs as [|c0 cs]. { apply mapM_length in E. destruct cells; [congruence | discriminate]. }
    cbn [bind]. destruct (proj2 (dirichlet_ok_iff bp bf) Hd) as [dd ->].
    destruct plot.
    + destruct (proj2 (plot_iff (c0 :: cs) bp) (Hp eq_refl)) as [pl ->]. cbn [bind]. eauto.
    + cbn [bind]. eauto.
Qed.

(* kinds of errors *)
Lemma make_cell_errors : forall o cf c e, lengths_ok o (Z.to_nat (cf_quad_order cf)) -> make_cell o cf c = Err e ->
  e = ValueError \/ (e = LinAlgError /\ cf_trafo cf = "affine"%string /\ cross (v0 c) (v1 c) (v3 c) = 0).
Proof.
  intros o cf c e Ho H. unfold make_cell in H.
  assert (Eb : forall e', assign_basis_function cf = Err e' -> e' = ValueError).
  { unfold assign_basis_function. intros e'.
    repeat match goal with |- context [if ?b then _ else _] => destruct b end; congruence. }
  destruct (assign_basis_function cf) as [of|] eqn:E; [|cbn [bind] in H; injection H as <-; auto]. cbn [bind] in H.
  destruct (assign_quadrature_rules o cf) as [[[w xi] eta]|] eqn:Eq; cbn [bind] in H.
  2:{ injection H as <-. left. unfold assign_quadrature_rules in Eq.
      repeat match type of Eq with context [if ?b then _ else _] => destruct b end; try congruence.
      eapply quad2d_error; eauto. }
  destruct (assign_fe_transformation cf c) as [t|] eqn:Et; cbn [bind] in H.
  2:{ injection H as <-. left. unfold assign_fe_transformation in Et.
      repeat match type of Et with context [if ?b then _ else _] => destruct b end; congruence. }
  apply assign_quad_iff in Eq. destruct Eq as (Hct & Hqo & Hq).
  apply assign_trafo_iff in Et. destruct Et as (_ & Ht).
  destruct (quad2d_tensor o _ _ _ _ _ Ho Hq) as (x & v & _ & _ & _ & _ & Lw & Lx & Le & _).
  assert (Hn : (3 <= Z.to_nat (cf_quad_order cf))%nat) by lia.
  destruct (mult_spec c t w xi eta (Z.to_nat (cf_quad_order cf) * Z.to_nat (cf_quad_order cf)) ltac:(tauto) ltac:(nia) Lw Lx Le) as (mult & Em & _).
  rewrite Em in H. cbn [bind] in H.
  destruct of as [fam|]. 2:{ apply assign_basis_none in E. contradiction. }
  destruct (t_derivative t _ _ xi eta) as [gx gy].
  destruct Ht as [[Hn1 ->] | [Hn1 ->]].
  - destruct (TransformFacts.inv3_ok (affine_set_cell c)) as [Hz Hnz].
    destruct (Req_dec (cross (v0 c) (v1 c) (v3 c)) 0) as [Hc|Hc].
    + unfold TransformFacts.aff, t_second in H. rewrite Hz in H by (now apply cross_aff). cbn [bind] in H. injection H as <-. auto.
    + destruct Hnz as (sol & Es & _). { intros Z. apply Hc. now apply cross_aff. }
      unfold TransformFacts.aff, t_second in H. rewrite Es in H. cbn [bind] in H. discriminate.
  - unfold TransformFacts.bil, t_second in H. cbn [bind] in H. discriminate.
Qed.

Lemma space_errors : forall o cf cells bp bf plot e, lengths_ok o (Z.to_nat (cf_quad_order cf)) ->
  make_space o cf cells bp bf plot = Err e ->
  e = ValueError \/
  (e = LinAlgError /\ cf_trafo cf = "affine"%string /\ exists c, In c cells /\ cross (v0 c) (v1 c) (v3 c) = 0) \/
  (e = IndexError /\ (cells = [] \/ plot = true)) \/
  (e = KeyError /\ exists tag pts, In (tag, pts) bp /\ ~ In tag (map fst bf)).
Proof.
  intros o cf cells bp bf plot e Ho H. unfold make_space in H.
  destruct (String.eqb (cf_cell_type cf) "triangle"); [left; congruence|].
  unfold set_finite_elements in H. destruct (mapM (make_cell o cf) cells) as [cs|] eqn:E; cbn [bind] in H.
  2:{ injection H as <-. apply mapM_err in E. destruct E as (c & Hin & E).
      destruct (make_cell_errors o cf c _ Ho E) as [-> | (-> & A & B)]; [auto|]. right; left. eauto. }
  destruct cs as [|c0 cs].
  { cbn [bind] in H. injection H as <-. right; right; left. split; auto. left. apply mapM_length in E. destruct cells; auto; discriminate. }
  cbn [bind] in H.
  assert (D : forall e', dirichlet_data bp bf = Err e' -> e' = KeyError /\ exists tag pts, In (tag, pts) bp /\ ~ In tag (map fst bf)).
  { intros e' He. split; [eapply dirichlet_err; eauto|].
    unfold dirichlet_data in He. destruct (mapM _ bp) eqn:Em; [discriminate|]. apply mapM_err in Em.
    destruct Em as ([tag pts] & Hin & Em). apply mapM_err in Em. destruct Em as (p & _ & Em).
    exists tag, pts. split; auto. intros Hk. apply dgetZ_ok in Hk. destruct Hk as [f Hk]. cbn [fst] in Em. rewrite Hk in Em. discriminate. }
  destruct plot.
  - destruct (generate_plot (c0 :: cs) bp) as [[a b]|] eqn:Ep; cbn [bind] in H.
    + destruct (dirichlet_data bp bf) eqn:Ed; [discriminate|]. cbn [bind] in H. injection H as <-. auto.
    + injection H as <-. right; right; left. unfold generate_plot in Ep. destruct (plot_boundary 0 bp 0) eqn:Eb; [discriminate|].
      cbn [bind] in Ep. injection Ep as <-. split; auto. destruct (plot_boundary_spec bp 0 0) as (_ & _ & X). now apply X.
  - cbn [bind] in H. destruct (dirichlet_data bp bf) eqn:Ed; [discriminate|]. cbn [bind] in H. injection H as <-. auto.
Qed.

(* ---------- getters ---------- *)
Lemma cell_at_spec : forall (cs : list (cell_data R)) i,
  ((i < 0 \/ Z.of_nat (length cs) <= i)%Z -> cell_at cs i = Err ValueError) /\
  ((0 <= i < Z.of_nat (length cs))%Z -> exists c, nth_error cs (Z.to_nat i) = Some c /\ cell_at cs i = Ok c).
Proof.
  intros cs i. unfold cell_at. rewrite Z.geb_leb. split.
  - intros [H|H].
    + destruct (Z.leb_spec (Z.of_nat (length cs)) i); simpl; auto. destruct (Z.ltb_spec i 0); auto; lia.
    + destruct (Z.leb_spec (Z.of_nat (length cs)) i); simpl; auto; lia.
  - intros H. destruct (Z.leb_spec (Z.of_nat (length cs)) i); [lia|]. destruct (Z.ltb_spec i 0); [lia|]. simpl.
    destruct (nth_error cs (Z.to_nat i)) as [c|] eqn:E; [eauto|].
    apply nth_error_None in E. lia.
Qed.
Lemma cell_at_nth : forall (cs : list (cell_data R)) i d, (i < length cs)%nat -> cell_at cs (Z.of_nat i) = Ok (nth i cs d).
Proof.
  intros cs i d H. destruct (cell_at_spec cs (Z.of_nat i)) as [_ P]. destruct P as (c & E1 & E2); [lia|].
  rewrite E2. f_equal. rewrite Nat2Z.id in E1. symmetry. now apply nth_error_nth.
Qed.

(* ---------- forcing ---------- *)
Lemma forcing_entry_sum : forall row (pts : list (R * R)) f, length row = length pts ->
  forcing_entry row pts f = Sum (fun q => nth q row 0 * f (fst (nth q pts (0, 0))) (snd (nth q pts (0, 0)))) (length pts).
Proof.
  intros row pts f L. unfold forcing_entry.
  rewrite (fold_left_Rplus (fun vq : R * (R * R) => fst vq * f (fst (snd vq)) (snd (snd vq)))). to_R. rewrite Rplus_0_l.
  rewrite vsum_rsum, map_length, combine_length, <- L, Nat.min_id. change Sum with rsum.
  apply rsum_ext. intros q Hq. rewrite nth_map_lt with (d' := (0, (0, 0))) by (rewrite combine_length; lia).
  rewrite combine_nth by auto. reflexivity.
Qed.
Lemma vector_entry_sum : forall row fv : list R, length row = length fv ->
  vsum (vmul row fv) = Sum (fun q => nth q row 0 * nth q fv 0) (length fv).
Proof.
  intros row fv L. rewrite vsum_rsum. unfold vmul at 2. rewrite map2_length, L, Nat.min_id. change Sum with rsum.
  apply rsum_ext. intros q Hq. unfold vmul. rewrite map2_nth with (da := 0) (db := 0) by lia. reflexivity.
Qed.

(* the data of one cell of a built space *)
Lemma space_cell : forall (o : quad_oracle R) cf cells bp bf plot s ci c, make_space o cf cells bp bf plot = Ok s ->
  nth_error cells ci = Some c -> exists d, make_cell o cf c = Ok d /\ nth_error (sp_cells s) ci = Some d /\
    cell_at (sp_cells s) (Z.of_nat ci) = Ok d.
Proof.
  intros o cf cells bp bf plot s ci c H Hc. apply make_space_inv in H. destruct H as (_ & H & _).
  assert (L : (ci < length cells)%nat) by (apply nth_error_Some; congruence).
  assert (Ls := mapM_length _ _ _ H).
  destruct (nth_error (sp_cells s) ci) as [d|] eqn:E; [|apply nth_error_None in E; lia].
  exists d. pose proof (mapM_nth _ _ _ ci c d H L) as M.
  rewrite (nth_error_nth _ _ _ Hc), (nth_error_nth _ _ _ E) in M. split; auto. split; auto.
  rewrite (cell_at_nth (sp_cells s) ci d) by lia. now rewrite (nth_error_nth _ _ _ E).
Qed.

Lemma getters_range : forall (s : space R) i,
  ((i < 0 \/ Z.of_nat (length (sp_cells s)) <= i)%Z ->
     get_shape_function_val s i = Err ValueError /\ get_shape_function_grad_x s i = Err ValueError /\
     get_shape_function_grad_y s i = Err ValueError /\ get_shape_function_grad_x_ref s i = Err ValueError /\
     get_shape_function_grad_y_ref s i = Err ValueError /\ get_quadrature_actual_coordinates s i = Err ValueError /\
     get_quadrature_weights s i = Err ValueError /\
     (forall f, get_forcing_function_values s f i = Err ValueError) /\
     (forall f k, get_forcing_function_values_vector s f i k = Err ValueError)) /\
  ((0 <= i < Z.of_nat (length (sp_cells s)))%Z ->
     exists d, nth_error (sp_cells s) (Z.to_nat i) = Some d /\
     get_shape_function_val s i = Ok (cd_val d) /\ get_shape_function_grad_x s i = Ok (cd_gradx d) /\
     get_shape_function_grad_y s i = Ok (cd_grady d) /\ get_shape_function_grad_x_ref s i = Ok (cd_gradx_ref d) /\
     get_shape_function_grad_y_ref s i = Ok (cd_grady_ref d) /\ get_quadrature_actual_coordinates s i = Ok (cd_actual d) /\
     get_quadrature_weights s i = Ok (cd_mult d)).
Proof.
  intros s i. destruct (cell_at_spec (sp_cells s) i) as [A B].
  unfold get_shape_function_val, get_shape_function_grad_x, get_shape_function_grad_x_ref, get_shape_function_grad_y,
    get_shape_function_grad_y_ref, get_quadrature_actual_coordinates, get_quadrature_weights, get_forcing_function_values,
    get_forcing_function_values_vector. split.
  - intros H. rewrite (A H). repeat split.
  - intros H. destruct (B H) as (d & E & ->). exists d. repeat split; auto.
Qed.

(* ---------- the reported numbers (C42) ---------- *)
Lemma space_counts : forall o cf cells bp bf plot s, lengths_ok o (Z.to_nat (cf_quad_order cf)) ->
  make_space o cf cells bp bf plot = Ok s ->
  sp_total_dofs s = (length cells * (Z.to_nat (cf_quad_order cf) * Z.to_nat (cf_quad_order cf)))%nat /\
  sp_total_dirichlet_dofs s = fold_right (fun tp n => (length (snd tp) + n)%nat) 0%nat bp /\
  sp_total_boundary_dofs s = (if plot then fold_right (fun tp n => (length (snd tp) + n)%nat) 0%nat bp + length bp else 0)%nat.
Proof.
  intros o cf cells bp bf plot s Ho H. destruct (make_space_inv _ _ _ _ _ _ _ H) as (_ & Ec & Ed & Et & Hp & Hnp).
  set (nq := (Z.to_nat (cf_quad_order cf) * Z.to_nat (cf_quad_order cf))%nat).
  assert (Hcell : forall d, In d (sp_cells s) -> length (cd_actual d) = nq /\ ncols (cd_val d) = nq).
  { apply mapM_inv in Ec. clear H Ed Et Hp Hnp. induction Ec as [|c d' cs ds E Ec IH]; intros d Hd; [destruct Hd|]. destruct Hd as [<-|Hd]; [|now apply IH].
    destruct (make_cell_tables _ _ _ _ Ho E) as (fam & w & xi & eta & _ & _ & _ & _ & _ & _ & La & [Lv Sv] & _).
    split; [exact La|]. pose proof (ac_fe _ _ (cs_acc _ _ _ _ (make_cell_inv _ _ _ _ Ho E))).
    unfold ncols. destruct (cd_val d') as [|r rs]; [simpl in Lv; nia|]. apply Sv. now left. }
  assert (Lc : length (sp_cells s) = length cells) by (eapply mapM_length; exact Ec).
  split; [|split].
  - rewrite <- Lc. destruct plot.
    + pose proof (proj2 (plot_count _ _ _ (Hp eq_refl))) as K. cbn [fst] in K. rewrite K. clear K Hp Hnp Ec Lc Ed Et H. induction (sp_cells s) as [|d l IH]; [reflexivity|].
      cbn [fold_right length]. rewrite (proj1 (Hcell d (or_introl eq_refl))), IH by (intros; apply Hcell; now right). fold nq. lia.
    + rewrite (proj2 (Hnp eq_refl)).
      assert (G : forall l a, (forall d, In d l -> ncols (cd_val d) = nq) -> fold_left (fun acc (c : cell_data R) => (acc + ncols (cd_val c))%nat) l a = (a + length l * nq)%nat).
      { induction l as [|d l IH]; intros a Hl; cbn [fold_left length]; [lia|]. rewrite IH by (intros; apply Hl; now right). rewrite (Hl d) by now left. lia. }
      rewrite G; [fold nq; lia|]. intros d Hd. now apply Hcell.
  - rewrite Et. destruct (sp_dirichlet s) as [x y] eqn:E. cbn [fst]. destruct (dirichlet_rows bp bf x y Ed) as [-> _]. rewrite map_length. apply tagged_count.
  - destruct plot; [exact (proj1 (plot_count _ _ _ (Hp eq_refl))) | exact (proj1 (Hnp eq_refl))].
Qed.
