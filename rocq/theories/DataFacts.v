(* The data handler (C30). *)
From Coq Require Import String ZArith List Arith Lia Bool Reals Lra.
From Verif Require Import Num Py PyFacts Jacobi Quadrature Basis Transform Cell Space Tensor Data RCalc PolyFacts ListFacts
  Spec SpecGeom TransformFacts CellFacts2 SpaceFacts TransformFacts2 ForcingFacts TensorFacts.
Import ListNotations.
Local Open Scope R_scope.

Lemma same_shape_ok : forall (m m' : mat R) r c, has_shape m r c -> has_shape m' r c -> same_shape m m' = true.
Proof.
  intros m m' r c [L1 H1] [L2 H2]. unfold same_shape. rewrite L1, L2, Nat.eqb_refl. simpl.
  apply forallb_forall. intros [a b] Hin. cbn [fst snd].
  assert (a = c). { apply in_combine_l in Hin. apply in_map_iff in Hin. destruct Hin as (x & <- & Hx). auto. }
  assert (b = c). { apply in_combine_r in Hin. apply in_map_iff in Hin. destruct Hin as (x & <- & Hx). auto. }
  subst. apply Nat.eqb_refl.
Qed.
Lemma stack0_ok : forall (l : list (mat R)) b r c, shape3 l b r c -> (0 < b)%nat -> stack0 l = Ok l.
Proof.
  intros l b r c [L H] Hb. destruct l as [|m l]; [simpl in L; lia|]. unfold stack0.
  replace (forallb (same_shape m) l) with true; auto. symmetry. apply forallb_forall. intros m' Hm.
  apply same_shape_ok with r c; apply H; simpl; auto.
Qed.
Lemma concat1_ok : forall (l : list (mat R)) b r, shape3 l b r 1 -> (0 < b)%nat ->
  concat1 l = Ok (mk r b (fun i j => entry3 l j i 0)).
Proof.
  intros l b r [L H] Hb. unfold concat1. destruct l as [|m l]; [simpl in L; lia|].
  replace (forallb _ l) with true.
  2:{ symmetry. apply forallb_forall. intros m' Hm. apply Nat.eqb_eq.
      rewrite (proj1 (H m' (or_intror Hm))), (proj1 (H m (or_introl eq_refl))). reflexivity. }
  apply (f_equal Ok). rewrite (proj1 (H m (or_introl eq_refl))). unfold mk. apply tab_ext. intros i Hi.
  remember (m :: l) as l0. clear Heql0 m l. revert b L Hb. rewrite <- (rev_involutive l0) in *.
  assert (G : forall l1, (forall m, In m l1 -> has_shape m r 1) ->
    concat (map (fun m' : mat R => nth i m' []) l1) = tab (length l1) (fun j => entry3 l1 j i 0)).
  { induction l1; intros G; [reflexivity|]. cbn [map concat]. rewrite IHl1 by (intros; apply G; simpl; auto).
    destruct (G a (or_introl eq_refl)) as [La Ha].
    assert (E : length (nth i a []) = 1%nat) by (apply Ha; apply nth_In; lia).
    destruct (nth i a []) as [|x [|]] eqn:Ex; try discriminate.
    unfold tab. cbn [length seq map app]. f_equal. { unfold entry3, entry. cbn [nth]. now rewrite Ex. }
    rewrite <- seq_shift, map_map. apply map_ext. reflexivity. }
  intros b L Hb. rewrite <- L. apply G. intros m Hm. apply H. auto.
Qed.
Lemma pack_points_ok : forall (l : list (list (R * R))) q, (forall m, In m l -> length m = q) -> pack_points l = Ok (concat l).
Proof.
  intros [|m l] q H; [reflexivity|]. unfold pack_points.
  replace (forallb _ l) with true; auto. symmetry. apply forallb_forall. intros m' Hm. apply Nat.eqb_eq.
  rewrite !H by (simpl; auto). reflexivity.
Qed.

Section Handler.
Variables (o : quad_oracle R) (cf : config) (cells : list (cell R)) (bp : bdict R) (bf : bfun R) (plot : bool)
  (s : space R).
Hypothesis Ho : lengths_ok o (Z.to_nat (cf_quad_order cf)).
Hypothesis Hs : make_space o cf cells bp bf plot = Ok s.
Let n := Z.to_nat (cf_quad_order cf).
Let k := Z.to_nat (cf_fe_order cf).
Let C := length cells.
Let T := (k * k)%nat.
Let Q := (n * n)%nat.

Lemma space_ncells : length (sp_cells s) = C.
Proof. apply make_space_inv in Hs. destruct Hs as (_ & M & _). apply mapM_length in M. exact M. Qed.
Lemma space_sizes : (0 < C)%nat /\ (0 < T)%nat /\ (0 < Q)%nat.
Proof.
  pose proof Hs as Hs'. apply make_space_inv in Hs'. destruct Hs' as (Ne & M & _).
  destruct cells as [|c cs] eqn:E; [congruence|]. split; [unfold C; simpl; lia|].
  destruct (space_iff o cf (c :: cs) bp bf plot Ho) as [P _].
  destruct P as (_ & P & _); [eauto|]. destruct (P c (or_introl eq_refl)) as [_ Hf Hq _ _ _].
  unfold T, Q, k, n. split; apply Nat.mul_pos_pos; lia.
Qed.

Lemma cell_shapes : forall i d0, (i < C)%nat -> let d := nth i (sp_cells s) d0 in
  has_shape (cd_val d) T Q /\ has_shape (cd_gradx d) T Q /\ has_shape (cd_grady d) T Q /\
  length (cd_actual d) = Q /\ (forall f, has_shape (forcing_values d f) T 1).
Proof.
  intros i d0 Hi d. destruct (nth_error cells i) as [c|] eqn:Ec; [|apply nth_error_None in Ec; unfold C in Hi; lia].
  destruct (space_cell _ _ _ _ _ _ _ _ _ Hs Ec) as (d' & Hd & En & Ea).
  assert (E : d = d') by (unfold d; now apply nth_error_nth).
  rewrite E. destruct (make_cell_tables o cf c d' Ho Hd) as (fam & w & xi & eta & Tf & Tq & L1 & L2 & L3 & L4 & L5 & S1 & S2 & S3 & S4 & S5 & TT).
  repeat match goal with |- _ /\ _ => split end; auto.
  intros f. destruct (forcing_sum o cf cells bp bf plot s i c Ho Hs Ec f) as (_ & _ & _ & _ & _ & m & _ & _ & _ & Em & Sm & _).
  unfold get_forcing_function_values in Em. rewrite Ea in Em. cbn [bind] in Em. injection Em as <-. exact Sm.
Qed.

Lemma shape3_tab : forall (g : cell_data R -> mat R) d0 r c,
  (forall i, (i < C)%nat -> has_shape (g (nth i (sp_cells s) d0)) r c) ->
  shape3 (tab C (fun i => g (nth i (sp_cells s) d0))) C r c.
Proof.
  intros g d0 r c H. split; [apply tab_length|]. intros m Hm. unfold tab in Hm. apply in_map_iff in Hm.
  destruct Hm as (i & <- & Hi). apply in_seq in Hi. apply H. lia.
Qed.

Lemma handler_value : forall f d0, make_handler s f true = Ok {|
    h_val := tab C (fun i => cd_val (nth i (sp_cells s) d0));
    h_gx := tab C (fun i => cd_gradx (nth i (sp_cells s) d0));
    h_gy := tab C (fun i => cd_grady (nth i (sp_cells s) d0));
    h_x := concat (tab C (fun i => cd_actual (nth i (sp_cells s) d0)));
    h_force := mk T C (fun r c => entry (forcing_values (nth c (sp_cells s) d0) f) r 0) |}.
Proof.
  intros f d0. destruct space_sizes as (HC & HT & HQ). unfold make_handler. cbn [negb]. rewrite space_ncells.
  set (D := fun i => nth i (sp_cells s) d0).
  assert (M : mapM (cell_tensors s f) (seq 0 C) =
    Ok (tab C (fun i => (cd_val (D i), cd_gradx (D i), cd_grady (D i), cd_actual (D i), forcing_values (D i) f)))).
  { rewrite <- (map_id (seq 0 C)). change (map (fun x => x) (seq 0 C)) with (tab C (fun x => x)). apply tab_mapM. intros i Hi.
    unfold cell_tensors, get_shape_function_val, get_shape_function_grad_x, get_shape_function_grad_y,
      get_quadrature_actual_coordinates, get_forcing_function_values.
    rewrite (cell_at_nth _ i d0) by (rewrite space_ncells; auto). reflexivity. }
  rewrite M. cbn [bind]. rewrite !tab_map. cbn [fst snd].
  rewrite (pack_points_ok _ Q).
  2:{ intros m Hm. unfold tab in Hm. apply in_map_iff in Hm. destruct Hm as (i & <- & Hi). apply in_seq in Hi.
      apply (cell_shapes i d0). lia. }
  cbn [bind]. rewrite (concat1_ok _ C T); auto.
  2:{ apply (shape3_tab (fun d => forcing_values d f)). intros i Hi. apply (cell_shapes i d0 Hi). }
  cbn [bind].
  rewrite (stack0_ok _ C T Q) by (auto; apply (shape3_tab cd_val); intros i Hi; apply (cell_shapes i d0 Hi)).
  cbn [bind].
  rewrite (stack0_ok _ C T Q) by (auto; apply (shape3_tab cd_gradx); intros i Hi; apply (cell_shapes i d0 Hi)).
  cbn [bind].
  rewrite (stack0_ok _ C T Q) by (auto; apply (shape3_tab cd_grady); intros i Hi; apply (cell_shapes i d0 Hi)).
  cbn [bind]. apply (f_equal Ok). f_equal. apply mk_ext. intros i j Hi Hj. unfold entry3. now rewrite tab_nth.
Qed.

Lemma handler_spec : forall f, exists h, make_handler s f true = Ok h /\
  shape3 (h_val h) C T Q /\ shape3 (h_gx h) C T Q /\ shape3 (h_gy h) C T Q /\
  length (h_x h) = (C * Q)%nat /\ has_shape (h_force h) T C /\
  forall c, (c < C)%nat -> let i := Z.of_nat c in
    get_shape_function_val s i = Ok (nth c (h_val h) []) /\
    get_shape_function_grad_x s i = Ok (nth c (h_gx h) []) /\
    get_shape_function_grad_y s i = Ok (nth c (h_gy h) []) /\
    (exists pts, get_quadrature_actual_coordinates s i = Ok pts /\ length pts = Q /\
       forall q, (q < Q)%nat -> nth (c * Q + q) (h_x h) (0, 0) = nth q pts (0, 0)) /\
    (exists m, get_forcing_function_values s f i = Ok m /\ has_shape m T 1 /\
       forall r, (r < T)%nat -> entry (h_force h) r c = entry m r 0).
Proof.
  intros f. destruct space_sizes as (HC & HT & HQ).
  assert (Nd : exists d0 : cell_data R, True).
  { pose proof space_ncells. destruct (sp_cells s) as [|d ?]; [simpl in *; lia | eauto]. }
  destruct Nd as [d0 _]. eexists. split; [exact (handler_value f d0)|]. cbn [h_val h_gx h_gy h_x h_force].
  assert (LA : forall m, In m (tab C (fun i => cd_actual (nth i (sp_cells s) d0))) -> length m = Q).
  { intros m Hm. unfold tab in Hm. apply in_map_iff in Hm. destruct Hm as (i & <- & Hi). apply in_seq in Hi.
    apply (cell_shapes i d0). lia. }
  refine (conj _ (conj _ (conj _ (conj _ (conj _ _))))).
  - apply (shape3_tab cd_val); intros i Hi; apply (cell_shapes i d0 Hi).
  - apply (shape3_tab cd_gradx); intros i Hi; apply (cell_shapes i d0 Hi).
  - apply (shape3_tab cd_grady); intros i Hi; apply (cell_shapes i d0 Hi).
  - rewrite (concat_blocks_length Q) by exact LA. now rewrite tab_length.
  - apply mk_shape.
  - intros c Hc. rewrite !tab_nth by auto.
    unfold get_shape_function_val, get_shape_function_grad_x, get_shape_function_grad_y,
      get_quadrature_actual_coordinates, get_forcing_function_values.
    rewrite (cell_at_nth _ c d0) by (rewrite space_ncells; auto). cbn [bind].
    do 3 (split; [reflexivity|]). split.
    + eexists. split; [reflexivity|]. split; [apply (cell_shapes c d0 Hc)|]. intros q Hq.
      rewrite (concat_blocks_nth Q) by (rewrite ?tab_length; auto). now rewrite tab_nth.
    + eexists. split; [reflexivity|]. split; [apply (cell_shapes c d0 Hc)|]. intros r Hr. now rewrite mk_entry.
Qed.
End Handler.
