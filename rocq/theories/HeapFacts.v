(* Proofs about Heap.v: whatever the caller does, the getters keep their results. *)
From Coq Require Import String ZArith List Arith Lia Reals Lra Bool.
From Verif Require Import Num Py PyFacts Jacobi Quadrature Basis Transform Cell Space Heap ListFacts SpaceFacts.
Import ListNotations.

Section Inv.
Variable st0 : hstate R.
(* what a well-formed initial state provides *)
Hypothesis Hnext : forall c a, In c (hs_cells st0) -> hc_addr c a < hs_next st0.
Hypothesis Huser : hs_user st0 = [].
(* no aliasing between the arrays read by the getters of one cell: only the coordinates
   are ever rebound *)
(* the forcing function leaves the coordinate arrays it is given unchanged *)
Hypothesis Hpure : forall c xs ys, In c (hs_cells st0) -> snd (hc_fv c xs ys) = (xs, ys).
Hypothesis Hcoord : forall c, In c (hs_cells st0) -> exists p, hs_mem st0 (hc_addr c AtCoord) = APts p.

Definition same_cell (c c0 : hcell R) : Prop :=
  (forall a, hc_addr c a = hc_addr c0 a) /\ hc_nsf c = hc_nsf c0 /\ hc_f c = hc_f c0 /\ hc_fv c = hc_fv c0.

Definition Inv (st : hstate R) : Prop :=
  hs_next st0 <= hs_next st /\
  (forall x, In x (hs_user st) -> hs_next st0 <= x) /\
  (forall x, x < hs_next st0 -> hs_mem st x = hs_mem st0 x) /\
  Forall2 same_cell (hs_cells st) (hs_cells st0).

Lemma same_refl : forall c, same_cell c c.
Proof. intros; repeat split. Qed.
Lemma Inv_init : Inv st0.
Proof.
  refine (conj (le_n _) (conj _ (conj _ _))); auto.
  - rewrite Huser. intros x [].
  - clear. induction (hs_cells st0); constructor; auto. apply same_refl.
Qed.

Lemma give_inv : forall (st : hstate R) v, Inv st -> Inv (give st v).
Proof.
  intros st v (A & B & C & D). unfold give, Inv; cbn [hs_mem hs_next hs_cells hs_user]. repeat split; auto.
  - intros x Hx. apply in_app_or in Hx. destruct Hx as [Hx|[<-|[]]]; auto.
  - intros x Hx. unfold upd. destruct (Nat.eqb_spec x (hs_next st)); [lia | auto].
Qed.
Lemma set_nth_forall2 : forall (l l0 : list (hcell R)) n c c', Forall2 same_cell l l0 -> nth_error l n = Some c ->
  (forall c0, same_cell c c0 -> same_cell c' c0) -> Forall2 same_cell (set_nth l n c') l0.
Proof.
  intros l l0 n c c' H. revert n. induction H; intros n Hn Hs; simpl; [constructor|].
  destruct n; simpl in Hn; [injection Hn as ->; constructor; auto | constructor; auto].
Qed.
Lemma hcell_at_ok : forall (st : hstate R) i n c, hcell_at st i = Ok (n, c) -> nth_error (hs_cells st) n = Some c /\ n = Z.to_nat i.
Proof.
  intros st i n c. unfold hcell_at. destruct (_ || _)%bool; [discriminate|].
  destruct (nth_error _ _) eqn:E; [|discriminate]. intros H; injection H as <- <-. auto.
Qed.
Lemma store_inv : forall (st : hstate R) n c v, Inv st -> nth_error (hs_cells st) n = Some c -> Inv (store_forcing st n c v).
Proof.
  intros st n c v (A & B & C & D) Hn. unfold store_forcing. apply give_inv.
  unfold Inv; cbn [hs_mem hs_next hs_cells hs_user]. repeat split; auto.
  - intros x Hx. unfold upd. destruct (Nat.eqb_spec x (hs_next st)); [lia | auto].
  - eapply set_nth_forall2; eauto.
Qed.
Lemma forall2_nth : forall (l l0 : list (hcell R)) n c, Forall2 same_cell l l0 -> nth_error l n = Some c ->
  exists c0, nth_error l0 n = Some c0 /\ same_cell c c0.
Proof.
  intros l l0 n c H. revert n. induction H; intros [|n] Hn; simpl in *; try discriminate; eauto.
  injection Hn as <-. eauto.
Qed.

Lemma pts_unchanged : forall p : list (R * R), combine (map fst p) (map snd p) = p.
Proof. induction p as [|[x y] p IH]; simpl; auto. now rewrite IH. Qed.

Lemma step_inv : forall (st : hstate R) (o : op R), Inv st -> Inv (fst (step st o)).
Proof.
  intros st o HI. pose proof HI as (A & B & C & D). destruct o as [a i|i|i comp|k v]; simpl.
  - destruct (hcell_at st i) as [[n c]|]; simpl; auto. now apply give_inv.
  - destruct (hcell_at st i) as [[n c]|] eqn:E; simpl; auto. apply hcell_at_ok in E. destruct E as [E _].
    now apply store_inv.
  - destruct (hcell_at st i) as [[n c]|] eqn:E; simpl; auto. apply hcell_at_ok in E. destruct E as [E _].
    destruct (forall2_nth _ _ _ _ D E) as (c0 & E0 & (P & Q & F & S)).
    assert (Hin : In c0 (hs_cells st0)) by (eapply nth_error_In; eauto).
    set (pts := as_pts (hs_mem st (hc_addr c AtCoord))).
    destruct (hc_fv c (map fst pts) (map snd pts)) as [fv [xs ys]] eqn:Ef.
    assert (Ep : combine xs ys = pts).
    { rewrite S in Ef. pose proof (Hpure c0 (map fst pts) (map snd pts) Hin) as X. rewrite Ef in X. simpl in X.
      injection X as -> ->. apply pts_unchanged. }
    set (st' := {| hs_mem := upd (hs_mem st) (hc_addr c AtCoord) (APts (combine xs ys)); hs_next := hs_next st;
       hs_cells := hs_cells st; hs_user := hs_user st |}).
    assert (HI' : Inv st').
    { repeat split; auto. intros x Hx. cbn [hs_mem st']. unfold upd.
      destruct (Nat.eqb_spec x (hc_addr c AtCoord)) as [-> | ]; [|auto]. rewrite <- C by auto.
      rewrite Ep. unfold pts. rewrite C by auto. rewrite P. destruct (Hcoord c0 Hin) as [p ->]. reflexivity. }
    destruct (nth_error fv comp); simpl; auto.
    destruct (mapM _ _); simpl; auto. apply store_inv; auto.
  - destruct (nth_error (hs_user st) k) as [x|] eqn:E; simpl; auto.
    apply nth_error_In in E. apply B in E. unfold Inv; cbn [hs_mem hs_next hs_cells hs_user]. repeat split; auto.
    intros y Hy. unfold upd. destruct (Nat.eqb_spec y x); [lia | auto].
Qed.
Lemma run_inv : forall (h : list (op R)) st, Inv st -> Inv (run st h).
Proof. induction h; simpl; auto. intros. apply IHh. now apply step_inv. Qed.

Lemma hcell_at_same : forall st i, Inv st ->
  match hcell_at st0 i with
  | Ok (n, c0) => exists c, hcell_at st i = Ok (n, c) /\ same_cell c c0 /\ In c0 (hs_cells st0)
  | Err e => hcell_at st i = Err e
  end.
Proof.
  intros st i (A & B & C & D). unfold hcell_at.
  assert (L : length (hs_cells st) = length (hs_cells st0)) by (clear -D; induction D; simpl; auto).
  rewrite L. destruct (_ || _)%bool; auto.
  generalize (Z.to_nat i). intros n. clear L. clear - D. revert n. induction D; intros [|n]; simpl; auto.
  - exists x. repeat split; auto; apply H.
  - specialize (IHD n). destruct (nth_error l' n).
    + destruct IHD as (c & E & S & I). exists c. refine (conj _ (conj S (or_intror I))).
      destruct (nth_error l n); [now injection E as -> | discriminate].
    + destruct (nth_error l n); [discriminate | auto].
Qed.

Definition query (o : op R) : Prop := match o with OWrite _ _ => False | _ => True end.

Lemma observe_same : forall st o, Inv st -> query o -> observe st o = observe st0 o.
Proof.
  intros st o HI Hq. pose proof HI as (A & B & C & D). unfold observe.
  destruct o as [a i|i|i comp|k v]; simpl in *; try contradiction.
  - pose proof (hcell_at_same st i HI) as H. destruct (hcell_at st0 i) as [[n c0]|e].
    + destruct H as (c & -> & (P & _) & I). simpl. rewrite P, C; auto.
    + now rewrite H.
  - pose proof (hcell_at_same st i HI) as H. destruct (hcell_at st0 i) as [[n c0]|e].
    + destruct H as (c & -> & (P & Q & F & S) & I). simpl. rewrite !P, !C, Q, F; auto.
    + now rewrite H.
  - pose proof (hcell_at_same st i HI) as H. destruct (hcell_at st0 i) as [[n c0]|e]; [|now rewrite H].
    destruct H as (c & -> & (P & Q & F & S) & I). rewrite !P, !C, S by auto.
    set (pts := as_pts _).
    pose proof (Hpure c0 (map fst pts) (map snd pts) I) as X.
    destruct (hc_fv c0 (map fst pts) (map snd pts)) as [fv [xs ys]]. simpl in X. injection X as -> ->.
    cbn [hs_mem]. rewrite pts_unchanged. unfold pts. destruct (Hcoord c0 I) as [p Ep]. rewrite Ep. cbn [as_pts].
    assert (E : upd (hs_mem st) (hc_addr c0 AtCoord) (APts p) (hc_addr c0 AtVal)
              = upd (hs_mem st0) (hc_addr c0 AtCoord) (APts p) (hc_addr c0 AtVal)).
    { unfold upd. destruct (Nat.eqb _ _); auto. }
    rewrite E. destruct (nth_error fv comp); auto. destruct (mapM _ _); auto.
Qed.
End Inv.

(* The heap of a freshly built space *)
Definition pure_fv (fv : list R -> list R -> list (list R)) (xs ys : list R) := (fv xs ys, (xs, ys)).

Lemma concat_eight : forall {X} (l : list (list X)) i j d, (forall x, In x l -> length x = 8) -> i < length l -> j < 8 ->
  nth (8 * i + j) (concat l) d = nth j (nth i l []) d.
Proof.
  intros X l i. revert l. induction i; intros l j d HL Hi Hj; (destruct l as [|x l]; [simpl in Hi; lia|]); simpl concat.
  - simpl. rewrite app_nth1; auto. rewrite (HL x) by now left. lia.
  - simpl in Hi. pose proof (HL x (or_introl eq_refl)) as Lx. rewrite app_nth2 by lia. rewrite Lx. cbn [nth].
    replace (8 * S i + j - 8) with (8 * i + j) by lia. apply IHi; auto; [|lia]. intros; apply HL; now right.
Qed.
Lemma load_cell : forall (s : space R) f fv n, n < length (sp_cells s) ->
  exists c, nth_error (sp_cells s) n = Some c /\
    nth_error (hs_cells (load s f fv)) n = Some {| hc_addr := fun a => 8 * n + attr_index a; hc_forcing := 8 * n + 7;
        hc_nsf := cd_nsf c; hc_f := f; hc_fv := fv |} /\
    forall a, hs_mem (load s f fv) (8 * n + attr_index a) = cell_arr c a.
Proof.
  intros s f fv n Hn. destruct (nth_error (sp_cells s) n) as [c|] eqn:E; [|apply nth_error_None in E; lia].
  exists c. split; auto. split.
  - unfold load; cbn [hs_cells]. rewrite nth_error_map.
    assert (G : nth_error (combine (seq 0 (length (sp_cells s))) (sp_cells s)) n = Some (n, c)).
    { clear -E Hn. assert (forall (l : list (cell_data R)) k m c, nth_error l m = Some c -> nth_error (combine (seq k (length l)) l) m = Some ((k + m)%nat, c)).
      { induction l; intros k [|m] c' H; simpl in *; try discriminate.
        - injection H as ->. now rewrite Nat.add_0_r.
        - rewrite (IHl (S k) m c' H). do 2 f_equal; lia. }
      now apply (H (sp_cells s) 0). }
    rewrite G. reflexivity.
  - intros a. unfold load; cbn [hs_mem].
    rewrite concat_eight; [|intros x Hx; apply in_map_iff in Hx; destruct Hx as (d & <- & _); reflexivity | now rewrite map_length | destruct a; simpl; lia].
    rewrite nth_indep with (d' := cell_objects c) by now rewrite map_length.
    rewrite map_nth. rewrite (nth_error_nth _ _ _ E). destruct a; reflexivity.
Qed.
Lemma load_in : forall (s : space R) f fv c, In c (hs_cells (load s f fv)) ->
  exists n d, n < length (sp_cells s) /\ nth_error (sp_cells s) n = Some d /\
  c = {| hc_addr := fun a => 8 * n + attr_index a; hc_forcing := 8 * n + 7; hc_nsf := cd_nsf d; hc_f := f; hc_fv := fv |}.
Proof.
  intros s f fv c H. apply In_nth_error in H. destruct H as [n Hn].
  assert (L : n < length (sp_cells s)).
  { assert (N : nth_error (hs_cells (load s f fv)) n <> None) by congruence. apply nth_error_Some in N.
    unfold load in N; cbn [hs_cells] in N. rewrite map_length, combine_length, seq_length in N. lia. }
  destruct (load_cell s f fv n L) as (d & E1 & E2 & _). exists n, d. repeat split; auto. congruence.
Qed.

Lemma load_at : forall (s : space R) f fv i, hcell_at (load s f fv) i =
  match cell_at (sp_cells s) i with
  | Ok d => Ok (Z.to_nat i, {| hc_addr := fun a => 8 * Z.to_nat i + attr_index a; hc_forcing := 8 * Z.to_nat i + 7;
        hc_nsf := cd_nsf d; hc_f := f; hc_fv := fv |})
  | Err e => Err e
  end.
Proof.
  intros. unfold hcell_at, cell_at.
  assert (L : length (hs_cells (load s f fv)) = length (sp_cells s)).
  { unfold load; cbn [hs_cells]. rewrite map_length, combine_length, seq_length. lia. }
  rewrite L. destruct (_ || _)%bool eqn:E; auto. apply orb_false_iff in E. destruct E as [E1 E2].
  rewrite Z.geb_leb in E1. apply Z.leb_gt in E1. apply Z.ltb_ge in E2.
  destruct (load_cell s f fv (Z.to_nat i)) as (d & -> & -> & _); [lia | reflexivity].
Qed.

Definition pure_result (s : space R) (f : R -> R -> R) (fv : list R -> list R -> list (list R)) (o : op R) : result (arr R) :=
  match o with
  | OGet AtVal i => do m <- get_shape_function_val s i; Ok (AMat m)
  | OGet AtGradX i => do m <- get_shape_function_grad_x s i; Ok (AMat m)
  | OGet AtGradXRef i => do m <- get_shape_function_grad_x_ref s i; Ok (AMat m)
  | OGet AtGradY i => do m <- get_shape_function_grad_y s i; Ok (AMat m)
  | OGet AtGradYRef i => do m <- get_shape_function_grad_y_ref s i; Ok (AMat m)
  | OGet AtCoord i => do m <- get_quadrature_actual_coordinates s i; Ok (APts m)
  | OGet AtMult i => do m <- get_quadrature_weights s i; Ok (AVec m)
  | OForce i => do m <- get_forcing_function_values s f i; Ok (AMat m)
  | OForceVec i comp => do m <- get_forcing_function_values_vector s fv i comp; Ok (AMat m)
  | OWrite _ v => Ok v
  end.

Lemma cell_at_lt : forall (s : space R) i d, cell_at (sp_cells s) i = Ok d ->
  Z.to_nat i < length (sp_cells s) /\ nth_error (sp_cells s) (Z.to_nat i) = Some d.
Proof.
  intros s i d. unfold cell_at. destruct (_ || _)%bool; [discriminate|].
  destruct (nth_error _ _) eqn:E; [|discriminate]. intros H; injection H as <-. split; auto.
  apply nth_error_Some. congruence.
Qed.

Lemma observe_load : forall s f fv o, query o -> observe (load s f (pure_fv fv)) o = pure_result s f fv o.
Proof.
  intros s f fv o Hq. unfold observe. destruct o as [a i|i|i comp|k v]; simpl in Hq; try contradiction; unfold step; rewrite load_at.
  - unfold pure_result, get_shape_function_val, get_shape_function_grad_x, get_shape_function_grad_x_ref,
        get_shape_function_grad_y, get_shape_function_grad_y_ref, get_quadrature_actual_coordinates, get_quadrature_weights.
    destruct (cell_at (sp_cells s) i) as [d|e] eqn:E; [|destruct a; reflexivity].
    destruct (cell_at_lt _ _ _ E) as [L N]. destruct (load_cell s f (pure_fv fv) _ L) as (d' & N' & _ & M).
    assert (d' = d) by congruence; subst d'. cbv zeta. cbn [snd hc_addr]. rewrite M. destruct a; reflexivity.
  - unfold pure_result, get_forcing_function_values.
    destruct (cell_at (sp_cells s) i) as [d|e] eqn:E; [|reflexivity]. destruct (cell_at_lt _ _ _ E) as [L N].
    destruct (load_cell s f (pure_fv fv) _ L) as (d' & N' & _ & M). assert (d' = d) by congruence; subst d'.
    cbv zeta. cbn [hc_addr hc_nsf hc_f]. rewrite !M. reflexivity.
  - unfold pure_result, get_forcing_function_values_vector.
    destruct (cell_at (sp_cells s) i) as [d|e] eqn:E; [|reflexivity]. destruct (cell_at_lt _ _ _ E) as [L N].
    destruct (load_cell s f (pure_fv fv) _ L) as (d' & N' & _ & M). assert (d' = d) by congruence; subst d'.
    cbv zeta. cbn [hc_addr hc_nsf hc_f hc_fv]. rewrite (M AtCoord). unfold pure_fv. cbn [cell_arr as_pts].
    cbn [bind hs_mem]. unfold forcing_values_vector. destruct (nth_error _ comp) as [v|]; [|reflexivity].
    unfold upd. destruct (Nat.eqb_spec (8 * Z.to_nat i + attr_index AtVal) (8 * Z.to_nat i + attr_index AtCoord)) as [X|_]; [simpl in X; lia|].
    rewrite M. cbn [cell_arr as_mat]. destruct (mapM _ _); reflexivity.
Qed.

Theorem history_independent : forall s f fv (h : list (op R)) (o : op R), query o ->
  observe (run (load s f (pure_fv fv)) h) o = pure_result s f fv o.
Proof.
  intros s f fv h o Hq. rewrite <- observe_load by auto.
  assert (A1 : forall c a, In c (hs_cells (load s f (pure_fv fv))) -> hc_addr c a < hs_next (load s f (pure_fv fv))).
  { intros c a H. apply load_in in H. destruct H as (n & d & L & N & ->). cbn [hc_addr hs_next load].
    assert (attr_index a <= 6) by (destruct a; simpl; lia). lia. }
  assert (A2 : forall c xs ys, In c (hs_cells (load s f (pure_fv fv))) -> snd (hc_fv c xs ys) = (xs, ys)).
  { intros c xs ys H. apply load_in in H. destruct H as (n & d & _ & _ & ->). reflexivity. }
  assert (A3 : forall c, In c (hs_cells (load s f (pure_fv fv))) -> exists p, hs_mem (load s f (pure_fv fv)) (hc_addr c AtCoord) = APts p).
  { intros c H. apply load_in in H. destruct H as (n & d & L & N & ->). cbn [hc_addr].
    destruct (load_cell s f (pure_fv fv) _ L) as (d' & N' & _ & M). exists (cd_actual d'). apply M. }
  apply observe_same; auto. apply run_inv; auto. apply Inv_init; auto.
Qed.
