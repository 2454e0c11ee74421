(* Meshes read from files: geometry_2d.py:95-224. *)
From Coq Require Import String ZArith List Arith Lia Bool Reals Lra Sorted Permutation.
From Verif Require Import Num Py PyFacts Transform Space Geometry RCalc ListFacts SpecGeom SpecMesh TransformFacts AngleFacts.
Import ListNotations.
Local Open Scope R_scope.

(* ---------- lexicographic order ---------- *)
Lemma nltb_R : forall x y : R, nltb x y = true <-> x < y.
Proof. intros. unfold nltb. to_R. rewrite Bool.negb_true_iff. apply Rleb_false. Qed.
Lemma nltb_R_false : forall x y : R, nltb x y = false <-> y <= x.
Proof. intros. unfold nltb. to_R. rewrite Bool.negb_false_iff. apply Rleb_true. Qed.
Lemma row_leb_spec : forall p q : list R, row_leb p q = true <-> lex_lt p q \/ p = q.
Proof.
  induction p as [|a p IH]; intros [|b q]; cbn [row_leb lex_lt].
  - split; auto.
  - split; auto.
  - split; [discriminate | intros [[] | H]; discriminate].
  - destruct (nltb a b) eqn:E1; [apply nltb_R in E1; split; auto|]. apply nltb_R_false in E1.
    destruct (nltb b a) eqn:E2.
    + apply nltb_R in E2. split; [discriminate|]. intros [[H | [H _]] | H]; try lra. injection H as H _. lra.
    + apply nltb_R_false in E2. assert (a = b) by lra. subst b. rewrite IH. split.
      * intros [H | ->]; auto.
      * intros [[H | [_ H]] | H]; [lra | auto | injection H as ->; auto].
Qed.
Lemma row_leb_total : forall p q : list R, row_leb p q = false -> lex_lt q p.
Proof.
  induction p as [|a p IH]; intros [|b q]; cbn [row_leb lex_lt]; intros H; try discriminate; auto.
  destruct (nltb a b) eqn:E1; [discriminate|]. apply nltb_R_false in E1. destruct (nltb b a) eqn:E2.
  - apply nltb_R in E2. auto.
  - apply nltb_R_false in E2. right. split; [lra | auto].
Qed.
Lemma lex_trans : forall p q r, lex_lt p q -> lex_lt q r -> lex_lt p r.
Proof.
  induction p as [|a p IH]; intros [|b q] [|c r]; simpl; try tauto. intros [H | [-> H]] [K | [-> K]].
  - left; lra.
  - left; lra.
  - left; lra.
  - right. split; auto. eapply IH; eauto.
Qed.
Lemma lex_irrefl : forall p, ~ lex_lt p p.
Proof. induction p; simpl; [tauto|]. intros [H | [_ H]]; [lra | auto]. Qed.
Lemma insert_row_In : forall (p : list R) l q, In q (insert_row p l) <-> q = p \/ In q l.
Proof.
  intros p l q. induction l as [|a l IH]; cbn [insert_row].
  - simpl. intuition.
  - destruct (row_leb p a) eqn:E1; [destruct (row_leb a p) eqn:E2|].
    + apply row_leb_spec in E1, E2. assert (p = a).
      { destruct E1 as [E1 | ->]; auto. destruct E2 as [E2 | ->]; auto. exfalso. apply (lex_irrefl p). eapply lex_trans; eauto. }
      subst a. simpl. intuition.
    + simpl. intuition.
    + simpl. rewrite IH. intuition.
Qed.
Lemma insert_row_sorted : forall (p : list R) l, StronglySorted lex_lt l -> StronglySorted lex_lt (insert_row p l).
Proof.
  intros p l S. induction S as [|a l S IH F]; cbn [insert_row]; [repeat constructor|].
  destruct (row_leb p a) eqn:E1; [destruct (row_leb a p) eqn:E2|].
  - now constructor.
  - apply row_leb_total in E2. constructor; [now constructor|]. constructor; auto. rewrite Forall_forall in *.
    intros y Hy. eapply lex_trans; eauto.
  - apply row_leb_total in E1. constructor; auto. rewrite Forall_forall in *. intros y Hy. apply insert_row_In in Hy.
    destruct Hy as [-> | Hy]; auto.
Qed.
Lemma unique_rows_In : forall (l : list (list R)) q, In q (unique_rows l) <-> In q l.
Proof. intros l q. unfold unique_rows. induction l as [|a l IH]; simpl; [tauto|]. rewrite insert_row_In, IH. intuition. Qed.
Lemma unique_rows_sorted : forall l : list (list R), StronglySorted lex_lt (unique_rows l).
Proof. intros l. unfold unique_rows. induction l as [|a l IH]; simpl; [constructor|]. now apply insert_row_sorted. Qed.

(* ---------- dictionaries ---------- *)
Lemma dgetZ_dset_same : forall {V} (d : list (Z * V)) k v, dget Z.eqb (dset Z.eqb d k v) k = Ok v.
Proof.
  intros V d k v. induction d as [|[k' v'] d IH]; simpl; [now rewrite Z.eqb_refl|].
  destruct (Z.eqb k k') eqn:E; simpl; rewrite E; auto.
Qed.
Lemma dgetZ_dset_other : forall {V} (d : list (Z * V)) k k' v, k' <> k -> dget Z.eqb (dset Z.eqb d k v) k' = dget Z.eqb d k'.
Proof.
  intros V d k k' v H. induction d as [|[q v'] d IH]; simpl.
  - destruct (Z.eqb_spec k' k); congruence.
  - destruct (Z.eqb_spec k q); simpl.
    + subst q. destruct (Z.eqb_spec k' k); congruence.
    + destruct (Z.eqb k' q); auto.
Qed.
Lemma dsetZ_keys : forall {V} (d : list (Z * V)) k v t, In t (map fst (dset Z.eqb d k v)) <-> t = k \/ In t (map fst d).
Proof.
  intros V d k v t. induction d as [|[q v'] d IH]; simpl; [intuition|].
  destruct (Z.eqb_spec k q) as [-> | E]; simpl; [intuition | rewrite IH; intuition].
Qed.
Lemma dsetZ_NoDup : forall {V} (d : list (Z * V)) k v, NoDup (map fst d) -> NoDup (map fst (dset Z.eqb d k v)).
Proof.
  intros V d k v N. induction d as [|[q v'] d IH]; simpl in *; [repeat constructor; auto|].
  inversion N as [|? ? N1 N2]; subst. destruct (Z.eqb_spec k q) as [-> | E]; simpl; constructor; auto.
  rewrite dsetZ_keys. intros [-> | H]; auto.
Qed.
Lemma np_index_ok : forall {B} (l : list B) k b, (0 <= k)%Z -> nth_error l (Z.to_nat k) = Some b -> np_index l k = Ok b.
Proof.
  intros B l k b H E. unfold np_index. destruct (Z.ltb_spec k 0); [lia|].
  assert (Z.to_nat k < length l)%nat by (apply nth_error_Some; congruence).
  destruct (Z.ltb_spec k 0); [lia|]. destruct (Z.leb_spec (Z.of_nat (length l)) k); [lia|]. cbn [orb]. now rewrite E.
Qed.

(* ---------- the boundary loop ---------- *)
Definition holds (d : list (Z * list (list R))) (t : Z) (p : list R) : Prop := exists rows, dget Z.eqb d t = Ok rows /\ In p rows.
Section Loop.
Variables (lhs2 : nat -> nat -> list (R * R)) (method : string) (level : Z) (tags : list Z) (new : nat -> list R * list R -> list (list R)).
Lemma loop_ok : forall edges i d, 
  (forall j, (j < length edges)%nat -> edge_points (lhs2 (i + j)%nat) method level (fst (nth j edges ([], []))) (snd (nth j edges ([], [])))
                     = Ok (new (i + j)%nat (nth j edges ([], [])))) ->
  (i + length edges <= length tags)%nat ->
  exists out, boundary_loop lhs2 method level tags i edges d = Ok out /\
    (NoDup (map fst d) -> NoDup (map fst out)) /\
    (forall t, In t (map fst out) <-> In t (map fst d) \/ exists j, (j < length edges)%nat /\ nth (i + j) tags 0%Z = t) /\
    (forall t p, holds out t p <-> holds d t p \/
       exists j, (j < length edges)%nat /\ nth (i + j) tags 0%Z = t /\ In p (new (i + j)%nat (nth j edges ([], [])))).
Proof.
  induction edges as [|[p1 p2] edges IH]; intros i d Hnew Hlen.
  - exists d. split; [reflexivity|]. split; auto. split.
    + intros t. split; [auto | intros [H | (j & H & _)]; [auto | inversion H]].
    + intros t p. split; [auto | intros [H | (j & H & _)]; [auto | inversion H]].
  - cbn [boundary_loop]. simpl in Hlen. pose proof (Hnew 0%nat ltac:(simpl; lia)) as H0. rewrite Nat.add_0_r in H0. cbn [nth fst snd] in H0.
    rewrite H0. cbn [bind]. set (t0 := nth i tags 0%Z).
    rewrite (np_index_ok tags (Z.of_nat i) t0); [|lia|].
    2:{ rewrite Nat2Z.id. apply nth_error_nth'. lia. }
    cbn [bind]. set (nw := new i (p1, p2)) in *.
    set (d' := match dget Z.eqb d t0 with Ok prev => dset Z.eqb d t0 (prev ++ nw) | Err _ => dset Z.eqb d t0 nw end).
    assert (K : forall t, In t (map fst d') <-> t = t0 \/ In t (map fst d)).
    { intros t. unfold d'. destruct (dget Z.eqb d t0); apply dsetZ_keys. }
    assert (N : NoDup (map fst d) -> NoDup (map fst d')). { intros N. unfold d'. destruct (dget Z.eqb d t0); now apply dsetZ_NoDup. }
    assert (Hh : forall t p, holds d' t p <-> holds d t p \/ (t = t0 /\ In p nw)).
    { intros t p. unfold holds, d'. destruct (Z.eq_dec t t0) as [-> | Hne].
      - destruct (dget Z.eqb d t0) as [prev|] eqn:E; rewrite dgetZ_dset_same.
        + split.
          * intros (rows & Er & Hp). injection Er as <-. apply in_app_iff in Hp. destruct Hp; [left; exists prev; auto | auto].
          * intros [(rows & Er & Hp) | [_ Hp]]; exists (prev ++ nw); split; auto; apply in_app_iff; [left | auto]. now injection Er as <-.
        + split.
          * intros (rows & Er & Hp). injection Er as <-. auto.
          * intros [(rows & Er & Hp) | [_ Hp]]; [discriminate|]. exists nw. auto.
      - assert (E : forall v, dget Z.eqb (dset Z.eqb d t0 v) t = dget Z.eqb d t) by (intros v; now apply dgetZ_dset_other).
        destruct (dget Z.eqb d t0); rewrite E; split; auto; intros [H | [H _]]; auto; congruence. }
    destruct (IH (S i) d') as (out & E & N' & K' & H'); [|simpl in Hlen; lia|].
    { intros j Hj. specialize (Hnew (S j) ltac:(simpl; lia)). rewrite Nat.add_succ_r in Hnew. exact Hnew. }
    exists out. split; [exact E|]. split; [auto|]. split.
    + intros t. rewrite K', K. split.
      * intros [[-> | H] | (j & Hj & Ej)]; auto.
        -- right. exists 0%nat. split; [simpl; lia|]. now rewrite Nat.add_0_r.
        -- right. exists (S j). split; [simpl; lia|]. now rewrite Nat.add_succ_r.
      * intros [H | (j & Hj & Ej)]; auto. destruct j as [|j].
        -- rewrite Nat.add_0_r in Ej. auto.
        -- right. exists j. split; [simpl in Hj; lia|]. now rewrite Nat.add_succ_r in Ej.
    + intros t p. rewrite H', Hh. split.
      * intros [[H | [-> H]] | (j & Hj & Ej & Hp)]; auto.
        -- right. exists 0%nat. split; [simpl; lia|]. rewrite Nat.add_0_r. auto.
        -- right. exists (S j). split; [simpl; lia|]. rewrite Nat.add_succ_r. auto.
      * intros [H | (j & Hj & Ej & Hp)]; auto. destruct j as [|j].
        -- rewrite Nat.add_0_r in Ej, Hp. left; right. auto.
        -- right. exists j. split; [simpl in Hj; lia|]. rewrite Nat.add_succ_r in Ej, Hp. auto.
Qed.
End Loop.

(* ---------- reading ---------- *)
Lemma cells_dict_ok : forall m kind, has_block m kind -> cells_dict m kind = Ok (rows_of m kind).
Proof.
  intros m kind (b & Hb & Hk). unfold cells_dict, rows_of. destruct (filter (fun b => String.eqb (b_kind b) kind) (mf_blocks m)) eqn:E; auto.
  exfalso. assert (In b []); auto. rewrite <- E. apply filter_In. split; auto. now apply String.eqb_eq.
Qed.
Lemma cells_dict_none : forall m kind, ~ has_block m kind -> @cells_dict R m kind = Err KeyError.
Proof.
  intros m kind H. unfold cells_dict. destruct (filter (fun b => String.eqb (b_kind b) kind) (mf_blocks m)) as [|b l] eqn:E; auto.
  exfalso. apply H. assert (In b (b :: l)) by now left. rewrite <- E in H0. apply filter_In in H0. destruct H0 as [H1 H2].
  exists b. split; auto. now apply String.eqb_eq.
Qed.
Lemma vertex_index : forall m k p, vertex m k p -> np_index (mf_points m) k = Ok p.
Proof. intros m k p [H E]. now apply np_index_ok. Qed.
Lemma edges_ok : forall m edges, edges_of m edges -> mapM (line_points m) (rows_of m "line") = Ok edges.
Proof.
  intros m edges [_ F]. apply mapM_intro. induction F as [|row [a b] rows es H F IH]; constructor; auto.
  destruct H as (k & l & -> & Hk & Hl). unfold line_points. cbn [mapM bind]. rewrite (vertex_index m k a Hk), (vertex_index m l b Hl). reflexivity.
Qed.
Lemma quads_ok : forall m quads, quads_of m quads -> mapM (quad_points m) (rows_of m "quad") = Ok quads.
Proof.
  intros m quads [_ F]. apply mapM_intro. induction F as [|row c rows cs H F IH]; constructor; auto.
  destruct H as (k0 & k1 & k2 & k3 & p0 & p1 & p2 & p3 & -> & H0 & H1 & H2 & H3 & ->). unfold quad_points. cbn [mapM bind].
  rewrite (vertex_index m k0 p0 H0), (vertex_index m k1 p1 H1), (vertex_index m k2 p2 H2), (vertex_index m k3 p3 H3). reflexivity.
Qed.
Lemma sum_mod3 : forall (edges : list (list R * list R)), (forall ab, In ab edges -> length (fst ab) = 3%nat /\ length (snd ab) = 3%nat) ->
  (fold_right (fun pq s => (length (fst pq) + length (snd pq) + s)%nat) 0%nat edges mod 3 = 0)%nat.
Proof.
  intros edges H. assert (E : fold_right (fun pq s => (length (fst pq) + length (snd pq) + s)%nat) 0%nat edges = (3 * (2 * length edges))%nat).
  { induction edges as [|ab l IH]; simpl; auto. destruct (H ab (or_introl eq_refl)) as [-> ->]. rewrite IH; [lia|]. intros x Hx. apply H. now right. }
  rewrite E, Nat.mul_comm. now apply Nat.mod_mul.
Qed.
Lemma edges_spatial : forall m edges, spatial m -> edges_of m edges -> forall ab, In ab edges -> length (fst ab) = 3%nat /\ length (snd ab) = 3%nat.
Proof.
  intros m edges Hs [_ F] ab Hab. induction F as [|row e rows es H F IH]; [destruct Hab|]. destruct Hab as [<- | Hab]; auto.
  destruct H as (k & l & _ & [_ Hk] & [_ Hl]). split; apply Hs; eapply nth_error_In; eauto.
Qed.

Section Read.
Variables (e : numpy R) (lhs2 : nat -> nat -> list (R * R)) (file : string -> result (mesh_file R)) (name method : string) (level rl : Z)
  (m : mesh_file R) (edges : list (list R * list R)) (quads : list (cell R)) (tags : list Z) (new : nat -> list R * list R -> list (list R)).
Hypothesis He : forall l, sorts l (np_argsort e l).
Hypothesis Hname : suffix name = ".mesh"%string.
Hypothesis Hfile : file name = Ok m.
Hypothesis Hedges : edges_of m edges.
Hypothesis Hquads : quads_of m quads.
Hypothesis Htags : first_refs m tags.
Hypothesis Hlen : (length edges <= length tags)%nat.
Hypothesis Hspatial : spatial m.
Hypothesis Hnew : forall j, (j < length edges)%nat ->
  edge_points (lhs2 j) method level (fst (nth j edges ([], []))) (snd (nth j edges ([], []))) = Ok (new j (nth j edges ([], []))).

Lemma read_ok : exists cells bd, read_mesh e lhs2 file name level method rl = Ok (cells, bd) /\
  Forall2 (fun c r => sort_cell e c = Ok r) quads cells /\
  NoDup (map fst bd) /\
  (forall t, In t (map fst bd) <-> exists j, (j < length edges)%nat /\ nth j tags 0%Z = t) /\
  (forall t rows, In (t, rows) bd -> StronglySorted lex_lt rows /\
     forall p, In p rows <-> exists j, (j < length edges)%nat /\ nth j tags 0%Z = t /\ In p (new j (nth j edges ([], [])))).
Proof.
  unfold read_mesh. rewrite Hname. cbn [String.eqb Ascii.eqb Bool.eqb negb]. rewrite Hfile. cbn [bind].
  rewrite (cells_dict_ok m "quad") by apply Hquads. cbn [bind]. rewrite (quads_ok m quads Hquads). cbn [bind].
  destruct (mapM_ok (sort_cell e) quads) as (cells & Ec). { intros c _. destruct (sort_cell_sorts e c He) as (r & E & _). eauto. }
  rewrite Ec. cbn [bind]. rewrite (cells_dict_ok m "line") by apply Hedges. cbn [bind]. rewrite (edges_ok m edges Hedges). cbn [bind].
  rewrite sum_mod3 by (now apply (edges_spatial m)). cbn [Nat.eqb bind].
  destruct Htags as (b & r & Eb & Er). rewrite Eb. cbn [map]. rewrite Er. unfold np_index at 1. cbn [length].
  rewrite Nat2Z.inj_succ. change (0 <? 0)%Z with false. cbn iota. destruct (Z.leb_spec (Z.succ (Z.of_nat (length (map b_refs r)))) 0); [lia|].
  change (0 <? 0)%Z with false. cbn [orb Z.to_nat nth_error bind].
  destruct (loop_ok lhs2 method level tags new edges 0 [] Hnew Hlen) as (out & Eo & No & Ko & Ho). rewrite Eo. cbn [bind].
  specialize (No (NoDup_nil _)).
  exists cells, (map (fun tp => (fst tp, unique_rows (snd tp))) out). split; [reflexivity|].
  split; [now apply mapM_inv|].
  assert (Ek : map fst (map (fun tp : Z * list (list R) => (fst tp, unique_rows (snd tp))) out) = map fst out) by (rewrite map_map; reflexivity).
  rewrite Ek. split; [exact No|]. split.
  - intros t. rewrite Ko. split; [intros [[] | HK]; exact HK | auto].
  - intros t rows Hin. apply in_map_iff in Hin. destruct Hin as ([t' rows'] & E & Hin). cbn [fst snd] in E. injection E as -> <-.
    split; [apply unique_rows_sorted|]. intros p. rewrite unique_rows_In.
    assert (Eg : dget Z.eqb out t = Ok rows').
    { clear - No Hin. induction out as [|[k v] out IH]; [destruct Hin|]. simpl in *. inversion No as [|? ? N1 N2]; subst.
      destruct Hin as [E | Hin].
      - injection E as -> ->. now rewrite Z.eqb_refl.
      - destruct (Z.eqb_spec t k) as [-> | Hne]; auto. exfalso. apply N1. apply in_map_iff. exists (k, rows'). auto. }
    assert (Hd : In p rows' <-> holds out t p). { unfold holds. split; [eauto | intros (q & Eq & Hq); rewrite Eg in Eq; now injection Eq as <-]. }
    rewrite Hd, Ho. split; [intros [(q & Eq & _) | HK]; [discriminate | exact HK] | auto].
Qed.
End Read.

(* ---------- the two sampling methods ---------- *)
(* the point p1 + t (p2 - p1), coordinate by coordinate *)
Definition lerp (p1 p2 : list R) (t : R) : list R := map2 (fun a b => a + t * (b - a)) p1 p2.
Lemma uniform_points : forall lhs2 level p1 p2, (0 <= level)%Z -> exists l, edge_points lhs2 "uniform" level p1 p2 = Ok l /\
  forall p, In p l <-> exists k, (k <= 2 ^ Z.to_nat level)%nat /\ p = lerp p1 p2 (INR k / 2 ^ Z.to_nat level).
Proof.
  intros lhs2 level p1 p2 Hl. unfold edge_points. cbn [String.eqb Ascii.eqb Bool.eqb]. destruct (Z.ltb_spec level 0); [lia|].
  eexists. split; [reflexivity|]. intros p. unfold linspace_points.
  assert (E : forall k, map2 (fun a b : R => (a + nofnat k * ((b - a) / nofnat (2 ^ Z.to_nat level)))%num) p1 p2 = lerp p1 p2 (INR k / 2 ^ Z.to_nat level)).
  { intros k. unfold lerp. apply map2_ext. intros a b. to_R. rewrite !nofnat_R. rewrite pow_INR. simpl INR.
    replace (1 + 1) with 2 by ring. unfold Rdiv. ring. }
  split.
  - intros Hp. apply in_map_iff in Hp. destruct Hp as (k & <- & Hk). apply in_seq in Hk. exists k. split; [lia | apply E].
  - intros (k & Hk & ->). apply in_map_iff. exists k. split; [apply E|]. apply in_seq. lia.
Qed.
(* the sampled point for the pair (s, t) *)
Definition box_point (a b : point) (s t : R) : point := (fst a + s * (fst b - fst a), snd a + t * (snd b - snd a)).
Lemma lhs_points : forall lhs2 level p1 p2, (0 <= level)%Z -> exists l, edge_points lhs2 "lhs" level p1 p2 = Ok l /\
  map point_of l = map (fun st => box_point (point_of p1) (point_of p2) (fst st) (snd st)) (lhs2 (2 ^ Z.to_nat level + 1)%nat).
Proof.
  intros lhs2 level p1 p2 Hl. unfold edge_points. cbn [String.eqb Ascii.eqb Bool.eqb]. destruct (Z.ltb_spec level 0); [lia|].
  eexists. split; [reflexivity|]. rewrite map_map. apply map_ext. intros [s t]. unfold point_of, box_point. cbn [nth fst snd]. to_R. f_equal; ring.
Qed.
Lemma box_on_segment : forall a b s t, 0 <= s <= 1 -> 0 <= t <= 1 ->
  (fst a = fst b \/ snd a = snd b -> on_segment a b (box_point a b s t)) /\
  (fst a <> fst b -> snd a <> snd b -> (on_segment a b (box_point a b s t) <-> s = t)).
Proof.
  intros a b s t Hs Ht. split.
  - intros [E | E].
    + exists t. split; auto. unfold box_point, seg. rewrite E. f_equal; ring.
    + exists s. split; auto. unfold box_point, seg. rewrite E. f_equal; ring.
  - intros Nx Ny. split.
    + intros (r & Hr & E). unfold box_point, seg in E. injection E as E1 E2.
      assert (s = r). { apply (Rmult_eq_reg_r (fst b - fst a)); lra. }
      assert (t = r). { apply (Rmult_eq_reg_r (snd b - snd a)); lra. } lra.
    + intros <-. exists s. split; auto.
Qed.
Lemma bad_method : forall lhs2 level method (p1 p2 : list R), method <> "uniform"%string -> method <> "lhs"%string ->
  edge_points lhs2 method level p1 p2 = Err ValueError.
Proof.
  intros lhs2 level method p1 p2 H1 H2. unfold edge_points. apply String.eqb_neq in H1, H2. now rewrite H1, H2.
Qed.

(* ---------- planar files: line 160 reshapes to rows of three ---------- *)
Definition planar (m : mesh_file R) : Prop := forall p, In p (mf_points m) -> length p = 2%nat.
Lemma planar_count : forall m edges, planar m -> edges_of m edges ->
  fold_right (fun pq s => (length (fst pq) + length (snd pq) + s)%nat) 0%nat edges = (4 * length edges)%nat.
Proof.
  intros m edges Hp [_ F]. induction F as [|row ab rows es H F IH]; simpl; auto.
  destruct H as (k & l & _ & [_ Hk] & [_ Hl]). rewrite (Hp _ (nth_error_In _ _ Hk)), (Hp _ (nth_error_In _ _ Hl)), IH. lia.
Qed.
Lemma planar_refused : forall e lhs2 file name level method rl m edges quads, (forall l, sorts l (np_argsort e l)) ->
  suffix name = ".mesh"%string -> file name = Ok m -> edges_of m edges -> quads_of m quads -> planar m ->
  (length edges mod 3 <> 0)%nat -> read_mesh e lhs2 file name level method rl = Err ValueError.
Proof.
  intros e lhs2 file name level method rl m edges quads He Hn Hf Hed Hq Hp H3. unfold read_mesh.
  rewrite Hn. cbn [String.eqb Ascii.eqb Bool.eqb negb]. rewrite Hf. cbn [bind].
  rewrite (cells_dict_ok m "quad") by apply Hq. cbn [bind]. rewrite (quads_ok m quads Hq). cbn [bind].
  destruct (mapM_ok (sort_cell e) quads) as (cells & Ec). { intros c _. destruct (sort_cell_sorts e c He) as (r & E & _). eauto. }
  rewrite Ec. cbn [bind]. rewrite (cells_dict_ok m "line") by apply Hed. cbn [bind]. rewrite (edges_ok m edges Hed). cbn [bind].
  rewrite (planar_count m edges Hp Hed). destruct (Nat.eqb_spec ((4 * length edges) mod 3) 0) as [E | E]; [|reflexivity].
  exfalso. apply H3. apply Nat.mod_divides in E; [|lia]. destruct E as [q E]. apply Nat.mod_divides; [lia|]. exists (q - length edges)%nat. lia.
Qed.
Lemma wrong_suffix : forall e lhs2 file name level method rl, suffix name <> ".mesh"%string ->
  @read_mesh R _ e lhs2 file name level method rl = Err ValueError.
Proof. intros. unfold read_mesh. apply String.eqb_neq in H. now rewrite H. Qed.
Lemma missing_blocks : forall e lhs2 file name level method rl m, (forall l, sorts l (np_argsort e l)) -> suffix name = ".mesh"%string -> file name = Ok m ->
  (~ has_block m "quad" -> read_mesh e lhs2 file name level method rl = Err KeyError) /\
  (forall quads, quads_of m quads -> ~ has_block m "line" -> read_mesh e lhs2 file name level method rl = Err KeyError).
Proof.
  intros e lhs2 file name level method rl m He Hn Hf. unfold read_mesh. rewrite Hn. cbn [String.eqb Ascii.eqb Bool.eqb negb]. rewrite Hf. cbn [bind].
  split.
  - intros H. now rewrite cells_dict_none.
  - intros quads Hq H. rewrite (cells_dict_ok m "quad") by apply Hq. cbn [bind]. rewrite (quads_ok m quads Hq). cbn [bind].
    destruct (mapM_ok (sort_cell e) quads) as (cells & Ec). { intros c _. destruct (sort_cell_sorts e c He) as (r & E & _). eauto. }
    rewrite Ec. cbn [bind]. now rewrite cells_dict_none.
Qed.
Lemma level_ignored : forall e lhs2 file name level method rl rl', @read_mesh R _ e lhs2 file name level method rl = read_mesh e lhs2 file name level method rl'.
Proof. reflexivity. Qed.

(* ---------- an example: the unit square, four edges with three tags ---------- *)
Definition square_points : list (list R) := [[0; 0; 0]; [1; 0; 0]; [1; 1; 0]; [0; 1; 0]].
Definition square_lines (tags : list Z) : block := {| b_kind := "line"; b_rows := [[0; 1]; [1; 2]; [2; 3]; [3; 0]]%Z; b_refs := tags |}.
Definition square_quads : block := {| b_kind := "quad"; b_rows := [[0; 2; 1; 3]]%Z; b_refs := [77%Z; 77%Z; 77%Z; 77%Z] |}.
Definition square_file (bs : list block) : mesh_file R := {| mf_points := square_points; mf_blocks := bs |}.
Definition square_edges : list (list R * list R) :=
  [([0; 0; 0], [1; 0; 0]); ([1; 0; 0], [1; 1; 0]); ([1; 1; 0], [0; 1; 0]); ([0; 1; 0], [0; 0; 0])].
Definition square_cell : cell R := mkcell (0, 0) (1, 1) (1, 0) (0, 1).
Lemma square_vertex : forall bs k p, nth_error square_points k = Some p -> vertex (square_file bs) (Z.of_nat k) p.
Proof. intros bs k p H. split; [lia|]. now rewrite Nat2Z.id. Qed.
Lemma square_ok : forall tags bs, bs = [square_lines tags; square_quads] \/ bs = [square_quads; square_lines tags] ->
  let m := square_file bs in edges_of m square_edges /\ quads_of m [square_cell] /\ spatial m.
Proof.
  intros tags bs Hb m.
  assert (V0 := square_vertex bs 0 [0; 0; 0] eq_refl). assert (V1 := square_vertex bs 1 [1; 0; 0] eq_refl).
  assert (V2 := square_vertex bs 2 [1; 1; 0] eq_refl). assert (V3 := square_vertex bs 3 [0; 1; 0] eq_refl).
  cbn in V0, V1, V2, V3. fold m in V0, V1, V2, V3.
  split; [|split].
  - split; [exists (square_lines tags); destruct Hb as [-> | ->]; simpl; auto|].
    replace (rows_of m "line") with (b_rows (square_lines tags)) by (destruct Hb as [E | E]; unfold m; rewrite E; reflexivity).
    cbn [b_rows square_lines]. repeat constructor; do 2 eexists; (split; [reflexivity|]); split; assumption.
  - split; [exists square_quads; destruct Hb as [-> | ->]; simpl; auto|].
    replace (rows_of m "quad") with (b_rows square_quads) by (destruct Hb as [E | E]; unfold m; rewrite E; reflexivity).
    cbn [b_rows square_quads]. repeat constructor. exists 0%Z, 2%Z, 1%Z, 3%Z, [0; 0; 0], [1; 1; 0], [1; 0; 0], [0; 1; 0].
    refine (conj eq_refl (conj V0 (conj V2 (conj V1 (conj V3 _))))). reflexivity.
  - intros p Hp. unfold m, square_file, square_points in Hp. cbn in Hp. repeat destruct Hp as [<- | Hp]; try reflexivity; destruct Hp.
Qed.

(* ---------- which tag an edge gets ---------- *)
(* If the quad block comes first, every boundary point is stored under the
   reference of a quad. *)
Lemma tag_order_wrong : forall e lhs2 tags, (forall l, sorts l (np_argsort e l)) -> length tags = 4%nat -> ~ In 77%Z tags ->
  let m := square_file [square_quads; square_lines tags] in
  exists cells bd, read_mesh e lhs2 (fun _ => Ok m) "square.mesh" 0 "uniform" 0 = Ok (cells, bd) /\ map fst bd = [77%Z].
Proof.
  intros e lhs2 tags He Ht Hn m. destruct (square_ok tags _ (or_intror eq_refl)) as (H1 & H2 & H3). fold m in H1, H2, H3.
  set (new := fun (j : nat) (ab : list R * list R) => linspace_points (fst ab) (snd ab) 1).
  destruct (read_ok e lhs2 (fun _ => Ok m) "square.mesh" "uniform" 0 0 m square_edges [square_cell] [77%Z; 77%Z; 77%Z; 77%Z] new He eq_refl eq_refl H1 H2)
    as (cells & bd & E & _ & N & K & _); auto.
  { exists square_quads, [square_lines tags]. auto. }
  exists cells, bd. split; [exact E|].
  assert (I : In 77%Z (map fst bd)) by (apply K; exists 0%nat; simpl; split; [lia | reflexivity]).
  assert (A : forall t, In t (map fst bd) -> t = 77%Z).
  { intros t H. apply K in H. destruct H as (j & Hj & <-). simpl in Hj. do 4 (destruct j as [|j]; [reflexivity|]). lia. }
  destruct (map fst bd) as [|t [|t' r]]; [destruct I | now rewrite (A t (or_introl eq_refl)) |].
  exfalso. inversion N as [|? ? N1 _]; subst. apply N1. left. rewrite (A t (or_introl eq_refl)). apply A. right; now left.
Qed.

(* ---------- lhs on a slanted edge ---------- *)
Definition slanted_file : mesh_file R :=
  {| mf_points := [[0; 0; 0]; [1; 1; 0]; [0; 1; 0]; [-1; 1; 0]];
     mf_blocks := [{| b_kind := "line"; b_rows := [[0; 1]]%Z; b_refs := [5%Z] |}; {| b_kind := "quad"; b_rows := [[0; 1; 2; 3]]%Z; b_refs := [0%Z] |}] |}.
Definition slanted_sample (i n : nat) : list (R * R) := [(1 / 4, 3 / 4); (3 / 4, 1 / 4)].
Lemma slanted_ok : edges_of slanted_file [([0; 0; 0], [1; 1; 0])] /\ quads_of slanted_file [mkcell (0, 0) (1, 1) (0, 1) (-1, 1)] /\
  first_refs slanted_file [5%Z] /\ spatial slanted_file /\ latin 2 (map fst (slanted_sample 0 2)) /\ latin 2 (map snd (slanted_sample 0 2)).
Proof.
  assert (V : forall k p, nth_error (mf_points slanted_file) k = Some p -> vertex slanted_file (Z.of_nat k) p).
  { intros k p H. split; [lia|]. now rewrite Nat2Z.id. }
  assert (V0 := V 0%nat _ eq_refl). assert (V1 := V 1%nat _ eq_refl). assert (V2 := V 2%nat _ eq_refl). assert (V3 := V 3%nat _ eq_refl).
  refine (conj _ (conj _ (conj _ (conj _ (conj _ _))))).
  - split; [eexists; split; [left; reflexivity | reflexivity]|]. repeat constructor. exists 0%Z, 1%Z. auto.
  - split; [eexists; split; [right; left; reflexivity | reflexivity]|]. repeat constructor.
    exists 0%Z, 1%Z, 2%Z, 3%Z, [0; 0; 0], [1; 1; 0], [0; 1; 0], [-1; 1; 0]. refine (conj eq_refl (conj V0 (conj V1 (conj V2 (conj V3 eq_refl))))).
  - eexists _, _. split; reflexivity.
  - intros p Hp. cbn in Hp. repeat destruct Hp as [<- | Hp]; try reflexivity; destruct Hp.
  - split; [reflexivity|]. intros k Hk. cbn [map fst slanted_sample]. destruct k as [|[|k]]; [exists 0%nat | exists 1%nat | lia]; (split; [simpl; split; [lia | lra]|]).
    + intros i (Hi & B). destruct i as [|[|i]]; [reflexivity | simpl in B; lra | lia].
    + intros i (Hi & B). destruct i as [|[|i]]; [simpl in B; lra | reflexivity | lia].
  - split; [reflexivity|]. intros k Hk. cbn [map snd slanted_sample]. destruct k as [|[|k]]; [exists 1%nat | exists 0%nat | lia]; (split; [simpl; split; [lia | lra]|]).
    + intros i (Hi & B). destruct i as [|[|i]]; [simpl in B; lra | reflexivity | lia].
    + intros i (Hi & B). destruct i as [|[|i]]; [reflexivity | simpl in B; lra | lia].
Qed.
Lemma slanted_wrong : forall e, (forall l, sorts l (np_argsort e l)) -> exists cells bd rows p,
  read_mesh e slanted_sample (fun _ => Ok slanted_file) "slanted.mesh" 0 "lhs" 0 = Ok (cells, bd) /\
  In (5%Z, rows) bd /\ In p rows /\ ~ on_segment (0, 0) (1, 1) (point_of p).
Proof.
  intros e He. destruct slanted_ok as (H1 & H2 & H3 & H4 & _).
  set (new := fun (j : nat) (ab : list R * list R) =>
    map (fun st : R * R => [fst st * (nth 0 (snd ab) 0 - nth 0 (fst ab) 0) + nth 0 (fst ab) 0; snd st * (nth 1 (snd ab) 0 - nth 1 (fst ab) 0) + nth 1 (fst ab) 0])
        (slanted_sample j 2)).
  destruct (read_ok e slanted_sample (fun _ => Ok slanted_file) "slanted.mesh" "lhs" 0 0 slanted_file [([0; 0; 0], [1; 1; 0])] _ [5%Z] new
    He eq_refl eq_refl H1 H2 H3) as (cells & bd & E & _ & _ & K & P); auto.
  assert (I : In 5%Z (map fst bd)) by (apply K; exists 0%nat; simpl; split; [lia | reflexivity]).
  apply in_map_iff in I. destruct I as ([t rows] & Et & Hin). cbn [fst] in Et. subst t.
  destruct (P 5%Z rows Hin) as [_ Pr].
  exists cells, bd, rows, [1 / 4 * (1 - 0) + 0; 3 / 4 * (1 - 0) + 0].
  split; [exact E|]. split; [exact Hin|]. split.
  - apply Pr. exists 0%nat. split; [simpl; lia|]. split; [reflexivity|]. left. reflexivity.
  - intros (r & _ & Er). unfold point_of, seg in Er. cbn in Er. injection Er as E1 E2. lra.
Qed.

(* ---------- uniform sampling, whole file ---------- *)
Lemma uniform_boundary : forall e lhs2 file name level rl m edges quads tags,
  (forall l, sorts l (np_argsort e l)) -> suffix name = ".mesh"%string -> file name = Ok m ->
  edges_of m edges -> quads_of m quads -> first_refs m tags -> (length edges <= length tags)%nat -> spatial m -> (0 <= level)%Z ->
  exists cells bd, read_mesh e lhs2 file name level "uniform" rl = Ok (cells, bd) /\
    NoDup (map fst bd) /\
    (forall t, In t (map fst bd) <-> exists j, (j < length edges)%nat /\ nth j tags 0%Z = t) /\
    (forall t rows, In (t, rows) bd -> StronglySorted lex_lt rows /\
       forall p, In p rows <-> exists j k, (j < length edges)%nat /\ nth j tags 0%Z = t /\ (k <= 2 ^ Z.to_nat level)%nat /\
         let (a, b) := nth j edges ([], []) in
         p = map2 (fun u v => u + INR k / 2 ^ Z.to_nat level * (v - u)) a b).
Proof.
  intros e lhs2 file name level rl m edges quads tags He Hn Hf Hed Hq Ht Hl Hs Hlv.
  set (new := fun (j : nat) (ab : list R * list R) => linspace_points (fst ab) (snd ab) (2 ^ Z.to_nat level)).
  assert (N : forall j (ab : list R * list R), edge_points (lhs2 j) "uniform" level (fst ab) (snd ab) = Ok (new j ab)).
  { intros j ab. unfold edge_points. cbn [String.eqb Ascii.eqb Bool.eqb]. destruct (Z.ltb_spec level 0); [lia | reflexivity]. }
  destruct (read_ok e lhs2 file name "uniform" level rl m edges quads tags new He Hn Hf Hed Hq Ht Hl Hs) as (cells & bd & E & _ & Nd & K & P).
  { intros j _. apply N. }
  exists cells, bd. do 3 (split; [assumption|]). intros t rows Hin. destruct (P t rows Hin) as [S Q]. split; [exact S|].
  intros p. rewrite Q. split.
  - intros (j & Hj & Et & Hp). destruct (uniform_points (lhs2 j) level (fst (nth j edges ([], []))) (snd (nth j edges ([], []))) Hlv) as (l & El & Hl').
    rewrite N in El. injection El as <-. apply Hl' in Hp. destruct Hp as (k & Hk & Ep). exists j, k. do 3 (split; [assumption|]).
    destruct (nth j edges ([], [])) as [a b]. exact Ep.
  - intros (j & k & Hj & Et & Hk & Ep). exists j. do 2 (split; [assumption|]).
    destruct (uniform_points (lhs2 j) level (fst (nth j edges ([], []))) (snd (nth j edges ([], []))) Hlv) as (l & El & Hl').
    rewrite N in El. injection El as <-. apply Hl'. exists k. split; auto. destruct (nth j edges ([], [])) as [a b]. exact Ep.
Qed.
Lemma read_cells : forall e lhs2 file name level rl m edges quads tags,
  (forall l, sorts l (np_argsort e l)) -> suffix name = ".mesh"%string -> file name = Ok m ->
  edges_of m edges -> quads_of m quads -> first_refs m tags -> (length edges <= length tags)%nat -> spatial m -> (0 <= level)%Z ->
  forall cells bd, read_mesh e lhs2 file name level "uniform" rl = Ok (cells, bd) ->
  Forall2 (fun c r => sort_cell e c = Ok r) quads cells.
Proof.
  intros e lhs2 file name level rl m edges quads tags He Hn Hf Hed Hq Ht Hl Hs Hlv cells bd E.
  set (new := fun (j : nat) (ab : list R * list R) => linspace_points (fst ab) (snd ab) (2 ^ Z.to_nat level)).
  destruct (read_ok e lhs2 file name "uniform" level rl m edges quads tags new He Hn Hf Hed Hq Ht Hl Hs) as (cells' & bd' & E' & F & _).
  { intros j _. unfold edge_points. cbn [String.eqb Ascii.eqb Bool.eqb]. destruct (Z.ltb_spec level 0); [lia | reflexivity]. }
  rewrite E in E'. injection E' as <- <-. exact F.
Qed.
Lemma uniform_ends : forall e lhs2 file name level rl m edges quads tags cells bd,
  (forall l, sorts l (np_argsort e l)) -> suffix name = ".mesh"%string -> file name = Ok m ->
  edges_of m edges -> quads_of m quads -> first_refs m tags -> (length edges <= length tags)%nat -> spatial m -> (0 <= level)%Z ->
  read_mesh e lhs2 file name level "uniform" rl = Ok (cells, bd) ->
  forall j a b, (j < length edges)%nat -> nth j edges ([], []) = (a, b) ->
  exists rows, In (nth j tags 0%Z, rows) bd /\ In a rows /\ In b rows.
Proof.
  intros e lhs2 file name level rl m edges quads tags cells bd He Hn Hf Hed Hq Ht Hl Hs Hlv E j a b Hj Eab.
  destruct (uniform_boundary e lhs2 file name level rl m edges quads tags He Hn Hf Hed Hq Ht Hl Hs Hlv) as (cells' & bd' & E' & _ & K & P).
  rewrite E in E'. injection E' as <- <-.
  assert (I : In (nth j tags 0%Z) (map fst bd)) by (apply K; eauto). apply in_map_iff in I. destruct I as ([t rows] & Et & Hin). cbn [fst] in Et. subst t.
  exists rows. split; [exact Hin|]. destruct (P _ _ Hin) as [_ Q].
  assert (L : length a = length b).
  { destruct (edges_spatial m edges Hs Hed (a, b)) as [La Lb]; [rewrite <- Eab; now apply nth_In|]. cbn [fst snd] in *. congruence. }
  assert (P2 : 2 ^ Z.to_nat level <> 0) by (apply pow_nonzero; lra).
  split; apply Q.
  - exists j, 0%nat. do 2 (split; [auto|]). split; [lia|]. rewrite Eab. clear - L P2. revert b L. induction a as [|u a IH]; intros [|v b] L; try discriminate; auto.
    cbn [map2]. f_equal; [simpl; field; exact P2 | apply IH; now injection L].
  - exists j, (2 ^ Z.to_nat level)%nat. do 2 (split; [auto|]). split; [lia|]. rewrite Eab. clear - L P2. revert b L. induction a as [|u a IH]; intros [|v b] L; try discriminate; auto.
    cbn [map2]. f_equal; [rewrite pow_INR; simpl INR; replace (1 + 1) with 2 by ring; field; exact P2 | apply IH; now injection L].
Qed.
Lemma tags_first : forall e lhs2 file name level rl m edges quads b r,
  (forall l, sorts l (np_argsort e l)) -> suffix name = ".mesh"%string -> file name = Ok m ->
  edges_of m edges -> quads_of m quads -> mf_blocks m = b :: r -> b_kind b = "line"%string -> (forall b', In b' r -> b_kind b' <> "line"%string) ->
  length (b_refs b) = length (b_rows b) -> spatial m -> (0 <= level)%Z ->
  forall cells bd, read_mesh e lhs2 file name level "uniform" rl = Ok (cells, bd) ->
  length edges = length (b_rows b) /\
  forall j u v, (j < length edges)%nat -> nth j edges ([], []) = (u, v) -> exists rows, In (nth j (b_refs b) 0%Z, rows) bd /\ In u rows /\ In v rows.
Proof.
  intros e lhs2 file name level rl m edges quads b r He Hn Hf Hed Hq Hb Hk Hr Hlen Hs Hlv cells bd E.
  assert (Er : rows_of m "line" = b_rows b).
  { unfold rows_of. rewrite Hb. cbn [filter]. rewrite Hk, String.eqb_refl. cbn [map concat].
    replace (filter (fun b0 => String.eqb (b_kind b0) "line") r) with (@nil block); [apply app_nil_r|].
    symmetry. clear - Hr. induction r as [|c r IH]; auto. cbn [filter].
    destruct (String.eqb_spec (b_kind c) "line") as [E | _]; [exfalso; apply (Hr c); [now left | exact E]|]. apply IH. intros b' H. apply Hr. now right. }
  assert (L : length edges = length (b_rows b)).
  { destruct Hed as [_ F]. rewrite Er in F. clear - F. induction F; simpl; auto. }
  split; [exact L|]. intros j u v Hj Ej.
  apply (uniform_ends e lhs2 file name level rl m edges quads (b_refs b) cells bd He Hn Hf Hed Hq); auto; [exists b, r; auto | lia].
Qed.
Lemma tag_order_refuted : forall e lhs2 tags, (forall l, sorts l (np_argsort e l)) -> length tags = 4%nat -> ~ In 77%Z tags ->
  let m := square_file [square_quads; square_lines tags] in
  edges_of m square_edges /\ quads_of m [square_cell] /\
  exists cells bd, read_mesh e lhs2 (fun _ => Ok m) "square.mesh" 0 "uniform" 0 = Ok (cells, bd) /\ map fst bd = [77%Z].
Proof.
  intros e lhs2 tags He Ht Hn m. destruct (square_ok tags _ (or_intror eq_refl)) as (H1 & H2 & _). fold m in H1, H2.
  split; [exact H1|]. split; [exact H2|]. now apply tag_order_wrong.
Qed.
(* a unit square in a two-dimensional file *)
Definition flat_file : mesh_file R :=
  {| mf_points := [[0; 0]; [1; 0]; [1; 1]; [0; 1]]; mf_blocks := [square_lines [1; 2; 3; 4]%Z; square_quads] |}.
Lemma flat_ok : edges_of flat_file [([0; 0], [1; 0]); ([1; 0], [1; 1]); ([1; 1], [0; 1]); ([0; 1], [0; 0])] /\ quads_of flat_file [square_cell] /\ planar flat_file.
Proof.
  assert (V : forall k p, nth_error (mf_points flat_file) k = Some p -> vertex flat_file (Z.of_nat k) p).
  { intros k p H. split; [lia|]. now rewrite Nat2Z.id. }
  assert (V0 := V 0%nat _ eq_refl). assert (V1 := V 1%nat _ eq_refl). assert (V2 := V 2%nat _ eq_refl). assert (V3 := V 3%nat _ eq_refl).
  cbn in V0, V1, V2, V3. split; [|split].
  - split; [exists (square_lines [1; 2; 3; 4]%Z); simpl; auto|].
    change (rows_of flat_file "line") with [[0; 1]; [1; 2]; [2; 3]; [3; 0]]%Z.
    repeat constructor; do 2 eexists; (split; [reflexivity|]); split; assumption.
  - split; [exists square_quads; simpl; auto|]. change (rows_of flat_file "quad") with [[0; 2; 1; 3]]%Z.
    repeat constructor. exists 0%Z, 2%Z, 1%Z, 3%Z, [0; 0], [1; 1], [1; 0], [0; 1]. refine (conj eq_refl (conj V0 (conj V2 (conj V1 (conj V3 _))))). reflexivity.
  - intros p Hp. cbn in Hp. repeat destruct Hp as [<- | Hp]; try reflexivity; destruct Hp.
Qed.
