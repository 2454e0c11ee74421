(* The internal mesh, its boundary points and the test points. *)
From Coq Require Import String ZArith List Arith Lia Reals Lra Sorted Permutation.
From Verif Require Import Num Py PyFacts Jacobi Quadrature Basis Transform Space Geometry RCalc PolyFacts ListFacts QuadFacts Spec SpecGeom SpecMesh
  TransformFacts AngleFacts.
Import ListNotations.
Local Open Scope R_scope.

(* ---------- uniform subdivisions ---------- *)
Definition sub (lo hi : R) (n i : nat) : R := lo + INR i * (hi - lo) / INR n.
Lemma linspace_length : forall (lo hi : R) n, length (linspace lo hi n) = n.
Proof. intros lo hi [|[|n]]; cbn [linspace]; auto. now rewrite map_length, seq_length. Qed.
Lemma linspace_nth : forall (lo hi : R) n i, (1 <= n)%nat -> (i <= n)%nat -> nth i (linspace lo hi (n + 1)) 0 = sub lo hi n i.
Proof.
  intros lo hi n i Hn Hi. replace (n + 1)%nat with (S (S (n - 1))) by lia. cbn [linspace].
  replace (S (n - 1)) with n by lia.
  rewrite nth_seq_map by lia. to_R. rewrite !nofnat_R. unfold sub, Rdiv. rewrite Nat.add_0_l. ring.
Qed.
Lemma sub_0 : forall lo hi n, sub lo hi n 0 = lo.
Proof. intros. unfold sub. simpl. unfold Rdiv. ring. Qed.
Lemma sub_n : forall lo hi n, (1 <= n)%nat -> sub lo hi n n = hi.
Proof. intros lo hi n Hn. unfold sub. apply (le_INR 1) in Hn. simpl in Hn. field. lra. Qed.
Lemma sub_step : forall lo hi n i, (1 <= n)%nat -> sub lo hi n (S i) - sub lo hi n i = (hi - lo) / INR n.
Proof. intros lo hi n i Hn. unfold sub. rewrite S_INR. apply (le_INR 1) in Hn. simpl in Hn. field. lra. Qed.
Lemma sub_lt : forall lo hi n i j, (1 <= n)%nat -> lo < hi -> (i < j)%nat -> sub lo hi n i < sub lo hi n j.
Proof.
  intros lo hi n i j Hn H Hij. unfold sub. apply lt_INR in Hij. apply (le_INR 1) in Hn. simpl in Hn.
  apply Rplus_lt_compat_l. apply Rmult_lt_compat_r; [apply Rinv_0_lt_compat; lra | nra].
Qed.
Lemma sub_le : forall lo hi n i j, (1 <= n)%nat -> lo <= hi -> (i <= j)%nat -> sub lo hi n i <= sub lo hi n j.
Proof.
  intros lo hi n i j Hn H Hij. unfold sub. apply le_INR in Hij. apply (le_INR 1) in Hn. simpl in Hn.
  apply Rplus_le_compat_l. apply Rmult_le_compat_r; [left; apply Rinv_0_lt_compat; lra | nra].
Qed.
(* every number of [lo, hi] is in one of the parts *)
Lemma sub_find : forall lo hi n t, (1 <= n)%nat -> lo <= t <= hi -> exists i, (i < n)%nat /\ sub lo hi n i <= t <= sub lo hi n (S i).
Proof.
  intros lo hi n t Hn Ht.
  assert (G : forall m, (m <= n)%nat -> t <= sub lo hi n m -> (1 <= m)%nat -> exists i, (i < n)%nat /\ sub lo hi n i <= t <= sub lo hi n (S i)).
  { induction m as [|m IH]; intros Hm Htm H1; [lia|]. destruct (Rle_lt_dec (sub lo hi n m) t) as [A | A].
    - exists m. split; [lia | auto].
    - destruct m as [|m]; [rewrite sub_0 in A; lra|]. apply IH; [lia | lra | lia]. }
  apply (G n); auto. now rewrite sub_n; [|auto]. 
Qed.

(* ---------- cells ---------- *)
Section Internal.
Variables (e : numpy R) (x0 x1 y0 y1 : R) (nx ny : Z).
Hypothesis He : numpy_ok e.
Hypothesis Hnx : (1 <= nx)%Z.
Hypothesis Hny : (1 <= ny)%Z.
Let n := Z.to_nat nx.
Let m := Z.to_nat ny.
Let X := sub x0 x1 n.
Let Y := sub y0 y1 m.
Lemma n_pos : (1 <= n)%nat. Proof. unfold n. lia. Qed.
Lemma m_pos : (1 <= m)%nat. Proof. unfold m. lia. Qed.

Definition grid_cell (i j : nat) : cell R := mkcell (X i, Y j) (X (S i), Y j) (X (S i), Y (S j)) (X i, Y (S j)).
Definition cell_of (i j : nat) : cell R :=
  rect (Rmin (X i) (X (S i))) (Rmax (X i) (X (S i))) (Rmin (Y j) (Y (S j))) (Rmax (Y j) (Y (S j))).
Definition all_cells (f : nat -> nat -> cell R) : list (cell R) := concat (map (fun i => map (f i) (seq 0 m)) (seq 0 n)).

Lemma grid_eq : grid_cells (linspace x0 x1 (Z.to_nat (nx + 1))) (linspace y0 y1 (Z.to_nat (ny + 1))) nx ny = all_cells grid_cell.
Proof.
  unfold grid_cells, all_cells. f_equal. fold n. fold m. apply map_ext_in. intros i Hi. apply in_seq in Hi.
  apply map_ext_in. intros j Hj. apply in_seq in Hj. pose proof n_pos. pose proof m_pos.
  replace (Z.to_nat (nx + 1)) with (n + 1)%nat by (unfold n; lia). replace (Z.to_nat (ny + 1)) with (m + 1)%nat by (unfold m; lia).
  change (@n0 R _) with 0. rewrite !linspace_nth by lia. rewrite !Nat.add_1_r. reflexivity.
Qed.
Lemma all_cells_length : forall f, length (all_cells f) = (n * m)%nat.
Proof.
  intros f. unfold all_cells. rewrite (concat_blocks_length m); [now rewrite map_length, seq_length|].
  intros l Hl. apply in_map_iff in Hl. destruct Hl as (i & <- & _). now rewrite map_length, seq_length.
Qed.
Lemma all_cells_nth : forall f i j d, (i < n)%nat -> (j < m)%nat -> nth (i * m + j) (all_cells f) d = f i j.
Proof.
  intros f i j d Hi Hj. unfold all_cells. rewrite (concat_map_nth _ m _ i j 0%nat d); auto.
  - rewrite seq_nth by auto. rewrite nth_seq_map by auto. reflexivity.
  - intros k. now rewrite map_length, seq_length.
  - now rewrite seq_length.
Qed.
Lemma all_cells_In : forall f c, In c (all_cells f) -> exists i j, (i < n)%nat /\ (j < m)%nat /\ c = f i j.
Proof.
  intros f c Hc. unfold all_cells in Hc. apply in_concat in Hc. destruct Hc as (l & Hl & Hc).
  apply in_map_iff in Hl. destruct Hl as (i & <- & Hi). apply in_map_iff in Hc. destruct Hc as (j & <- & Hj).
  apply in_seq in Hi, Hj. exists i, j. repeat split; auto; lia.
Qed.

Hypothesis Hx : x0 <> x1.
Hypothesis Hy : y0 <> y1.
Lemma sub_neq : forall lo hi k i, (1 <= k)%nat -> lo <> hi -> sub lo hi k i <> sub lo hi k (S i).
Proof.
  intros lo hi k i Hk H E. pose proof (sub_step lo hi k i Hk) as S. rewrite E in S. apply (le_INR 1) in Hk. simpl in Hk.
  assert (hi - lo = 0); [|lra]. replace (hi - lo) with ((hi - lo) / INR k * INR k) by (field; lra). rewrite <- S. ring.
Qed.
Lemma sort_grid_cell : forall i j, sort_cell e (grid_cell i j) = Ok (cell_of i j).
Proof.
  intros i j. pose proof (sub_neq x0 x1 n i n_pos Hx) as Nx. pose proof (sub_neq y0 y1 m j m_pos Hy) as Ny.
  fold X in Nx. fold Y in Ny. unfold cell_of. apply sort_rect; auto.
  - unfold Rmin, Rmax. destruct (Rle_dec (X i) (X (S i))); lra.
  - unfold Rmin, Rmax. destruct (Rle_dec (Y j) (Y (S j))); lra.
  - unfold vertices, grid_cell, rect; cbn [v0 v1 v2 v3]. unfold Rmin, Rmax.
    set (p := (X i, Y j)). set (q := (X (S i), Y j)). set (r := (X (S i), Y (S j))). set (s := (X i, Y (S j))).
    destruct (Rle_dec (X i) (X (S i))); destruct (Rle_dec (Y j) (Y (S j))); fold p q r s.
    + apply Permutation_refl.
    + apply (Permutation_trans (l' := [s; p; q; r])); [symmetry; apply (Permutation_cons_append [p; q; r] s)|].
      constructor. apply (Permutation_trans (l' := [r; p; q])); [symmetry; apply (Permutation_cons_append [p; q] r)|].
      constructor. apply perm_swap.
    + apply (Permutation_trans (l' := [q; p; r; s])); [apply perm_swap|]. do 2 constructor. apply perm_swap.
    + apply (Permutation_app_comm [p; q] [r; s]).
Qed.
Lemma sorted_cells : mapM (sort_cell e) (all_cells grid_cell) = Ok (all_cells cell_of).
Proof.
  apply mapM_intro. unfold all_cells. induction (seq 0 n) as [|i l IH]; simpl; [constructor|]. apply Forall2_app; auto. clear IH.
  induction (seq 0 m) as [|j k IH]; simpl; constructor; auto. apply sort_grid_cell.
Qed.
End Internal.

(* ---------- boundary points ---------- *)
Section Boundary.
Variables (lhs1 : nat -> nat -> list R) (xl yl : R * R) (num : Z).
Hypothesis Hs : sampler_ok lhs1.
Hypothesis Hnum : (0 <= num)%Z.
Let k := Z.to_nat (num / 4).
Definition along (a b t : R) : R := a + t * (b - a).
Definition side_x (i : nat) (a b y : R) : list (R * R) := map (fun t => (along a b t, y)) (lhs1 i k).
Definition side_y (i : nat) (a b x : R) : list (R * R) := map (fun t => (x, along a b t)) (lhs1 i k).
Lemma per_side_floor : per_side num = (num / 4)%Z.
Proof. unfold per_side. apply Z.quot_div_nonneg; lia. Qed.
Lemma temp_bd : forall i a b, temp_bd_func (lhs1 i) a b k = map (along a b) (lhs1 i k).
Proof. intros. unfold temp_bd_func, along. apply map_ext. intros t. to_R. ring. Qed.
Lemma combine_r : forall {X Y} (l : list X) (y : Y) q, length l = q -> combine l (repeat y q) = map (fun x => (x, y)) l.
Proof. intros X Y l y q <-. induction l; simpl; auto. now rewrite IHl. Qed.
Lemma combine_l : forall {X Y} (l : list X) (y : Y) q, length l = q -> combine (repeat y q) l = map (fun x => (y, x)) l.
Proof. intros X Y l y q <-. induction l; simpl; auto. now rewrite IHl. Qed.
Lemma internal_boundary_eq : internal_boundary lhs1 xl yl num =
  Ok [(1000, side_x 0 (fst xl) (snd xl) (fst yl)); (1001, side_y 1 (fst yl) (snd yl) (snd xl));
      (1002, side_x 2 (fst xl) (snd xl) (snd yl)); (1003, side_y 3 (fst yl) (snd yl) (fst xl))]%Z.
Proof.
  unfold internal_boundary. rewrite per_side_floor. fold k. rewrite !temp_bd.
  assert (F : forall v : R, np_full (num / 4) v = Ok (repeat v k)).
  { intros v. unfold np_full. destruct (Z.ltb_spec (num / 4) 0); [|reflexivity]. assert (0 <= num / 4)%Z by (apply Z.div_pos; lia). lia. }
  rewrite !F. cbn [bind].
  assert (Sx : forall i a b (y : R), stack_points (map (along a b) (lhs1 i k)) (repeat y k) = Ok (side_x i a b y)).
  { intros i a b y. unfold stack_points. rewrite map_length, repeat_length, (proj1 (Hs i k)), Nat.eqb_refl.
    rewrite combine_r by (now rewrite map_length, (proj1 (Hs i k))). rewrite map_map. reflexivity. }
  assert (Sy : forall i a b (y : R), stack_points (repeat y k) (map (along a b) (lhs1 i k)) = Ok (side_y i a b y)).
  { intros i a b y. unfold stack_points. rewrite map_length, repeat_length, (proj1 (Hs i k)), Nat.eqb_refl.
    rewrite combine_l by (now rewrite map_length, (proj1 (Hs i k))). rewrite map_map. reflexivity. }
  rewrite !Sx, !Sy. reflexivity.
Qed.
Lemma along_in : forall i a b t, a <= b -> In t (lhs1 i k) -> a <= along a b t <= b.
Proof. intros i a b t H Ht. destruct (Hs i k) as [_ U]. specialize (U t Ht). unfold along. nra. Qed.
(* stratification is inherited *)
Lemma along_latin : forall i a b, a < b -> latin k (lhs1 i k) -> forall j, (j < k)%nat ->
  exists! q, (q < k)%nat /\ a + INR j / INR k * (b - a) <= nth q (map (along a b) (lhs1 i k)) 0 < a + (INR j + 1) / INR k * (b - a).
Proof.
  intros i a b H [L P] j Hj. destruct (P j Hj) as (q & (Hq & B) & U). exists q. split.
  - split; auto. rewrite (nth_map_lt _ _ q _ 0) by lia. unfold along. nra.
  - intros q' (Hq' & B'). apply U. split; auto. rewrite (nth_map_lt _ _ q' _ 0) in B' by lia. unfold along in B'. split; nra.
Qed.
End Boundary.

(* ---------- the whole call ---------- *)
Lemma internal_ok : forall e lhs1 x0 x1 y0 y1 nx ny num, numpy_ok e -> sampler_ok lhs1 -> (1 <= nx)%Z -> (1 <= ny)%Z -> (0 <= num)%Z ->
  x0 <> x1 -> y0 <> y1 ->
  generate_quad_mesh_internal e lhs1 (x0, x1) (y0, y1) nx ny num =
  let cells := all_cells nx ny (cell_of x0 x1 y0 y1 nx ny) in
  Ok (cells, mesh_of_cells cells,
      [(1000, side_x lhs1 num 0 x0 x1 y0); (1001, side_y lhs1 num 1 y0 y1 x1); (1002, side_x lhs1 num 2 x0 x1 y1);
       (1003, side_y lhs1 num 3 y0 y1 x0)])%Z.
Proof.
  intros e lhs1 x0 x1 y0 y1 nx ny num He Hs Hnx Hny Hnum Hx Hy. unfold generate_quad_mesh_internal. cbn [fst snd].
  unfold np_linspace. destruct (Z.ltb_spec (nx + 1) 0); [lia|]. destruct (Z.ltb_spec (ny + 1) 0); [lia|]. cbn [bind].
  rewrite grid_eq by auto. rewrite sorted_cells by auto. cbn [bind]. rewrite internal_boundary_eq by auto. reflexivity.
Qed.
Section Tiling.
Variables (e : numpy R) (lhs1 : nat -> nat -> list R) (x0 x1 y0 y1 : R) (nx ny num : Z) (cells : list (cell R)) (mo : mesh_object R) (bd : bdict R).
Hypothesis He : numpy_ok e.
Hypothesis Hs : sampler_ok lhs1.
Hypothesis Hnx : (1 <= nx)%Z.
Hypothesis Hny : (1 <= ny)%Z.
Hypothesis Hnum : (0 <= num)%Z.
Hypothesis Hrun : generate_quad_mesh_internal e lhs1 (x0, x1) (y0, y1) nx ny num = Ok (cells, mo, bd).
Let n := Z.to_nat nx.
Let m := Z.to_nat ny.

Section Proper.
Hypothesis Hx : x0 < x1.
Hypothesis Hy : y0 < y1.
Lemma cells_eq : cells = all_cells nx ny (cell_of x0 x1 y0 y1 nx ny) /\ mo = mesh_of_cells cells.
Proof.
  rewrite internal_ok in Hrun; auto; try lra. cbv zeta in Hrun. injection Hrun as <- <- _. auto.
Qed.
Lemma cell_of_rect : forall i j, (1 <= n)%nat -> (1 <= m)%nat ->
  cell_of x0 x1 y0 y1 nx ny i j = rect (sub x0 x1 n i) (sub x0 x1 n (S i)) (sub y0 y1 m j) (sub y0 y1 m (S j)).
Proof.
  intros i j Hn Hm. unfold cell_of. fold n. fold m.
  pose proof (sub_lt x0 x1 n i (S i) Hn Hx ltac:(lia)). pose proof (sub_lt y0 y1 m j (S j) Hm Hy ltac:(lia)).
  rewrite Rmin_left, Rmax_right, Rmin_left, Rmax_right by lra. reflexivity.
Qed.
Lemma tile_count : length cells = (n * m)%nat.
Proof. destruct cells_eq as [-> _]. apply all_cells_length. Qed.
Lemma tile_cell : forall i j, (i < n)%nat -> (j < m)%nat -> forall d,
  nth (i * m + j) cells d = rect (x0 + INR i * (x1 - x0) / INR n) (x0 + (INR i + 1) * (x1 - x0) / INR n)
                                 (y0 + INR j * (y1 - y0) / INR m) (y0 + (INR j + 1) * (y1 - y0) / INR m).
Proof.
  intros i j Hi Hj d. destruct cells_eq as [-> _]. unfold m. rewrite all_cells_nth by auto. fold m.
  rewrite cell_of_rect by lia. unfold sub. rewrite !S_INR. reflexivity.
Qed.
Lemma tile_index : forall k, (k < n * m)%nat -> exists i j, (i < n)%nat /\ (j < m)%nat /\ k = (i * m + j)%nat.
Proof.
  intros k Hk. assert (Hm : (m <> 0)%nat) by (unfold m; lia). exists (k / m)%nat, (k mod m)%nat.
  split; [apply Nat.div_lt_upper_bound; lia|]. split; [now apply Nat.mod_upper_bound|].
  rewrite (Nat.div_mod k m) at 1 by auto. lia.
Qed.
Lemma in_rect : forall a b c d p, a < b -> c < d -> (in_cell (rect a b c d) p <-> a <= fst p <= b /\ c <= snd p <= d).
Proof.
  intros a b c d [u v] H1 H2. unfold in_cell, rect, cross; cbn. split.
  - intros (A & B & C & D). assert (0 < b - a) by lra. assert (0 < d - c) by lra. repeat split; nra.
  - intros [[A B] [C D]]. repeat split; nra.
Qed.
Lemma interior_rect : forall a b c d p, a < b -> c < d -> (interior (rect a b c d) p <-> a < fst p < b /\ c < snd p < d).
Proof.
  intros a b c d [u v] H1 H2. unfold interior, rect, cross; cbn. split.
  - intros (A & B & C & D). assert (0 < b - a) by lra. assert (0 < d - c) by lra. repeat split; nra.
  - intros [[A B] [C D]]. repeat split; nra.
Qed.
Lemma tile_cover : forall p, x0 <= fst p <= x1 -> y0 <= snd p <= y1 -> exists c, In c cells /\ in_cell c p.
Proof.
  intros p Hpx Hpy. assert (Hn : (1 <= n)%nat) by (unfold n; lia). assert (Hm : (1 <= m)%nat) by (unfold m; lia).
  destruct (sub_find x0 x1 n (fst p) Hn Hpx) as (i & Hi & Bi). destruct (sub_find y0 y1 m (snd p) Hm Hpy) as (j & Hj & Bj).
  exists (cell_of x0 x1 y0 y1 nx ny i j). split.
  - destruct cells_eq as [-> _]. rewrite <- (all_cells_nth nx ny (cell_of x0 x1 y0 y1 nx ny) i j unit_square) by auto.
    apply nth_In. rewrite all_cells_length. fold n. fold m. nia.
  - rewrite cell_of_rect by auto. apply in_rect; auto; apply sub_lt; auto.
Qed.
Lemma tile_inside : forall c p, In c cells -> in_cell c p -> x0 <= fst p <= x1 /\ y0 <= snd p <= y1.
Proof.
  intros c p Hc. assert (Hn : (1 <= n)%nat) by (unfold n; lia). assert (Hm : (1 <= m)%nat) by (unfold m; lia).
  destruct cells_eq as [E _]. rewrite E in Hc. apply all_cells_In in Hc. destruct Hc as (i & j & Hi & Hj & ->). fold n in Hi. fold m in Hj.
  rewrite cell_of_rect by auto. rewrite in_rect by (apply sub_lt; auto).
  pose proof (sub_le x0 x1 n 0 i Hn ltac:(lra) ltac:(lia)). pose proof (sub_le x0 x1 n (S i) n Hn ltac:(lra) ltac:(lia)).
  pose proof (sub_le y0 y1 m 0 j Hm ltac:(lra) ltac:(lia)). pose proof (sub_le y0 y1 m (S j) m Hm ltac:(lra) ltac:(lia)).
  rewrite sub_0 in *. rewrite !sub_n in * by auto. lra.
Qed.
Lemma tile_disjoint : forall k k' p d, (k < n * m)%nat -> (k' < n * m)%nat -> k <> k' ->
  interior (nth k cells d) p -> ~ interior (nth k' cells d) p.
Proof.
  intros k k' p d Hk Hk' Hne. assert (Hn : (1 <= n)%nat) by (unfold n; lia). assert (Hm : (1 <= m)%nat) by (unfold m; lia).
  destruct (tile_index k Hk) as (i & j & Hi & Hj & ->). destruct (tile_index k' Hk') as (i' & j' & Hi' & Hj' & ->).
  destruct cells_eq as [-> _]. unfold m. rewrite !all_cells_nth by auto. fold m. rewrite !cell_of_rect by auto.
  rewrite !interior_rect by (apply sub_lt; auto). intros [A B] [A' B'].
  assert (O : forall lo hi q a b t, (1 <= q)%nat -> lo < hi -> sub lo hi q a < t < sub lo hi q (S a) -> sub lo hi q b < t < sub lo hi q (S b) -> a = b).
  { intros lo hi q a b t Hq H1 H2 H3. destruct (Nat.lt_trichotomy a b) as [H | [H | H]]; auto; exfalso.
    - pose proof (sub_le lo hi q (S a) b Hq ltac:(lra) ltac:(lia)). lra.
    - pose proof (sub_le lo hi q (S b) a Hq ltac:(lra) ltac:(lia)). lra. }
  apply Hne. rewrite (O x0 x1 n i i' (fst p)), (O y0 y1 m j j' (snd p)) by auto. reflexivity.
Qed.
Lemma tile_area : forall c, In c cells -> convex_ccw c /\ parallelogram c /\ area c = (x1 - x0) * (y1 - y0) / (INR n * INR m).
Proof.
  intros c Hc. assert (Hn : (1 <= n)%nat) by (unfold n; lia). assert (Hm : (1 <= m)%nat) by (unfold m; lia).
  destruct cells_eq as [E _]. rewrite E in Hc. apply all_cells_In in Hc. destruct Hc as (i & j & Hi & Hj & ->). fold n in Hi. fold m in Hj.
  rewrite cell_of_rect by auto. pose proof (sub_lt x0 x1 n i (S i) Hn Hx ltac:(lia)). pose proof (sub_lt y0 y1 m j (S j) Hm Hy ltac:(lia)).
  split; [now apply rect_convex|]. split; [unfold parallelogram, rect; cbn; lra|].
  pose proof (sub_step x0 x1 n i Hn) as S1. pose proof (sub_step y0 y1 m j Hm) as S2.
  apply (le_INR 1) in Hn, Hm. simpl in Hn, Hm.
  replace ((x1 - x0) * (y1 - y0) / (INR n * INR m)) with ((x1 - x0) / INR n * ((y1 - y0) / INR m)) by (field; lra). rewrite <- S1, <- S2.
  unfold area, rect; cbn. set (a := sub x0 x1 n i) in *. set (b := sub x0 x1 n (S i)) in *. set (c := sub y0 y1 m j) in *. set (d := sub y0 y1 m (S j)) in *.
  replace (a * c - b * c + (b * d - b * c) + (b * d - a * d) + (a * c - a * d)) with (2 * ((b - a) * (d - c))) by ring.
  rewrite Rabs_right by nra. field.
Qed.
End Proper.

(* ---------- the mesh object ---------- *)
Lemma mesh_obj : mo = mesh_of_cells cells.
Proof.
  unfold generate_quad_mesh_internal in Hrun. do 2 (match goal with _ : context [np_linspace ?a ?b ?c] |- _ => destruct (np_linspace a b c); [|discriminate] end; cbn [bind] in Hrun).
  match goal with _ : context [mapM ?a ?b] |- _ => destruct (mapM a b); [|discriminate] end. cbn [bind] in Hrun.
  destruct (internal_boundary lhs1 (x0, x1) (y0, y1) num); [|discriminate]. cbn [bind] in Hrun. injection Hrun as <- <- _. reflexivity.
Qed.
Lemma mesh_points : forall c k d, (c < length cells)%nat -> (k < 4)%nat ->
  nth (c * 4 + k) (mo_points mo) d = nth k (vertices (nth c cells unit_square)) d.
Proof.
  intros c k d Hc Hk. rewrite mesh_obj. cbn [mesh_of_cells mo_points]. apply concat_map_nth; auto.
Qed.
Lemma mesh_connectivity_rows : length (mo_quads mo) = (2 * length cells)%nat.
Proof.
  rewrite mesh_obj. cbn [mesh_of_cells mo_quads]. rewrite (concat_blocks_length 2); [rewrite map_length; lia|].
  intros l Hl. apply in_map_iff in Hl. destruct Hl as (c & <- & _). reflexivity.
Qed.
End Tiling.

(* ---------- test points ---------- *)
(* point i of n equally spaced points of [lo, hi]; a single point is lo *)
Definition grid_coord (lo hi : R) (n i : nat) : R := if Nat.eqb n 1 then lo else lo + INR i * (hi - lo) / (INR n - 1).
Lemma linspace_coord : forall (lo hi : R) n i, (i < n)%nat -> nth i (linspace lo hi n) 0 = grid_coord lo hi n i.
Proof.
  intros lo hi n i Hi. unfold grid_coord. destruct (Nat.eqb_spec n 1) as [-> | Hn].
  - assert (i = 0)%nat by lia. subst i. reflexivity.
  - replace n with ((n - 1) + 1)%nat at 1 by lia. rewrite linspace_nth by lia. unfold sub. rewrite minus_INR by lia. reflexivity.
Qed.
Lemma coord_in : forall lo hi n i, lo <= hi -> (i < n)%nat -> lo <= grid_coord lo hi n i <= hi.
Proof.
  intros lo hi n i H Hi. unfold grid_coord. destruct (Nat.eqb_spec n 1) as [-> | Hn]; [lra|].
  replace (INR n - 1) with (INR (n - 1)) by (rewrite minus_INR by lia; reflexivity). fold (sub lo hi (n - 1) i).
  pose proof (sub_le lo hi (n - 1) 0 i ltac:(lia) H ltac:(lia)) as A. pose proof (sub_le lo hi (n - 1) i (n - 1) ltac:(lia) H ltac:(lia)) as B.
  rewrite sub_0 in A. rewrite sub_n in B by lia. lra.
Qed.
Lemma coord_inj : forall lo hi n i j, lo < hi -> (i < n)%nat -> (j < n)%nat -> grid_coord lo hi n i = grid_coord lo hi n j -> i = j.
Proof.
  intros lo hi n i j H Hi Hj E. unfold grid_coord in E. destruct (Nat.eqb_spec n 1) as [-> | Hn]; [lia|].
  replace (INR n - 1) with (INR (n - 1)) in E by (rewrite minus_INR by lia; reflexivity). fold (sub lo hi (n - 1) i) (sub lo hi (n - 1) j) in E.
  destruct (Nat.lt_trichotomy i j) as [L | [L | L]]; auto; exfalso; pose proof (sub_lt lo hi (n - 1) _ _ ltac:(lia) H L); lra.
Qed.
Lemma test_points_internal : forall (g : geom R) vtk xl yl, g_method g = "internal"%string -> g_limits g = Some (xl, yl) ->
  (0 <= g_ntx g)%Z -> (0 <= g_nty g)%Z ->
  let nx := Z.to_nat (g_ntx g) in let ny := Z.to_nat (g_nty g) in
  exists pts, get_test_points g vtk = Ok pts /\ length pts = (nx * ny)%nat /\
    forall i j, (i < nx)%nat -> (j < ny)%nat -> nth (j * nx + i) pts (0, 0) =
      (grid_coord (fst xl) (snd xl) nx i, grid_coord (fst yl) (snd yl) ny j).
Proof.
  intros g vtk xl yl Hm Hl Hx Hy nx ny. unfold get_test_points. rewrite Hm, Hl. cbn [String.eqb Ascii.eqb Bool.eqb].
  unfold np_linspace. destruct (Z.ltb_spec (g_ntx g) 0); [lia|]. destruct (Z.ltb_spec (g_nty g) 0); [lia|]. cbn [bind].
  fold nx. fold ny. set (x := linspace (fst xl) (snd xl) nx). set (y := linspace (fst yl) (snd yl) ny).
  assert (Lx : length x = nx) by apply linspace_length. assert (Ly : length y = ny) by apply linspace_length.
  unfold meshgrid_flat, stack_points.
  assert (L1 : length (concat (map (fun _ : R => x) y)) = (ny * nx)%nat).
  { rewrite (concat_blocks_length nx); [now rewrite map_length, Ly|]. intros l H'. apply in_map_iff in H'. destruct H' as (b & <- & _). auto. }
  assert (L2 : length (concat (map (fun b : R => map (fun _ : R => b) x) y)) = (ny * nx)%nat).
  { rewrite (concat_blocks_length nx); [now rewrite map_length, Ly|]. intros l H'. apply in_map_iff in H'. destruct H' as (b & <- & _). now rewrite map_length. }
  rewrite L1, L2, Nat.eqb_refl. eexists. split; [reflexivity|]. split; [rewrite combine_length, L1, L2; lia|].
  intros i j Hi Hj. rewrite combine_nth by congruence.
  rewrite (concat_map_nth (fun _ : R => x) nx y j i 0 0) by (auto; lia).
  rewrite (concat_map_nth (fun b : R => map (fun _ => b) x) nx y j i 0 0) by (auto; try lia; intros; now rewrite map_length).
  rewrite (nth_map_lt _ x i 0 0) by lia. unfold x, y. rewrite !linspace_coord by auto. reflexivity.
Qed.
Lemma test_points_distinct : forall (g : geom R) vtk xl yl pts, g_method g = "internal"%string -> g_limits g = Some (xl, yl) ->
  (0 <= g_ntx g)%Z -> (0 <= g_nty g)%Z -> fst xl < snd xl -> fst yl < snd yl -> get_test_points g vtk = Ok pts ->
  NoDup pts /\ forall p, In p pts -> fst xl <= fst p <= snd xl /\ fst yl <= snd p <= snd yl.
Proof.
  intros g vtk xl yl pts Hm Hl Hx Hy Lx Ly E. destruct (test_points_internal g vtk xl yl Hm Hl Hx Hy) as (pts' & E' & L & P).
  rewrite E in E'. injection E' as <-. set (nx := Z.to_nat (g_ntx g)) in *. set (ny := Z.to_nat (g_nty g)) in *.
  assert (Ix : forall k, (k < length pts)%nat -> exists i j, (i < nx)%nat /\ (j < ny)%nat /\ k = (j * nx + i)%nat).
  { intros k Hk. rewrite L in Hk. assert (nx <> 0)%nat by (intros E0; rewrite E0 in Hk; simpl in Hk; lia).
    exists (k mod nx)%nat, (k / nx)%nat. split; [now apply Nat.mod_upper_bound|]. split; [apply Nat.div_lt_upper_bound; lia|].
    rewrite (Nat.div_mod k nx) at 1 by auto. lia. }
  split.
  - apply (NoDup_nth pts (0, 0)). intros k k' Hk Hk' Ek. destruct (Ix k Hk) as (i & j & Hi & Hj & ->). destruct (Ix k' Hk') as (i' & j' & Hi' & Hj' & ->).
    rewrite !P in Ek by auto. injection Ek as E1 E2.
    rewrite (coord_inj _ _ _ _ _ Lx Hi Hi' E1), (coord_inj _ _ _ _ _ Ly Hj Hj' E2). reflexivity.
  - intros p Hp. apply (In_nth _ _ (0, 0)) in Hp. destruct Hp as (k & Hk & <-). destruct (Ix k Hk) as (i & j & Hi & Hj & ->).
    rewrite P by auto. cbn [fst snd]. split; apply coord_in; auto; lra.
Qed.
Lemma test_points_early : forall (g : geom R) vtk, g_method g = "internal"%string -> g_limits g = None ->
  get_test_points g vtk = Err TypeError.
Proof. intros g vtk Hm Hl. unfold get_test_points. now rewrite Hm, Hl. Qed.

Lemma tile_neighbours : forall e lhs1 x0 x1 y0 y1 nx ny num cells mo bd,
  numpy_ok e -> sampler_ok lhs1 -> (1 <= nx)%Z -> (1 <= ny)%Z -> (0 <= num)%Z ->
  generate_quad_mesh_internal e lhs1 (x0, x1) (y0, y1) nx ny num = Ok (cells, mo, bd) -> x0 < x1 -> y0 < y1 ->
  let n := Z.to_nat nx in let m := Z.to_nat ny in let c i j := nth (i * m + j) cells unit_square in
  (forall i j, (i + 1 < n)%nat -> (j < m)%nat -> v1 (c i j) = v0 (c (i + 1)%nat j) /\ v2 (c i j) = v3 (c (i + 1)%nat j)) /\
  (forall i j, (i < n)%nat -> (j + 1 < m)%nat -> v3 (c i j) = v0 (c i (j + 1)%nat) /\ v2 (c i j) = v1 (c i (j + 1)%nat)).
Proof.
  intros e lhs1 x0 x1 y0 y1 nx ny num cells mo bd He Hs Hnx Hny Hnum Hr Hx Hy n m c.
  pose proof (tile_cell e lhs1 x0 x1 y0 y1 nx ny num cells mo bd He Hs Hnx Hny Hnum Hr Hx Hy) as T. fold n m in T.
  split; intros i j Hi Hj; unfold c; rewrite !T by lia; cbn [rect v0 v1 v2 v3]; rewrite !plus_INR; simpl INR; auto.
Qed.
Lemma tile_any_order : forall e lhs1 x0 x1 y0 y1 nx ny num cells mo bd,
  numpy_ok e -> sampler_ok lhs1 -> (1 <= nx)%Z -> (1 <= ny)%Z -> (0 <= num)%Z ->
  generate_quad_mesh_internal e lhs1 (x0, x1) (y0, y1) nx ny num = Ok (cells, mo, bd) -> x0 <> x1 -> y0 <> y1 ->
  length cells = (Z.to_nat nx * Z.to_nat ny)%nat /\ forall c, In c cells -> exists a b p q, a < b /\ p < q /\ c = rect a b p q.
Proof.
  intros e lhs1 x0 x1 y0 y1 nx ny num cells mo bd He Hs Hnx Hny Hnum Hr Hx Hy.
  rewrite internal_ok in Hr by auto. cbv zeta in Hr. injection Hr as <- _ _. split; [apply all_cells_length|].
  intros c Hc. apply all_cells_In in Hc. destruct Hc as (i & j & Hi & Hj & ->). unfold cell_of.
  assert (Hn : (1 <= Z.to_nat nx)%nat) by lia. assert (Hm : (1 <= Z.to_nat ny)%nat) by lia.
  pose proof (sub_neq x0 x1 (Z.to_nat nx) i Hn Hx). pose proof (sub_neq y0 y1 (Z.to_nat ny) j Hm Hy).
  do 4 eexists. refine (conj _ (conj _ eq_refl)).
  - unfold Rmin, Rmax. destruct (Rle_dec _ _); lra.
  - unfold Rmin, Rmax. destruct (Rle_dec _ _); lra.
Qed.
Lemma boundary_sides : forall lhs1 x0 x1 y0 y1 num, sampler_ok lhs1 -> (0 <= num)%Z ->
  let k := Z.to_nat (num / 4) in
  exists b r t l, internal_boundary lhs1 (x0, x1) (y0, y1) num = Ok [(1000, b); (1001, r); (1002, t); (1003, l)]%Z /\
    length b = k /\ length r = k /\ length t = k /\ length l = k /\
    (x0 <= x1 -> forall p, In p b \/ In p t -> x0 <= fst p <= x1) /\ (y0 <= y1 -> forall p, In p r \/ In p l -> y0 <= snd p <= y1) /\
    (forall p, In p b -> snd p = y0) /\ (forall p, In p r -> fst p = x1) /\ (forall p, In p t -> snd p = y1) /\ (forall p, In p l -> fst p = x0).
Proof.
  intros lhs1 x0 x1 y0 y1 num Hs Hnum k. do 4 eexists. split; [apply internal_boundary_eq; auto|]. cbn [fst snd].
  assert (L1 : forall i a b y, length (side_x lhs1 num i a b y) = k) by (intros; unfold side_x; rewrite map_length; apply Hs).
  assert (L2 : forall i a b y, length (side_y lhs1 num i a b y) = k) by (intros; unfold side_y; rewrite map_length; apply Hs).
  assert (P1 : forall i a b y p, In p (side_x lhs1 num i a b y) -> snd p = y /\ (a <= b -> a <= fst p <= b)).
  { intros i a b y p Hp. unfold side_x in Hp. apply in_map_iff in Hp. destruct Hp as (t & <- & Ht). cbn [fst snd]. split; auto.
    intros Hab. eapply along_in; eauto. }
  assert (P2 : forall i a b y p, In p (side_y lhs1 num i a b y) -> fst p = y /\ (a <= b -> a <= snd p <= b)).
  { intros i a b y p Hp. unfold side_y in Hp. apply in_map_iff in Hp. destruct Hp as (t & <- & Ht). cbn [fst snd]. split; auto.
    intros Hab. eapply along_in; eauto. }
  do 4 (split; [auto|]). split; [intros H p [Hp | Hp]; eapply P1; eauto|]. split; [intros H p [Hp | Hp]; eapply P2; eauto|].
  repeat split; intros p Hp; first [eapply P1; eassumption | eapply P2; eassumption].
Qed.
Lemma boundary_latin : forall lhs1 x0 x1 y0 y1 num, sampler_ok lhs1 -> (0 <= num)%Z -> (forall i n, latin n (lhs1 i n)) -> x0 < x1 -> y0 < y1 ->
  let k := Z.to_nat (num / 4) in
  exists b r t l, internal_boundary lhs1 (x0, x1) (y0, y1) num = Ok [(1000, b); (1001, r); (1002, t); (1003, l)]%Z /\
    (forall s j, In s [b; t] -> (j < k)%nat ->
       exists! q, (q < k)%nat /\ x0 + INR j / INR k * (x1 - x0) <= fst (nth q s (0, 0)) < x0 + (INR j + 1) / INR k * (x1 - x0)) /\
    (forall s j, In s [r; l] -> (j < k)%nat ->
       exists! q, (q < k)%nat /\ y0 + INR j / INR k * (y1 - y0) <= snd (nth q s (0, 0)) < y0 + (INR j + 1) / INR k * (y1 - y0)).
Proof.
  intros lhs1 x0 x1 y0 y1 num Hs Hnum Hl Hx Hy k. do 4 eexists. split; [apply internal_boundary_eq; auto|]. cbn [fst snd].
  assert (G1 : forall i a b y q, (q < k)%nat -> fst (nth q (side_x lhs1 num i a b y) (0, 0)) = nth q (map (along a b) (lhs1 i k)) 0).
  { intros i a b y q Hq. unfold side_x. fold k. rewrite (nth_map_lt _ _ q _ 0), (nth_map_lt _ _ q _ 0) by (rewrite (proj1 (Hs i k)); auto). reflexivity. }
  assert (G2 : forall i a b y q, (q < k)%nat -> snd (nth q (side_y lhs1 num i a b y) (0, 0)) = nth q (map (along a b) (lhs1 i k)) 0).
  { intros i a b y q Hq. unfold side_y. fold k. rewrite (nth_map_lt _ _ q _ 0), (nth_map_lt _ _ q _ 0) by (rewrite (proj1 (Hs i k)); auto). reflexivity. }
  split; intros s j Hin Hj.
  - assert (E : exists i y, s = side_x lhs1 num i x0 x1 y) by (destruct Hin as [<- | [<- | []]]; eauto). destruct E as (i & y & ->).
    destruct (along_latin lhs1 num i x0 x1 Hx (Hl i _) j Hj) as (q & (Hq & B) & U). fold k in Hq, B, U. exists q. split.
    + split; auto. now rewrite G1.
    + intros q' (Hq' & B'). apply U. split; auto. now rewrite G1 in B'.
  - assert (E : exists i y, s = side_y lhs1 num i y0 y1 y) by (destruct Hin as [<- | [<- | []]]; eauto). destruct E as (i & y & ->).
    destruct (along_latin lhs1 num i y0 y1 Hy (Hl i _) j Hj) as (q & (Hq & B) & U). fold k in Hq, B, U. exists q. split.
    + split; auto. now rewrite G2.
    + intros q' (Hq' & B'). apply U. split; auto. now rewrite G2 in B'.
Qed.
Lemma boundary_returned : forall e lhs1 x0 x1 y0 y1 nx ny num cells mo bd,
  generate_quad_mesh_internal e lhs1 (x0, x1) (y0, y1) nx ny num = Ok (cells, mo, bd) ->
  @internal_boundary R _ lhs1 (x0, x1) (y0, y1) num = Ok bd.
Proof.
  intros e lhs1 x0 x1 y0 y1 nx ny num cells mo bd Hrun. unfold generate_quad_mesh_internal in Hrun.
  do 2 (match goal with _ : context [np_linspace ?a ?b ?c] |- _ => destruct (np_linspace a b c); [|discriminate] end; cbn [bind] in Hrun).
  match goal with _ : context [mapM ?a ?b] |- _ => destruct (mapM a b); [|discriminate] end. cbn [bind] in Hrun.
  destruct (internal_boundary lhs1 (x0, x1) (y0, y1) num); [|discriminate]. cbn [bind] in Hrun. injection Hrun as _ _ <-. reflexivity.
Qed.
Lemma boundary_too_few : forall lhs1 x0 x1 y0 y1 num bd, sampler_ok lhs1 -> (0 <= num < 4)%Z ->
  internal_boundary lhs1 (x0, x1) (y0, y1) num = Ok bd -> forall t pts, In (t, pts) bd -> pts = [].
Proof.
  intros lhs1 x0 x1 y0 y1 num bd Hs Hn E t pts Hin.
  destruct (boundary_sides lhs1 x0 x1 y0 y1 num Hs ltac:(lia)) as (b & r & t' & l & E' & L1 & L2 & L3 & L4 & _).
  rewrite E in E'. injection E' as ->. rewrite (Z.div_small num 4) in * by lia. simpl in L1, L2, L3, L4.
  apply length_zero_iff_nil. destruct Hin as [H | [H | [H | [H | []]]]]; injection H as _ <-; auto.
Qed.
Lemma connectivity_wrong : forall e lhs1 x0 x1 y0 y1 nx ny num cells mo bd,
  generate_quad_mesh_internal e lhs1 (x0, x1) (y0, y1) nx ny num = Ok (cells, mo, bd) -> cells <> [] ->
  ~ exists idx : list (list nat), mo_quads mo = map (map INR) idx /\
      map (map (fun k => nth k (mo_points mo) (0, 0))) idx = map vertices cells.
Proof.
  intros e lhs1 x0 x1 y0 y1 nx ny num cells mo bd Hr Hne (idx & E1 & E2).
  pose proof (mesh_connectivity_rows e lhs1 x0 x1 y0 y1 nx ny num cells mo bd Hr) as L. rewrite E1, map_length in L.
  apply (f_equal (@length _)) in E2. rewrite !map_length in E2. destruct cells; [congruence | simpl in *; lia].
Qed.
(* examples *)
Definition mid_sampler (i n : nat) : list R := map (fun k => (INR k + 1 / 2) / INR n) (seq 0 n).
Lemma mid_sampler_latin : forall i n, latin n (mid_sampler i n).
Proof.
  intros i n. split; [unfold mid_sampler; now rewrite map_length, seq_length|]. intros k Hk.
  assert (Hn : 0 < INR n) by (apply lt_0_INR; lia).
  assert (V : forall q, (q < n)%nat -> nth q (mid_sampler i n) 0 = (INR q + 1 / 2) / INR n).
  { intros q Hq. unfold mid_sampler. now rewrite nth_seq_map by auto. }
  exists k. split.
  - split; auto. rewrite V by auto. split; [apply Rmult_le_compat_r | apply Rmult_lt_compat_r]; try lra; try (left; now apply Rinv_0_lt_compat); now apply Rinv_0_lt_compat.
  - intros q (Hq & B). rewrite V in B by auto. destruct B as [B1 B2]. unfold Rdiv in B1, B2.
    apply Rmult_le_reg_r in B1; [|now apply Rinv_0_lt_compat]. apply Rmult_lt_reg_r in B2; [|now apply Rinv_0_lt_compat].
    destruct (Nat.lt_trichotomy k q) as [H | [H | H]]; auto; exfalso.
    + apply (le_INR (S k) q) in H. rewrite S_INR in H. lra.
    + apply (le_INR (S q) k) in H. rewrite S_INR in H. lra.
Qed.
Lemma mid_sampler_ok : sampler_ok mid_sampler.
Proof.
  intros i n. split; [unfold mid_sampler; now rewrite map_length, seq_length|]. intros t Ht. unfold mid_sampler in Ht.
  apply in_map_iff in Ht. destruct Ht as (k & <- & Hk). apply in_seq in Hk. assert (Hn : 0 < INR n) by (apply lt_0_INR; lia).
  pose proof (pos_INR k). assert (INR (S k) <= INR n) by (apply le_INR; lia). rewrite S_INR in H0. split.
  - apply Rmult_le_pos; [lra | left; now apply Rinv_0_lt_compat].
  - apply (Rmult_le_reg_r (INR n)); auto. replace ((INR k + 1 / 2) / INR n * INR n) with (INR k + 1 / 2) by (field; lra). lra.
Qed.
