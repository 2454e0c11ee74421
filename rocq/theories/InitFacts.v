(* Initial networks; values between the test points. *)
From Coq Require Import String ZArith List Arith Lia Bool Reals Lra.
From Coquelicot Require Import Coquelicot.
From Verif Require Import Num Py PyFacts Jacobi Quadrature Basis Transform Cell Space Tensor Data Physics Train Geometry Nets Metrics Tuner Optim Problems Driver Loop Init
  ListFacts PolyFacts Spec SpecGeom SpecTrain SpecMesh SpecOptim SpecDriver SpecLoop SpecInit TensorFacts NetFacts ErrorFacts MeshFacts MetricFacts ProblemFacts JetFacts OptimFacts AdamFacts DriverFacts LoopFacts.
From Verif Require TrainFacts TunerFacts SpecStudy StudyFacts.
Import ListNotations.
Local Open Scope R_scope.

(* ---------- the initial network ---------- *)
Section Initial.
Variables (act : R -> R) (rnd : nat -> nat -> nat -> R) (dims : list Z) (outs : Z).
Hypothesis Hd : layer_sizes dims outs.
Let m := length dims.
Let dim i := Z.to_nat (nth i dims 0%Z).
Lemma init_seq : forall k i, init_layers rnd i (dim i) (map (fun i => (dim (i + 1), (i <? m - 2)%nat)) (seq i k)) =
  map (fun i => ((i <? m - 2)%nat, (glorot_uniform (rnd i) (dim i) (dim (i + 1)), repeat 0 (dim (i + 1))))) (seq i k).
Proof. induction k as [|k IH]; intros i; [reflexivity|]. cbn [seq map init_layers]. f_equal. rewrite Nat.add_1_r. apply IH. Qed.
Definition built (att : bool) : net := {| n_act := act; n_attention := att;
  n_layers := map (fun i => ((i <? m - 2)%nat, (glorot_uniform (rnd i) (dim i) (dim (i + 1)), repeat 0 (dim (i + 1))))) (seq 0 (m - 1)) |}.
Lemma initial_eq : forall att, initial act att rnd dims = Ok (built att).
Proof.
  intros att. destruct Hd as (H1 & _ & _ & H4). unfold initial. rewrite (plan_eq dims H1 H4), (width_ok dims H1 H4). cbn [bind]. fold m. unfold built. repeat f_equal. exact (init_seq (m - 1) 0).
Qed.
Lemma built_layer : forall att i d, (i < m - 1)%nat -> nth i (n_layers (built att)) d = ((i <? m - 2)%nat, (glorot_uniform (rnd i) (dim i) (dim (i + 1)), repeat 0 (dim (i + 1)))).
Proof. intros att i d Hi. unfold built. cbn [n_layers]. now rewrite nth_seq_map by exact Hi. Qed.
Lemma glorot_shape : forall r n u, has_shape (glorot_uniform r n u) n u.
Proof.
  intros r n u. split; [unfold glorot_uniform; now rewrite map_length, seq_length|]. intros row H. apply in_map_iff in H. destruct H as (i & <- & _). now rewrite map_length, seq_length.
Qed.
Lemma built_widths : forall att, widths dims (built att).
Proof.
  intros att. split; [cbn [n_layers built]; now rewrite map_length, seq_length|]. fold m. intros i d Hi. rewrite built_layer by exact Hi.
  refine (conj eq_refl (conj (glorot_shape _ _ _) (repeat_length _ _))).
Qed.
Lemma built_starts : starts dims outs (built false).
Proof. destruct Hd as (H1 & H2 & H3 & _). constructor; auto. apply built_widths. Qed.
End Initial.
Lemma glorot_entry : forall r n u i j, (i < n)%nat -> (j < u)%nat -> entry (glorot_uniform r n u) i j = - glorot_limit n u + 2 * glorot_limit n u * r i j.
Proof. intros r n u i j Hi Hj. unfold entry, glorot_uniform. rewrite nth_seq_map by exact Hi. rewrite nth_seq_map by exact Hj. reflexivity. Qed.
Lemma initial_network : forall act att rnd dims outs, layer_sizes dims outs -> (forall l i j, 0 <= rnd l i j <= 1) ->
  exists nt, initial act att rnd dims = Ok nt /\ n_act nt = act /\ n_attention nt = att /\ (att = false -> starts dims outs nt) /\ widths dims nt /\
    forall l d, (l < length dims - 1)%nat -> let n := Z.to_nat (nth l dims 0%Z) in let u := Z.to_nat (nth (l + 1) dims 0%Z) in
      snd (snd (nth l (n_layers nt) d)) = repeat 0 u /\
      forall i j, (i < n)%nat -> (j < u)%nat -> Rabs (entry (fst (snd (nth l (n_layers nt) d))) i j) <= sqrt (6 / (INR n + INR u)).
Proof.
  intros act att rnd dims outs Hd Hr. exists (built act rnd dims att). split; [exact (initial_eq act rnd dims outs Hd att)|]. do 2 (split; [reflexivity|]).
  split; [intros ->; now apply built_starts|]. split; [apply built_widths|]. intros l d Hl n u. rewrite built_layer by exact Hl. cbn [fst snd]. split; [reflexivity|]. intros i j Hi Hj.
  rewrite glorot_entry by assumption. fold n u. unfold glorot_limit. pose proof (sqrt_pos (6 / (INR n + INR u))). specialize (Hr l i j). apply Rabs_le. nra.
Qed.

(* ---------- odd networks ---------- *)
Lemma dense_odd : forall f kernel u x, odd f -> dense_row f kernel (repeat 0 u) (map Ropp x) = map Ropp (dense_row f kernel (repeat 0 u) x).
Proof.
  intros f kernel u x Hf. unfold dense_row. rewrite map_map. apply map_ext. intros j. rewrite <- Hf. f_equal.
  assert (Z : nth j (repeat 0 u) 0 = 0) by apply nth_repeat0. rewrite Z.
  assert (S : vsum (map2 nmul (map Ropp x) (map (fun row => nth j row 0) kernel)) = - vsum (map2 nmul x (map (fun row => nth j row 0) kernel))).
  { generalize (map (fun row : list R => nth j row 0) kernel). clear. induction x as [|a x IH]; intros [|b l]; cbn [map map2]; rewrite ?vsum_nil; try ring. rewrite !vsum_cons, IH. cbn. ring. }
  rewrite S. ring.
Qed.
Lemma net_odd : forall f ls x, (forall b, odd (f b)) -> (forall l, In l ls -> exists u, snd (snd l) = repeat 0 u) -> net_row f ls (map Ropp x) = map Ropp (net_row f ls x).
Proof.
  intros f. induction ls as [|[a [k b]] r IH]; intros x Hf Hb; [reflexivity|]. cbn [net_row]. destruct (Hb (a, (k, b)) (or_introl eq_refl)) as [u Eu]. cbn in Eu. subst b.
  rewrite dense_odd by apply Hf. apply IH; auto. intros l Hl. apply Hb. now right.
Qed.
Lemma initial_odd : forall act rnd dims outs nt, layer_sizes dims outs -> odd act -> initial act false rnd dims = Ok nt -> forall p y,
  nn_out (network_of nt) [p] = Ok [y] -> nn_out (network_of nt) [(- fst p, - snd p)] = Ok [map Ropp y].
Proof.
  intros act rnd dims outs nt Hd Ho E p y Hy. rewrite (initial_eq act rnd dims outs Hd) in E. injection E as <-.
  pose proof (starts_chain _ _ _ (built_starts act rnd dims outs Hd)) as C. destruct (plain_rows (built act rnd dims false) _ eq_refl C) as [Er _]. cbn [nn_out network_of] in *. rewrite Er in *. cbn [map] in *.
  injection Hy as <-. cbn [fst snd]. do 2 f_equal. change [- fst p; - snd p] with (map Ropp [fst p; snd p]). apply net_odd.
  - intros [|] x; cbn; auto.
  - intros l Hl. cbn [built n_layers] in Hl. apply in_map_iff in Hl. destruct Hl as (i & <- & _). cbn. eauto.
Qed.
Lemma tanh_odd : odd tanh.
Proof.
  intros x. unfold tanh, sinh, cosh. rewrite Ropp_involutive. pose proof (exp_pos x). pose proof (exp_pos (- x)). field. lra.
Qed.
Lemma map_opp_self : forall y : list R, y = map Ropp y -> forall j, nth j y 0 = 0.
Proof.
  induction y as [|a y IH]; intros E j; [now destruct j|]. cbn in E. injection E as E1 E2. destruct j as [|j]; cbn; [lra | now apply IH].
Qed.
Lemma initial_origin : forall act rnd dims outs nt, layer_sizes dims outs -> odd act -> initial act false rnd dims = Ok nt -> exists y,
  nn_out (network_of nt) [(0, 0)] = Ok [y] /\ length y = Z.to_nat outs /\ forall j, nth j y 0 = 0.
Proof.
  intros act rnd dims outs nt Hd Ho E. pose proof E as E0. rewrite (initial_eq act rnd dims outs Hd) in E0. injection E0 as E0. subst nt.
  pose proof (starts_chain _ _ _ (built_starts act rnd dims outs Hd)) as C. destruct (plain_rows (built act rnd dims false) _ eq_refl C) as [Er L]. specialize (L (0, 0)). eexists. split; [cbn [nn_out network_of]; rewrite Er; reflexivity|]. split; [exact L|].
  apply map_opp_self. pose proof (initial_odd act rnd dims outs _ Hd Ho E (0, 0) _ ltac:(cbn [nn_out network_of]; rewrite Er; reflexivity)) as K. cbn [fst snd] in K.
  replace (- 0) with 0 in K by ring. cbn [nn_out network_of] in K. rewrite Er in K. cbn [map] in K. now injection K.
Qed.
Lemma initial_field : forall rnd dims nt, layer_sizes dims 2 -> initial tanh false rnd dims = Ok nt ->
  exists U E, (forall p, nn_out (network_of nt) [p] = Ok [[U p; E p]]) /\ forall p, E (- fst p, - snd p) = - E p.
Proof.
  intros rnd dims nt Hd E. pose proof E as E0. rewrite (initial_eq tanh rnd dims 2 Hd) in E0. injection E0 as E0. subst nt.
  pose proof (starts_chain _ _ _ (built_starts tanh rnd dims 2 Hd)) as C. destruct (plain_pointwise2 (built tanh rnd dims false) eq_refl C) as (U & F & S & _).
  exists U, F. split; [exact S|]. intros p. pose proof (initial_odd tanh rnd dims 2 _ Hd tanh_odd E p _ (S p)) as K. rewrite S in K. cbn [map] in K. now injection K.
Qed.

(* ---------- steepness ---------- *)
Lemma tanh_sq : forall x, 0 <= tanh x ^ 2 <= 1.
Proof.
  intros x. split; [apply pow2_ge_0|]. unfold tanh, sinh, cosh. pose proof (exp_pos x) as A. pose proof (exp_pos (- x)) as B.
  replace (((exp x - exp (- x)) / 2 / ((exp x + exp (- x)) / 2)) ^ 2) with (1 - 4 * exp x * exp (- x) / (exp x + exp (- x)) ^ 2) by (field; lra).
  assert (0 <= 4 * exp x * exp (- x) / (exp x + exp (- x)) ^ 2); [|lra]. apply Rmult_le_pos; [nra|]. left. apply Rinv_0_lt_compat. nra.
Qed.
Lemma tanh_nonexpansive : nonexpansive tanh.
Proof.
  intros x y. destruct (MVT_gen tanh y x (fun z => 1 - tanh z ^ 2)) as (c & _ & E).
  - intros z _. apply is_derive_tanh.
  - intros z _. apply derivable_continuous_pt. exists (1 - tanh z ^ 2). apply is_derive_Reals, is_derive_tanh.
  - rewrite E, Rabs_mult. pose proof (tanh_sq c). rewrite (Rabs_pos_eq (1 - tanh c ^ 2)) by lra. pose proof (Rabs_pos (x - y)). nra.
Qed.
Lemma rsum_abs : forall f n, Rabs (rsum f n) <= rsum (fun k => Rabs (f k)) n.
Proof.
  intros f n. induction n as [|n IH]; [cbn; rewrite Rabs_R0; lra|]. rewrite !rsum_S. eapply Rle_trans; [apply Rabs_triang | apply Rplus_le_compat_r, IH].
Qed.
Lemma rsum_minus : forall f g n, rsum f n - rsum g n = rsum (fun k => f k - g k) n.
Proof. intros f g n. induction n as [|n IH]; [cbn; ring|]. rewrite !rsum_S, <- IH. ring. Qed.
Lemma rsum_mult_r : forall f c n, rsum f n * c = rsum (fun k => f k * c) n.
Proof. intros f c n. induction n as [|n IH]; [cbn; ring|]. rewrite !rsum_S, <- IH. ring. Qed.
Lemma product_nonneg : forall g n, (forall i, (i < n)%nat -> 0 <= g i) -> 0 <= product g n.
Proof. intros g n H. induction n as [|n IH]; cbn; [lra|]. apply Rmult_le_pos; auto. Qed.
Lemma far_pos : forall p q, 0 <= far p q.
Proof. intros p q. eapply Rle_trans; [apply Rabs_pos | apply Rmax_l]. Qed.
Lemma steep : forall dims outs nt g, starts dims outs nt -> nonexpansive (n_act nt) -> gains dims nt g -> forall p q yp yq,
  nn_out (network_of nt) [p] = Ok [yp] -> nn_out (network_of nt) [q] = Ok [yq] -> forall j, (j < Z.to_nat outs)%nat ->
  Rabs (nth j yp 0 - nth j yq 0) <= product g (length dims - 1) * far p q.
Proof.
  intros dims outs nt g [H1 H2 H3 H4 H5] Ha Hg p q yp yq Ep Eq j Hj.
  destruct (forward dims nt H1 H2 H4 H5 p) as (P & P0 & PL & PS & PE). destruct (forward dims nt H1 H2 H4 H5 q) as (Q & Q0 & QL & QS & QE).
  rewrite Ep in PE. injection PE as ->. rewrite Eq in QE. injection QE as ->.
  assert (I : forall i, (i < length dims)%nat -> forall k, (k < Z.to_nat (nth i dims 0%Z))%nat -> Rabs (nth k (P i) 0 - nth k (Q i) 0) <= product g i * far p q).
  { induction i as [|i IH]; intros Hi k Hk.
    - rewrite H2 in Hk. change (Z.to_nat 2) with 2%nat in Hk. rewrite P0, Q0. cbn [product]. rewrite Rmult_1_l. unfold far. destruct k as [|[|k]]; [apply Rmax_l | apply Rmax_r | lia].
    - set (d := (true, ([], [])) : bool * (mat R * list R)). assert (Hi' : (i < length dims - 1)%nat) by lia. rewrite <- Nat.add_1_r in Hk.
      specialize (PS i k d Hi' Hk). specialize (QS i k d Hi' Hk). destruct (Hg i d Hi') as [G0 G]. specialize (G k Hk). specialize (IH ltac:(lia)).
      destruct (nth i (n_layers nt) d) as [fl [kernel bias]]. cbn [fst snd] in G. cbv zeta in PS, QS. rewrite PS, QS. clear PS QS.
      set (zp := Sum (fun k0 => nth k0 (P i) 0 * entry kernel k0 k) _ + _). set (zq := Sum (fun k0 => nth k0 (Q i) 0 * entry kernel k0 k) _ + _).
      assert (Z : Rabs (zp - zq) <= product g i * g i * far p q).
      { unfold zp, zq. match goal with |- Rabs (?a + ?b - (?c + ?b)) <= _ => replace (a + b - (c + b)) with (a - c) by ring end.
        change Sum with rsum in *. rewrite rsum_minus. eapply Rle_trans; [apply rsum_abs|].
        apply Rle_trans with (rsum (fun k0 => Rabs (entry kernel k0 k) * (product g i * far p q)) (Z.to_nat (nth i dims 0%Z))).
        - apply rsum_le. intros r Hr. rewrite <- Rmult_minus_distr_r, Rabs_mult, Rmult_comm. apply Rmult_le_compat_l; [apply Rabs_pos | now apply IH].
        - rewrite <- rsum_mult_r. assert (0 <= product g i * far p q).
          { apply Rmult_le_pos; [|apply far_pos]. apply product_nonneg. intros i' Hi''. apply (Hg i' d). lia. }
          replace (product g i * g i * far p q) with (g i * (product g i * far p q)) by ring. now apply Rmult_le_compat_r. }
      cbn [product]. destruct (i <? length dims - 2)%nat; [eapply Rle_trans; [apply Ha | exact Z] | exact Z]. }
  apply I; [lia|]. rewrite H3. exact Hj.
Qed.

(* ---------- weights near the initial ones ---------- *)
Definition close (b x y : R) : Prop := Rabs (x - y) <= b.
Lemma forall2_firstn : forall {A B} (P : A -> B -> Prop) n l l', List.Forall2 P l l' -> List.Forall2 P (firstn n l) (firstn n l').
Proof. intros A B P n l l' H. revert n. induction H; intros [|n]; cbn; constructor; auto. Qed.
Lemma forall2_skipn : forall {A B} (P : A -> B -> Prop) n l l', List.Forall2 P l l' -> List.Forall2 P (skipn n l) (skipn n l').
Proof. intros A B P n l l' H. revert n. induction H; intros [|n]; cbn; auto. Qed.
Lemma fill_rows_rel : forall P (k : mat R) (w w' : list R), List.Forall2 P w w' -> List.Forall2 (List.Forall2 P) (fill_rows k w) (fill_rows k w').
Proof. induction k as [|row r IH]; intros w w' H; cbn; constructor; [now apply forall2_firstn | apply IH; now apply forall2_skipn]. Qed.
Lemma fill_rel : forall P ls (w w' : list R), List.Forall2 P w w' -> forall i d, (i < length ls)%nat ->
  List.Forall2 (List.Forall2 P) (fst (snd (nth i (fill_layers ls w) d))) (fst (snd (nth i (fill_layers ls w') d))).
Proof.
  induction ls as [|[a [k b]] r IH]; intros w w' H i d Hi; [cbn in Hi; lia|]. cbn [fill_layers]. destruct i as [|i]; cbn [nth].
  - cbn. now apply fill_rows_rel.
  - apply IH; [|cbn in Hi; lia]. now repeat apply forall2_skipn.
Qed.
Lemma forall2_of_nth : forall b (l l' : list R), length l = length l' -> (forall i, (i < length l')%nat -> Rabs (nth i l 0 - nth i l' 0) <= b) -> List.Forall2 (close b) l l'.
Proof.
  intros b l l' L H. revert l' L H. induction l as [|x l IH]; intros [|y l'] L H; try discriminate; constructor.
  - exact (H 0%nat ltac:(cbn; lia)).
  - apply IH; [now injection L|]. intros i Hi. apply (H (S i)). cbn. lia.
Qed.
Lemma close_entry : forall b (k k' : mat R) n u i j, List.Forall2 (List.Forall2 (close b)) k k' -> has_shape k' n u -> (i < n)%nat -> (j < u)%nat -> Rabs (entry k i j - entry k' i j) <= b.
Proof.
  intros b k k' n u i j H [Hn Hu] Hi Hj. subst n. unfold entry. revert i Hi. induction H as [|r r' k k' Hr H IH]; intros i Hi; [cbn in Hi; lia|].
  destruct i as [|i]; cbn [nth].
  - specialize (Hu r' (or_introl eq_refl)). subst u. clear - Hr Hj. revert j Hj. induction Hr as [|x y r r' Hc Hr IH]; intros j Hj; [cbn in Hj; lia|]. destruct j; cbn; [exact Hc | apply IH; cbn in Hj; lia].
  - apply IH; [|cbn in Hi; lia]. intros row Hrow. apply Hu. now right.
Qed.
Lemma near_gains : forall rnd act dims outs nt b w, layer_sizes dims outs -> (forall l i j, 0 <= rnd l i j <= 1) -> 0 <= b -> initial act false rnd dims = Ok nt ->
  (length (weights_of nt) <= length w)%nat -> (forall i, (i < length (weights_of nt))%nat -> Rabs (nth i w 0 - nth i (weights_of nt) 0) <= b) ->
  gains dims (with_weights nt w) (fun l => INR (Z.to_nat (nth l dims 0%Z)) * (sqrt (6 / (INR (Z.to_nat (nth l dims 0%Z)) + INR (Z.to_nat (nth (l + 1) dims 0%Z)))) + b)).
Proof.
  intros rnd act dims outs nt b w Hd Hr Hb E Hw Hc. destruct (initial_network act false rnd dims outs Hd Hr) as (nt' & E' & _ & _ & _ & W & B). rewrite E in E'. injection E' as <-.
  intros l d Hl. split.
  { apply Rmult_le_pos; [apply pos_INR|]. pose proof (sqrt_pos (6 / (INR (Z.to_nat (nth l dims 0%Z)) + INR (Z.to_nat (nth (l + 1) dims 0%Z))))). lra. }
  intros j Hj. change Sum with rsum. rewrite <- rsum_const. apply rsum_le. intros k Hk. destruct (B l d Hl) as [_ Be]. specialize (Be k j Hk Hj).
  set (n := length (weights_of nt)) in *. set (w' := (weights_of nt ++ skipn n w)%list).
  assert (F : List.Forall2 (close b) w w').
  { rewrite <- (firstn_skipn n w) at 1. unfold w'. apply Forall2_app.
    - apply forall2_of_nth; [now apply firstn_length_le|]. intros i Hi. rewrite DriverFacts.nth_firstn_lt by exact Hi. now apply Hc.
    - clear - Hb. induction (skipn n w) as [|x l IH]; constructor; auto. unfold close. rewrite Rminus_eq_0, Rabs_R0. exact Hb. }
  assert (E1 : fill_layers (n_layers nt) w' = n_layers nt) by apply fill_own.
  pose proof (fill_rel (close b) (n_layers nt) w w' F l d ltac:(rewrite (proj1 W); exact Hl)) as K. rewrite E1 in K. change (list (list R)) with (mat R) in K.
  destruct W as [_ W]. specialize (W l d Hl). cbn [with_weights n_layers]. change (list (list R)) with (mat R). revert K Be W. destruct (nth l (n_layers nt) d) as [fl [kernel bias]].
  intros K Be (_ & Sh & _). cbn [fst snd] in Be, Sh, K. match goal with |- Rabs (entry ?m _ _) <= _ => pose proof (close_entry b m kernel _ _ k j K Sh Hk Hj) as C; revert C; generalize (entry m k j) end.
  intros e C. pose proof (Rabs_triang (e - entry kernel k j) (entry kernel k j)) as T. replace (e - entry kernel k j + entry kernel k j) with e in T by ring. lra.
Qed.

(* ---------- during training ---------- *)
Lemma near_steep : forall rnd act dims outs nt b w, layer_sizes dims outs -> (forall l i j, 0 <= rnd l i j <= 1) -> nonexpansive act -> 0 <= b -> initial act false rnd dims = Ok nt ->
  (length (weights_of nt) <= length w)%nat -> (forall i, (i < length (weights_of nt))%nat -> Rabs (nth i w 0 - nth i (weights_of nt) 0) <= b) -> starts dims outs (with_weights nt w) /\ forall p q yp yq,
  nn_out (network_of (with_weights nt w)) [p] = Ok [yp] -> nn_out (network_of (with_weights nt w)) [q] = Ok [yq] -> forall j, (j < Z.to_nat outs)%nat ->
  Rabs (nth j yp 0 - nth j yq 0) <= drift_steepness dims b * far p q.
Proof.
  intros rnd act dims outs nt b w Hd Hr Ha Hb E Lw Hw.
  assert (Hs : starts dims outs (with_weights nt w) /\ n_act nt = act).
  { destruct (initial_network act false rnd dims outs Hd Hr) as (nt' & E' & A & At & S & _). rewrite E in E'. injection E' as <-. split; [|exact A]. destruct (S eq_refl) as [S1 S2 S3 S4 S5].
    constructor; auto. apply StudyFacts.widths_filled; [exact S4 | lia]. }
  destruct Hs as [Hs Ea]. split; [exact Hs|]. apply (steep dims outs (with_weights nt w)); [exact Hs | cbn; now rewrite Ea|]. exact (near_gains rnd act dims outs nt b w Hd Hr Hb E Lw Hw).
Qed.
Lemma sum_abs_nonneg : forall f t, 0 <= Sum (fun k => Rabs (f k)) t.
Proof. intros f. change Sum with rsum. induction t as [|t IH]; [cbn; lra|]. rewrite rsum_S. pose proof (Rabs_pos (f t)). lra. Qed.
Lemma trained_steep : forall rnd act dims outs nt extra rate f t st x, layer_sizes dims outs -> (forall l i j, 0 <= rnd l i j <= 1) -> nonexpansive act -> initial act false rnd dims = Ok nt ->
  trained rate f (weights_of nt ++ extra) t = Ok (st, x) -> forall p q yp yq,
  nn_out (network_of (with_weights nt x)) [p] = Ok [yp] -> nn_out (network_of (with_weights nt x)) [q] = Ok [yq] -> forall j, (j < Z.to_nat outs)%nat ->
  Rabs (nth j yp 0 - nth j yq 0) <= drift_steepness dims (73 / 10 * Sum (fun k => Rabs (rate k)) t) * far p q.
Proof.
  intros rnd act dims outs nt extra rate f t st x Hd Hr Ha E Ht. destruct (trained_lengths _ _ _ _ _ _ Ht) as (_ & _ & _ & Lx). rewrite app_length in Lx.
  apply (near_steep rnd act dims outs nt _ x Hd Hr Ha); [|exact E | lia |].
  - apply Rmult_le_pos; [lra | apply sum_abs_nonneg].
  - intros i Hi. pose proof (run_travel rate f (weights_of nt ++ extra) 0 t _ _ st x i eq_refl Ht ltac:(rewrite app_length; lia)) as T. rewrite app_nth1 in T by exact Hi. exact T.
Qed.
Lemma variables_near : forall rate f w t, length (variables_at (Ok rate) f w t) = length w /\
  forall i, (i < length w)%nat -> Rabs (nth i (variables_at (Ok rate) f w t) 0 - nth i w 0) <= 73 / 10 * Sum (fun k => Rabs (rate k)) t.
Proof.
  intros rate f w t. unfold variables_at. destruct (trained rate f w t) as [[st x]|] eqn:E; cbn [snd].
  - destruct (trained_lengths _ _ _ _ _ _ E) as (_ & _ & _ & Lx). split; [exact Lx|]. intros i Hi. exact (run_travel rate f w 0 t _ _ st x i eq_refl E Hi).
  - split; [reflexivity|]. intros i Hi. rewrite Rminus_eq_0, Rabs_R0. apply Rmult_le_pos; [lra | apply sum_abs_nonneg].
Qed.

(* ---------- between the test points ---------- *)
Lemma nearest : forall n x h, 0 <= h -> 0 <= x <= INR n * h -> exists j, (j <= n)%nat /\ Rabs (x - INR j * h) <= h / 2.
Proof.
  induction n as [|n IH]; intros x h Hh Hx.
  - exists 0%nat. split; [lia|]. cbn in *. apply Rabs_le. lra.
  - rewrite S_INR in Hx. destruct (Rle_dec x (INR n * h)) as [L|L].
    + destruct (IH x h Hh ltac:(lra)) as (j & Hj & K). exists j. split; [lia | exact K].
    + destruct (Rle_dec (x - INR n * h) (h / 2)) as [M|M]; [exists n | exists (S n)]; (split; [lia|]); try rewrite S_INR; apply Rabs_le; nra.
Qed.
Lemma nearest_coord : forall lo hi n x, (2 <= n)%nat -> lo <= x <= hi -> exists j, (j < n)%nat /\ lo <= grid_coord lo hi n j <= hi /\ Rabs (x - grid_coord lo hi n j) <= (hi - lo) / (INR n - 1) / 2.
Proof.
  intros lo hi n x Hn Hx. assert (P : 0 < INR n - 1) by (apply le_INR in Hn; cbn in Hn; lra).
  assert (Hh : 0 <= (hi - lo) / (INR n - 1)) by (apply Rmult_le_pos; [lra | left; now apply Rinv_0_lt_compat]).
  assert (En : INR (n - 1) * ((hi - lo) / (INR n - 1)) = hi - lo) by (rewrite minus_INR by lia; cbn [INR]; field; lra).
  destruct (nearest (n - 1) (x - lo) _ Hh ltac:(rewrite En; lra)) as (j & Hj & K). exists j. split; [lia|].
  unfold grid_coord. destruct (Nat.eqb_spec n 1) as [E|E]; [lia|]. replace (INR j * (hi - lo) / (INR n - 1)) with (INR j * ((hi - lo) / (INR n - 1))) by (field; lra).
  set (h := (hi - lo) / (INR n - 1)) in *. split.
  - assert (0 <= INR j <= INR (n - 1)) by (split; [apply pos_INR | now apply le_INR]). split; [|rewrite <- (Rplus_minus lo hi) at 1; rewrite <- En]; nra.
  - replace (x - (lo + INR j * h)) with (x - lo - INR j * h) by ring. exact K.
Qed.
Lemma everywhere : forall e lhs1 o template vtk pb sc i weights fs r U G K L l2 a l2r linfr l1 l1r,
  run_internal e lhs1 o template vtk pb sc i weights fs = Ok r -> i_method i = "internal"%string -> (2 <= i_ntx i)%Z /\ (2 <= i_nty i)%Z ->
  pointwise (the_network sc (weights (r_saved r))) U G ->
  steepness_on (in_box (i_xlim i) (i_ylim i)) U K -> steepness_on (in_box (i_xlim i) (i_ylim i)) (fun p => pb_exact pb (fst p) (snd p)) L ->
  r_errors r = (l2, Fin a, l2r, linfr, l1, l1r) -> 0 <= K + L -> forall p, in_box (i_xlim i) (i_ylim i) p ->
  Rabs (U p - pb_exact pb (fst p) (snd p)) <=
  a + (K + L) * (Rmax ((snd (i_xlim i) - fst (i_xlim i)) / (IZR (i_ntx i) - 1)) ((snd (i_ylim i) - fst (i_ylim i)) / (IZR (i_nty i) - 1)) / 2).
Proof.
  intros e lhs1 o template vtk pb sc i weights fs r U G K L l2 a l2r linfr l1 l1r H Hm [Hx Hy] Hp HK HL He HKL [x y] [Px Py].
  destruct (internal_reports _ _ _ _ _ _ _ _ _ _ _ H) as (cells & mo & bd & m & _ & _ & Rp & Len & Pts). specialize (Pts Hm).
  set (nx := Z.to_nat (i_ntx i)) in *. set (ny := Z.to_nat (i_nty i)) in *. cbn [fst snd] in Px, Py.
  destruct (nearest_coord (fst (i_xlim i)) (snd (i_xlim i)) nx x ltac:(lia) Px) as (j & Hj & Bx & Nx).
  destruct (nearest_coord (fst (i_ylim i)) (snd (i_ylim i)) ny y ltac:(lia) Py) as (k & Hk & By & Ny).
  specialize (Pts j k Hj Hk). assert (Hi : (k * nx + j < length (r_points r))%nat) by (rewrite Len; nia).
  assert (EX : INR nx = IZR (i_ntx i)) by (unfold nx; rewrite INR_IZR_INZ, Z2Nat.id by lia; reflexivity).
  assert (EY : INR ny = IZR (i_nty i)) by (unfold ny; rewrite INR_IZR_INZ, Z2Nat.id by lia; reflexivity). rewrite EX in Nx. rewrite EY in Ny.
  set (q := (grid_coord (fst (i_xlim i)) (snd (i_xlim i)) nx j, grid_coord (fst (i_ylim i)) (snd (i_ylim i)) ny k)) in *.
  assert (Bq : in_box (i_xlim i) (i_ylim i) q) by (split; assumption). assert (Bp : in_box (i_xlim i) (i_ylim i) (x, y)) by (split; assumption).
  destruct Rp. destruct rp_pred as (yv & Ey & Ep). destruct (Hp (r_points r)) as [Eo _]. rewrite Eo in Ey. injection Ey as <-. rewrite TrainFacts.concat_singletons in Ep.
  assert (Cmp : comparable (arr (r_exact r)) (arr (r_pred r))).
  { split; cbn [arr a_data]; [rewrite rp_exact, Ep; now rewrite !map_length|]. rewrite rp_exact. intros E0. apply (f_equal (@length _)) in E0. rewrite map_length in E0. cbn in E0. lia. }
  destruct (combined _ _ Cmp) as (a1 & b1 & c1 & d1 & e1 & f1 & Ec & _ & Eb & _). rewrite rp_errors in Ec. rewrite He in Ec. injection Ec as <- <- <- <- <- <-.
  destruct (values _ _ Cmp) as (_ & _ & mx & Em & Mx & _). rewrite Eb in Em. injection Em as <-.
  specialize (Mx (k * nx + j)%nat). cbn [arr a_data] in Mx. rewrite rp_exact, Ep in Mx. rewrite map_length in Mx. specialize (Mx Hi).
  rewrite (nth_indep _ 0 ((fun p => pb_exact pb (fst p) (snd p)) (0, 0))) in Mx by (now rewrite map_length). rewrite (nth_indep (map U _) 0 (U (0, 0))) in Mx by (now rewrite map_length).
  rewrite (map_nth (fun p => pb_exact pb (fst p) (snd p))), (map_nth U), Pts in Mx.
  pose proof (HK (x, y) q Bp Bq) as A. pose proof (HL (x, y) q Bp Bq) as B. cbv beta in B.
  assert (F : far (x, y) q <= Rmax ((snd (i_xlim i) - fst (i_xlim i)) / (IZR (i_ntx i) - 1)) ((snd (i_ylim i) - fst (i_ylim i)) / (IZR (i_nty i) - 1)) / 2).
  { unfold far, q. cbn [fst snd]. apply Rmax_lub; [eapply Rle_trans; [exact Nx|] | eapply Rle_trans; [exact Ny|]]; apply Rmult_le_compat_r; try lra; [apply Rmax_l | apply Rmax_r]. }
  pose proof (Rmult_le_compat_l (K + L) _ _ HKL F) as M. rewrite Rabs_minus_sym in Mx.
  apply Rle_trans with (Rabs (U q - pb_exact pb (fst q) (snd q)) + (K * far (x, y) q + L * far (x, y) q)); [|lra].
  replace (U (x, y) - pb_exact pb (fst (x, y)) (snd (x, y))) with ((U q - pb_exact pb (fst q) (snd q)) + ((U (x, y) - U q) + - (pb_exact pb (fst (x, y)) (snd (x, y)) - pb_exact pb (fst q) (snd q)))) by ring.
  eapply Rle_trans; [apply Rabs_triang|]. apply Rplus_le_compat_l. eapply Rle_trans; [apply Rabs_triang|]. rewrite Rabs_Ropp. lra.
Qed.
Lemma everywhere_trained : forall e lhs1 o template vtk pb sc i rnd nt fs r rate L,
  layer_sizes (layer_dims sc i) 1 -> (forall l i j, 0 <= rnd l i j <= 1) -> initial tanh false rnd (layer_dims sc i) = Ok nt ->
  train_internal e lhs1 o template vtk pb sc i nt fs = Ok r -> sc_kind sc <> Hard -> learning_rate (sc_kind sc) (i_rates i) = Ok rate ->
  i_method i = "internal"%string -> (2 <= i_ntx i)%Z /\ (2 <= i_nty i)%Z ->
  steepness_on (in_box (i_xlim i) (i_ylim i)) (fun p => pb_exact pb (fst p) (snd p)) L -> 0 <= L ->
  exists weights U l2 a l2r linfr l1 l1r, r_errors r = (l2, Fin a, l2r, linfr, l1, l1r) /\ (forall p, nn_out (network_of (with_weights nt weights)) [p] = Ok [[U p]]) /\ r_pred r = map U (r_points r) /\
  forall p, in_box (i_xlim i) (i_ylim i) p -> Rabs (U p - pb_exact pb (fst p) (snd p)) <=
  a + (drift_steepness (layer_dims sc i) (73 / 10 * Sum (fun k => Rabs (rate k)) (Z.to_nat (i_epochs i))) + L) *
      (Rmax ((snd (i_xlim i) - fst (i_xlim i)) / (IZR (i_ntx i) - 1)) ((snd (i_ylim i) - fst (i_ylim i)) / (IZR (i_nty i) - 1)) / 2).
Proof.
  intros e lhs1 o template vtk pb sc i rnd nt fs r rate L Hd Hr E H Hk Hrate Hm Hxy HL HL0. unfold train_internal in H.
  pose proof H as H0. destruct (internal_reports _ _ _ _ _ _ _ _ _ _ _ H0) as (cells & mo & bd & m & E1 & E2 & Rp & Len & _).
  set (T := Z.to_nat (i_epochs i)). set (b := 73 / 10 * Sum (fun k => Rabs (rate k)) T). assert (Hb : 0 <= b) by (apply Rmult_le_pos; [lra | apply sum_abs_nonneg]).
  set (x := variables_at (Ok rate) (forward_at sc pb i m nt) (weights_of nt) T). destruct (variables_near rate (forward_at sc pb i m nt) (weights_of nt) T) as [Lx Hx]. fold x in Lx, Hx.
  assert (Ew : forward_weights sc pb i nt (internal_model e lhs1 o pb sc i) (r_saved r) = with_weights nt x).
  { rewrite (rp_saved _ _ _ _ _ _ Rp). unfold internal_model. rewrite E1. cbn [bind]. rewrite E2. unfold forward_weights. cbn [from_model]. now rewrite Hrate. }
  destruct (near_steep rnd tanh _ 1 nt b x Hd Hr tanh_nonexpansive Hb E ltac:(lia) Hx) as [Hs St]. pose proof (starts_chain _ _ _ Hs) as C. change (Z.to_nat 1) with 1%nat in C.
  destruct (plain_pointwise (with_weights nt x) (st_attention _ _ _ Hs) C) as (U & HU & Hp & _).
  assert (En : forall w, the_network sc w = network_of w) by (intros w; unfold the_network; destruct (sc_kind sc); congruence).
  assert (Ep : r_pred r = map U (r_points r)).
  { destruct (rp_pred _ _ _ _ _ _ Rp) as (y & Ey & Ep). rewrite Ew, En in Ey. destruct (Hp (r_points r)) as [Eo _]. rewrite Eo in Ey. injection Ey as <-. now rewrite TrainFacts.concat_singletons in Ep. }
  assert (Cmp : comparable (arr (r_exact r)) (arr (r_pred r))).
  { split; cbn [arr a_data]; rewrite (rp_exact _ _ _ _ _ _ Rp); [rewrite Ep; now rewrite !map_length|]. intros E0. apply (f_equal (@length _)) in E0. rewrite map_length in E0. cbn in E0. nia. }
  destruct (combined _ _ Cmp) as (l2 & b1 & l2r & linfr & l1 & l1r & Ec & _ & Eb & _). rewrite (rp_errors _ _ _ _ _ _ Rp) in Ec. injection Ec as Ec.
  destruct (values _ _ Cmp) as (_ & _ & a & Em & _). rewrite Eb in Em. injection Em as ->.
  exists x, U, l2, a, l2r, linfr, l1, l1r. split; [exact Ec|]. split; [exact HU|]. split; [exact Ep|].
  eapply (everywhere e lhs1 o template vtk pb sc i _ fs r U (grad U)); eauto.
  - rewrite Ew, En. exact Hp.
  - intros p q _ _. exact (St p q _ _ (HU p) (HU q) 0%nat ltac:(cbn; lia)).
  - apply Rplus_le_le_0_compat; [|exact HL0]. unfold drift_steepness. apply product_nonneg. intros l _. cbv zeta. apply Rmult_le_pos; [apply pos_INR|].
    apply Rplus_le_le_0_compat; [apply sqrt_pos | exact Hb].
Qed.

(* ---------- the trials of a study ---------- *)
Lemma initial_fresh : forall s rnd, in_search_space s -> (forall l i j, 0 <= rnd l i j <= 1) -> exists nt, initial tanh false rnd (architecture s) = Ok nt /\ SpecStudy.fresh s nt.
Proof.
  intros s rnd Hs Hr. destruct (initial_network tanh false rnd (architecture s) 1) as (nt & E & A & At & _ & W & _); [|exact Hr|].
  - split; [apply TunerFacts.arch_len|]. split; [reflexivity|]. split; [apply TunerFacts.arch_last | now apply TunerFacts.arch_pos].
  - exists nt. split; [exact E|]. constructor; assumption.
Qed.
