(* Quadrature over a whole mesh of rectangles (C05). *)
From Coq Require Import String ZArith List Arith Lia Reals Lra.
From Coquelicot Require Import Coquelicot.
From Verif Require Import Num Py PyFacts Jacobi Quadrature Basis Transform Cell Space Geometry RCalc PolyFacts PolyDeg ListFacts Spec SpecGeom SpecMesh SpecPde
  LegendreFacts Interp QuadFacts TransformFacts CellFacts2 SpaceFacts TransformFacts2 MeshFacts.
Import ListNotations.
Local Open Scope R_scope.

Lemma quad_tensor : forall o order ty w xi eta, oracle_ok o (Z.to_nat order) ->
  quad2d o order ty = Ok (w, xi, eta) -> let n := Z.to_nat order in
  exists x v, length x = n /\ length v = n /\ (w, xi, eta) = tensorise x v /\ exact_upto (exactness ty n) x v.
Proof.
  intros o order ty w xi eta [Ho1 Ho2] H n. unfold exactness.
  pose proof (quad2d_inv _ _ _ _ _ _ H) as [[[-> Hn] | [-> Hn]] T]; cbn [String.eqb Ascii.eqb Bool.eqb].
  - fold n in T, Ho1. destruct (leggauss o n) as [x v] eqn:E. destruct Ho1 as (L1 & L2 & He).
    unfold rule1d in T. cbn [String.eqb Ascii.eqb Bool.eqb] in T. rewrite E in T. cbn [fst snd] in *.
    exists x, v. rewrite <- T. auto.
  - fold n in T, Ho2. assert (Hn' : (3 <= n)%nat) by lia.
    destruct (rule1d_gj_len o n Hn' (proj1 Ho2)) as [L1 L2]. destruct (rule1d_gj_exact o n Hn' Ho2) as [He _].
    destruct (rule1d o n "gauss-jacobi") as [x v]. cbn [fst snd] in *. exists x, v. rewrite <- T. auto.
Qed.

(* one variable *)
Lemma pdeg_linpow : forall m h k, pdeg (S k) (fun t => (m + h * t) ^ k).
Proof.
  induction k; simpl; [apply pdeg_const|]. apply (pdeg_mono (2 + S k - 1)); [lia|].
  apply pdeg_mult; auto. apply pdeg_lin.
Qed.
Lemma pdeg_lin_comp : forall d f m h, pdeg d f -> pdeg d (fun t => f (m + h * t)).
Proof.
  intros d f m h (p & Hp & Hf). apply (pdeg_ext _ (fun t => rsum (fun k => nth k p 0 * (m + h * t) ^ k) (length p))).
  { intros. rewrite Hf, peval_mono. reflexivity. }
  apply pdeg_rsum. intros. apply pdeg_scal. apply (pdeg_mono (S k)); [lia|]. apply pdeg_linpow.
Qed.
Lemma RInt_lin : forall d (f : R -> R) a b, pdeg d f ->
  (b - a) / 2 * RInt (fun t => f ((a + b) / 2 + (b - a) / 2 * t)) (-1) 1 = RInt f a b.
Proof.
  intros d f a b Hf. destruct (pdeg_prim d f Hf) as (g & _ & Dg).
  rewrite (RInt_of_derive g f a b) by (auto; intros; eapply pdeg_continuous; eauto).
  rewrite <- RIntR_scal by (eapply pdeg_ex_RInt; apply (pdeg_lin_comp d); auto).
  rewrite (RInt_of_derive (fun t => g ((a + b) / 2 + (b - a) / 2 * t))).
  - f_equal; f_equal; field.
  - intros x. apply derR_comp; auto. auto_derive; auto; lra.
  - intros x. apply (pdeg_continuous d). apply pdeg_scal, (pdeg_lin_comp d); auto.
Qed.

(* one rectangle *)
Lemma RefMap_rect : forall name a b c d x y,
  RefMap name (rect a b c d) x y = ((a + b) / 2 + (b - a) / 2 * x, (c + d) / 2 + (d - c) / 2 * y).
Proof.
  intros. unfold RefMap, rect. cbn [v0 v1 v2 v3 fst snd]. destruct (String.eqb name "affine"); f_equal; field.
Qed.
Lemma JacDet_rect : forall name a b c d x y, JacDet (RefMap name (rect a b c d)) x y = (b - a) / 2 * ((d - c) / 2).
Proof.
  intros. rewrite (JacDet_ext _ (fun x y => ((a + b) / 2 + (b - a) / 2 * x, (c + d) / 2 + (d - c) / 2 * y)))
    by (intros; apply RefMap_rect).
  unfold JacDet. cbn [fst snd]. rewrite !Derive_const.
  rewrite (is_derive_unique _ _ ((b - a) / 2)) by (auto_derive; auto; ring).
  rewrite (is_derive_unique _ _ ((d - c) / 2)) by (auto_derive; auto; ring). ring.
Qed.

Section Rect.
Variables (x v : list R) (n D : nat).
Hypothesis Lx : length x = n.
Hypothesis Lv : length v = n.
Hypothesis He : exact_upto D x v.
Let W := outer_flat v v.
Let XI := fst (meshgrid_flat x x).
Let ETA := snd (meshgrid_flat x x).

Lemma rule_power : forall a b k, (k < D)%nat ->
  (b - a) / 2 * Rule x v (fun t => ((a + b) / 2 + (b - a) / 2 * t) ^ k) = RInt (fun t => t ^ k) a b.
Proof.
  intros a b k Hk. rewrite (exact_pdeg D x v _ He).
  - apply (RInt_lin (S k) (fun t => t ^ k)). apply pdeg_pow.
  - apply (pdeg_mono (S k)); [lia|]. apply pdeg_linpow.
Qed.
Lemma rule_rect : forall co a b c d,
  Rule2 W XI ETA (fun s t => (b - a) / 2 * ((d - c) / 2) * Poly2 co D ((a + b) / 2 + (b - a) / 2 * s) ((c + d) / 2 + (d - c) / 2 * t))
  = Int2 (Poly2 co D) a b c d.
Proof.
  intros. rewrite Int2_poly.
  set (X := fun s => (a + b) / 2 + (b - a) / 2 * s). set (Y := fun s => (c + d) / 2 + (d - c) / 2 * s).
  set (hx := (b - a) / 2). set (hy := (d - c) / 2).
  transitivity (rsum (fun i => rsum (fun j => co i j * (hx * hy * Rule2 W XI ETA (fun s t => X s ^ i * Y t ^ j))) D) D).
  - unfold Rule2, Poly2. change Sum with rsum.
    rewrite (rsum_ext _ (fun q => rsum (fun i => rsum (fun j => co i j * (hx * hy) * (nth q W 0 * (X (nth q XI 0) ^ i * Y (nth q ETA 0) ^ j))) D) D)).
    + rewrite rsum_swap. apply rsum_ext; intros i Hi. rewrite rsum_swap. apply rsum_ext; intros j Hj.
      rewrite rsum_scal. ring.
    + intros q Hq. rewrite <- !rsum_scal. apply rsum_ext; intros i Hi.
      rewrite <- !rsum_scal. apply rsum_ext; intros j Hj. unfold X, Y, hx, hy. ring.
  - apply rsum_ext; intros i Hi. apply rsum_ext; intros j Hj. f_equal.
    unfold W, XI, ETA. rewrite (Rule2_product x v n Lx Lv (fun s => X s ^ i) (fun t => Y t ^ j)).
    rewrite <- (rule_power a b i Hi), <- (rule_power c d j Hj). fold hx hy. unfold X, Y, hx, hy. ring.
Qed.
End Rect.

(* adding up the rectangles *)
Lemma RInt_sub : forall lo hi n k, (1 <= n)%nat -> forall N, (N <= n)%nat ->
  rsum (fun i => RInt (fun t => t ^ k) (sub lo hi n i) (sub lo hi n (S i))) N = RInt (fun t => t ^ k) lo (sub lo hi n N).
Proof.
  intros lo hi n k Hn. induction N; intros HN.
  - rewrite sub_0. simpl. symmetry. apply (RInt_point (V := R_CompleteNormedModule)).
  - cbn [rsum]. rewrite IHN by lia. apply (RInt_Chasles (V := R_CompleteNormedModule)); apply Int_pow_ex.
Qed.
Lemma Int2_grid : forall co D x0 x1 y0 y1 n m, (1 <= n)%nat -> (1 <= m)%nat ->
  rsum (fun i => rsum (fun j => Int2 (Poly2 co D) (sub x0 x1 n i) (sub x0 x1 n (S i)) (sub y0 y1 m j) (sub y0 y1 m (S j))) m) n
  = Int2 (Poly2 co D) x0 x1 y0 y1.
Proof.
  intros co D x0 x1 y0 y1 n m Hn Hm. rewrite Int2_poly.
  rewrite (rsum_ext _ (fun i => rsum (fun j => rsum (fun a => rsum (fun b => co a b * (RInt (fun t => t ^ a) (sub x0 x1 n i) (sub x0 x1 n (S i))
    * RInt (fun t => t ^ b) (sub y0 y1 m j) (sub y0 y1 m (S j)))) D) D) m)).
  2:{ intros i Hi. apply rsum_ext. intros j Hj. apply Int2_poly. }
  rewrite (rsum_ext _ (fun i => rsum (fun a => rsum (fun j => rsum (fun b => co a b * (RInt (fun t => t ^ a) (sub x0 x1 n i) (sub x0 x1 n (S i))
    * RInt (fun t => t ^ b) (sub y0 y1 m j) (sub y0 y1 m (S j)))) D) m) D)) by (intros; apply rsum_swap).
  rewrite rsum_swap. apply rsum_ext. intros a Ha.
  rewrite (rsum_ext _ (fun i => rsum (fun b => rsum (fun j => co a b * (RInt (fun t => t ^ a) (sub x0 x1 n i) (sub x0 x1 n (S i))
    * RInt (fun t => t ^ b) (sub y0 y1 m j) (sub y0 y1 m (S j)))) m) D)) by (intros; apply rsum_swap).
  rewrite rsum_swap. apply rsum_ext. intros b Hb.
  rewrite (rsum_ext _ (fun i => RInt (fun t => t ^ a) (sub x0 x1 n i) (sub x0 x1 n (S i)) * (co a b * RInt (fun t => t ^ b) y0 y1))).
  - rewrite rsum_scal_r, RInt_sub, sub_n by lia. ring.
  - intros i Hi. rewrite (rsum_ext _ (fun j => (co a b * RInt (fun t => t ^ a) (sub x0 x1 n i) (sub x0 x1 n (S i)))
        * RInt (fun t => t ^ b) (sub y0 y1 m j) (sub y0 y1 m (S j)))) by (intros; ring).
    rewrite rsum_scal, RInt_sub, sub_n by lia. ring.
Qed.

(* one cell of a built space *)
Lemma cell_integral : forall o cf cells bp bf plot s ci a b c d, oracle_ok o (Z.to_nat (cf_quad_order cf)) ->
  make_space o cf cells bp bf plot = Ok s -> nth_error cells ci = Some (rect a b c d) -> a < b -> c < d ->
  let n := Z.to_nat (cf_quad_order cf) in
  exists mult pts, get_quadrature_weights s (Z.of_nat ci) = Ok mult /\ get_quadrature_actual_coordinates s (Z.of_nat ci) = Ok pts /\
    length mult = (n * n)%nat /\ length pts = (n * n)%nat /\
    forall co, Sum (fun q => nth q mult 0 * Poly2 co (exactness (cf_quad_type cf) n) (fst (nth q pts (0, 0))) (snd (nth q pts (0, 0)))) (n * n)
      = Int2 (Poly2 co (exactness (cf_quad_type cf) n)) a b c d.
Proof.
  intros o cf cells bp bf plot s ci a b c d Ho Hs Hc Hab Hcd n.
  destruct (space_tables o cf cells bp bf plot s ci _ (oracle_lengths _ _ Ho) Hs Hc)
    as (fam & w & xi & eta & val & gx & gy & gxr & gyr & pts & mult & _ & Hq & _ & _ & _ & _ & _ & Hp & Hm & Lm & Lp & _ & _ & _ & _ & _ & T).
  fold n in Lm, Lp, T. exists mult, pts. split; [auto|]. split; [auto|]. split; [auto|]. split; [auto|]. intros co.
  destruct (quad_tensor o _ _ w xi eta Ho Hq) as (x & v & Lx & Lv & E & He). fold n in Lx, Lv, He.
  rewrite tensorise_eq in E. injection E as -> -> ->.
  rewrite <- (rule_rect x v n _ Lx Lv He co a b c d). unfold Rule2. rewrite (W_len v n Lv).
  change Sum with rsum. apply rsum_ext. intros q Hq'. destruct (T q Hq') as (-> & -> & _).
  rewrite RefMap_rect, JacDet_rect. cbn [fst snd].
  rewrite Rabs_right by (apply Rle_ge, Rmult_le_pos; lra). cbn [meshgrid_flat fst snd]. ring.
Qed.

Lemma mesh_integral : forall (e : numpy R) lhs1 x0 x1 y0 y1 nx ny num cells mo bd o cf bp bf plot s,
  numpy_ok e -> sampler_ok lhs1 -> (1 <= nx)%Z -> (1 <= ny)%Z -> (0 <= num)%Z -> x0 < x1 -> y0 < y1 ->
  generate_quad_mesh_internal e lhs1 (x0, x1) (y0, y1) nx ny num = Ok (cells, mo, bd) ->
  oracle_ok o (Z.to_nat (cf_quad_order cf)) -> make_space o cf cells bp bf plot = Ok s ->
  let n := Z.to_nat (cf_quad_order cf) in
  exists mult pts : nat -> list _,
    (forall c, (c < length cells)%nat -> get_quadrature_weights s (Z.of_nat c) = Ok (mult c) /\
       get_quadrature_actual_coordinates s (Z.of_nat c) = Ok (pts c) /\ length (mult c) = (n * n)%nat /\ length (pts c) = (n * n)%nat) /\
    forall co, Sum (fun c => Sum (fun q => nth q (mult c) 0 *
          Poly2 co (exactness (cf_quad_type cf) n) (fst (nth q (pts c) (0, 0))) (snd (nth q (pts c) (0, 0)))) (n * n)) (length cells)
      = Int2 (Poly2 co (exactness (cf_quad_type cf) n)) x0 x1 y0 y1.
Proof.
  intros e lhs1 x0 x1 y0 y1 nx ny num cells mo bd o cf bp bf plot s He Hl Hnx Hny Hnum Hx Hy Hrun Ho Hs n.
  set (N := Z.to_nat nx). set (M := Z.to_nat ny).
  assert (Lc : length cells = (N * M)%nat) by (eapply tile_count; eauto).
  assert (Cell : forall i j, (i < N)%nat -> (j < M)%nat ->
    nth_error cells (i * M + j) = Some (rect (sub x0 x1 N i) (sub x0 x1 N (S i)) (sub y0 y1 M j) (sub y0 y1 M (S j)))).
  { intros i j Hi Hj. assert (Hk : (i * M + j < length cells)%nat) by (rewrite Lc; nia).
    rewrite (nth_error_nth' cells (mkcell (0,0) (0,0) (0,0) (0,0)) Hk). f_equal.
    unfold sub. rewrite !S_INR. unfold M, N. eapply tile_cell; eauto. }
  exists (fun c => match get_quadrature_weights s (Z.of_nat c) with Ok m => m | Err _ => [] end),
         (fun c => match get_quadrature_actual_coordinates s (Z.of_nat c) with Ok p => p | Err _ => [] end).
  assert (HN : (1 <= N)%nat) by (unfold N; lia). assert (HM : (1 <= M)%nat) by (unfold M; lia).
  pose proof (fun i j (Hi : (i < N)%nat) (Hj : (j < M)%nat) => cell_integral o cf cells bp bf plot s (i * M + j) _ _ _ _ Ho Hs (Cell i j Hi Hj)
      (sub_lt x0 x1 N i (S i) HN Hx (Nat.lt_succ_diag_r i)) (sub_lt y0 y1 M j (S j) HM Hy (Nat.lt_succ_diag_r j))) as Get.
  split.
  - intros c Hc. rewrite Lc in Hc. destruct (tile_index nx ny Hnx Hny c Hc) as (i & j & Hi & Hj & ->). fold M in Hj |- *. fold N in Hi.
    destruct (Get i j Hi Hj) as (mult & pts & -> & -> & L1 & L2 & _). auto.
  - intros co. rewrite <- (Int2_grid co _ x0 x1 y0 y1 N M HN HM). rewrite Lc. change Sum with rsum. rewrite rsum_mul.
    apply rsum_ext. intros i Hi. apply rsum_ext. intros j Hj.
    destruct (Get i j Hi Hj) as (mult & pts & -> & -> & _ & _ & E). apply E.
Qed.
