(* From the boundary misfit to the error on the whole rectangle. *)
From Coq Require Import String ZArith List Arith Lia Bool Reals Lra.
From Coquelicot Require Import Coquelicot.
From Verif Require Import Num Py Jacobi Quadrature Basis Transform Cell Space Tensor Data Physics Train Geometry Nets Metrics Problems Driver
  Spec SpecGeom SpecTrain SpecMesh SpecWeak SpecProblem SpecDriver SpecScript SpecInit SpecMax ListFacts PolyFacts ErrorFacts NetFacts MeshFacts ScriptFacts MaxFacts.
Import ListNotations.
Local Open Scope R_scope.

(* ---------- the boundary points of the internal mesh ---------- *)
Lemma stratum : forall k x h, (1 <= k)%nat -> 0 <= h -> 0 <= x <= INR k * h -> exists j, (j < k)%nat /\ INR j * h <= x <= (INR j + 1) * h.
Proof.
  induction k as [|k IH]; intros x h Hk Hh Hx; [lia|]. rewrite S_INR in Hx. destruct k as [|k].
  - exists 0%nat. split; [lia|]. cbn in *. lra.
  - destruct (Rle_dec x (INR (S k) * h)) as [L|L].
    + destruct (IH x h ltac:(lia) Hh ltac:(lra)) as (j & Hj & K). exists j. split; [lia | exact K].
    + exists (S k). split; [lia | lra].
Qed.
Lemma stratum_of : forall lo hi k x, (1 <= k)%nat -> lo <= x <= hi -> exists j, (j < k)%nat /\ lo + INR j / INR k * (hi - lo) <= x <= lo + (INR j + 1) / INR k * (hi - lo).
Proof.
  intros lo hi k x Hk Hx. assert (P : 0 < INR k) by (apply (lt_INR 0); lia). assert (Hh : 0 <= (hi - lo) / INR k) by (apply Rmult_le_pos; [lra | left; now apply Rinv_0_lt_compat]).
  destruct (stratum k (x - lo) ((hi - lo) / INR k) Hk Hh) as (j & Hj & K).
  - replace (INR k * ((hi - lo) / INR k)) with (hi - lo) by (field; lra). lra.
  - exists j. split; [exact Hj|]. replace (INR j / INR k * (hi - lo)) with (INR j * ((hi - lo) / INR k)) by (field; lra).
    replace ((INR j + 1) / INR k * (hi - lo)) with ((INR j + 1) * ((hi - lo) / INR k)) by (field; lra). lra.
Qed.
Lemma same_stratum : forall lo hi k j x z, (1 <= k)%nat -> lo + INR j / INR k * (hi - lo) <= x <= lo + (INR j + 1) / INR k * (hi - lo) ->
  lo + INR j / INR k * (hi - lo) <= z < lo + (INR j + 1) / INR k * (hi - lo) -> Rabs (x - z) <= (hi - lo) / INR k.
Proof.
  intros lo hi k j x z Hk Hx Hz. assert (P : 0 < INR k) by (apply (lt_INR 0); lia).
  replace ((INR j + 1) / INR k * (hi - lo)) with (INR j / INR k * (hi - lo) + (hi - lo) / INR k) in * by (field; lra). apply Rabs_le. lra.
Qed.
Lemma rim_point : forall e lhs1 x0 x1 y0 y1 nx ny num cells mo bd, sampler_ok lhs1 -> (forall i n, latin n (lhs1 i n)) -> (4 <= num)%Z -> x0 < x1 -> y0 < y1 ->
  generate_quad_mesh_internal e lhs1 (x0, x1) (y0, y1) nx ny num = Ok (cells, mo, bd) -> let k := Z.to_nat (num / 4) in
  (1 <= k)%nat /\ length (concat (map snd bd)) = (4 * k)%nat /\
  forall p, on_rim (x0, x1) (y0, y1) p -> exists q, In q (concat (map snd bd)) /\ in_box (x0, x1) (y0, y1) q /\ far p q <= Rmax (x1 - x0) (y1 - y0) / INR k.
Proof.
  intros e lhs1 x0 x1 y0 y1 nx ny num cells mo bd Hs Hl Hn Hx Hy E k. apply boundary_returned in E.
  assert (Hk : (1 <= k)%nat) by (unfold k; assert (1 <= num / 4)%Z by (apply Z.div_le_lower_bound; lia); lia). assert (P : 0 < INR k) by (apply (lt_INR 0); lia).
  destruct (boundary_sides lhs1 x0 x1 y0 y1 num Hs ltac:(lia)) as (b & r & t & l & E1 & Lb & Lr & Lt & Ll & Bx & By & Sb & Sr & St & Sl).
  destruct (boundary_latin lhs1 x0 x1 y0 y1 num Hs ltac:(lia) Hl Hx Hy) as (b' & r' & t' & l' & E2 & Lx & Ly).
  rewrite E1 in E2. injection E2 as <- <- <- <-. rewrite E in E1. injection E1 as ->. fold k in Lb, Lr, Lt, Ll, Lx, Ly. cbn [map snd concat].
  split; [exact Hk|]. split; [rewrite !app_length; cbn; lia|].
  assert (Fx : (x1 - x0) / INR k <= Rmax (x1 - x0) (y1 - y0) / INR k) by (apply Rmult_le_compat_r; [left; now apply Rinv_0_lt_compat | apply Rmax_l]).
  assert (Fy : (y1 - y0) / INR k <= Rmax (x1 - x0) (y1 - y0) / INR k) by (apply Rmult_le_compat_r; [left; now apply Rinv_0_lt_compat | apply Rmax_r]).
  assert (F0 : 0 <= (x1 - x0) / INR k /\ 0 <= (y1 - y0) / INR k) by (split; (apply Rmult_le_pos; [lra | left; now apply Rinv_0_lt_compat])).
  intros [x y] [[Px Py] Hr]. cbn [fst snd] in *.
  assert (GX : forall s yy, In s [b; t] -> length s = k -> y = yy -> (forall p, In p s -> snd p = yy) -> exists q, In q s /\ in_box (x0, x1) (y0, y1) q /\ far (x, y) q <= Rmax (x1 - x0) (y1 - y0) / INR k).
  { intros s yy Hin Ls Ey Hsy. destruct (stratum_of x0 x1 k x Hk Px) as (j & Hj & K). destruct (Lx s j Hin Hj) as (qi & [Hq Kq] & _). exists (nth qi s (0, 0)).
    assert (I : In (nth qi s (0, 0)) s) by (apply nth_In; lia). split; [exact I|]. pose proof (Hsy _ I) as E2. split.
    - split; cbn [fst snd]; [apply Bx; [lra|]; destruct Hin as [<- | [<- | []]]; auto | rewrite E2, <- Ey; exact Py].
    - unfold far. cbn [fst snd]. rewrite E2, <- Ey. rewrite Rminus_eq_0, Rabs_R0. apply Rmax_lub; [|lra]. pose proof (same_stratum x0 x1 k j x _ Hk K Kq). lra. }
  assert (GY : forall s xx, In s [r; l] -> length s = k -> x = xx -> (forall p, In p s -> fst p = xx) -> exists q, In q s /\ in_box (x0, x1) (y0, y1) q /\ far (x, y) q <= Rmax (x1 - x0) (y1 - y0) / INR k).
  { intros s xx Hin Ls Ex Hsx. destruct (stratum_of y0 y1 k y Hk Py) as (j & Hj & K). destruct (Ly s j Hin Hj) as (qi & [Hq Kq] & _). exists (nth qi s (0, 0)).
    assert (I : In (nth qi s (0, 0)) s) by (apply nth_In; lia). split; [exact I|]. pose proof (Hsx _ I) as E2. split.
    - split; cbn [fst snd]; [rewrite E2, <- Ex; exact Px | apply By; [lra|]; destruct Hin as [<- | [<- | []]]; auto].
    - unfold far. cbn [fst snd]. rewrite E2, <- Ex. rewrite Rminus_eq_0, Rabs_R0. apply Rmax_lub; [lra|]. pose proof (same_stratum y0 y1 k j y _ Hk K Kq). lra. }
  destruct Hr as [H | [H | [H | H]]].
  - destruct (GY l x0 ltac:(cbn; auto) Ll H Sl) as (q & I & R). exists q. split; [|exact R]. rewrite !in_app_iff. auto 6.
  - destruct (GY r x1 ltac:(cbn; auto) Lr H Sr) as (q & I & R). exists q. split; [|exact R]. rewrite !in_app_iff. auto 6.
  - destruct (GX b y0 ltac:(cbn; auto) Lb H Sb) as (q & I & R). exists q. split; [|exact R]. rewrite !in_app_iff. auto 6.
  - destruct (GX t y1 ltac:(cbn; auto) Lt H St) as (q & I & R). exists q. split; [|exact R]. rewrite !in_app_iff. auto 6.
Qed.

Lemma bd_sides : forall e lhs1 x0 x1 y0 y1 nx ny num cells mo bd, sampler_ok lhs1 -> (0 <= num)%Z -> x0 < x1 -> y0 < y1 ->
  generate_quad_mesh_internal e lhs1 (x0, x1) (y0, y1) nx ny num = Ok (cells, mo, bd) -> forall tag pts p, In (tag, pts) bd -> In p pts -> side_point (x0, x1) (y0, y1) tag p.
Proof.
  intros e lhs1 x0 x1 y0 y1 nx ny num cells mo bd Hs Hn Hx Hy E. apply boundary_returned in E.
  destruct (boundary_sides lhs1 x0 x1 y0 y1 num Hs Hn) as (b & r & t & l & E1 & _ & _ & _ & _ & Bx & By & Sb & Sr & St & Sl). rewrite E in E1. injection E1 as ->.
  specialize (Bx ltac:(lra)). specialize (By ltac:(lra)). intros tag pts p H Hp. unfold side_point, on_side, in_box. cbn [fst snd].
  destruct H as [H | [H | [H | [H | []]]]]; injection H as <- <-.
  - pose proof (Bx p (or_introl Hp)). pose proof (Sb p Hp). split; [lra | auto].
  - pose proof (By p (or_introl Hp)). pose proof (Sr p Hp). split; [lra | auto].
  - pose proof (Bx p (or_intror Hp)). pose proof (St p Hp). split; [lra | auto 6].
  - pose proof (By p (or_intror Hp)). pose proof (Sl p Hp). split; [lra | auto 8].
Qed.

(* ---------- the misfit ---------- *)
Lemma forall2_length : forall {A B} (P : A -> B -> Prop) l l', List.Forall2 P l l' -> length l = length l'.
Proof. intros A B P l l' H. induction H; cbn; auto. Qed.
Lemma app_split_length : forall {A} (a b c d : list A), a ++ b = c ++ d -> length a = length c -> a = c /\ b = d.
Proof. intros A a. induction a as [|x a IH]; intros b [|y c] d E L; try discriminate; [auto|]. injection E as -> E. destruct (IH b c d E ltac:(now injection L)) as [-> ->]. auto. Qed.
Lemma data_source : forall bf bd data, boundary_data bd bf data -> forall d, In d data ->
  exists tag pts b, In (tag, pts) bd /\ In (fst d) pts /\ dget Z.eqb bf tag = Ok b /\ snd d = b (fst (fst d)) (snd (fst d)).
Proof.
  intros bf. induction bd as [|[tag pts] bd IH]; intros data [H1 H2] d Hd; cbn [map concat fst snd] in *.
  - apply map_eq_nil in H1. subst data. destruct Hd.
  - apply Forall2_app_inv_l in H2. destruct H2 as (d1 & d2 & F1 & F2 & ->). rewrite map_app in H1.
    assert (L : length (map fst d1) = length pts) by (rewrite map_length; apply forall2_length in F1; now rewrite map_length in F1).
    destruct (app_split_length _ _ _ _ H1 L) as [E1 E2]. apply in_app_iff in Hd. destruct Hd as [Hd | Hd].
    + exists tag, pts. assert (X : exists b, dget Z.eqb bf tag = Ok b /\ snd d = b (fst (fst d)) (snd (fst d))).
      { clear - F1 Hd. remember (map (fun _ : R * R => tag) pts) as ts eqn:Et. revert pts Et. induction F1 as [|t' d' ts d1 (b & B1 & B2) F1 IH]; intros pts Et; [destruct Hd|].
        destruct pts as [|p0 pts]; [discriminate|]. injection Et as -> Et. destruct Hd as [<- | Hd]; [eauto | eapply IH; eauto]. }
      destruct X as (b & B1 & B2). exists b. split; [now left|]. split; [rewrite <- E1; now apply in_map|]. auto.
    + destruct (IH d2 (conj E2 F2) d Hd) as (tag' & pts' & b & A & B). exists tag', pts', b. split; [now right | exact B].
Qed.
Lemma square_below : forall (data : list (point * R)) (U : point -> R) d, In d data -> (U (fst d) - snd d) ^ 2 <= fold_right (fun d acc => (U (fst d) - snd d) ^ 2 + acc) 0 data.
Proof.
  intros data U d. assert (P : forall data : list (point * R), 0 <= fold_right (fun d acc => (U (fst d) - snd d) ^ 2 + acc) 0 data).
  { induction data0 as [|x l IH]; cbn [fold_right]; [lra|]. pose proof (pow2_ge_0 (U (fst x) - snd x)). lra. }
  induction data as [|x l IH]; intros H; [destruct H|]. cbn [fold_right]. destruct H as [-> | H]; [pose proof (P l); lra|]. specialize (IH H). pose proof (pow2_ge_0 (U (fst x) - snd x)). lra.
Qed.
Lemma gap_point : forall (data : list (point * R)) (U : point -> R) d, In d data -> Rabs (U (fst d) - snd d) <= sqrt (INR (length data) * mean_gap data U).
Proof.
  intros data U d H. assert (L : 0 < INR (length data)) by (destruct data; [destruct H | apply (lt_INR 0); cbn; lia]).
  unfold mean_gap. replace (INR (length data) * (_ / INR (length data))) with (fold_right (fun d acc => (U (fst d) - snd d) ^ 2 + acc) 0 data) by (field; lra).
  rewrite <- sqrt_Rsqr_abs. apply sqrt_le_1_alt. unfold Rsqr. pose proof (square_below data U d H). cbn [pow] in *. lra.
Qed.
Lemma rim_gap : forall e lhs1 xl yl nx ny num cells mo bd bf data (U v : point -> R) K L, sampler_ok lhs1 -> (forall i n, latin n (lhs1 i n)) -> (4 <= num)%Z -> fst xl < snd xl -> fst yl < snd yl ->
  generate_quad_mesh_internal e lhs1 xl yl nx ny num = Ok (cells, mo, bd) -> boundary_data bd bf data ->
  (forall tag pts p b, In (tag, pts) bd -> In p pts -> dget Z.eqb bf tag = Ok b -> b (fst p) (snd p) = v p) -> 0 <= K + L -> steepness_on (in_box xl yl) U K -> steepness_on (in_box xl yl) v L ->
  length data = (4 * Z.to_nat (num / 4))%nat /\
  forall p, on_rim xl yl p -> Rabs (U p - v p) <= sqrt (INR (length data) * mean_gap data U) + (K + L) * (Rmax (snd xl - fst xl) (snd yl - fst yl) / INR (Z.to_nat (num / 4))).
Proof.
  intros e lhs1 [x0 x1] [y0 y1] nx ny num cells mo bd bf data U v K L Hs Hl Hn Hx Hy E Hd Ha HKL HU Hv. cbn [fst snd] in *.
  destruct (rim_point e lhs1 x0 x1 y0 y1 nx ny num cells mo bd Hs Hl Hn Hx Hy E) as (Hk & Len & Rp). split.
  - destruct Hd as [D _]. rewrite <- Len, <- D. now rewrite map_length.
  - intros p Hp. destruct (Rp p Hp) as (q & Iq & Bq & Fq). assert (Bp : in_box (x0, x1) (y0, y1) p) by apply Hp.
    assert (X : Rabs (U q - v q) <= sqrt (INR (length data) * mean_gap data U)).
    { rewrite <- (proj1 Hd) in Iq. apply in_map_iff in Iq. destruct Iq as (d & <- & Id). destruct (data_source bf bd data Hd d Id) as (tag & pts & b & A1 & A2 & A3 & A4).
      rewrite (Ha tag pts (fst d) b A1 A2 A3) in A4. rewrite <- A4. now apply gap_point. }
    pose proof (HU p q Bp Bq) as A. pose proof (Hv p q Bp Bq) as B. pose proof (Rmult_le_compat_l (K + L) _ _ HKL Fq) as M.
    replace (U p - v p) with ((U q - v q) + ((U p - U q) + - (v p - v q))) by ring.
    eapply Rle_trans; [apply Rabs_triang|]. apply Rplus_le_compat; [exact X|]. eapply Rle_trans; [apply Rabs_triang|]. rewrite Rabs_Ropp. lra.
Qed.

(* ---------- the scripts ---------- *)
Lemma fold_nonneg : forall {T} (F : T -> R) l, (forall c, 0 <= F c) -> 0 <= fold_right (fun c acc => F c + acc) 0 l.
Proof. intros T F l H. induction l as [|c l IH]; cbn; [lra|]. specialize (H c). lra. Qed.
Lemma discrete_nonneg : forall rule f U G a bx bn g fam k cells, 0 <= discrete_loss rule f U G a bx bn g fam k cells.
Proof.
  intros. unfold discrete_loss. apply (fold_nonneg (fun c => Sum (fun i => Sum (fun j => rule (weak_integrand f U G a bx bn g (RefMap "bilinear" c) (Phi fam i j)) ^ 2) k) k / INR (k * k))).
  intros c. unfold Rdiv. apply Rmult_le_pos.
  - change Sum with rsum. apply rsum_nonneg. intros i _. apply rsum_nonneg. intros j _. apply pow2_ge_0.
  - destruct (k * k)%nat as [|n] eqn:E; [cbn; rewrite Rinv_0; lra|]. left. apply Rinv_0_lt_compat. apply (lt_INR 0). lia.
Qed.
Lemma script_error : forall e lhs1 o template vtk pb sc i weights fs r al bx bn g, numpy_ok e -> sampler_ok lhs1 -> (forall i n, latin n (lhs1 i n)) -> oracle_ok o (Z.to_nat (i_quad_order i)) ->
  fst (i_xlim i) < snd (i_xlim i) -> fst (i_ylim i) < snd (i_ylim i) -> (1 <= i_ncx i)%Z /\ (1 <= i_ncy i)%Z -> (4 <= i_nb i)%Z -> 0 < i_beta i ->
  script_pde sc (pb_params pb) al bx bn g false -> run_internal e lhs1 o template vtk pb sc i weights fs = Ok r ->
  (forall tag b, dget Z.eqb (pb_bound pb) tag = Ok b -> forall p, side_point (i_xlim i) (i_ylim i) tag p -> b (fst p) (snd p) = pb_exact pb (fst p) (snd p)) ->
  forall t U G phi sg top rho K L rs, (t < Z.to_nat (i_epochs i))%nat -> pointwise (the_network sc (weights t)) U G -> barrier sg al bx bn g (i_xlim i) (i_ylim i) phi top rho ->
  0 <= K -> 0 <= L -> steepness_on (in_box (i_xlim i) (i_ylim i)) U K -> steepness_on (in_box (i_xlim i) (i_ylim i)) (fun p => pb_exact pb (fst p) (snd p)) L ->
  residual_below al bx bn g (i_xlim i) (i_ylim i) (fun x y => U (x, y)) (pb_rhs pb) rs -> residual_below al bx bn g (i_xlim i) (i_ylim i) (pb_exact pb) (pb_rhs pb) 0 ->
  exists loss, nth t (r_loss r) [] = [loss] /\ let k := INR (Z.to_nat (i_nb i / 4)) in
  forall p, in_box (i_xlim i) (i_ylim i) p -> Rabs (U p - pb_exact pb (fst p) (snd p)) <=
    top * Rmax (sqrt (4 * k * (loss / i_beta i)) + (K + L) * (Rmax (snd (i_xlim i) - fst (i_xlim i)) (snd (i_ylim i) - fst (i_ylim i)) / k)) (rs / rho).
Proof.
  intros e lhs1 o template vtk pb sc i weights fs r al bx bn g He Hs Hl Ho Hx Hy Hc Hn Hb Hp H Hbd t U G phi sg top rho K L rs Ht HU Hbar HK HL SU SL RU RL.
  destruct (internal_script _ _ _ _ _ _ _ _ _ _ _ _ _ _ _ _ He Hs Ho Hx Hy Hc Hn Hp H) as (cells & mo & bd & fam & w & xi & eta & data & E & _ & _ & D & _ & V).
  specialize (V t U G Ht HU). cbn iota in V. set (pde := discrete_loss _ _ _ _ _ _ _ _ _ _ _) in V. assert (P0 : 0 <= pde) by apply discrete_nonneg.
  exists (pde + i_beta i * mean_gap data U). split; [exact V|]. cbv zeta. intros [x y] Hin.
  destruct (i_xlim i) as [x0 x1] eqn:Exl. destruct (i_ylim i) as [y0 y1] eqn:Eyl. cbn [fst snd] in Hx, Hy.
  destruct (rim_gap e lhs1 (x0, x1) (y0, y1) _ _ _ cells mo bd (pb_bound pb) data U (fun p => pb_exact pb (fst p) (snd p)) K L Hs Hl Hn Hx Hy E D) as [Len Rim]; try assumption; try lra.
  { intros tag pts p b I1 I2 I3. apply (Hbd tag b I3 p). eapply bd_sides; eauto. lia. }
  set (k := INR (Z.to_nat (i_nb i / 4))) in *. assert (Hk0 : 0 <= k) by apply pos_INR.
  assert (EN : INR (length data) = 4 * k) by (rewrite Len; rewrite mult_INR; unfold k; cbn; ring). rewrite EN in Rim.
  assert (Sq : sqrt (4 * k * mean_gap data U) <= sqrt (4 * k * ((pde + i_beta i * mean_gap data U) / i_beta i))).
  { apply sqrt_le_1_alt. apply Rmult_le_compat_l; [lra|]. replace ((pde + i_beta i * mean_gap data U) / i_beta i) with (mean_gap data U + pde / i_beta i) by (field; lra).
    assert (0 <= pde / i_beta i) by (apply Rmult_le_pos; [exact P0 | left; now apply Rinv_0_lt_compat]). lra. }
  cbn [fst snd] in *.
  assert (HM : 0 <= Rmax (x1 - x0) (y1 - y0) / k).
  { unfold Rdiv. apply Rmult_le_pos; [eapply Rle_trans; [|apply Rmax_l]; lra|]. destruct (Req_dec k 0) as [-> | N]; [rewrite Rinv_0; lra | left; apply Rinv_0_lt_compat; lra]. }
  eapply (stability sg al bx bn g (x0, x1) (y0, y1) phi top rho (fun x y => U (x, y)) (pb_exact pb) (pb_rhs pb) rs _ K L Hbar); cbn [fst snd]; try lra; try eassumption.
  - intros [a b] [a' b'] Hp1 Hp2. exact (SU (a, b) (a', b') Hp1 Hp2).
  - pose proof (sqrt_pos (4 * k * ((pde + i_beta i * mean_gap data U) / i_beta i))). assert (0 <= (K + L) * (Rmax (x1 - x0) (y1 - y0) / k)) by (apply Rmult_le_pos; lra). lra.
  - intros [a b] Hr. cbn [fst snd]. specialize (Rim (a, b) Hr). cbn [fst snd] in Rim. lra.
Qed.
