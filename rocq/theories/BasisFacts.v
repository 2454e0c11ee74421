(* Proofs about Basis.v: layout, derivatives, boundary values, independence. *)
From Coq Require Import ZArith List Arith Lia Reals Lra.
From Coquelicot Require Import Coquelicot.
From Verif Require Import Num Py Jacobi Basis Spec RCalc PolyFacts ListFacts.
Import ListNotations.
Local Open Scope R_scope.

Lemma Sum_rsum : forall f n, Sum f n = rsum f n.
Proof. induction n; simpl; congruence. Qed.
Lemma Binom_gbinom : forall z k, Binom z k = gbinom z k.
Proof. induction k; simpl; auto. rewrite IHk, !nofnat_R. reflexivity. Qed.
Lemma JacobiP_eval : forall n a b x, JacobiP n a b x = peval (jac n a b) x.
Proof.
  intros. rewrite jac_eval. unfold JacobiP. rewrite Sum_rsum. f_equal.
  apply rsum_ext; intros. unfold jcoef. now rewrite !Binom_gbinom.
Qed.
Lemma LegendreP_eval : forall n x, LegendreP n x = peval (leg n) x.
Proof. intros. apply JacobiP_eval. Qed.

(* ---------- layout ---------- *)
Lemma int_sqrt_sq : forall k, int_sqrt (k * k) = k.
Proof. intros. apply Nat.sqrt_square. Qed.

Lemma zeros2_length : forall r c, length (@zeros2 R _ r c) = r.
Proof. intros. apply repeat_length. Qed.

Lemma fill_rows_gen : forall k npts (fx fy : list (list R)) n,
  length fx = k -> length fy = k -> (n <= k)%nat ->
  fold_left (fun values i => set_rows (k * i) (map (vmul (nth i fx [])) fy) values)
            (seq 0 n) (zeros2 (k * k) npts)
  = concat (map (fun r => map (vmul r) fy) (firstn n fx)) ++ skipn (k * n) (zeros2 (k * k) npts).
Proof.
  induction n; intros Hx Hy Hn.
  - simpl. rewrite Nat.mul_0_r. reflexivity.
  - rewrite seq_S, fold_left_app. simpl (0 + n)%nat. rewrite IHn; auto; try lia.
    cbn [fold_left]. unfold set_rows.
    assert (Hlen : length (concat (map (fun r => map (vmul r) fy) (firstn n fx))) = (k * n)%nat).
    { rewrite concat_blocks_length with (m := k).
      - rewrite map_length, firstn_length, Hx. rewrite Nat.min_l by lia. lia.
      - intros b Hb. apply in_map_iff in Hb. destruct Hb as (r & <- & _). now rewrite map_length. }
    rewrite firstn_app, Hlen, Nat.sub_diag, firstn_all2 by lia. rewrite firstn_O, app_nil_r.
    rewrite map_length, Hy.
    rewrite skipn_app, Hlen. rewrite skipn_all2 by lia. rewrite app_nil_l.
    replace (k * n + k - k * n)%nat with k by lia.
    rewrite skipn_skipn_add.
    replace (k + k * n)%nat with (k * S n)%nat by lia.
    rewrite app_assoc. f_equal.
    assert (E : firstn (S n) fx = firstn n fx ++ [nth n fx []]).
    { clear - Hn Hx. assert (n < length fx)%nat by lia. clear Hn Hx. revert n H.
      induction fx; simpl; intros; [lia|]. destruct n; simpl; auto. f_equal. apply IHfx. lia. }
    rewrite E, map_app, concat_app. simpl. now rewrite app_nil_r.
Qed.

Lemma fill_rows_eq : forall k npts (fx fy : list (list R)),
  length fx = k -> length fy = k ->
  fill_rows (k * k) npts k fx fy = concat (map (fun r => map (vmul r) fy) fx).
Proof.
  intros. unfold fill_rows. rewrite fill_rows_gen; auto.
  rewrite skipn_all2 by (rewrite zeros2_length; lia).
  rewrite <- H at 1. rewrite firstn_all. now rewrite app_nil_r.
Qed.

(* A 1D table: n-th function (n = 1..k) at the points x *)
Definition table (g : nat -> R -> R) (k : nat) (x : list R) : list (list R) :=
  map (fun n => map (g n) x) (seq 1 k).

Lemma fill_tables : forall k (g h : nat -> R -> R) xi eta npts,
  fill_rows (k * k) npts k (table g k xi) (table h k eta) =
  concat (map (fun i => map (fun j => map2 (fun x y => g (S i) x * h (S j) y) xi eta) (seq 0 k)) (seq 0 k)).
Proof.
  intros. rewrite fill_rows_eq by (unfold table; rewrite map_length, seq_length; auto).
  unfold table. rewrite map_map. rewrite <- seq_shift. rewrite !map_map. f_equal.
  apply map_ext; intros i. rewrite map_map. apply map_ext; intros j.
  unfold vmul. rewrite map2_map. reflexivity.
Qed.

Lemma fill_tables_shape : forall k g h xi eta npts, length xi = length eta ->
  has_shape (fill_rows (k * k) npts k (table g k xi) (table h k eta)) (k * k) (length xi).
Proof.
  intros. rewrite fill_tables. split.
  - rewrite concat_blocks_length with (m := k).
    + rewrite map_length, seq_length; auto.
    + intros b Hb. apply in_map_iff in Hb. destruct Hb as (i & <- & _).
      now rewrite map_length, seq_length.
  - intros row Hr. apply in_concat in Hr. destruct Hr as (blk & Hb & Hr).
    apply in_map_iff in Hb. destruct Hb as (i & <- & _).
    apply in_map_iff in Hr. destruct Hr as (j & <- & _).
    rewrite map2_length, <- H. apply Nat.min_id.
Qed.

Lemma fill_tables_entry : forall k g h xi eta npts i j q,
  length xi = length eta -> (i < k)%nat -> (j < k)%nat -> (q < length xi)%nat ->
  entry (fill_rows (k * k) npts k (table g k xi) (table h k eta)) (k * i + j) q
  = g (S i) (nth q xi 0) * h (S j) (nth q eta 0).
Proof.
  intros. rewrite fill_tables. unfold entry. rewrite Nat.mul_comm.
  rewrite concat_map_nth with (da := 0%nat).
  - rewrite nth_seq_map by auto. rewrite seq_nth by auto. simpl (0 + _)%nat.
    rewrite map2_nth with (da := 0) (db := 0); auto. lia.
  - intros. now rewrite map_length, seq_length.
  - now rewrite seq_length.
  - auto.
Qed.

(* ---------- pointwise forms of the 1D tables ---------- *)
Definition dphi (f : family) (n : nat) (x : R) : R :=
  match f with
  | FLegendre =>
      if Nat.eqb n 1 then INR (n + 2) / 2 * peval (jac n 1 1) x
      else INR (n + 2) / 2 * peval (jac n 1 1) x - INR n / 2 * peval (jac (n - 2) 1 1) x
  | FLegendreSpecial => peval (pderiv (leg (n + 1))) x - peval (pderiv (leg (n - 1))) x
  | FChebyshev2 =>
      let t1 := INR (n + 1) / 2 * peval (jac n (1/2) (1/2)) x / peval (jac (n + 1) (-1/2) (-1/2)) 1 in
      if Nat.eqb n 1 then t1
      else t1 - INR (n - 1) / 2 * peval (jac (n - 2) (1/2) (1/2)) x
                / peval (jac (n - 1) (-1/2) (-1/2)) 1
  | FJacobiPlain => peval (pderiv (jac (n - 1) 0 0)) x
  end.
Definition ddphi (f : family) (n : nat) (x : R) : R :=
  match f with
  | FLegendre =>
      if orb (Nat.eqb n 1) (Nat.eqb n 2) then INR ((n + 2) * (n + 3)) / 4 * peval (jac (n - 1) 2 2) x
      else INR ((n + 2) * (n + 3)) / 4 * peval (jac (n - 1) 2 2) x
           - INR (n * (n + 1)) / 4 * peval (jac (n - 3) 2 2) x
  | FLegendreSpecial => peval (pderiv (pderiv (leg (n + 1)))) x - peval (pderiv (pderiv (leg (n - 1)))) x
  | FChebyshev2 =>
      let t1 := INR ((n + 2) * (n + 1)) / 4 * peval (jac (n - 1) (3/2) (3/2)) x
                / peval (jac (n + 1) (-1/2) (-1/2)) 1 in
      if orb (Nat.eqb n 1) (Nat.eqb n 2) then t1
      else t1 - INR (n * (n - 1)) / 4 * peval (jac (n - 3) (3/2) (3/2)) x
                / peval (jac (n - 1) (-1/2) (-1/2)) 1
  | FJacobiPlain => peval (pderiv (pderiv (jac (n - 1) 0 0))) x
  end.

Lemma vsub_map : forall (f g : R -> R) x, vsub (map f x) (map g x) = map (fun t => f t - g t) x.
Proof. intros. unfold vsub. rewrite map2_map, map2_diag. reflexivity. Qed.
Lemma vscale_map : forall c (f : R -> R) x, vscale c (map f x) = map (fun t => c * f t) x.
Proof. intros. unfold vscale. now rewrite map_map. Qed.
Lemma vdivs_map : forall c (f : R -> R) x, vdivs (map f x) c = map (fun t => f t / c) x.
Proof. intros. unfold vdivs. now rewrite map_map. Qed.

Ltac tables :=
  unfold table; apply map_ext; intros n;
  repeat (rewrite ?vscale_map, ?vdivs_map, ?vsub_map); apply map_ext; intros t.

Lemma tx_table : forall f k x, tx f k x = table (phi f) k x.
Proof.
  intros. destruct f; unfold tx, leg_test_fcnx, ls_test_fcn, che_test_fcnx, jp_test_fcnx, jw, jw1;
  tables; unfold phi, ChebyshevT; rewrite ?LegendreP_eval, ?JacobiP_eval; reflexivity.
Qed.
Lemma ty_table : forall f k x, ty f k x = table (phi f) k x.
Proof.
  intros. destruct f; unfold ty, leg_test_fcny, ls_test_fcn, che_test_fcny, jp_test_fcny, jw, jw1;
  tables; unfold phi, ChebyshevT; rewrite ?LegendreP_eval, ?JacobiP_eval; reflexivity.
Qed.
Lemma dtx_table : forall f k x, dtx f k x = table (dphi f) k x.
Proof.
  intros. destruct f; unfold dtx, leg_dtest_fcn, ls_test_grad_fcn, che_dtest_fcn, jp_dtest_fcn,
    djacobi_ok, djacobi, leg_d1, che_d1, jw, jw1; cbn [fst].
  - unfold table; apply map_ext; intros n. unfold dphi. rewrite !nofnat_R.
    destruct (Nat.eqb n 1); repeat (rewrite ?vscale_map, ?vdivs_map, ?vsub_map); reflexivity.
  - tables. reflexivity.
  - unfold table; apply map_ext; intros n. unfold dphi. rewrite !nofnat_R.
    destruct (Nat.eqb n 1); repeat (rewrite ?vscale_map, ?vdivs_map, ?vsub_map); reflexivity.
  - tables. reflexivity.
Qed.
Lemma ddtx_table : forall f k x, ddtx f k x = table (ddphi f) k x.
Proof.
  intros. destruct f; unfold ddtx, leg_dtest_fcn, ls_test_grad_grad_fcn, che_dtest_fcn, jp_ddtest_fcn,
    djacobi_ok, djacobi, leg_d2, che_d2, jw, jw1; cbn [snd].
  - unfold table; apply map_ext; intros n. unfold ddphi. rewrite !nofnat_R.
    destruct (Nat.eqb n 1 || Nat.eqb n 2)%bool; repeat (rewrite ?vscale_map, ?vdivs_map, ?vsub_map); reflexivity.
  - tables. reflexivity.
  - unfold table; apply map_ext; intros n. unfold ddphi. rewrite !nofnat_R.
    destruct (Nat.eqb n 1 || Nat.eqb n 2)%bool; repeat (rewrite ?vscale_map, ?vdivs_map, ?vsub_map); reflexivity.
  - tables. reflexivity.
Qed.
