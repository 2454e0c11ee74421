(* Networks with a smooth activation are twice continuously differentiable. *)
From Coq Require Import String ZArith List Arith Lia Bool Reals Lra.
From Coquelicot Require Import Coquelicot.
From Verif Require Import Num Py Basis Tensor Train Nets Spec SpecLoop SpecProblem SpecInit SpecMax ListFacts PolyFacts ErrorFacts NetFacts ProblemFacts InitFacts.
Import ListNotations.
Local Open Scope R_scope.

Lemma smooth1_continuous : forall u ux uy, smooth1 u ux uy -> forall x y, differentiable_pt_lim u x y (ux x y) (uy x y).
Proof.
  intros u ux uy H x y. destruct (H x y) as (A & B & C & D).
  apply filterdiff_differentiable_pt_lim. apply (is_derive_filterdiff u x y ux (uy x y)).
  - apply filter_forall. intros [s t]. apply (H s t).
  - exact B.
  - apply (continuity_2d_pt_filterlim ux x y). exact C.
Qed.
Lemma smooth1_cont : forall u ux uy, smooth1 u ux uy -> forall x y, continuity_2d_pt u x y.
Proof. intros u ux uy H x y. apply differentiable_continuity_pt. exists (ux x y), (uy x y). now apply smooth1_continuous. Qed.
Lemma smooth1_const : forall c, smooth1 (fun _ _ => c) (fun _ _ => 0) (fun _ _ => 0).
Proof. intros c x y. split; [apply (is_derive_const c)|]. split; [apply (is_derive_const c)|]. split; apply continuity_2d_pt_const. Qed.
Lemma smooth1_plus : forall u ux uy v vx vy, smooth1 u ux uy -> smooth1 v vx vy -> smooth1 (fun x y => u x y + v x y) (fun x y => ux x y + vx x y) (fun x y => uy x y + vy x y).
Proof.
  intros u ux uy v vx vy Hu Hv x y. destruct (Hu x y) as (A & B & C & D). destruct (Hv x y) as (A' & B' & C' & D').
  split; [apply (is_derive_plus (fun t => u t y) (fun t => v t y)); auto|]. split; [apply (is_derive_plus (fun t => u x t) (fun t => v x t)); auto|].
  split; now apply continuity_2d_pt_plus.
Qed.
Lemma smooth1_scal : forall k u ux uy, smooth1 u ux uy -> smooth1 (fun x y => k * u x y) (fun x y => k * ux x y) (fun x y => k * uy x y).
Proof.
  intros k u ux uy Hu x y. destruct (Hu x y) as (A & B & C & D).
  split; [now apply (is_derive_scal (fun t => u t y))|]. split; [now apply (is_derive_scal (fun t => u x t))|].
  split; apply (continuity_2d_pt_mult (fun _ _ => k)); auto; apply continuity_2d_pt_const.
Qed.
Lemma smooth1_mult : forall u ux uy v vx vy, smooth1 u ux uy -> smooth1 v vx vy ->
  smooth1 (fun x y => u x y * v x y) (fun x y => ux x y * v x y + u x y * vx x y) (fun x y => uy x y * v x y + u x y * vy x y).
Proof.
  intros u ux uy v vx vy Hu Hv x y. pose proof (smooth1_cont _ _ _ Hu x y). pose proof (smooth1_cont _ _ _ Hv x y). destruct (Hu x y) as (A & B & C & D). destruct (Hv x y) as (A' & B' & C' & D').
  split; [apply (is_derive_mult (fun t => u t y) (fun t => v t y)); auto; intros; apply Rmult_comm|]. split; [apply (is_derive_mult (fun t => u x t) (fun t => v x t)); auto; intros; apply Rmult_comm|].
  split; apply continuity_2d_pt_plus; apply continuity_2d_pt_mult; auto.
Qed.
Lemma smooth1_comp : forall f d u ux uy, (forall z, is_derive f z (d z)) -> (forall z, continuity_pt d z) -> smooth1 u ux uy -> smooth1 (fun x y => f (u x y)) (fun x y => d (u x y) * ux x y) (fun x y => d (u x y) * uy x y).
Proof.
  intros f d u ux uy Hf Hd Hu x y. pose proof (smooth1_cont _ _ _ Hu x y) as Cu. destruct (Hu x y) as (A & B & C & D).
  assert (Cd : continuity_2d_pt (fun x y => d (u x y)) x y) by (apply continuity_1d_2d_pt_comp; auto).
  split; [rewrite Rmult_comm; apply (is_derive_comp f (fun t => u t y)); auto|]. split; [rewrite Rmult_comm; apply (is_derive_comp f (fun t => u x t)); auto|].
  split; now apply continuity_2d_pt_mult.
Qed.

Lemma twice_const : forall c, twice_smooth (fun _ _ => c).
Proof. intros c. do 6 eexists. split; [|split]; apply smooth1_const. Qed.
Lemma twice_fst : twice_smooth (fun x _ => x).
Proof.
  exists (fun _ _ => 1), (fun _ _ => 0), (fun _ _ => 0), (fun _ _ => 0), (fun _ _ => 0), (fun _ _ => 0). split; [|split; apply smooth1_const].
  intros x y. split; [apply (is_derive_id x)|]. split; [apply (is_derive_const x)|]. split; apply continuity_2d_pt_const.
Qed.
Lemma twice_snd : twice_smooth (fun _ y => y).
Proof.
  exists (fun _ _ => 0), (fun _ _ => 1), (fun _ _ => 0), (fun _ _ => 0), (fun _ _ => 0), (fun _ _ => 0). split; [|split; apply smooth1_const].
  intros x y. split; [apply (is_derive_const y)|]. split; [apply (is_derive_id y)|]. split; apply continuity_2d_pt_const.
Qed.
Lemma twice_plus : forall u v, twice_smooth u -> twice_smooth v -> twice_smooth (fun x y => u x y + v x y).
Proof. intros u v (a & b & c & d & e & f & H1 & H2 & H3) (a' & b' & c' & d' & e' & f' & H1' & H2' & H3'). do 6 eexists. split; [|split]; apply smooth1_plus; eassumption. Qed.
Lemma twice_scal : forall k u, twice_smooth u -> twice_smooth (fun x y => k * u x y).
Proof. intros k u (a & b & c & d & e & f & H1 & H2 & H3). do 6 eexists. split; [|split]; apply smooth1_scal; eassumption. Qed.
Lemma twice_comp : forall f u, smooth_activation f -> twice_smooth u -> twice_smooth (fun x y => f (u x y)).
Proof.
  intros f u (d1 & d2 & H) (a & b & c & d & e & g & H1 & H2 & H3).
  assert (C1 : forall z, continuity_pt d1 z) by (intros z; apply derivable_continuous_pt; exists (d2 z); apply is_derive_Reals, H).
  assert (S1 : smooth1 (fun x y => d1 (u x y)) (fun x y => d2 (u x y) * a x y) (fun x y => d2 (u x y) * b x y)) by (apply smooth1_comp; auto; intros z; apply H).
  do 6 eexists. split; [|split].
  - apply (smooth1_comp f d1); [intros z; apply H | exact C1 | exact H1].
  - apply smooth1_mult; [exact S1 | exact H2].
  - apply smooth1_mult; [exact S1 | exact H3].
Qed.
Lemma twice_sum : forall (F : nat -> R -> R -> R) n, (forall k, (k < n)%nat -> twice_smooth (F k)) -> twice_smooth (fun x y => Sum (fun k => F k x y) n).
Proof.
  intros F n H. induction n as [|n IH]; [exact (twice_const 0)|]. apply (twice_plus (fun x y => Sum (fun k => F k x y) n)); [apply IH; auto | apply H; lia].
Qed.
Lemma twice_ext : forall u v, (forall x y, u x y = v x y) -> twice_smooth u -> twice_smooth v.
Proof.
  intros u v E (a & b & c & d & e & f & H1 & H2 & H3). exists a, b, c, d, e, f. split; [|auto]. intros x y. destruct (H1 x y) as (A & B & C & D).
  split; [eapply is_derive_ext; [|exact A]; intros; apply E|]. split; [eapply is_derive_ext; [|exact B]; intros; apply E | auto].
Qed.
Lemma smooth_tanh : smooth_activation tanh.
Proof.
  exists (fun x => 1 - tanh x ^ 2), (fun x => - (2 * tanh x * (1 - tanh x ^ 2))). intros x. split; [apply is_derive_tanh|]. split.
  - assert (D := is_derive_tanh x). auto_derive; [exists (1 - tanh x ^ 2); exact D|]. assert (E : Derive (fun x => tanh x) x = 1 - tanh x ^ 2) by (apply is_derive_unique; exact D). rewrite E. ring.
  - assert (Ct : continuity_pt tanh x) by (apply derivable_continuous_pt; exists (1 - tanh x ^ 2); apply is_derive_Reals, is_derive_tanh).
    apply continuity_pt_opp. apply (continuity_pt_mult (fun x => 2 * tanh x)).
    + apply (continuity_pt_mult (fun _ => 2)); [apply continuity_pt_const; intros ? ?; reflexivity | exact Ct].
    + apply (continuity_pt_minus (fun _ => 1) (fun x => tanh x ^ 2)); [apply continuity_pt_const; intros ? ?; reflexivity|].
      apply (continuity_pt_ext (fun x => tanh x * tanh x)); [intros; ring | now apply continuity_pt_mult].
Qed.

Section Network.
Variables (dims : list Z) (nt : net).
Let d : bool * (mat R * list R) := (true, ([], [])).
Let dim i := Z.to_nat (nth i dims 0%Z).
(* the value of unit j of layer i *)
Fixpoint unit_at (i j : nat) (p : R * R) : R :=
  match i with
  | O => nth j [fst p; snd p] 0
  | S i => let z := Sum (fun k => Spec.entry (fst (snd (nth i (n_layers nt) d))) k j * unit_at i k p) (dim i) + nth j (snd (snd (nth i (n_layers nt) d))) 0 in
           if (i <? length dims - 2)%nat then n_act nt z else z
  end.
Lemma unit_smooth : smooth_activation (n_act nt) -> forall i j, twice_smooth (fun x y => unit_at i j (x, y)).
Proof.
  intros Ha. induction i as [|i IH]; intros j.
  - cbn [unit_at fst snd]. destruct j as [|[|j]]; [apply twice_fst | apply twice_snd | cbn; destruct j; apply twice_const].
  - set (z := fun x y : R => Sum (fun k => Spec.entry (fst (snd (nth i (n_layers nt) d))) k j * unit_at i k (x, y)) (dim i) + nth j (snd (snd (nth i (n_layers nt) d))) 0).
    assert (Hz : twice_smooth z) by (apply (twice_plus _ (fun _ _ => nth j (snd (snd (nth i (n_layers nt) d))) 0)); [|apply twice_const];
      apply (twice_sum (fun k x y => Spec.entry (fst (snd (nth i (n_layers nt) d))) k j * unit_at i k (x, y))); intros k _; apply twice_scal, IH).
    cbn [unit_at]. destruct (i <? length dims - 2)%nat; [exact (twice_comp (n_act nt) z Ha Hz) | exact Hz].
Qed.
Lemma unit_value : forall outs, starts dims outs nt -> forall p y, nn_out (network_of nt) [p] = Ok [y] -> forall j, (j < Z.to_nat outs)%nat -> nth j y 0 = unit_at (length dims - 1) j p.
Proof.
  intros outs [H1 H2 H3 H4 H5] p y E j Hj. destruct (forward dims nt H1 H2 H4 H5 p) as (P & P0 & PL & PS & PE). rewrite E in PE. injection PE as ->.
  assert (I : forall i, (i < length dims)%nat -> forall k, (k < dim i)%nat -> nth k (P i) 0 = unit_at i k p).
  { induction i as [|i IH]; intros Hi k Hk; [rewrite P0; reflexivity|]. unfold dim in Hk. rewrite <- Nat.add_1_r in Hk. specialize (PS i k d ltac:(lia) Hk). cbn [unit_at].
    destruct (nth i (n_layers nt) d) as [fl [kernel bias]] eqn:En. cbv zeta in PS. cbn [fst snd]. rewrite PS.
    assert (Es : Sum (fun k0 => nth k0 (P i) 0 * Spec.entry kernel k0 k) (Z.to_nat (nth i dims 0%Z)) = Sum (fun k0 => Spec.entry kernel k0 k * unit_at i k0 p) (dim i)).
    { change Sum with rsum. apply rsum_ext. intros r Hr. rewrite (IH ltac:(lia) r Hr). ring. }
    rewrite Es. reflexivity. }
  apply I; [lia|]. unfold dim. now rewrite H3.
Qed.
End Network.
Lemma network_smooth : forall dims outs nt, starts dims outs nt -> smooth_activation (n_act nt) -> forall F, (forall p, nn_out (network_of nt) [p] = Ok [F p]) ->
  forall j, (j < Z.to_nat outs)%nat -> twice_smooth (fun x y => nth j (F (x, y)) 0).
Proof.
  intros dims outs nt Hs Ha F HF j Hj. apply (twice_ext (fun x y => unit_at dims nt (length dims - 1) j (x, y))); [|now apply unit_smooth].
  intros x y. symmetry. now apply (unit_value dims nt outs).
Qed.
(* any finite network is steep to some degree *)
Lemma sum_term : forall f n, (forall i, (i < n)%nat -> 0 <= f i) -> forall i, (i < n)%nat -> f i <= Sum f n.
Proof.
  intros f n H. induction n as [|n IH]; intros i Hi; [lia|]. cbn. pose proof (H n ltac:(lia)). assert (0 <= Sum f n) by (change Sum with rsum; apply rsum_nonneg; auto).
  destruct (Nat.eq_dec i n) as [-> | N]; [lra|]. specialize (IH ltac:(auto) i ltac:(lia)). lra.
Qed.
Lemma gains_exist : forall dims outs nt, starts dims outs nt -> exists g, gains dims nt g.
Proof.
  intros dims outs nt [_ _ _ [L _] _].
  set (row := fun i j => Sum (fun k => Rabs (Spec.entry (fst (snd (nth i (n_layers nt) (true, ([], []))))) k j)) (Z.to_nat (nth i dims 0%Z))).
  assert (R0 : forall i j, 0 <= row i j) by (intros i j; unfold row; change Sum with rsum; apply rsum_nonneg; intros; apply Rabs_pos).
  exists (fun i => Sum (row i) (Z.to_nat (nth (i + 1) dims 0%Z))). intros i d Hi. split; [change Sum with rsum; apply rsum_nonneg; auto|].
  intros j Hj. rewrite (nth_indep (n_layers nt) d (true, ([], []))) by lia. apply (sum_term (row i)); auto.
Qed.
Lemma network_steep : forall dims nt U D, starts dims 1 nt -> nonexpansive (n_act nt) -> (forall p, nn_out (network_of nt) [p] = Ok [[U p]]) -> exists K, 0 <= K /\ steepness_on D U K.
Proof.
  intros dims nt U D Hs Ha HU. destruct (gains_exist _ _ _ Hs) as [g Hg]. exists (product g (length dims - 1)). split.
  - apply product_nonneg. intros i Hi. apply (Hg i (true, ([], [])) Hi).
  - intros p q _ _. exact (steep dims 1 nt g Hs Ha Hg p q _ _ (HU p) (HU q) 0%nat ltac:(lia)).
Qed.

(* continuous functions are bounded on a rectangle *)
Lemma bounded_box : forall f xl yl, (forall x y, in_box xl yl (x, y) -> continuity_2d_pt f x y) -> exists B, forall x y, in_box xl yl (x, y) -> Rabs (f x y) <= B.
Proof.
  intros f [a b] [c d] H. destruct (Rle_dec a b) as [Hab|Hab]; [|exists 0; intros x y [A _]; cbn in A; lra]. destruct (Rle_dec c d) as [Hcd|Hcd]; [|exists 0; intros x y [_ A]; cbn in A; lra].
  destruct (uniform_continuity_2d f a b c d) with (eps := mkposreal 1 Rlt_0_1) as [delta Hd].
  { intros x y Hx Hy. apply H. split; auto. }
  cbn [pos] in Hd. set (M := (b - a) + (d - c) + 1). destruct (archimed_cor1 (delta / M)) as (N & HN & HN0); [apply Rdiv_lt_0_compat; [apply delta | unfold M; lra]|].
  assert (PN : 0 < INR N) by now apply lt_0_INR. assert (St : forall s, 0 <= s <= M -> s / INR N < delta).
  { intros s Hs. assert (M * / INR N < M * (delta / M)) by (apply Rmult_lt_compat_l; [unfold M; lra | exact HN]). replace (M * (delta / M)) with (pos delta) in * by (field; unfold M; lra).
    assert (s / INR N <= M * / INR N) by (apply Rmult_le_compat_r; [left; now apply Rinv_0_lt_compat | lra]). lra. }
  exists (Rabs (f a c) + INR N). intros x y [Hx Hy]. cbn [fst snd] in *.
  set (X := fun j : nat => a + INR j * ((x - a) / INR N)). set (Y := fun j : nat => c + INR j * ((y - c) / INR N)).
  assert (Qx : 0 <= (x - a) / INR N) by (apply Rmult_le_pos; [lra | left; now apply Rinv_0_lt_compat]). assert (Qy : 0 <= (y - c) / INR N) by (apply Rmult_le_pos; [lra | left; now apply Rinv_0_lt_compat]).
  assert (In : forall j, (j <= N)%nat -> a <= X j <= b /\ c <= Y j <= d).
  { intros j Hj. assert (J : INR j <= INR N) by now apply le_INR. pose proof (pos_INR j).
    assert (INR j * ((x - a) / INR N) <= x - a) by (apply Rle_trans with (INR N * ((x - a) / INR N)); [apply Rmult_le_compat_r; auto | right; field; lra]).
    assert (INR j * ((y - c) / INR N) <= y - c) by (apply Rle_trans with (INR N * ((y - c) / INR N)); [apply Rmult_le_compat_r; auto | right; field; lra]).
    pose proof (Rmult_le_pos _ _ (pos_INR j) Qx). pose proof (Rmult_le_pos _ _ (pos_INR j) Qy). unfold X, Y. lra. }
  assert (W : forall j, (j <= N)%nat -> Rabs (f (X j) (Y j)) <= Rabs (f a c) + INR j).
  { induction j as [|j IH]; intros Hj.
    - unfold X, Y. cbn [INR]. rewrite !Rmult_0_l, !Rplus_0_r. lra.
    - specialize (IH ltac:(lia)). destruct (In j ltac:(lia)) as [A1 A2]. destruct (In (S j) Hj) as [B1 B2].
      assert (D : Rabs (f (X (S j)) (Y (S j)) - f (X j) (Y j)) < 1).
      { apply Hd; auto; unfold X, Y; rewrite S_INR; match goal with |- Rabs (?p + (?q + 1) * ?s - (?p + ?q * ?s)) < _ => replace (p + (q + 1) * s - (p + q * s)) with s by ring end; rewrite Rabs_pos_eq by auto; apply St; unfold M; lra. }
      rewrite S_INR. replace (f (X (S j)) (Y (S j))) with (f (X j) (Y j) + (f (X (S j)) (Y (S j)) - f (X j) (Y j))) by ring. eapply Rle_trans; [apply Rabs_triang | lra]. }
  specialize (W N ltac:(lia)). unfold X, Y in W. replace (a + INR N * ((x - a) / INR N)) with x in W by (field; lra). replace (c + INR N * ((y - c) / INR N)) with y in W by (field; lra). exact W.
Qed.
Lemma residual_finite : forall al bx bn g xl yl u f, twice_smooth u -> (forall x y, in_box xl yl (x, y) -> continuity_2d_pt f x y) -> exists r, residual_below al bx bn g xl yl u f r.
Proof.
  intros al bx bn g xl yl u f (a & b & c & d & e & h & H1 & H2 & H3) Hf.
  destruct (bounded_box (fun x y => applied al bx bn g u a b c h x y - f x y) xl yl) as [B HB].
  - intros x y Hin. unfold applied. apply (continuity_2d_pt_minus (fun x y => - al * (c x y + h x y) + (bx * a x y + bn * b x y) + g * u x y) f); [|now apply Hf].
    assert (Sc : forall k v, continuity_2d_pt v x y -> continuity_2d_pt (fun x y => k * v x y) x y) by (intros k v Hv; apply (continuity_2d_pt_mult (fun _ _ => k)); [apply continuity_2d_pt_const | exact Hv]).
    apply (continuity_2d_pt_plus (fun x y => - al * (c x y + h x y) + (bx * a x y + bn * b x y)) (fun x y => g * u x y)); [|apply Sc; exact (smooth1_cont _ _ _ H1 x y)].
    apply (continuity_2d_pt_plus (fun x y => - al * (c x y + h x y)) (fun x y => bx * a x y + bn * b x y)).
    + apply (Sc (- al) (fun x y => c x y + h x y)). apply continuity_2d_pt_plus; [apply H2 | apply H3].
    + apply (continuity_2d_pt_plus (fun x y => bx * a x y) (fun x y => bn * b x y)); apply Sc; apply H1.
  - exists B, a, b, c, h. split; [|exact HB]. intros x y. destruct (H1 x y) as (A1 & A2 & _). destruct (H2 x y) as (A3 & _). destruct (H3 x y) as (_ & A4 & _). auto.
Qed.
