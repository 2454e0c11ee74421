(* Polynomial functions of bounded degree: closure, factor theorem, integrals. *)
From Coq Require Import ZArith List Arith Lia Reals Lra.
From Coquelicot Require Import Coquelicot.
From Verif Require Import Num Py Jacobi RCalc PolyFacts.
Import ListNotations.
Local Open Scope R_scope.

(* f is a polynomial function with at most d coefficients *)
Definition pdeg (d : nat) (f : R -> R) : Prop :=
  exists p : list R, (length p <= d)%nat /\ forall x, f x = peval p x.

Lemma pdeg_ext : forall d f g, (forall x, f x = g x) -> pdeg d f -> pdeg d g.
Proof. intros d f g H (p & Hp & Hf). exists p; split; auto. intros; now rewrite <- H. Qed.
Lemma pdeg_mono : forall d e f, (d <= e)%nat -> pdeg d f -> pdeg e f.
Proof. intros d e f H (p & Hp & Hf). exists p; split; auto. lia. Qed.
Lemma padd_length : forall p q : list R, length (padd p q) = Nat.max (length p) (length q).
Proof. induction p; destruct q; simpl; auto. Qed.
Lemma pscale_length : forall c (p : list R), length (pscale c p) = length p.
Proof. intros. apply map_length. Qed.
Lemma pmul_length : forall p q : list R, q <> [] -> (length (pmul p q) <= length p + length q - 1)%nat.
Proof.
  induction p; simpl; intros q Hq; [lia|]. assert (length q <> 0)%nat by (destruct q; simpl; congruence). rewrite padd_length, pscale_length. simpl.
  specialize (IHp q Hq). destruct p; simpl in *; lia.
Qed.
Lemma pdeg_plus : forall d f g, pdeg d f -> pdeg d g -> pdeg d (fun x => f x + g x).
Proof.
  intros d f g (p & Hp & Hf) (q & Hq & Hg). exists (padd p q). split.
  - rewrite padd_length. lia.
  - intros. rewrite peval_padd, Hf, Hg. reflexivity.
Qed.
Lemma pdeg_scal : forall d c f, pdeg d f -> pdeg d (fun x => c * f x).
Proof.
  intros d c f (p & Hp & Hf). exists (pscale c p). split.
  - rewrite pscale_length. lia.
  - intros. rewrite peval_pscale, Hf. reflexivity.
Qed.
Lemma pdeg_minus : forall d f g, pdeg d f -> pdeg d g -> pdeg d (fun x => f x - g x).
Proof.
  intros. apply (pdeg_ext d (fun x => f x + (-1) * g x)). intros; lra.
  apply pdeg_plus; auto. now apply pdeg_scal.
Qed.
Lemma pdeg_mult : forall a b f g, pdeg a f -> pdeg b g -> pdeg (a + b - 1) (fun x => f x * g x).
Proof.
  intros a b f g (p & Hp & Hf) (q & Hq & Hg). destruct q as [|c q].
  - exists []. split; [simpl; lia|]. intros. rewrite Hg. simpl; to_R; ring.
  - exists (pmul p (c :: q)). split.
    + pose proof (pmul_length p (c :: q)). lapply H; [lia | discriminate].
    + intros. rewrite peval_pmul, Hf, Hg. reflexivity.
Qed.
Lemma pdeg_const : forall c, pdeg 1 (fun _ => c).
Proof. intros. exists [c]. split; auto. intros; simpl; to_R; lra. Qed.
Lemma pdeg_0 : forall d, pdeg d (fun _ => 0).
Proof. intros. exists []. split; simpl; auto. lia. Qed.
Lemma pdeg_lin : forall a b, pdeg 2 (fun x => a + b * x).
Proof. intros. exists [a; b]. split; auto. intros; simpl; to_R; lra. Qed.
Lemma pdeg_pow : forall n, pdeg (S n) (fun x => x ^ n).
Proof.
  induction n; simpl.
  - apply pdeg_const.
  - apply (pdeg_ext _ (fun x => (0 + 1 * x) * x ^ n)). intros; lra.
    apply (pdeg_mono (2 + S n - 1)). lia. apply pdeg_mult; auto. apply pdeg_lin.
Qed.
Lemma pdeg_rsum : forall d n (f : nat -> R -> R), (forall k, (k < n)%nat -> pdeg d (f k)) ->
  pdeg d (fun x => rsum (fun k => f k x) n).
Proof.
  induction n; simpl; intros. apply pdeg_0. apply pdeg_plus; auto.
Qed.
Lemma pdeg_peval : forall (p : list R), pdeg (length p) (peval p).
Proof. intros. exists p; auto. Qed.

Lemma pderiv_from_length : forall (p : list R) k, length (pderiv_from k p) = length p.
Proof. induction p; simpl; auto. Qed.
Lemma pderiv_length : forall p : list R, length (pderiv p) = (length p - 1)%nat.
Proof. destruct p; simpl; auto. rewrite pderiv_from_length. lia. Qed.
Lemma pdeg_deriv : forall d f, pdeg (S d) f ->
  exists g, pdeg d g /\ forall x, is_derive f x (g x).
Proof.
  intros d f (p & Hp & Hf). exists (peval (pderiv p)). split.
  - exists (pderiv p). split; auto. rewrite pderiv_length. lia.
  - intros. apply (derR_ext (peval p)); auto. apply is_derive_peval.
Qed.

(* monomial form *)
Lemma peval_mono : forall (p : list R) x, peval p x = rsum (fun k => nth k p 0 * x ^ k) (length p).
Proof.
  induction p; intros; [reflexivity|]. simpl length. rewrite rsum_S_l. cbn [nth peval pow].
  rewrite IHp. to_R. rewrite <- rsum_scal. rewrite Rmult_1_r. f_equal. apply rsum_ext; intros; ring.
Qed.

(* primitive *)
Lemma mono_prim : forall k x, is_derive (fun x : R => / INR (S k) * x ^ S k) x (x ^ k).
Proof.
  intros. eapply derR_eq.
  - apply derR_scal. apply (derR_pow (fun y => y) (S k) x 1). apply derR_id.
  - replace (S k - 1)%nat with k by lia. assert (INR (S k) <> 0) by (apply not_0_INR; lia). field; auto.
Qed.
Lemma pdeg_prim : forall d f, pdeg d f -> exists g, pdeg (S d) g /\ forall x, is_derive g x (f x).
Proof.
  intros d f (p & Hp & Hf).
  exists (fun x => rsum (fun k => nth k p 0 * (/ INR (S k) * x ^ S k)) (length p)). split.
  - apply pdeg_rsum; intros. apply pdeg_scal, pdeg_scal.
    apply (pdeg_mono (S (S k))). lia. apply pdeg_pow.
  - intros. rewrite Hf, peval_mono.
    apply (is_derive_rsum (fun k x => nth k p 0 * (/ INR (S k) * x ^ S k)) (fun k => nth k p 0 * x ^ k)).
    intros. apply derR_scal. apply mono_prim.
Qed.

Lemma pdeg_continuous : forall d f x, pdeg d f -> continuous f x.
Proof.
  intros d f x (p & Hp & Hf). apply (continuous_ext (peval p)). intros; now rewrite Hf.
  apply continuous_peval.
Qed.
Lemma pdeg_ex_RInt : forall d f a b, pdeg d f -> ex_RInt f a b.
Proof.
  intros. apply (ex_RInt_continuous (V := R_CompleteNormedModule)). intros.
  eapply pdeg_continuous; eauto.
Qed.
Lemma pdeg_0_zero : forall f, pdeg 0 f -> forall x, f x = 0.
Proof. intros f (p & Hp & Hf) x. destruct p; simpl in Hp; [|lia]. rewrite Hf. reflexivity. Qed.

(* fundamental theorem and integration by parts *)
Lemma RInt_of_derive : forall (F f : R -> R) a b,
  (forall x, is_derive F x (f x)) -> (forall x, continuous f x) -> RInt f a b = F b - F a.
Proof.
  intros. apply is_RInt_unique. apply (is_RInt_derive F f a b); auto.
Qed.
Lemma pdeg_ibp : forall d e (u v u' v' : R -> R) a b, pdeg d u -> pdeg e v ->
  (forall x, is_derive u x (u' x)) -> (forall x, is_derive v x (v' x)) ->
  RInt (fun x => u' x * v x) a b = u b * v b - u a * v a - RInt (fun x => u x * v' x) a b.
Proof.
  intros d e u v u' v' a b Hu Hv Du Dv.
  assert (D : forall x, is_derive (fun y => u y * v y) x (u' x * v x + u x * v' x))
    by (intros; apply derR_mult; auto).
  assert (E : forall d f f', pdeg d f -> (forall x, is_derive f x (f' x)) -> pdeg d f').
  { intros d0 f f' H H'. destruct (pdeg_deriv d0 f) as (g & Hg & Dg).
    - apply (pdeg_mono d0); auto.
    - apply (pdeg_ext _ g); auto. intros. eapply derR_uniq; eauto. }
  assert (H1 : pdeg (d + e - 1) (fun x => u' x * v x)) by (apply pdeg_mult; eauto).
  assert (H2 : pdeg (d + e - 1) (fun x => u x * v' x)) by (apply pdeg_mult; eauto).
  assert (T : RInt (fun x => u' x * v x + u x * v' x) a b = u b * v b - u a * v a).
  { apply (RInt_of_derive (fun y => u y * v y)); auto. intros.
    apply (pdeg_continuous (d + e - 1)). apply pdeg_plus; auto. }
  rewrite RIntR_plus in T by (eapply pdeg_ex_RInt; eauto). lra.
Qed.

(* ---------- factor theorem ---------- *)
Fixpoint synth (p : list R) (a : R) : list R :=
  match p with
  | [] => []
  | c :: r => match r with [] => [] | _ => peval r a :: synth r a end
  end.
Lemma synth_eval : forall p a x, peval p x - peval p a = (x - a) * peval (synth p a) x.
Proof.
  induction p; intros; simpl; to_R; [ring|]. destruct p as [|b p].
  - simpl; to_R; ring.
  - change (peval (peval (b :: p) a0 :: synth (b :: p) a0) x)
      with (peval (b :: p) a0 + x * peval (synth (b :: p) a0) x).
    specialize (IHp a0 x).
    set (P := peval (b :: p) x) in *. set (Q := peval (b :: p) a0) in *.
    set (T := peval (synth (b :: p) a0) x) in *. clearbody P Q T.
    replace (a + x * P - (a + a0 * Q)) with (x * (P - Q) + (x - a0) * Q) by ring.
    rewrite IHp. ring.
Qed.
Lemma synth_length : forall p a, length (synth p a) = (length p - 1)%nat.
Proof.
  induction p; intros; simpl; auto. destruct p; simpl in *; auto.
  specialize (IHp a0). destruct p; simpl in *; lia.
Qed.
Lemma pdeg_factor : forall d f a, pdeg (S d) f -> f a = 0 ->
  exists g, pdeg d g /\ forall x, f x = (x - a) * g x.
Proof.
  intros d f a (p & Hp & Hf) Ha. exists (peval (synth p a)). split.
  - exists (synth p a). split; auto. rewrite synth_length. lia.
  - intros. rewrite <- synth_eval, <- !Hf. lra.
Qed.

(* product of (x - r) over a list *)
Fixpoint rprod (l : list R) (x : R) : R :=
  match l with [] => 1 | a :: r => (x - a) * rprod r x end.
Lemma rprod_pdeg : forall l, pdeg (S (length l)) (rprod l).
Proof.
  induction l.
  - apply pdeg_const.
  - simpl. apply (pdeg_mono (2 + S (length l) - 1)). lia.
    apply pdeg_mult; auto. apply (pdeg_ext 2 (fun x => -a + 1 * x)). intros; lra. apply pdeg_lin.
Qed.
Lemma rprod_zero : forall l a, In a l -> rprod l a = 0.
Proof.
  induction l; simpl; intros. easy. destruct H. subst; ring. rewrite IHl; auto. ring.
Qed.
Lemma rprod_nonzero : forall l x, ~ In x l -> rprod l x <> 0.
Proof.
  induction l; simpl; intros. lra. apply Rmult_integral_contrapositive. split.
  - intro E. apply H. left. lra.
  - apply IHl. tauto.
Qed.
Lemma pdeg_factor_list : forall l d f, NoDup l -> pdeg (length l + d) f ->
  (forall a, In a l -> f a = 0) -> exists g, pdeg d g /\ forall x, f x = rprod l x * g x.
Proof.
  induction l; simpl; intros d f Hn Hd Hz.
  - exists f. split; auto. intros; ring.
  - inversion Hn; subst. destruct (pdeg_factor _ f a Hd (Hz a (or_introl eq_refl))) as (g & Hg & Eg).
    destruct (IHl d g) as (h & Hh & Eh); auto.
    + intros b Hb. specialize (Hz b (or_intror Hb)). rewrite Eg in Hz.
      apply Rmult_integral in Hz. destruct Hz; auto. exfalso. apply H1.
      replace a with b by lra. auto.
    + exists h. split; auto. intros. rewrite Eg, Eh. ring.
Qed.
Lemma pdeg_too_many_roots : forall l f, NoDup l -> pdeg (length l) f ->
  (forall a, In a l -> f a = 0) -> forall x, f x = 0.
Proof.
  intros. destruct (pdeg_factor_list l 0 f) as (g & Hg & E); auto.
  now rewrite Nat.add_0_r. rewrite E, (pdeg_0_zero g); auto. ring.
Qed.

(* ---------- positivity of integrals ---------- *)
Lemma exists_off : forall (l : list R) a b, a < b -> exists c, a < c < b /\ ~ In c l.
Proof.
  assert (G : forall (l : list R) a b, a < b -> exists a' b', a <= a' /\ b' <= b /\ a' < b' /\
              forall c, a' < c < b' -> ~ In c l).
  { induction l; intros x y H.
    - exists x, y. repeat split; try lra. auto.
    - destruct (IHl x y H) as (x' & y' & H1 & H2 & H3 & H4).
      destruct (Rlt_dec x' a).
      + destruct (Rlt_dec a y').
        * exists x', a. repeat split; try lra. intros c Hc [->|Hi]; [lra|]. apply (H4 c); auto. lra.
        * exists x', y'. repeat split; try lra. intros c Hc [->|Hi]; [lra|]. apply (H4 c); auto.
      + exists x', y'. repeat split; try lra. intros c Hc [->|Hi]; [lra|]. apply (H4 c); auto. }
  intros. destruct (G l a b H) as (a' & b' & H1 & H2 & H3 & H4).
  exists ((a' + b') / 2). split; [lra|]. apply H4. lra.
Qed.

Lemma RInt_pos : forall (f : R -> R) a b c, a < c < b -> (forall x, continuous f x) ->
  (forall x, a < x < b -> 0 <= f x) -> 0 < f c -> 0 < RInt f a b.
Proof.
  intros f a b c Hc Hf Hp Hpos.
  assert (L : locally c (fun x => 0 < f x)).
  { assert (O : open (fun y : R => 0 < y)) by apply open_gt.
    apply (Hf c). apply O. auto. }
  destruct L as [eps He].
  set (d := Rmin (eps / 2) (Rmin ((c - a) / 2) ((b - c) / 2))).
  assert (0 < eps) by apply cond_pos.
  assert (Hd : 0 < d) by (unfold d; repeat apply Rmin_glb_lt; lra).
  assert (D1 : d <= eps / 2) by apply Rmin_l.
  assert (D2 : d <= (c - a) / 2).
  { unfold d. eapply Rle_trans. apply Rmin_r. apply Rmin_l. }
  assert (D3 : d <= (b - c) / 2).
  { unfold d. eapply Rle_trans. apply Rmin_r. apply Rmin_r. }
  assert (I : forall x y, ex_RInt f x y)
    by (intros; apply (ex_RInt_continuous (V := R_CompleteNormedModule)); auto).
  rewrite <- (RInt_Chasles f a (c - d) b) by auto.
  rewrite <- (RInt_Chasles f (c - d) (c + d) b) by auto.
  assert (0 <= RInt f a (c - d)).
  { apply RInt_ge_0; auto. lra. intros. apply Hp. lra. }
  assert (0 <= RInt f (c + d) b).
  { apply RInt_ge_0; auto. lra. intros. apply Hp. lra. }
  assert (0 < RInt f (c - d) (c + d)).
  { apply RInt_gt_0; auto. lra. intros. apply He.
    unfold ball; simpl; unfold AbsRing_ball, abs, minus, plus, opp; simpl.
    apply Rabs_def1; lra. }
  unfold plus; simpl. lra.
Qed.
