(* Reflection symmetry of the test functions and of the quadrature rules. *)
From Coq Require Import String ZArith List Arith Lia Reals Lra.
From Coquelicot Require Import Coquelicot.
From Verif Require Import Num Py Jacobi Quadrature Basis RCalc PolyFacts PolyDeg LegendreFacts Spec BasisFacts BasisFacts2 Interp QuadFacts.
Import ListNotations.
Local Open Scope R_scope.

(* ---------- parity ---------- *)
Lemma rsum_rev : forall n f, rsum f n = rsum (fun i => f (n - 1 - i)%nat) n.
Proof.
  induction n as [|n IH]; intros f; [reflexivity|]. rewrite rsum_S_l, rsum_S.
  replace (S n - 1 - n)%nat with 0%nat by lia. rewrite (IH (fun i => f (S i))), Rplus_comm. f_equal.
  apply rsum_ext. intros i Hi. f_equal. lia.
Qed.
Lemma rsum_pick : forall n i v, (i < n)%nat -> rsum (fun k => if Nat.eq_dec k i then v else 0) n = v.
Proof.
  induction n as [|n IH]; intros i v Hi; [lia|]. rewrite rsum_S. destruct (Nat.eq_dec n i) as [-> | Hne].
  - rewrite (rsum_ext _ (fun _ => 0)), rsum_0; [ring|]. intros k Hk. destruct (Nat.eq_dec k i); [lia | reflexivity].
  - rewrite IH by lia. ring.
Qed.
Lemma JacobiP_neg : forall n a x, JacobiP n a a (- x) = (-1) ^ n * JacobiP n a a x.
Proof.
  intros n a x. unfold JacobiP. change Sum with rsum. rewrite (rsum_rev (S n) (fun l => Binom _ l * _ * _)).
  rewrite <- Rmult_assoc, (Rmult_comm ((-1) ^ n)), Rmult_assoc. f_equal. rewrite <- rsum_scal. apply rsum_ext. intros l Hl.
  replace (S n - 1 - l)%nat with (n - l)%nat by lia. replace (n - (n - l))%nat with l by lia.
  replace (- x - 1) with (-1 * (x + 1)) by ring. replace (- x + 1) with (-1 * (x - 1)) by ring. rewrite !Rpow_mult_distr.
  replace ((-1) ^ n) with ((-1) ^ l * (-1) ^ (n - l)) by (rewrite <- pow_add; f_equal; lia). ring.
Qed.
Definition sign (i : nat) : R := (-1) ^ i.
Lemma sign_sq : forall i, sign i * sign i = 1.
Proof. intros. unfold sign. rewrite <- Rpow_mult_distr. replace (-1 * -1) with 1 by ring. apply pow1. Qed.
Lemma phi_neg : forall f i x, phi f (S i) (- x) = sign i * phi f (S i) x.
Proof.
  intros f i x. unfold sign. replace ((-1) ^ i) with ((-1) ^ (S (S i))) by (simpl; ring).
  assert (L : forall n, LegendreP n (- x) = (-1) ^ n * LegendreP n x) by (intros; apply JacobiP_neg).
  assert (C : forall n, ChebyshevT n (- x) = (-1) ^ n * ChebyshevT n x) by (intros; unfold ChebyshevT; rewrite JacobiP_neg; unfold Rdiv; ring).
  destruct f; unfold phi; rewrite ?L, ?C; replace (S i + 1)%nat with (S (S i)) by lia; replace (S i - 1)%nat with i by lia; simpl; ring.
Qed.
Lemma der_neg_id : forall x : R, is_derive (fun t : R => - t) x (-1).
Proof. intros x. auto_derive; auto. Qed.
Lemma phi_ex : forall f i x, ex_derive (phi f (S i)) x.
Proof. intros. eexists. apply phi_derive. lia. Qed.
Lemma dphi_neg : forall f i x, Derive (phi f (S i)) (- x) = - sign i * Derive (phi f (S i)) x.
Proof.
  intros f i x.
  assert (E : Derive (fun t => phi f (S i) (- t)) x = - Derive (phi f (S i)) (- x)).
  { apply is_derive_unique. apply (is_derive_ext (fun t => phi f (S i) (- t))); [reflexivity|].
    replace (- Derive (phi f (S i)) (- x)) with ((-1) * Derive (phi f (S i)) (- x)) by ring.
    apply (is_derive_comp (phi f (S i)) (fun t => - t)); [apply Derive_correct, phi_ex|].
    apply der_neg_id. }
  rewrite (Derive_ext _ (fun t => sign i * phi f (S i) t)) in E by (intros; apply phi_neg).
  rewrite Derive_scal in E. lra.
Qed.

(* ---------- symmetric rules ---------- *)
Definition sym_rule (x w : list R) : Prop := forall g, Rule x w (fun t => g (- t)) = Rule x w g.

Lemma RInt_neg : forall d f, pdeg d f -> RInt (fun t => f (- t)) (-1) 1 = RInt f (-1) 1.
Proof.
  intros d f Hf. destruct (pdeg_prim d f Hf) as (F & HF & DF).
  rewrite (RInt_of_derive F f) by (auto; intros; eapply pdeg_continuous; eauto).
  rewrite (RInt_of_derive (fun t => - F (- t)) (fun t => f (- t))).
  - cbv beta. replace (- (-1)) with 1 by lra. replace (Ropp 1) with (-1) by lra. lra.
  - intros x. replace (f (- x)) with (- ((-1) * f (- x))) by ring. apply (is_derive_opp (fun t => F (- t))).
    apply (is_derive_comp F (fun t => - t)); [apply DF|]. apply der_neg_id.
  - intros x. apply (continuous_comp (fun t => - t) f); [|eapply pdeg_continuous; eauto].
    apply (ex_derive_continuous (fun t : R => - t)). eexists. apply der_neg_id.
Qed.
Lemma pdeg_neg : forall d f, pdeg d f -> pdeg d (fun t => f (- t)).
Proof.
  intros d f (p & Hp & Ef). apply (pdeg_ext _ (fun t => rsum (fun k => nth k p 0 * (-1) ^ k * t ^ k) (length p))).
  - intros t. rewrite Ef, peval_mono. apply rsum_ext. intros k Hk. replace (- t) with (-1 * t) by ring. rewrite Rpow_mult_distr. ring.
  - apply pdeg_rsum. intros k Hk. apply pdeg_scal. apply (pdeg_mono (S k)); [lia | apply pdeg_pow].
Qed.
Lemma interpolant : forall l g, NoDup l -> exists p, pdeg (length l) p /\ forall a, In a l -> p a = g a.
Proof.
  intros l g Hn. exists (fun x => rsum (fun i => g (nth i l 0) * lag l i x) (length l)). split.
  - apply pdeg_rsum. intros i Hi. apply pdeg_scal, lag_pdeg, Hi.
  - intros a Ha. destruct (In_nth _ _ 0 Ha) as (j & Hj & <-).
    rewrite (rsum_ext _ (fun i => if Nat.eq_dec i j then g (nth j l 0) else 0)).
    + now apply rsum_pick.
    + intros i Hi. destruct (Nat.eq_dec i j) as [-> | Hne]; [rewrite lag_same by auto; ring | rewrite lag_other by auto; ring].
Qed.
Lemma interp_symmetric : forall x w, NoDup x -> exact_upto (length x) x w -> (forall a, In a x -> In (- a) x) -> sym_rule x w.
Proof.
  intros x w Hn He Hs g. destruct (interpolant x g Hn) as (p & Hp & Ep).
  transitivity (Rule x w (fun t => p (- t))).
  - rewrite !Rule_rsum. apply rsum_ext. intros i Hi. now rewrite Ep by (apply Hs, nth_In, Hi).
  - transitivity (Rule x w p).
    + rewrite (exact_pdeg (length x) x w (fun t => p (- t)) He (pdeg_neg _ _ Hp)), (exact_pdeg (length x) x w p He Hp). exact (RInt_neg _ _ Hp).
    + rewrite !Rule_rsum. apply rsum_ext. intros i Hi. now rewrite Ep by (apply nth_In, Hi).
Qed.

(* the Gauss-Legendre rule *)
Lemma others_zero : forall x i j, (i < length x)%nat -> (j < length x)%nat -> i <> j -> rprod (others x i) (nth j x 0) = 0.
Proof. intros. apply rprod_zero. now apply others_in. Qed.
Lemma others_pdeg : forall x i, (i < length x)%nat -> pdeg (length x) (rprod (others x i)).
Proof. intros x i Hi. apply (pdeg_mono (S (length (others x i)))); [rewrite others_length; lia | apply rprod_pdeg]. Qed.
Lemma gauss_nodup : forall n x w, length x = n -> exact_upto (2 * n) x w -> NoDup x.
Proof.
  intros n x w Hl He. rewrite (NoDup_nth x 0). intros i j Hi Hj E. destruct (Nat.eq_dec i j) as [|Hne]; [assumption|]. exfalso.
  pose proof (rprod_sq_pos (others x i) (fun _ => 1) ltac:(intros; lra) ltac:(intros; apply continuous_const)) as P.
  rewrite <- (exact_pdeg (2 * n) x w) in P; [|exact He|].
  - rewrite Rule_rsum, (rsum_ext _ (fun _ => 0)), rsum_0 in P; [lra|]. intros k Hk. destruct (Nat.eq_dec k i) as [-> | Hk2].
    + rewrite E, others_zero by (auto; lia). ring.
    + rewrite others_zero by auto. ring.
  - apply (pdeg_ext _ (fun t => rprod (others x i) t * rprod (others x i) t)); [intros; ring|].
    apply (pdeg_mono (n + n - 1)); [lia|]. rewrite <- Hl. apply pdeg_mult; now apply others_pdeg.
Qed.
Lemma gauss_nodes : forall n x w, length x = n -> exact_upto (2 * n) x w -> forall a, In a x -> In (- a) x.
Proof.
  intros n x w Hl He a Ha. destruct (In_nth _ _ 0 Ha) as (i & Hi & <-). destruct (in_dec Req_EM_T (- nth i x 0) x) as [|Hn]; [assumption|]. exfalso.
  set (L := rprod (others x i)). set (M := rprod x).
  assert (HL : pdeg n L) by (rewrite <- Hl; now apply others_pdeg). assert (HM : pdeg (S n) M) by (rewrite <- Hl; apply rprod_pdeg).
  assert (D1 : pdeg (2 * n) (fun t => L t * M (- t))) by (apply (pdeg_mono (n + S n - 1)); [lia | apply pdeg_mult; [exact HL | now apply pdeg_neg]]).
  assert (D2 : pdeg (2 * n) (fun t => L (- t) * M t)) by (apply (pdeg_mono (n + S n - 1)); [lia | apply pdeg_mult; [now apply pdeg_neg | exact HM]]).
  assert (E : Rule x w (fun t => L t * M (- t)) = 0).
  { rewrite (exact_pdeg _ x w _ He D1). rewrite <- (RInt_neg _ _ D1).
    rewrite (RIntR_ext _ (fun t => L (- t) * M t)) by (intros t; now rewrite Ropp_involutive).
    rewrite <- (exact_pdeg _ x w _ He D2), Rule_rsum, (rsum_ext _ (fun _ => 0)), rsum_0; [reflexivity|].
    intros k Hk. unfold M. rewrite rprod_zero by (apply nth_In, Hk). ring. }
  rewrite Rule_rsum, (rsum_ext _ (fun k => if Nat.eq_dec k i then nth i w 0 * (L (nth i x 0) * M (- nth i x 0)) else 0)) in E.
  - assert (E2 : nth i w 0 * (L (nth i x 0) * M (- nth i x 0)) = 0).
    { refine (eq_trans _ E). symmetry. now apply rsum_pick. }
    destruct (exact_weights n x w Hl He i ltac:(lia)) as [W _].
    apply Rmult_integral in E2. destruct E2 as [E2|E2]; [lra|]. apply Rmult_integral in E2. destruct E2 as [E2|E2].
    + revert E2. apply rprod_nonzero, others_notin; [now apply (gauss_nodup n x w) | exact Hi].
    + revert E2. now apply rprod_nonzero.
  - intros k Hk. destruct (Nat.eq_dec k i) as [-> | Hne]; [reflexivity|]. unfold L. rewrite others_zero by auto. ring.
Qed.
Lemma gauss_symmetric : forall n xw, leggauss_ok n xw -> sym_rule (fst xw) (snd xw).
Proof.
  intros n [x w] (Hl & _ & He). cbn [fst snd] in *. apply interp_symmetric.
  - exact (gauss_nodup n x w Hl He).
  - apply (exact_mono _ (2 * n)); [lia | exact He].
  - exact (gauss_nodes n x w Hl He).
Qed.
(* the Gauss-Lobatto rule *)
Lemma roots_neg : forall m X, roots_ok m X -> forall a, In a X -> In (- a) X.
Proof.
  intros m X (HL & HN & HX) a Ha. destruct (in_dec Req_EM_T (- a) X) as [|Hn]; [assumption|]. exfalso.
  assert (Z : JacobiP m 1 1 (- a) = 0) by (rewrite JacobiP_neg, (proj2 (HX a Ha)); ring).
  assert (E : peval (jac m 1 1) 1 = 0).
  { apply (pdeg_too_many_roots (- a :: X)); [now constructor | cbn [length]; rewrite HL; apply jac_pdeg|].
    intros b [<- | Hb]; rewrite <- JacobiP_eval; [exact Z | now apply HX]. }
  rewrite jac_at_1, <- Binom_gbinom in E.
  assert (G : forall k z, INR k <= z -> 0 < Binom z k).
  { induction k as [|k IH]; intros z Hz; cbn [Binom]; [lra|]. rewrite S_INR in Hz. pose proof (pos_INR k).
    apply Rdiv_lt_0_compat; [|apply lt_0_INR; lia]. apply Rmult_lt_0_compat; [apply IH; lra | lra]. }
  specialize (G m (INR m + 1) ltac:(lra)). lra.
Qed.
Lemma lobatto_symmetric : forall o n, (3 <= n)%nat -> roots_ok (n - 2) (roots_jacobi11 o (n - 2)) ->
  sym_rule (fst (rule1d o n "gauss-jacobi")) (snd (rule1d o n "gauss-jacobi")).
Proof.
  intros o n Hn Hr. destruct (rule1d_gj_len o n Hn ltac:(apply Hr)) as [L1 L2]. destruct (rule1d_gj_exact o n Hn Hr) as [He _].
  apply interp_symmetric.
  - cbn. destruct Hr as (_ & HN & HX). constructor.
    + intros H. apply in_app_or in H. destruct H as [H|[H|[]]]; [apply HX in H; lra | lra].
    + apply NoDup_rev in HN. rewrite <- (rev_involutive (_ ++ [1])). apply NoDup_rev. rewrite rev_app_distr. cbn [rev app]. constructor; [|exact HN].
      intros H. apply in_rev in H. apply HX in H. lra.
  - rewrite L1. apply (exact_mono _ (2 * n - 2)); [lia | exact He].
  - cbn. intros a [<- | H].
    + right. apply in_or_app. right. left. lra.
    + apply in_app_or in H. destruct H as [H|[<- | []]].
      * right. apply in_or_app. left. exact (roots_neg _ _ Hr a H).
      * left. lra.
Qed.
(* the rule of the square *)
Lemma rule_symmetric : forall o order ty w xi eta, oracle_ok o (Z.to_nat order) -> quad2d o order ty = Ok (w, xi, eta) ->
  forall F, Rule2 w xi eta (fun x y => F (- y) x) = Rule2 w xi eta F /\ Rule2 w xi eta (fun x y => F x (- y)) = Rule2 w xi eta F.
Proof.
  intros o order ty w xi eta [Hg Hr] Hq F. destruct (quad2d_inv o order ty w xi eta Hq) as [Ht E].
  set (n := Z.to_nat order) in *. set (x := fst (rule1d o n ty)) in *. set (v := snd (rule1d o n ty)) in *.
  assert (Hsym : sym_rule x v).
  { destruct Ht as [[-> Hord] | [-> Hord]]; [exact (gauss_symmetric n _ Hg) | apply lobatto_symmetric; [unfold n; lia | exact Hr]]. }
  assert (Hlen : length x = n /\ length v = n).
  { apply (rule1d_lengths o order ty); [|exact Ht]. destruct Hg as (G1 & G2 & _). destruct Hr as (R1 & _). now repeat split. }
  destruct Hlen as [Lx Lv]. rewrite (tensorise_eq x v) in E. injection E as <- <- <-.
  assert (D : forall K, Rule2 (outer_flat v v) (fst (meshgrid_flat x x)) (snd (meshgrid_flat x x)) K
     = Rule x v (fun y => Rule x v (fun s => K s y))).
  { intros K. rewrite (Rule2_double x v n Lx Lv). rewrite Rule_rsum, Lx. apply rsum_ext. intros i Hi.
    rewrite Rule_rsum, Lx, <- rsum_scal. apply rsum_ext. intros j Hj. ring. }
  assert (Sw : forall K, Rule x v (fun y => Rule x v (fun s => K s y)) = Rule x v (fun s => Rule x v (fun y => K s y))).
  { intros K. rewrite !Rule_rsum, Lx.
    rewrite (rsum_ext _ (fun i => rsum (fun j => nth i v 0 * nth j v 0 * K (nth j x 0) (nth i x 0)) n)).
    - rewrite rsum_swap. apply rsum_ext. intros i Hi. rewrite Rule_rsum, Lx, <- rsum_scal. apply rsum_ext. intros j Hj. ring.
    - intros i Hi. rewrite Rule_rsum, Lx, <- rsum_scal. apply rsum_ext. intros j Hj. ring. }
  rewrite !D. split.
  - rewrite (Hsym (fun t => Rule x v (fun s => F t s))). symmetry. apply Sw.
  - rewrite (Hsym (fun y => Rule x v (fun s => F s y))). reflexivity.
Qed.
