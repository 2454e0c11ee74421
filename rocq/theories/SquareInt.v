(* Iterated integrals of continuous functions over the reference square, the order of
   integration, and the error of a quadrature rule. *)
From Coq Require Import ZArith List Arith Lia Reals Lra.
From Coquelicot Require Import Coquelicot.
From Verif Require Import Num Py Quadrature Spec SpecGeom RCalc PolyFacts PolyDeg LegendreFacts Interp QuadFacts CellFacts2 GlobalQuad SpecPde Weierstrass.
Import ListNotations.
Local Open Scope R_scope.

Lemma cont_of_eps : forall (g : R -> R) x, (forall eps, 0 < eps -> exists del, 0 < del /\ forall u, Rabs (u - x) < del -> Rabs (g u - g x) < eps) -> continuous g x.
Proof.
  intros g x H. apply (proj2 (filterlim_locally (F := locally x) g (g x))). intros eps. destruct (H eps (cond_pos eps)) as (del & Hd & K).
  exists (mkposreal _ Hd). intros u Hu. apply K. exact Hu.
Qed.
Lemma ext2_cont_x : forall F, csq F -> forall x y, continuous (fun u => ext2 F u y) x.
Proof.
  intros F HF x y. apply cont_of_eps. intros eps He. destruct (unif F HF eps He) as (del & Hd & H). exists del. split; [exact Hd|].
  intros u Hu. apply H; [exact Hu|]. rewrite Rminus_eq_0, Rabs_R0. exact Hd.
Qed.
Lemma ext2_ex_x : forall F, csq F -> forall y a b, ex_RInt (fun u => ext2 F u y) a b.
Proof. intros F HF y a b. apply (ex_RInt_continuous (V := R_CompleteNormedModule)). intros. now apply ext2_cont_x. Qed.
Lemma RInt_bound : forall (g : R -> R) M, ex_RInt g (-1) 1 -> (forall x, -1 <= x <= 1 -> Rabs (g x) <= M) -> Rabs (RInt g (-1) 1) <= 2 * M.
Proof.
  intros g M Hg H. replace (2 * M) with ((1 - (-1)) * M) by ring. apply abs_RInt_le_const; auto. lra.
Qed.
Lemma ext2_inner_cont : forall F, csq F -> forall y, continuous (fun y => RInt (fun x => ext2 F x y) (-1) 1) y.
Proof.
  intros F HF y. apply cont_of_eps. intros eps He. destruct (unif F HF (eps / 4) ltac:(lra)) as (del & Hd & H). exists del. split; [exact Hd|].
  intros v Hv. rewrite <- (RInt_minus (V := R_CompleteNormedModule)) by (apply ext2_ex_x; auto).
  apply Rle_lt_trans with (2 * (eps / 4)); [|lra]. apply RInt_bound.
  - apply (ex_RInt_minus (V := R_NormedModule)); now apply ext2_ex_x.
  - intros x Hx. left. apply H; [|exact Hv]. rewrite Rminus_eq_0, Rabs_R0. exact Hd.
Qed.
Lemma RInt_ext11 : forall (f g : R -> R), (forall x, -1 <= x <= 1 -> f x = g x) -> RInt f (-1) 1 = RInt g (-1) 1.
Proof. intros f g H. apply RInt_ext. intros x Hx. rewrite Rmin_left, Rmax_right in Hx by lra. apply H. lra. Qed.
Lemma ex_RInt_ext11 : forall (f g : R -> R), (forall x, -1 <= x <= 1 -> f x = g x) -> ex_RInt f (-1) 1 -> ex_RInt g (-1) 1.
Proof. intros f g H. apply ex_RInt_ext. intros x Hx. rewrite Rmin_left, Rmax_right in Hx by lra. apply H. lra. Qed.
Lemma sq_ex_x : forall F, csq F -> forall y, -1 <= y <= 1 -> ex_RInt (fun x => F x y) (-1) 1.
Proof.
  intros F HF y Hy. apply (ex_RInt_ext11 (fun x => ext2 F x y)); [intros x Hx; apply ext2_in; now split | now apply ext2_ex_x].
Qed.
Lemma sq_inner : forall F, csq F -> forall y, -1 <= y <= 1 -> RInt (fun x => ext2 F x y) (-1) 1 = RInt (fun x => F x y) (-1) 1.
Proof. intros F HF y Hy. apply RInt_ext11. intros x Hx. apply ext2_in. now split. Qed.
Lemma sq_ex_outer : forall F, csq F -> ex_RInt (fun y => RInt (fun x => F x y) (-1) 1) (-1) 1.
Proof.
  intros F HF. apply (ex_RInt_ext11 (fun y => RInt (fun x => ext2 F x y) (-1) 1)); [intros; now apply sq_inner|].
  apply (ex_RInt_continuous (V := R_CompleteNormedModule)). intros. now apply ext2_inner_cont.
Qed.
Definition I2 (F : R -> R -> R) : R := Int2 F (-1) 1 (-1) 1.
Lemma I2_bound : forall F M, csq F -> (forall x y, in_square x y -> Rabs (F x y) <= M) -> Rabs (I2 F) <= 4 * M.
Proof.
  intros F M HF H. replace (4 * M) with (2 * (2 * M)) by ring. apply RInt_bound; [now apply sq_ex_outer|].
  intros y Hy. apply RInt_bound; [now apply sq_ex_x|]. intros x Hx. apply H. now split.
Qed.
Lemma I2_ext : forall F G, (forall x y, in_square x y -> F x y = G x y) -> I2 F = I2 G.
Proof. intros F G H. apply RInt_ext11. intros y Hy. apply RInt_ext11. intros x Hx. apply H. now split. Qed.
Lemma I2_minus : forall F G, csq F -> csq G -> I2 (fun x y => F x y - G x y) = I2 F - I2 G.
Proof.
  intros F G HF HG. unfold I2, Int2. rewrite (RInt_ext11 _ (fun y => RInt (fun x => F x y) (-1) 1 - RInt (fun x => G x y) (-1) 1)).
  - apply (RInt_minus (V := R_CompleteNormedModule)); now apply sq_ex_outer.
  - intros y Hy. apply (RInt_minus (V := R_CompleteNormedModule)); now apply sq_ex_x.
Qed.
Lemma I2_scal : forall k F, csq F -> I2 (fun x y => k * F x y) = k * I2 F.
Proof.
  intros k F HF. unfold I2, Int2. rewrite (RInt_ext11 _ (fun y => k * RInt (fun x => F x y) (-1) 1)).
  - apply (RInt_scal (V := R_CompleteNormedModule)). now apply sq_ex_outer.
  - intros y Hy. apply (RInt_scal (V := R_CompleteNormedModule)). now apply sq_ex_x.
Qed.
Lemma I2_plus : forall F G, csq F -> csq G -> I2 (fun x y => F x y + G x y) = I2 F + I2 G.
Proof.
  intros F G HF HG. unfold I2, Int2. rewrite (RInt_ext11 _ (fun y => RInt (fun x => F x y) (-1) 1 + RInt (fun x => G x y) (-1) 1)).
  - apply (RInt_plus (V := R_CompleteNormedModule)); now apply sq_ex_outer.
  - intros y Hy. apply (RInt_plus (V := R_CompleteNormedModule)); now apply sq_ex_x.
Qed.

(* continuity *)
Lemma csq_plus : forall F G, csq F -> csq G -> csq (fun x y => F x y + G x y).
Proof. intros F G HF HG x y H. apply continuity_2d_pt_plus; auto. Qed.
Lemma csq_minus : forall F G, csq F -> csq G -> csq (fun x y => F x y - G x y).
Proof. intros F G HF HG x y H. apply continuity_2d_pt_minus; auto. Qed.
Lemma csq_mult : forall F G, csq F -> csq G -> csq (fun x y => F x y * G x y).
Proof. intros F G HF HG x y H. apply continuity_2d_pt_mult; auto. Qed.
Lemma csq_const : forall c, csq (fun _ _ => c).
Proof. intros c x y H. apply continuity_2d_pt_const. Qed.
Lemma csq_ext : forall F G, (forall x y, F x y = G x y) -> csq F -> csq G.
Proof. intros F G H HF x y Hxy. apply (continuity_2d_pt_ext F); auto. Qed.
Lemma csq_1 : forall f, (forall x, continuous f x) -> csq (fun x _ => f x).
Proof. intros f H x y _. apply (continuity_1d_2d_pt_comp f (fun u _ => u)); [apply continuity_pt_filterlim, H | apply continuity_2d_pt_id1]. Qed.
Lemma csq_2 : forall f, (forall x, continuous f x) -> csq (fun _ y => f y).
Proof. intros f H x y _. apply (continuity_1d_2d_pt_comp f (fun _ v => v)); [apply continuity_pt_filterlim, H | apply continuity_2d_pt_id2]. Qed.
Lemma csq_flip : forall F, csq F -> csq (fun x y => F y x).
Proof.
  intros F H x y [Hx Hy] eps. destruct (H y x (conj Hy Hx) eps) as [del K]. exists del. intros u v Hu Hv. apply K; auto.
Qed.
Lemma csq_rsum : forall (F : nat -> R -> R -> R) n, (forall i, csq (F i)) -> csq (fun x y => rsum (fun i => F i x y) n).
Proof. intros F n H. induction n as [|n IH]; [exact (csq_const 0)|]. exact (csq_plus _ _ IH (H n)). Qed.
Lemma csq_poly : forall c d, csq (Poly2 c d).
Proof.
  intros c d. apply (csq_ext (fun x y => rsum (fun a => rsum (fun b => c a b * (x ^ a * y ^ b)) d) d)); [reflexivity|].
  apply csq_rsum. intros a. apply csq_rsum. intros b. apply csq_mult; [apply csq_const|].
  apply csq_mult; [apply (csq_1 (fun x => x ^ a)) | apply (csq_2 (fun x => x ^ b))]; intros; eapply pdeg_continuous; apply pdeg_pow.
Qed.

(* the order of integration *)
Lemma fubini : forall F, csq F -> I2 F = I2 (fun x y => F y x).
Proof.
  intros F HF. apply Rminus_diag_uniq, Rabs_eq_0, Rle_antisym; [|apply Rabs_pos].
  apply le_epsilon. intros eps He. rewrite Rplus_0_l.
  destruct (weierstrass F HF (eps / 8) ltac:(lra)) as (c & d & H).
  assert (E : I2 (Poly2 c d) = I2 (fun x y => Poly2 c d y x)).
  { unfold I2. rewrite Int2_poly.
    rewrite rsum_swap. rewrite (rsum_ext _ (fun i => rsum (fun j => (fun i j => c j i) i j * (RInt (fun t => t ^ i) (-1) 1 * RInt (fun t => t ^ j) (-1) 1)) d)).
    - rewrite <- Int2_poly. unfold Int2. apply RIntR_ext. intros y. apply RIntR_ext. intros x. unfold Poly2. change Sum with rsum. rewrite rsum_swap.
      apply rsum_ext. intros i Hi. apply rsum_ext. intros; ring.
    - intros i Hi. apply rsum_ext. intros j Hj. ring. }
  replace (I2 F - I2 (fun x y => F y x)) with ((I2 F - I2 (Poly2 c d)) - (I2 (fun x y => F y x) - I2 (fun x y => Poly2 c d y x))) by (rewrite E; ring).
  rewrite <- I2_minus by (auto using csq_poly). rewrite <- (I2_minus (fun x y => F y x)) by (apply csq_flip; auto using csq_poly).
  eapply Rle_trans; [apply Rabs_triang|]. rewrite Rabs_Ropp.
  assert (B1 := I2_bound (fun x y => F x y - Poly2 c d x y) (eps / 8) ltac:(apply csq_minus; auto using csq_poly) H).
  assert (B2 := I2_bound (fun x y => F y x - Poly2 c d y x) (eps / 8) ltac:(apply (csq_flip (fun x y => F x y - Poly2 c d x y)), csq_minus; auto using csq_poly)
    ltac:(intros x y [Hx Hy]; apply H; now split)).
  lra.
Qed.

(* ---------- the error of a rule ---------- *)
Lemma rule_bound : forall w xi eta F M, (forall q, (q < length w)%nat -> 0 < nth q w 0 /\ -1 <= nth q xi 0 <= 1 /\ -1 <= nth q eta 0 <= 1) ->
  Sum (fun q => nth q w 0) (length w) = 4 -> (forall x y, in_square x y -> Rabs (F x y) <= M) -> Rabs (Rule2 w xi eta F) <= 4 * M.
Proof.
  intros w xi eta F M Hq Hs HF. rewrite <- Hs. unfold Rule2. change Sum with rsum. rewrite <- rsum_scal_r.
  apply Rabs_le_between.
  assert (B : forall q, (q < length w)%nat -> - (nth q w 0 * M) <= nth q w 0 * F (nth q xi 0) (nth q eta 0) <= nth q w 0 * M).
  { intros q H. destruct (Hq q H) as (P & P1 & P2). specialize (HF _ _ (conj P1 P2)). apply Rabs_le_between in HF. nra. }
  clear Hs Hq. induction (length w) as [|n IH]; [cbn; lra|]. rewrite !rsum_S. specialize (IH (fun q H => B q (Nat.lt_lt_succ_r _ _ H))). specialize (B n ltac:(lia)). lra.
Qed.
Lemma rule2_minus : forall w xi eta F G, Rule2 w xi eta (fun x y => F x y - G x y) = Rule2 w xi eta F - Rule2 w xi eta G.
Proof.
  intros. unfold Rule2. change Sum with rsum. rewrite <- rsum_minus. apply rsum_ext. intros; ring.
Qed.
Lemma quad_error : forall o order ty w xi eta F c d eps, oracle_ok o (Z.to_nat order) -> quad2d o order ty = Ok (w, xi, eta) ->
  csq F -> (d <= exactness ty (Z.to_nat order))%nat -> (forall x y, in_square x y -> Rabs (F x y - Poly2 c d x y) <= eps) ->
  Rabs (Rule2 w xi eta F - I2 F) <= 8 * eps.
Proof.
  intros o order ty w xi eta F c d eps Ho Hq HF Hd He.
  destruct (quad_exact_low o order ty w xi eta 0 Ho Hq ltac:(lia)) as (_ & P & S).
  assert (E : Rule2 w xi eta (Poly2 c d) = I2 (Poly2 c d)).
  { destruct (quad_tensor o order ty w xi eta Ho Hq) as (x & v & L1 & L2 & T & Ex). unfold tensorise, meshgrid_flat in T. injection T as -> -> ->.
    apply (Rule2_poly x v (Z.to_nat order) L1 L2). eapply exact_mono; [exact Hd | exact Ex]. }
  replace (Rule2 w xi eta F - I2 F) with ((Rule2 w xi eta F - Rule2 w xi eta (Poly2 c d)) - (I2 F - I2 (Poly2 c d))) by (rewrite E; unfold I2; ring).
  rewrite <- rule2_minus, <- I2_minus by (auto using csq_poly).
  eapply Rle_trans; [apply Rabs_triang|]. rewrite Rabs_Ropp.
  assert (B1 := I2_bound (fun x y => F x y - Poly2 c d x y) eps ltac:(apply csq_minus; auto using csq_poly) He).
  assert (B2 := rule_bound w xi eta (fun x y => F x y - Poly2 c d x y) eps P S He). lra.
Qed.
Lemma exactness_large : forall ty n, (2 * n - 2 <= exactness ty n)%nat.
Proof. intros ty n. unfold exactness. destruct (String.eqb ty _); lia. Qed.
Lemma quad_conv : forall F, csq F -> forall eps, 0 < eps -> exists N, forall order, (N <= order)%Z -> forall o ty w xi eta,
  oracle_ok o (Z.to_nat order) -> quad2d o order ty = Ok (w, xi, eta) -> Rabs (Rule2 w xi eta F - I2 F) < eps.
Proof.
  intros F HF eps He. destruct (weierstrass F HF (eps / 16) ltac:(lra)) as (c & d & H).
  exists (Z.of_nat (d + 2)). intros order HN o ty w xi eta Ho Hq.
  apply Rle_lt_trans with (8 * (eps / 16)); [|lra]. apply (quad_error o order ty w xi eta F c d); auto.
  pose proof (exactness_large ty (Z.to_nat order)). lia.
Qed.

(* one degree more is too much *)
Lemma rule_product : forall o order ty w xi eta f, quad2d o order ty = Ok (w, xi, eta) -> oracle_ok o (Z.to_nat order) ->
  (forall a, In a (fst (rule1d o (Z.to_nat order) ty)) -> f a = 0) -> Rule2 w xi eta (fun x _ => f x) = 0.
Proof.
  intros o order ty w xi eta f Hq Ho H. destruct (quad2d_inv _ _ _ _ _ _ Hq) as [_ T].
  unfold tensorise, meshgrid_flat in T. set (x := fst (rule1d o (Z.to_nat order) ty)) in *. set (v := snd (rule1d o (Z.to_nat order) ty)) in *.
  assert (L : length x = Z.to_nat order /\ length v = Z.to_nat order).
  { unfold x, v. destruct (quad2d_inv _ _ _ _ _ _ Hq) as [Q _]. apply (rule1d_lengths o order ty); auto. apply oracle_lengths, Ho. }
  destruct L as [L1 L2]. injection T as <- <- <-.
  rewrite (CellFacts2.Rule2_ext _ _ _ _ (fun a b => f a * 1)) by (intros; ring).
  refine (eq_trans (Rule2_product x v (Z.to_nat order) L1 L2 f (fun _ => 1)) _).
  replace (Rule x v f) with 0; [ring|]. rewrite Rule_rsum. rewrite (rsum_ext _ (fun _ => 0)); [now rewrite rsum_0|].
  intros i Hi. rewrite H by (now apply nth_In). ring.
Qed.
Lemma quad_sharp : forall o order ty w xi eta, oracle_ok o (Z.to_nat order) -> quad2d o order ty = Ok (w, xi, eta) ->
  exists co, Rule2 w xi eta (Poly2 co (S (exactness ty (Z.to_nat order)))) <> I2 (Poly2 co (S (exactness ty (Z.to_nat order)))).
Proof.
  intros o order ty w xi eta Ho Hq.
  assert (W : exists f, pdeg (S (exactness ty (Z.to_nat order))) f /\ (forall a, In a (fst (rule1d o (Z.to_nat order) ty)) -> f a = 0) /\ 0 < RInt f (-1) 1).
  { destruct (quad2d_inv _ _ _ _ _ _ Hq) as [[[-> Hn] | [-> Hn]] _].
    - set (n := Z.to_nat order) in *. destruct Ho as [[L1 _] _]. fold n in L1. exists (fun x => rprod (fst (leggauss o n)) x * rprod (fst (leggauss o n)) x * 1).
      split; [|split].
      + unfold exactness. cbn [String.eqb Ascii.eqb Bool.eqb]. apply (pdeg_mono (S n + S n - 1 + 1 - 1)); [lia|].
        apply pdeg_mult; [|apply pdeg_const]. apply pdeg_mult; (replace (S n) with (S (length (fst (leggauss o n)))) by lia); apply rprod_pdeg.
      + intros a Ha. unfold rule1d in Ha. cbn [String.eqb Ascii.eqb Bool.eqb] in Ha. rewrite (rprod_zero _ a) by exact Ha. ring.
      + apply (rprod_sq_pos (fst (leggauss o n)) (fun _ => 1)); [intros; lra | intros; apply continuous_const].
    - set (n := Z.to_nat order) in *. destruct Ho as [_ [L1 _]]. fold n in L1. set (X := roots_jacobi11 o (n - 2)) in *.
      exists (fun x => rprod X x * rprod X x * (1 - x ^ 2)). split; [|split].
      + unfold exactness. cbn [String.eqb Ascii.eqb Bool.eqb]. apply (pdeg_mono (S (n - 2) + S (n - 2) - 1 + 3 - 1)); [lia|].
        apply pdeg_mult; [|apply one_m_sq_pdeg]. apply pdeg_mult; rewrite <- L1; apply rprod_pdeg.
      + intros a Ha. assert (Ha' : In a (-1 :: (X ++ [1]))) by exact Ha. destruct Ha' as [<- | Ha']; [ring|]. apply in_app_or in Ha'.
        destruct Ha' as [Ha' | [<- | []]]; [rewrite (rprod_zero _ a) by exact Ha'; ring | ring].
      + apply (rprod_sq_pos X (fun x => 1 - x ^ 2)); [intros; nra | intros; eapply pdeg_continuous; apply one_m_sq_pdeg]. }
  destruct W as (f & F1 & F2 & F3). destruct (poly2_prod (S (exactness ty (Z.to_nat order))) 1 f (fun _ => 1) F1) as [co Hco].
  { apply (pdeg_mono 1); [lia | apply pdeg_const]. }
  exists co. rewrite (CellFacts2.Rule2_ext _ _ _ _ (fun a _ => f a)) by (intros; rewrite <- Hco; ring).
  rewrite (rule_product o order ty w xi eta f Hq Ho F2). rewrite (I2_ext _ (fun a _ => f a)) by (intros; rewrite <- Hco; ring).
  unfold I2, Int2. rewrite RIntR_const. apply Rlt_not_eq. change (0 < RInt f (-1) 1 * (1 - -1)). lra.
Qed.
