(* Proofs about Quadrature.v: the tensor-product rules. *)
From Coq Require Import String ZArith List Arith Lia Reals Lra.
From Coquelicot Require Import Coquelicot.
From Verif Require Import Num Py Jacobi Quadrature RCalc PolyFacts PolyDeg LegendreFacts ListFacts
  Basis Spec BasisFacts Interp.
Import ListNotations.
Local Open Scope R_scope.

Lemma concat_const_nth : forall {B} (x : list R) (y : list B) i j, (i < length y)%nat -> (j < length x)%nat ->
  nth (i * length x + j) (concat (map (fun _ => x) y)) 0 = nth j x 0.
Proof.
  intros. destruct y as [|b y]; [simpl in H; lia|].
  rewrite concat_map_nth with (m := length x) (da := b); auto.
Qed.
Lemma concat_rep_nth : forall (x y : list R) i j, (i < length y)%nat -> (j < length x)%nat ->
  nth (i * length x + j) (concat (map (fun b => map (fun _ => b) x) y)) 0 = nth i y 0.
Proof.
  intros. rewrite concat_map_nth with (m := length x) (da := 0); auto.
  - rewrite nth_map_lt with (d' := 0); auto.
  - intros; apply map_length.
Qed.
Lemma outer_nth : forall (x y : list R) i j, (i < length x)%nat -> (j < length y)%nat ->
  nth (i * length y + j) (outer_flat x y) 0 = nth i x 0 * nth j y 0.
Proof.
  intros. unfold outer_flat. rewrite concat_map_nth with (m := length y) (da := 0); auto.
  - rewrite nth_map_lt with (d' := 0); auto.
  - intros; apply map_length.
Qed.

Section Tensor.
Variables (x w : list R) (n : nat).
Hypothesis Hx : length x = n.
Hypothesis Hw : length w = n.
Let W := outer_flat w w.
Let XI := fst (meshgrid_flat x x).
Let ETA := snd (meshgrid_flat x x).

Lemma tensorise_eq : tensorise x w = (W, XI, ETA).
Proof. reflexivity. Qed.
Lemma W_len : length W = (n * n)%nat.
Proof.
  unfold W, outer_flat. rewrite concat_blocks_length with (m := n).
  - now rewrite map_length, Hw.
  - intros b Hb. apply in_map_iff in Hb. destruct Hb as (a & <- & _). now rewrite map_length.
Qed.
Lemma XI_len : length XI = (n * n)%nat.
Proof.
  unfold XI. simpl. rewrite concat_blocks_length with (m := n).
  - now rewrite map_length, Hx.
  - intros b Hb. apply in_map_iff in Hb. destruct Hb as (a & <- & _). auto.
Qed.
Lemma ETA_len : length ETA = (n * n)%nat.
Proof.
  unfold ETA. simpl. rewrite concat_blocks_length with (m := n).
  - now rewrite map_length, Hx.
  - intros b Hb. apply in_map_iff in Hb. destruct Hb as (a & <- & _). now rewrite map_length.
Qed.
Lemma tensor_entry : forall i j, (i < n)%nat -> (j < n)%nat ->
  nth (i * n + j) W 0 = nth i w 0 * nth j w 0 /\
  nth (i * n + j) XI 0 = nth j x 0 /\ nth (i * n + j) ETA 0 = nth i x 0.
Proof.
  intros. repeat split.
  - rewrite <- Hw. apply outer_nth; lia.
  - rewrite <- Hx. unfold XI; simpl. apply concat_const_nth; lia.
  - rewrite <- Hx. unfold ETA; simpl. apply concat_rep_nth; lia.
Qed.
Lemma Rule2_double : forall F,
  Rule2 W XI ETA F = rsum (fun i => rsum (fun j => nth i w 0 * nth j w 0 * F (nth j x 0) (nth i x 0)) n) n.
Proof.
  intros. unfold Rule2. change Sum with rsum. rewrite W_len, rsum_mul.
  apply rsum_ext; intros i Hi. apply rsum_ext; intros j Hj.
  destruct (tensor_entry i j Hi Hj) as (-> & -> & ->). reflexivity.
Qed.
Lemma Rule2_product : forall f g, Rule2 W XI ETA (fun a b => f a * g b) = Rule x w f * Rule x w g.
Proof.
  intros. rewrite Rule2_double, !Rule_rsum, Hx. rewrite Rmult_comm, <- rsum_scal_r.
  apply rsum_ext; intros i Hi. rewrite <- rsum_scal. apply rsum_ext; intros; ring.
Qed.

Lemma Int_pow_ex : forall k a b, ex_RInt (fun t => t ^ k) a b.
Proof. intros. eapply pdeg_ex_RInt. apply pdeg_pow. Qed.
Lemma Int2_poly : forall (c : nat -> nat -> R) d a b a' b',
  Int2 (Poly2 c d) a b a' b' =
  rsum (fun i => rsum (fun j => c i j * (RInt (fun t => t ^ i) a b * RInt (fun t => t ^ j) a' b')) d) d.
Proof.
  intros. unfold Int2.
  rewrite (RIntR_ext _ (fun y => rsum (fun i => rsum (fun j => (c i j * RInt (fun t => t ^ i) a b) * y ^ j) d) d)).
  2:{ intros y. unfold Poly2. change Sum with rsum.
      destruct (RInt_rsum (fun i x => rsum (fun j => c i j * (x ^ i * y ^ j)) d) d a b) as [_ E].
      { intros. apply RInt_rsum. intros. eapply pdeg_ex_RInt. apply pdeg_scal.
        apply (pdeg_ext _ (fun x => y ^ k0 * x ^ k)). intros; ring. apply pdeg_scal. apply pdeg_pow. }
      rewrite E. apply rsum_ext; intros i Hi.
      destruct (RInt_rsum (fun j x => c i j * (x ^ i * y ^ j)) d a b) as [_ E2].
      { intros. eapply pdeg_ex_RInt. apply pdeg_scal.
        apply (pdeg_ext _ (fun x => y ^ k * x ^ i)). intros; ring. apply pdeg_scal. apply pdeg_pow. }
      rewrite E2. apply rsum_ext; intros j Hj.
      rewrite (RIntR_ext _ (fun x => (c i j * y ^ j) * x ^ i)) by (intros; ring).
      rewrite RIntR_scal by apply Int_pow_ex. ring. }
  destruct (RInt_rsum (fun i y => rsum (fun j => (c i j * RInt (fun t => t ^ i) a b) * y ^ j) d) d a' b') as [_ E].
  { intros. apply RInt_rsum. intros. eapply pdeg_ex_RInt. apply pdeg_scal. apply pdeg_pow. }
  rewrite E. apply rsum_ext; intros i Hi.
  destruct (RInt_rsum (fun j y => (c i j * RInt (fun t => t ^ i) a b) * y ^ j) d a' b') as [_ E2].
  { intros. eapply pdeg_ex_RInt. apply pdeg_scal. apply pdeg_pow. }
  rewrite E2. apply rsum_ext; intros j Hj. rewrite RIntR_scal by apply Int_pow_ex. ring.
Qed.

Lemma Rule2_poly : forall d c, exact_upto d x w -> Rule2 W XI ETA (Poly2 c d) = Int2 (Poly2 c d) (-1) 1 (-1) 1.
Proof.
  intros d c He. rewrite Int2_poly.
  transitivity (rsum (fun i => rsum (fun j => c i j * Rule2 W XI ETA (fun x y => x ^ i * y ^ j)) d) d).
  - unfold Rule2, Poly2. change Sum with rsum.
    rewrite (rsum_ext _ (fun q => rsum (fun i => rsum (fun j => c i j * (nth q W 0 * (nth q XI 0 ^ i * nth q ETA 0 ^ j))) d) d)).
    + rewrite rsum_swap. apply rsum_ext; intros i Hi. rewrite rsum_swap. apply rsum_ext; intros j Hj.
      now rewrite rsum_scal.
    + intros q Hq. rewrite <- rsum_scal. apply rsum_ext; intros i Hi.
      rewrite <- rsum_scal. apply rsum_ext; intros j Hj. ring.
  - apply rsum_ext; intros i Hi. apply rsum_ext; intros j Hj.
    rewrite (Rule2_product (fun a => a ^ i) (fun b => b ^ j)).
    assert (Pi : pdeg d (fun t => t ^ i)) by (apply (pdeg_mono (S i)); [lia | apply pdeg_pow]).
    assert (Pj : pdeg d (fun t => t ^ j)) by (apply (pdeg_mono (S j)); [lia | apply pdeg_pow]).
    rewrite (exact_pdeg d x w _ He Pi), (exact_pdeg d x w _ He Pj).
    reflexivity.
Qed.
Lemma Rule_one : exact_upto 1 x w -> rsum (fun i => nth i w 0) n = 2.
Proof.
  intros He. specialize (He (fun _ => 1)). rewrite Rule_rsum, Hx in He.
  rewrite (rsum_ext _ (fun i => nth i w 0)) in He.
  - rewrite He. rewrite (RIntR_ext _ (fun _ => 1)).
    + rewrite RIntR_const. lra.
    + intros. unfold Poly. simpl. eqR. ring.
  - intros. unfold Poly. simpl. eqR. ring.
Qed.
Lemma W_sum : exact_upto 1 x w -> rsum (fun q => nth q W 0) (n * n) = 4.
Proof.
  intros He. rewrite rsum_mul.
  rewrite (rsum_ext _ (fun i => nth i w 0 * 2)).
  - rewrite rsum_scal_r, (Rule_one He). ring.
  - intros i Hi. rewrite <- (Rule_one He), <- rsum_scal. apply rsum_ext; intros j Hj.
    now destruct (tensor_entry i j Hi Hj) as (-> & _).
Qed.
Lemma tensor_all : forall (P : R -> Prop),
  (forall i, (i < n)%nat -> P (nth i x 0)) -> (forall i, (i < n)%nat -> 0 < nth i w 0) ->
  forall q, (q < n * n)%nat -> 0 < nth q W 0 /\ P (nth q XI 0) /\ P (nth q ETA 0).
Proof.
  intros P HP HW q Hq. destruct (divmod_index q n Hq) as (i & j & Hi & Hj & ->).
  destruct (tensor_entry i j Hi Hj) as (-> & -> & ->). split; auto.
  apply Rmult_lt_0_compat; auto.
Qed.
End Tensor.

Lemma exact_mono : forall d e x w, (d <= e)%nat -> exact_upto e x w -> exact_upto d x w.
Proof.
  intros d e x w H He. apply pdeg_exact. intros f Hf. apply (exact_pdeg e); auto. eapply pdeg_mono; eauto.
Qed.

(* ---------- the code's Lobatto rule ---------- *)
Lemma gauss_lobatto_eq : forall o m, roots_ok m (roots_jacobi11 o m) -> (1 <= m)%nat ->
  let l := -1 :: (roots_jacobi11 o m ++ [1]) in
  gauss_lobatto o (m + 2) = (l, iws l).
Proof.
  intros o m H Hm l. unfold gauss_lobatto. replace (m + 2 - 2)%nat with m by lia.
  replace (m + 2 - 1)%nat with (S m) by lia. unfold l.
  rewrite (lob_weights m Hm (roots_jacobi11 o m) H). unfold q_jacobi_wrapper. rewrite map_map.
  replace (m + 2)%nat with (S (S m)) by lia.
  f_equal. unfold lw, leg. rewrite !nofnat_R. reflexivity.
Qed.

(* 1D rule behind a 2D rule *)
Definition rule1d (o : quad_oracle R) (n : nat) (ty : string) : list R * list R :=
  if String.eqb ty "gauss-legendre" then leggauss o n
  else let x := -1 :: (roots_jacobi11 o (n - 2) ++ [1]) in
       (x, map (fun a => 2 / (INR (n - 1) * INR n * (LegendreP (n - 1) a * LegendreP (n - 1) a))) x).

Lemma quad2d_gl : forall o order, (1 <= order)%Z ->
  quad2d o order "gauss-legendre" =
  Ok (tensorise (fst (rule1d o (Z.to_nat order) "gauss-legendre")) (snd (rule1d o (Z.to_nat order) "gauss-legendre"))).
Proof.
  intros. unfold quad2d, rule1d. cbn [String.eqb Ascii.eqb Bool.eqb].
  destruct (Z.leb_spec order 0); [lia|]. now destruct (leggauss o (Z.to_nat order)).
Qed.
Lemma quad2d_gj : forall o order, (3 <= order)%Z ->
  quad2d o order "gauss-jacobi" =
  Ok (tensorise (fst (rule1d o (Z.to_nat order) "gauss-jacobi")) (snd (rule1d o (Z.to_nat order) "gauss-jacobi"))).
Proof.
  intros. unfold quad2d, rule1d. cbn [String.eqb Ascii.eqb Bool.eqb].
  destruct (Z.leb_spec (order - 2) 0); [lia|]. unfold gauss_lobatto. cbn [fst snd].
  f_equal. f_equal. cbn [map]. rewrite map_app. cbn [map]. unfold q_jacobi_wrapper. rewrite map_map.
  rewrite !nofnat_R. rewrite !LegendreP_eval. unfold leg. to_R. f_equal. f_equal.
  apply map_ext; intros. rewrite LegendreP_eval. reflexivity.
Qed.

Lemma rule1d_gj_len : forall o n, (3 <= n)%nat -> length (roots_jacobi11 o (n - 2)) = (n - 2)%nat ->
  length (fst (rule1d o n "gauss-jacobi")) = n /\ length (snd (rule1d o n "gauss-jacobi")) = n.
Proof.
  intros. unfold rule1d. cbn [String.eqb Ascii.eqb Bool.eqb fst snd]. rewrite map_length.
  simpl. rewrite app_length, H0. simpl. lia.
Qed.

Lemma rule1d_gj_exact : forall o n, (3 <= n)%nat -> roots_ok (n - 2) (roots_jacobi11 o (n - 2)) ->
  exact_upto (2 * n - 2) (fst (rule1d o n "gauss-jacobi")) (snd (rule1d o n "gauss-jacobi")) /\
  (forall i, (i < n)%nat -> 0 < nth i (snd (rule1d o n "gauss-jacobi")) 0).
Proof.
  intros o n Hn H. set (m := (n - 2)%nat). assert (Hm : (1 <= m)%nat) by lia.
  set (X := roots_jacobi11 o m). assert (HX : roots_ok m X) by auto.
  assert (E : rule1d o n "gauss-jacobi" = (-1 :: (X ++ [1]), iws (-1 :: (X ++ [1])))).
  { rewrite (lob_weights m Hm X HX). unfold rule1d. cbn [String.eqb Ascii.eqb Bool.eqb]. fold m X.
    f_equal. cbn [map]. rewrite map_app. cbn [map].
    assert (F : forall a, 2 / (INR (n - 1) * INR n * (LegendreP (n - 1) a * LegendreP (n - 1) a)) = lw (S m) a).
    { intros. unfold lw. rewrite LegendreP_eval. replace (S (S m)) with n by lia.
      replace (S m) with (n - 1)%nat by lia. reflexivity. }
    rewrite !F. f_equal. f_equal. apply map_ext; auto. }
  rewrite E. cbn [fst snd]. split.
  - apply pdeg_exact. intros f Hf. apply (lob_exact m Hm X HX).
    eapply pdeg_mono; [|apply Hf]. lia.
  - intros i Hi. rewrite (lob_weights m Hm X HX).
    change (lw (S m) (-1) :: (map (lw (S m)) X ++ [lw (S m) 1])) with
      (map (lw (S m)) [-1] ++ (map (lw (S m)) X ++ map (lw (S m)) [1])).
    rewrite <- !map_app. simpl ([-1] ++ _).
    assert (L : length (-1 :: (X ++ [1])) = n).
    { simpl. rewrite app_length. destruct HX as (-> & _). simpl. lia. }
    rewrite nth_map_lt with (d' := 0) by lia.
    apply (lw_pos m Hm X HX). apply nth_In. lia.
Qed.

Lemma rule1d_gj_in : forall o n, (3 <= n)%nat -> roots_ok (n - 2) (roots_jacobi11 o (n - 2)) ->
  forall i, (i < n)%nat -> -1 <= nth i (fst (rule1d o n "gauss-jacobi")) 0 <= 1.
Proof.
  intros o n Hn H i Hi. destruct H as (L & _ & HX).
  assert (Hin : In (nth i (fst (rule1d o n "gauss-jacobi")) 0) (-1 :: (roots_jacobi11 o (n - 2) ++ [1]))).
  { unfold rule1d. cbn [String.eqb Ascii.eqb Bool.eqb fst]. apply nth_In. simpl. rewrite app_length, L. simpl. lia. }
  destruct Hin as [<-|Hin]; [lra|]. apply in_app_or in Hin. destruct Hin as [Hin|[<-|[]]]; [|lra].
  destruct (HX _ Hin). lra.
Qed.

(* ---------- statements about quad2d ---------- *)

Lemma quad2d_inv : forall (o : quad_oracle R) order ty w xi eta, quad2d o order ty = Ok (w, xi, eta) ->
  (ty = "gauss-legendre"%string /\ (1 <= order)%Z \/ ty = "gauss-jacobi"%string /\ (3 <= order)%Z) /\
  tensorise (fst (rule1d o (Z.to_nat order) ty)) (snd (rule1d o (Z.to_nat order) ty)) = (w, xi, eta).
Proof.
  intros o order ty w xi eta H. pose proof H as H'. unfold quad2d in H'.
  destruct (String.eqb_spec ty "gauss-legendre").
  - subst ty. destruct (Z.leb_spec order 0); [discriminate|].
    rewrite quad2d_gl in H by lia. injection H as <- <- <-. split; [left; split; auto; lia | reflexivity].
  - destruct (String.eqb_spec ty "gauss-jacobi"); [|discriminate].
    subst ty. destruct (Z.leb_spec (order - 2) 0); [discriminate|].
    rewrite quad2d_gj in H by lia. injection H as <- <- <-. split; [right; split; auto; lia | reflexivity].
Qed.

Lemma quad2d_valid : forall (o : quad_oracle R) order ty,
  (exists r, quad2d o order ty = Ok r) <->
  (ty = "gauss-legendre"%string /\ (1 <= order)%Z \/ ty = "gauss-jacobi"%string /\ (3 <= order)%Z).
Proof.
  intros. split.
  - intros [[[w xi] eta] H]. now destruct (quad2d_inv _ _ _ _ _ _ H).
  - intros [[-> H]|[-> H]]; [rewrite quad2d_gl | rewrite quad2d_gj]; eauto.
Qed.
Lemma quad2d_error : forall (o : quad_oracle R) order ty e, quad2d o order ty = Err e -> e = ValueError.
Proof.
  intros o order ty e. unfold quad2d.
  repeat match goal with |- context [if ?c then _ else _] => destruct c end; try congruence;
  destruct (leggauss _ _) || destruct (gauss_lobatto _ _); congruence.
Qed.

Lemma rule1d_lengths : forall o order ty, lengths_ok o (Z.to_nat order) ->
  (ty = "gauss-legendre"%string /\ (1 <= order)%Z \/ ty = "gauss-jacobi"%string /\ (3 <= order)%Z) ->
  length (fst (rule1d o (Z.to_nat order) ty)) = Z.to_nat order /\
  length (snd (rule1d o (Z.to_nat order) ty)) = Z.to_nat order.
Proof.
  intros o order ty Ho [[-> H]|[-> H]].
  - destruct Ho as (A & B & _). split; assumption.
  - apply rule1d_gj_len; [lia|]. apply Ho.
Qed.

Lemma quad2d_tensor : forall o order ty w xi eta, lengths_ok o (Z.to_nat order) -> quad2d o order ty = Ok (w, xi, eta) ->
  let n := Z.to_nat order in
  exists x v, length x = n /\ length v = n /\
    (ty = "gauss-legendre"%string -> (x, v) = leggauss o n) /\
    (ty = "gauss-jacobi"%string -> x = -1 :: (roots_jacobi11 o (n - 2) ++ [1])) /\
    length w = (n * n)%nat /\ length xi = (n * n)%nat /\ length eta = (n * n)%nat /\
    (forall i j, (i < n)%nat -> (j < n)%nat ->
       nth (i * n + j) xi 0 = nth j x 0 /\ nth (i * n + j) eta 0 = nth i x 0 /\
       nth (i * n + j) w 0 = nth i v 0 * nth j v 0) /\
    (forall f g, Rule2 w xi eta (fun a b => f a * g b) = Rule x v f * Rule x v g).
Proof.
  intros o order ty w xi eta Ho H n. destruct (quad2d_inv _ _ _ _ _ _ H) as [Hv E].
  destruct (rule1d_lengths o order ty Ho Hv) as [L1 L2].
  unfold tensorise, meshgrid_flat in E. injection E as <- <- <-.
  exists (fst (rule1d o n ty)), (snd (rule1d o n ty)).
  split; [exact L1|]. split; [exact L2|]. split.
  { intros ->. unfold rule1d. cbn [String.eqb Ascii.eqb Bool.eqb]. now destruct (leggauss o n). }
  split. { intros ->. reflexivity. }
  split. { now apply W_len. }
  split. { now apply (XI_len _ n). }
  split. { now apply (ETA_len _ n). }
  split.
  - intros i j Hi Hj. destruct (tensor_entry _ _ n L1 L2 i j Hi Hj) as (A & B & C).
    split; [exact B|]. split; [exact C | exact A].
  - intros f g. now apply (Rule2_product _ _ n).
Qed.

Lemma quad2d_exact : forall o order ty w xi eta d x v,
  quad2d o order ty = Ok (w, xi, eta) -> rule1d o (Z.to_nat order) ty = (x, v) ->
  length x = Z.to_nat order -> length v = Z.to_nat order -> (1 <= d)%nat -> exact_upto d x v ->
  (forall c, Rule2 w xi eta (Poly2 c d) = Int2 (Poly2 c d) (-1) 1 (-1) 1) /\
  Sum (fun q => nth q w 0) (length w) = 4.
Proof.
  intros o order ty w xi eta d x v H E L1 L2 Hd He. destruct (quad2d_inv _ _ _ _ _ _ H) as [Hv T].
  rewrite E in T. cbn [fst snd] in T. unfold tensorise, meshgrid_flat in T. injection T as <- <- <-. split.
  - intros c. now apply (Rule2_poly x v (Z.to_nat order)).
  - rewrite (W_len v (Z.to_nat order) L2). change Sum with rsum. apply (W_sum x v); auto. eapply exact_mono; eauto.
Qed.

Lemma gauss_legendre_exact : forall o order w xi eta,
  leggauss_ok (Z.to_nat order) (leggauss o (Z.to_nat order)) ->
  quad2d o order "gauss-legendre" = Ok (w, xi, eta) ->
  (forall c, Rule2 w xi eta (Poly2 c (2 * Z.to_nat order)) = Int2 (Poly2 c (2 * Z.to_nat order)) (-1) 1 (-1) 1) /\
  (forall q, (q < length w)%nat -> 0 < nth q w 0 /\ -1 < nth q xi 0 < 1 /\ -1 < nth q eta 0 < 1) /\
  Sum (fun q => nth q w 0) (length w) = 4.
Proof.
  intros o order w xi eta Hok H. destruct (quad2d_inv _ _ _ _ _ _ H) as [Hv T].
  destruct Hv as [[_ Hv]|[Hv _]]; [|discriminate].
  destruct (leggauss o (Z.to_nat order)) as [x v] eqn:E. destruct Hok as (L1 & L2 & He). cbn [fst snd] in *.
  assert (E1 : rule1d o (Z.to_nat order) "gauss-legendre" = (x, v)).
  { unfold rule1d. cbn [String.eqb Ascii.eqb Bool.eqb]. exact E. }
  destruct (quad2d_exact o order _ w xi eta (2 * Z.to_nat order) x v H E1 L1 L2 ltac:(lia) He) as [A B].
  refine (conj A (conj _ B)).
  rewrite E1 in T. cbn [fst snd] in T. unfold tensorise, meshgrid_flat in T. injection T as <- <- <-.
  intros q Hq. rewrite (W_len v _ L2) in Hq. pose proof (exact_weights _ x v L1 He) as P.
  apply (tensor_all x v (Z.to_nat order) L1 L2 (fun a => -1 < a < 1)); auto; intros; now apply P.
Qed.

Lemma gauss_jacobi_exact : forall o order w xi eta,
  roots_ok (Z.to_nat order - 2) (roots_jacobi11 o (Z.to_nat order - 2)) ->
  quad2d o order "gauss-jacobi" = Ok (w, xi, eta) ->
  (forall c, Rule2 w xi eta (Poly2 c (2 * Z.to_nat order - 2)) = Int2 (Poly2 c (2 * Z.to_nat order - 2)) (-1) 1 (-1) 1) /\
  (forall q, (q < length w)%nat -> 0 < nth q w 0 /\ -1 <= nth q xi 0 <= 1 /\ -1 <= nth q eta 0 <= 1) /\
  Sum (fun q => nth q w 0) (length w) = 4.
Proof.
  intros o order w xi eta Hok H. destruct (quad2d_inv _ _ _ _ _ _ H) as [Hv T].
  destruct Hv as [[Hv _]|[_ Hv]]; [discriminate|]. assert (Hn : (3 <= Z.to_nat order)%nat) by lia.
  destruct (rule1d_gj_len o (Z.to_nat order) Hn (proj1 Hok)) as [L1 L2].
  destruct (rule1d_gj_exact o (Z.to_nat order) Hn Hok) as [He Hp].
  pose proof (rule1d_gj_in o (Z.to_nat order) Hn Hok) as Hi.
  destruct (rule1d o (Z.to_nat order) "gauss-jacobi") as [x v] eqn:E1. cbn [fst snd] in *.
  destruct (quad2d_exact o order _ w xi eta (2 * Z.to_nat order - 2) x v H E1 L1 L2 ltac:(lia) He) as [A B].
  refine (conj A (conj _ B)). unfold tensorise, meshgrid_flat in T. injection T as <- <- <-.
  intros q Hq. rewrite (W_len v _ L2) in Hq.
  apply (tensor_all x v (Z.to_nat order) L1 L2 (fun a => -1 <= a <= 1)); auto.
Qed.

(* the four corners of the square are quadrature points of the Lobatto rule *)
Lemma gauss_jacobi_ends : forall (o : quad_oracle R) order w xi eta,
  length (roots_jacobi11 o (Z.to_nat order - 2)) = (Z.to_nat order - 2)%nat ->
  quad2d o order "gauss-jacobi" = Ok (w, xi, eta) ->
  forall a b, (a = -1 \/ a = 1) -> (b = -1 \/ b = 1) ->
  exists q, (q < length w)%nat /\ nth q xi 0 = a /\ nth q eta 0 = b.
Proof.
  intros o order w xi eta Hok H a b Ha Hb. destruct (quad2d_inv _ _ _ _ _ _ H) as [Hv T].
  destruct Hv as [[Hv _]|[_ Hv]]; [discriminate|]. set (n := Z.to_nat order) in *. assert (Hn : (3 <= n)%nat) by lia.
  destruct (rule1d_gj_len o n Hn Hok) as [L1 L2].
  assert (X : forall c, c = -1 \/ c = 1 -> exists i, (i < n)%nat /\ nth i (fst (rule1d o n "gauss-jacobi")) 0 = c).
  { intros c Hc. destruct (In_nth (fst (rule1d o n "gauss-jacobi")) c 0) as (i & Hi & Ei).
    - unfold rule1d. cbn [String.eqb Ascii.eqb Bool.eqb fst]. destruct Hc; subst c; [left; auto|].
      right. apply in_or_app. right. left. auto.
    - exists i. split; auto. lia. }
  destruct (X a Ha) as (j & Hj & Ej). destruct (X b Hb) as (i & Hi & Ei).
  destruct (rule1d o n "gauss-jacobi") as [x v]. cbn [fst snd] in *.
  unfold tensorise, meshgrid_flat in T. injection T as <- <- <-.
  exists (i * n + j)%nat. rewrite (W_len _ n L2). split; [nia|].
  destruct (tensor_entry _ _ n L1 L2 i j Hi Hj) as (_ & B & C). split.
  - etransitivity; [exact B | exact Ej].
  - etransitivity; [exact C | exact Ei].
Qed.

Lemma quad_count : forall (o : quad_oracle R) order ty w xi eta,
  lengths_ok o (Z.to_nat order) -> quad2d o order ty = Ok (w, xi, eta) ->
  num_quad_points order = Z.of_nat (length w) /\ length xi = length w /\ length eta = length w.
Proof.
  intros o order ty w xi eta Ho H. destruct (quad2d_tensor o order ty w xi eta Ho H) as (x & v & _ & _ & _ & _ & -> & -> & -> & _).
  assert (1 <= order)%Z by (destruct (proj1 (quad2d_valid o order ty) (ex_intro _ _ H)) as [[_ ?] | [_ ?]]; lia).
  unfold num_quad_points. split; [|auto]. rewrite Nat2Z.inj_mul, Z2Nat.id; lia.
Qed.
