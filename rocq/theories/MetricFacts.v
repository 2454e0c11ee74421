(* Error measures: norms of the difference. *)
From Coq Require Import ZArith List Arith Lia Bool Reals Lra.
From Verif Require Import Num Py PyFacts Metrics RCalc PolyFacts ListFacts Spec.
Import ListNotations.
Local Open Scope R_scope.

(* ---------- norms of lists ---------- *)
Definition sq (l : list R) : R := vsum (np_square l).
Definition dist (u v : list R) : list R := map2 Rminus u v.
Lemma sq_nonneg : forall l, 0 <= sq l.
Proof. intros l. apply vsum_nonneg. intros a H. apply in_map_iff in H. destruct H as (x & <- & _). nra. Qed.
Lemma sq_zero : forall l, sq l = 0 -> forall x, In x l -> x = 0.
Proof.
  intros l H x Hx. assert (K : x * x = 0).
  { apply (vsum_nonneg_0 (np_square l)); auto; [|apply in_map_iff; eauto].
    intros a Ha. apply in_map_iff in Ha. destruct Ha as (y & <- & _). nra. }
  nra.
Qed.
Lemma abs_sum_nonneg : forall l, 0 <= vsum (np_abs l).
Proof. intros l. apply vsum_nonneg. intros a H. apply in_map_iff in H. destruct H as (x & <- & _). apply Rabs_pos. Qed.
Lemma abs_sum_zero : forall l, vsum (np_abs l) = 0 -> forall x, In x l -> x = 0.
Proof.
  intros l H x Hx. assert (K : Rabs x = 0).
  { apply (vsum_nonneg_0 (np_abs l)); auto; [|apply in_map_iff; eauto].
    intros a Ha. apply in_map_iff in Ha. destruct Ha as (y & <- & _). apply Rabs_pos. }
  destruct (Req_dec x 0) as [|N]; auto. now apply Rabs_no_R0 in N.
Qed.
Lemma max_spec : forall l a, (forall x, In x (a :: l) -> x <= fold_left Rmax l a) /\ In (fold_left Rmax l a) (a :: l).
Proof.
  induction l as [|b l IH]; intros a; cbn [fold_left]; [split; [intros x [<-|[]]; lra | left; auto]|].
  destruct (IH (Rmax a b)) as [U I]. split.
  - assert (M : Rmax a b <= fold_left Rmax l (Rmax a b)) by (apply U; left; auto). pose proof (Rmax_l a b). pose proof (Rmax_r a b).
    intros x [<-|[<-|Hx]]; try lra. apply U. now right.
  - destruct I as [E|I]; [|now right; right]. rewrite <- E. unfold Rmax. destruct (Rle_dec a b); [right; left | left]; auto.
Qed.

(* Cauchy and Minkowski *)
Lemma scale_sq : forall s a b, length a = length b -> 
  sq (map2 (fun x y => x + s * y) a b) = sq a + 2 * s * vsum (map2 Rmult a b) + s * s * sq b.
Proof.
  intros s a. induction a as [|x a IH]; intros [|y b] H; try discriminate; cbn [map2].
  - unfold sq, np_square. cbn [map]. rewrite !vsum_nil. ring.
  - injection H as H. unfold sq in *. cbn [np_square map]. rewrite !vsum_cons. unfold np_square in IH. rewrite (IH b H). ring.
Qed.
Lemma cauchy : forall a b, length a = length b -> vsum (map2 Rmult a b) * vsum (map2 Rmult a b) <= sq a * sq b.
Proof.
  intros a b H. set (p := vsum (map2 Rmult a b)). pose proof (sq_nonneg a). pose proof (sq_nonneg b).
  destruct (Req_dec (sq b) 0) as [Z|N].
  - destruct (Req_dec p 0) as [E|E]; [rewrite E, Z; lra|].
    pose proof (sq_nonneg (map2 (fun x y => x + (- (sq a + 1) / p) * y) a b)) as P. rewrite (scale_sq _ _ _ H) in P. fold p in P. rewrite Z in P.
    replace (sq a + 2 * (- (sq a + 1) / p) * p + - (sq a + 1) / p * (- (sq a + 1) / p) * 0) with (- sq a - 2) in P by (field; auto). lra.
  - pose proof (sq_nonneg (map2 (fun x y => x + (- p / sq b) * y) a b)) as P. rewrite (scale_sq _ _ _ H) in P. fold p in P.
    replace (sq a + 2 * (- p / sq b) * p + - p / sq b * (- p / sq b) * sq b) with ((sq a * sq b - p * p) / sq b) in P by (field; auto).
    apply Rnot_lt_le. intros L. assert (0 < (p * p - sq a * sq b) / sq b) by (apply Rdiv_lt_0_compat; lra).
    unfold Rdiv in *. lra.
Qed.
Lemma minkowski : forall a b, length a = length b -> sqrt (sq (map2 Rplus a b)) <= sqrt (sq a) + sqrt (sq b).
Proof.
  intros a b H. pose proof (sq_nonneg a) as A. pose proof (sq_nonneg b) as B. pose proof (sqrt_pos (sq a)). pose proof (sqrt_pos (sq b)).
  rewrite <- (sqrt_square (sqrt (sq a) + sqrt (sq b))) by lra. apply sqrt_le_1_alt.
  replace (map2 Rplus a b) with (map2 (fun x y => x + 1 * y) a b) by (apply map2_ext; intros; ring). rewrite (scale_sq 1 a b H).
  assert (C : vsum (map2 Rmult a b) <= sqrt (sq a) * sqrt (sq b)).
  { rewrite <- sqrt_mult by auto. pose proof (cauchy a b H). apply Rnot_lt_le. intros L.
    pose proof (sqrt_pos (sq a * sq b)). pose proof (sqrt_sqrt (sq a * sq b) ltac:(nra)). nra. }
  pose proof (sqrt_sqrt _ A). pose proof (sqrt_sqrt _ B). nra.
Qed.
Lemma abs_triangle : forall a b, length a = length b -> vsum (np_abs (map2 Rplus a b)) <= vsum (np_abs a) + vsum (np_abs b).
Proof.
  induction a as [|x a IH]; intros [|y b] H; try discriminate; cbn [map2 np_abs map].
  - rewrite !vsum_nil. lra.
  - rewrite !vsum_cons. specialize (IH b ltac:(now injection H)). unfold np_abs in IH. pose proof (Rabs_triang x y). lra.
Qed.
Lemma dist_split : forall u v w, length u = length v -> length v = length w -> dist u w = map2 Rplus (dist u v) (dist v w).
Proof.
  induction u as [|a u IH]; intros [|b v] [|c w] H K; try discriminate; auto. unfold dist in *. cbn [map2]. f_equal; [ring|].
  apply IH; simpl in *; lia.
Qed.
Lemma dist_length : forall u v, length u = length v -> length (dist u v) = length u.
Proof. intros u v H. unfold dist. rewrite map2_length. lia. Qed.
Lemma dist_sym_sq : forall u v, np_square (dist u v) = np_square (dist v u).
Proof. induction u as [|a u IH]; intros [|b v]; auto. unfold dist, np_square in *. cbn [map2 map]. f_equal; auto. ring. Qed.
Lemma dist_sym_abs : forall u v, np_abs (dist u v) = np_abs (dist v u).
Proof. induction u as [|a u IH]; intros [|b v]; auto. unfold dist, np_abs in *. cbn [map2 map]. f_equal; auto. apply Rabs_minus_sym. Qed.
Lemma dist_zero : forall u v, length u = length v -> ((forall x, In x (dist u v) -> x = 0) <-> u = v).
Proof.
  induction u as [|a u IH]; intros [|b v] H; try discriminate.
  - split; auto. intros _ x [].
  - unfold dist in *. cbn [map2]. injection H as H. split.
    + intros K. f_equal; [specialize (K (a - b) (or_introl eq_refl)); lra|]. apply IH; auto. intros x Hx. apply K. now right.
    + intros K. injection K as -> ->. intros x [<-|Hx]; [ring|]. now apply (IH v H).
Qed.

(* ---------- the functions ---------- *)
Definition comparable (u v : ndarray) : Prop := length (a_data u) = length (a_data v) /\ a_data u <> [].
Lemma comparable_sym : forall u v, comparable u v -> comparable v u.
Proof. intros u v [H N]. split; auto. intros E. rewrite E in H. destruct (a_data u); auto; discriminate. Qed.
Lemma comparable_trans : forall u v w, comparable u v -> comparable v w -> comparable u w.
Proof. intros u v w [H N] [H' N']. split; congruence. Qed.
Definition N (u : ndarray) : R := INR (length (a_data u)).
Lemma N_pos : forall u v, comparable u v -> 0 < N u.
Proof. intros u v [_ H]. unfold N. apply lt_0_INR. destruct (a_data u); [congruence | simpl; lia]. Qed.
Lemma mean_fin : forall l, l <> [] -> np_mean l = Fin (vsum l / INR (length l)).
Proof. intros [|a l] H; [congruence|]. unfold np_mean, vmean. rewrite nofnat_R. reflexivity. Qed.
Lemma map_neq : forall (f : R -> R) l, l <> [] -> map f l <> [].
Proof. intros f [|a l]; simpl; congruence. Qed.
Lemma dist_neq : forall u v, comparable u v -> dist (a_data u) (a_data v) <> [].
Proof. intros u v [H K] E. apply (f_equal (@length R)) in E. rewrite dist_length in E by auto. destruct (a_data u); simpl in *; congruence. Qed.
Lemma sub_eq : forall u v, comparable u v -> np_subtract (a_data u) (a_data v) = Ok (dist (a_data u) (a_data v)).
Proof. intros u v [H _]. unfold np_subtract. rewrite H, Nat.eqb_refl. reflexivity. Qed.

Definition l2 (u v : ndarray) : R := sqrt (sq (dist (a_data u) (a_data v)) / N u).
Definition l1 (u v : ndarray) : R := vsum (np_abs (dist (a_data u) (a_data v))) / N u.
Definition lmax (l : list R) : R := match np_abs l with [] => 0 | a :: r => fold_left Rmax r a end.
Definition linf (u v : ndarray) : R := lmax (dist (a_data u) (a_data v)).
Lemma l2_eq : forall u v, comparable u v -> compute_l2_error u v = Ok (Fin (l2 u v)).
Proof.
  intros u v H. unfold compute_l2_error. cbn [flatten a_data]. rewrite (sub_eq u v H). cbn [bind].
  rewrite mean_fin by now apply map_neq, dist_neq. unfold np_square. rewrite map_length, dist_length by apply H. reflexivity.
Qed.
Lemma l1_eq : forall u v, comparable u v -> compute_l1_error u v = Ok (Fin (l1 u v)).
Proof.
  intros u v H. unfold compute_l1_error. cbn [flatten a_data]. rewrite (sub_eq u v H). cbn [bind].
  rewrite mean_fin by now apply map_neq, dist_neq. unfold np_abs. rewrite map_length, dist_length by apply H. reflexivity.
Qed.
Lemma max_fin : forall l, l <> [] -> np_max (np_abs l) = Ok (Fin (lmax l)).
Proof. intros [|a l] H; [congruence|]. reflexivity. Qed.
Lemma linf_eq : forall u v, comparable u v -> compute_linf_error u v = Ok (Fin (linf u v)).
Proof.
  intros u v H. unfold compute_linf_error. cbn [flatten a_data]. rewrite (sub_eq u v H). cbn [bind]. apply max_fin. now apply dist_neq.
Qed.
Lemma lmax_spec : forall l, l <> [] -> (forall x, In x l -> Rabs x <= lmax l) /\ exists x, In x l /\ lmax l = Rabs x.
Proof.
  intros [|a l] H; [congruence|]. unfold lmax. cbn [np_abs map]. destruct (max_spec (map Rabs l) (Rabs a)) as [U I]. split.
  - intros x Hx. apply U. change (Rabs a :: map Rabs l) with (map Rabs (a :: l)). now apply in_map.
  - change (Rabs a :: map Rabs l) with (map Rabs (a :: l)) in I. apply in_map_iff in I. destruct I as (x & E & Hx). eauto.
Qed.
Lemma lmax_nonneg : forall l, 0 <= lmax l.
Proof.
  intros [|a l]; [unfold lmax; simpl; lra|]. destruct (lmax_spec (a :: l)) as [_ (x & _ & ->)]; [discriminate | apply Rabs_pos].
Qed.
Lemma lmax_zero : forall l, lmax l = 0 <-> forall x, In x l -> x = 0.
Proof.
  intros [|a l]; [split; [intros _ x [] | reflexivity]|]. destruct (lmax_spec (a :: l)) as [U (x & Hx & E)]; [discriminate|]. split.
  - intros Z y Hy. specialize (U y Hy). rewrite Z in U. pose proof (Rabs_pos y). destruct (Req_dec y 0) as [|K]; auto. apply Rabs_no_R0 in K. lra.
  - intros K. rewrite E, (K x Hx). apply Rabs_R0.
Qed.

Section Facts.
Variables u v : ndarray.
Hypothesis H : comparable u v.
Lemma l2_nonneg : 0 <= l2 u v. Proof. apply sqrt_pos. Qed.
Lemma l1_nonneg : 0 <= l1 u v.
Proof. unfold l1. apply Rmult_le_pos; [apply abs_sum_nonneg|]. left. apply Rinv_0_lt_compat. exact (N_pos u v H). Qed.
Lemma linf_nonneg : 0 <= linf u v. Proof. apply lmax_nonneg. Qed.
Lemma div_zero : forall a b, 0 < b -> a / b = 0 -> a = 0.
Proof. intros a b Hb E. apply (f_equal (fun t => t * b)) in E. unfold Rdiv in E. rewrite Rmult_assoc, Rinv_l in E by lra. lra. Qed.
Lemma l2_zero : l2 u v = 0 <-> a_data u = a_data v.
Proof.
  pose proof (N_pos u v H) as P. destruct H as [L _]. split.
  - intros E. apply dist_zero; auto. apply sq_zero. apply sqrt_eq_0 in E.
    + now apply div_zero in E.
    + apply Rmult_le_pos; [apply sq_nonneg | left; now apply Rinv_0_lt_compat].
  - intros E. unfold l2. replace (sq _) with 0; [unfold Rdiv; rewrite Rmult_0_l; apply sqrt_0|].
    rewrite E. unfold sq, dist, np_square. rewrite map2_diag, map_map. symmetry. rewrite (vsum_map_ext _ (fun _ => 0)); [apply vsum_map_0 | intros; ring].
Qed.
Lemma l1_zero : l1 u v = 0 <-> a_data u = a_data v.
Proof.
  pose proof (N_pos u v H) as P. destruct H as [L _]. split.
  - intros E. apply dist_zero; auto. apply abs_sum_zero. now apply div_zero in E.
  - intros E. unfold l1. replace (vsum _) with 0; [unfold Rdiv; ring|].
    rewrite E. unfold dist, np_abs. rewrite map2_diag, map_map. symmetry. rewrite (vsum_map_ext _ (fun _ => 0)); [apply vsum_map_0 |].
    intros a _. rewrite Rminus_diag_eq by auto. apply Rabs_R0.
Qed.
Lemma linf_zero : linf u v = 0 <-> a_data u = a_data v.
Proof. unfold linf. rewrite lmax_zero. apply dist_zero. apply H. Qed.
Lemma N_sym : N u = N v. Proof. unfold N. now rewrite (proj1 H). Qed.
Lemma l2_sym : l2 u v = l2 v u.
Proof. unfold l2, sq. now rewrite dist_sym_sq, N_sym. Qed.
Lemma l1_sym : l1 u v = l1 v u.
Proof. unfold l1. now rewrite dist_sym_abs, N_sym. Qed.
Lemma linf_sym : linf u v = linf v u.
Proof. unfold linf, lmax. now rewrite dist_sym_abs. Qed.
Lemma l1_l2 : l1 u v <= l2 u v.
Proof.
  pose proof (N_pos u v H) as P. pose proof l1_nonneg as P1. rewrite <- (sqrt_square _ P1). apply sqrt_le_1_alt. unfold l1.
  set (d := dist _ _). assert (C : vsum (np_abs d) * vsum (np_abs d) <= sq d * N u).
  { pose proof (cauchy (np_abs d) (map (fun _ => 1) d)) as C. unfold np_abs in C at 1. rewrite !map_length in C. specialize (C eq_refl).
    replace (map2 Rmult (np_abs d) (map (fun _ => 1) d)) with (np_abs d) in C.
    2:{ unfold np_abs. clear. induction d as [|x d IH]; cbn; auto. rewrite Rmult_1_r. now f_equal. }
    replace (sq (np_abs d)) with (sq d) in C.
    2:{ unfold sq, np_square, np_abs. rewrite map_map. apply vsum_map_ext. intros a _. pose proof (Rsqr_abs a) as K. unfold Rsqr in K. exact K. }
    replace (sq (map (fun _ => 1) d)) with (N u) in C; auto.
    unfold sq, np_square, N, d. rewrite map_map, <- (dist_length (a_data u) (a_data v)) by apply H.
    generalize (dist (a_data u) (a_data v)). clear. induction l as [|x l IH]; auto. cbn [length map]. rewrite S_INR, vsum_cons, <- IH. ring. }
  replace (vsum (np_abs d) / N u * (vsum (np_abs d) / N u)) with (vsum (np_abs d) * vsum (np_abs d) / (N u * N u)) by (field; lra).
  replace (sq d / N u) with (sq d * N u / (N u * N u)) by (field; lra).
  apply Rmult_le_compat_r; auto. left. apply Rinv_0_lt_compat. nra.
Qed.
Lemma l2_linf : l2 u v <= linf u v.
Proof.
  pose proof (N_pos u v H) as P. rewrite <- (sqrt_square _ linf_nonneg). apply sqrt_le_1_alt. unfold linf. set (d := dist _ _).
  assert (B : forall l M, (forall x, In x l -> Rabs x <= M) -> sq l <= INR (length l) * (M * M)).
  { induction l as [|x l IH]; intros M K; [unfold sq; cbn [np_square map length]; rewrite vsum_nil; simpl; lra|]. unfold sq in *. cbn [np_square map length]. rewrite vsum_cons, S_INR.
    specialize (IH M (fun y Hy => K y (or_intror Hy))). unfold np_square in IH. specialize (K x (or_introl eq_refl)).
    pose proof (Rsqr_abs x) as S. unfold Rsqr in S. pose proof (Rabs_pos x). nra. }
  specialize (B d (lmax d) (proj1 (lmax_spec d (dist_neq u v H)))). unfold d in B at 2. rewrite dist_length in B by apply H. fold (N u) in B.
  apply (Rmult_le_reg_r (N u)); auto. unfold Rdiv. rewrite Rmult_assoc, Rinv_l by lra. lra.
Qed.
End Facts.

Lemma l2_triangle : forall u v w, comparable u v -> comparable v w -> l2 u w <= l2 u v + l2 v w.
Proof.
  intros u v w H K. pose proof (N_pos u v H) as P. unfold l2. rewrite <- (N_sym u v H). unfold Rdiv.
  assert (Hi : 0 < / N u) by now apply Rinv_0_lt_compat.
  rewrite !sqrt_mult by (try apply sq_nonneg; lra). rewrite <- Rmult_plus_distr_r. apply Rmult_le_compat_r; [apply sqrt_pos|].
  destruct H as [L _], K as [L' _]. rewrite (dist_split _ (a_data v)) by auto. apply minkowski. now rewrite !dist_length.
Qed.
Lemma l1_triangle : forall u v w, comparable u v -> comparable v w -> l1 u w <= l1 u v + l1 v w.
Proof.
  intros u v w H K. pose proof (N_pos u v H) as P. unfold l1. rewrite <- (N_sym u v H). unfold Rdiv.
  assert (Hi : 0 < / N u) by now apply Rinv_0_lt_compat.
  rewrite <- Rmult_plus_distr_r. apply Rmult_le_compat_r; [lra|].
  destruct H as [L _], K as [L' _]. rewrite (dist_split _ (a_data v)) by auto. apply abs_triangle. now rewrite !dist_length.
Qed.
Lemma linf_triangle : forall u v w, comparable u v -> comparable v w -> linf u w <= linf u v + linf v w.
Proof.
  intros u v w H K. unfold linf. destruct (lmax_spec _ (dist_neq u w (comparable_trans _ _ _ H K))) as [_ (x & Hx & ->)].
  pose proof (proj1 (lmax_spec _ (dist_neq u v H))) as A. pose proof (proj1 (lmax_spec _ (dist_neq v w K))) as B.
  destruct H as [L _], K as [L' _]. rewrite (dist_split _ (a_data v)) in Hx by auto.
  destruct (In_nth _ _ 0 Hx) as (i & Hi & E). rewrite map2_length, !dist_length in Hi by auto.
  rewrite (map2_nth _ _ _ i 0 0 0) in E by (rewrite dist_length; lia). subst x.
  eapply Rle_trans; [apply Rabs_triang|]. apply Rplus_le_compat; [apply A | apply B]; apply nth_In; rewrite dist_length; lia.
Qed.

(* ---------- scaling ---------- *)
Definition scaled (c : R) (u : ndarray) : ndarray := {| a_shape := a_shape u; a_data := map (fun x => c * x) (a_data u) |}.
Lemma dist_scaled : forall c u v, dist (map (fun x => c * x) u) (map (fun x => c * x) v) = map (fun x => c * x) (dist u v).
Proof. intros c u. induction u as [|a u IH]; intros [|b v]; auto. unfold dist in *. cbn [map map2]. f_equal; auto. ring. Qed.
Lemma sq_scaled : forall c l, sq (map (fun x => c * x) l) = c * c * sq l.
Proof. intros c l. unfold sq, np_square. rewrite map_map, <- vsum_map_scal. apply vsum_map_ext. intros; ring. Qed.
Lemma abs_scaled : forall c l, vsum (np_abs (map (fun x => c * x) l)) = Rabs c * vsum (np_abs l).
Proof. intros c l. unfold np_abs. rewrite map_map, <- vsum_map_scal. apply vsum_map_ext. intros; apply Rabs_mult. Qed.
Lemma lmax_scaled : forall c l, lmax (map (fun x => c * x) l) = Rabs c * lmax l.
Proof.
  intros c [|a l]; [unfold lmax; simpl; ring|].
  destruct (lmax_spec (a :: l)) as [U (x & Hx & E)]; [discriminate|].
  destruct (lmax_spec (map (fun x => c * x) (a :: l))) as [U' (x' & Hx' & E')]; [discriminate|].
  apply in_map_iff in Hx'. destruct Hx' as (z & <- & Hz). rewrite E'. rewrite Rabs_mult. apply Rle_antisym.
  - apply Rmult_le_compat_l; [apply Rabs_pos | now apply U].
  - rewrite E, <- !Rabs_mult. rewrite <- E'. apply U'. apply in_map_iff. eauto.
Qed.
Lemma comparable_scaled : forall c u v, comparable u v -> comparable (scaled c u) (scaled c v).
Proof. intros c u v [L K]. split; cbn [scaled a_data]; [now rewrite !map_length | now apply map_neq]. Qed.
Lemma N_scaled : forall c u, N (scaled c u) = N u.
Proof. intros. unfold N, scaled. cbn [a_data]. now rewrite map_length. Qed.
Lemma sqrt_scale : forall c a, 0 <= a -> sqrt (c * c * a) = Rabs c * sqrt a.
Proof. intros c a Ha. rewrite sqrt_mult by nra. f_equal. change (c * c) with (Rsqr c). apply sqrt_Rsqr_abs. Qed.
Lemma absolute_scaled : forall c u v, comparable u v ->
  l2 (scaled c u) (scaled c v) = Rabs c * l2 u v /\ l1 (scaled c u) (scaled c v) = Rabs c * l1 u v /\ linf (scaled c u) (scaled c v) = Rabs c * linf u v.
Proof.
  intros c u v H. unfold l2, l1, linf. rewrite N_scaled. cbn [scaled a_data]. rewrite dist_scaled, sq_scaled, abs_scaled, lmax_scaled. split; [|split].
  - unfold Rdiv. rewrite Rmult_assoc. apply sqrt_scale. apply Rmult_le_pos; [apply sq_nonneg|]. left. apply Rinv_0_lt_compat. exact (N_pos u v H).
  - unfold Rdiv. ring.
  - reflexivity.
Qed.
Definition zero_like (u : ndarray) : ndarray := {| a_shape := a_shape u; a_data := map (fun _ => 0) (a_data u) |}.
Lemma zero_comparable : forall u, a_data u <> [] -> comparable u (zero_like u).
Proof. intros u K. split; auto. cbn. now rewrite map_length. Qed.
Lemma dist_0 : forall u, dist u (map (fun _ => 0) u) = u.
Proof. unfold dist. induction u; auto. cbn. f_equal; auto. lra. Qed.
Lemma norms : forall u, a_data u <> [] ->
  np_sqrt (np_mean (np_square (a_data u))) = Fin (l2 u (zero_like u)) /\
  np_mean (np_abs (a_data u)) = Fin (l1 u (zero_like u)) /\ np_max (np_abs (a_data u)) = Ok (Fin (linf u (zero_like u))).
Proof.
  intros u K. unfold l2, l1, linf. cbn [zero_like a_data]. rewrite dist_0. split; [|split].
  - rewrite mean_fin by now apply map_neq. unfold np_square. now rewrite map_length.
  - rewrite mean_fin by now apply map_neq. unfold np_abs. now rewrite map_length.
  - now apply max_fin.
Qed.
Definition quot (a b : R) : npfloat := np_divide (Fin a) (Fin b).
Lemma relative_eq : forall u v, comparable u v ->
  compute_l2_error_relative u v = Ok (quot (l2 u v) (l2 u (zero_like u))) /\
  compute_l1_error_relative u v = Ok (quot (l1 u v) (l1 u (zero_like u))) /\
  compute_linf_error_relative u v = Ok (quot (linf u v) (linf u (zero_like u))).
Proof.
  intros u v H. destruct (norms u (proj2 H)) as (A & B & C).
  unfold compute_l2_error_relative, compute_l1_error_relative, compute_linf_error_relative.
  change (a_data (flatten u)) with (a_data u). rewrite A, B, C.
  replace (compute_l2_error (flatten u) (flatten v)) with (compute_l2_error u v) by reflexivity.
  replace (compute_l1_error (flatten u) (flatten v)) with (compute_l1_error u v) by reflexivity.
  replace (compute_linf_error (flatten u) (flatten v)) with (compute_linf_error u v) by reflexivity.
  rewrite (l2_eq u v H), (l1_eq u v H), (linf_eq u v H). cbn [bind]. auto.
Qed.
Lemma quot_scale : forall k a b, k <> 0 -> quot (k * a) (k * b) = quot a b.
Proof.
  intros k a b K. unfold quot, np_divide. destruct (Req_EM_T b 0) as [->|Hb].
  - rewrite Rmult_0_r. destruct (Req_EM_T 0 0); [|congruence]. destruct (Req_EM_T a 0) as [->|Ha].
    + rewrite Rmult_0_r. destruct (Req_EM_T 0 0); [auto | congruence].
    + destruct (Req_EM_T (k * a) 0) as [E|]; auto. apply Rmult_integral in E. tauto.
  - destruct (Req_EM_T (k * b) 0) as [E|]; [apply Rmult_integral in E; tauto|]. f_equal. field. auto.
Qed.
Lemma relative_scaled : forall c u v, c <> 0 -> comparable u v ->
  compute_l2_error_relative (scaled c u) (scaled c v) = compute_l2_error_relative u v /\
  compute_l1_error_relative (scaled c u) (scaled c v) = compute_l1_error_relative u v /\
  compute_linf_error_relative (scaled c u) (scaled c v) = compute_linf_error_relative u v.
Proof.
  intros c u v Hc H. destruct (relative_eq u v H) as (-> & -> & ->). destruct (relative_eq _ _ (comparable_scaled c u v H)) as (-> & -> & ->).
  assert (E : zero_like (scaled c u) = scaled c (zero_like u)).
  { unfold zero_like, scaled. cbn [a_shape a_data]. rewrite !map_map. f_equal. apply map_ext. intros; ring. }
  rewrite E. destruct (absolute_scaled c u v H) as (-> & -> & ->).
  destruct (absolute_scaled c u (zero_like u) (zero_comparable u (proj2 H))) as (-> & -> & ->).
  rewrite !quot_scale by now apply Rabs_no_R0. auto.
Qed.
Lemma relative_value : forall u v, comparable u v -> (exists x, In x (a_data u) /\ x <> 0) ->
  exists b2 b1 bi, 0 < b2 /\ 0 < b1 /\ 0 < bi /\
    compute_l2_error u (zero_like u) = Ok (Fin b2) /\ compute_l1_error u (zero_like u) = Ok (Fin b1) /\ compute_linf_error u (zero_like u) = Ok (Fin bi) /\
    compute_l2_error_relative u v = Ok (Fin (l2 u v / b2)) /\
    compute_l1_error_relative u v = Ok (Fin (l1 u v / b1)) /\
    compute_linf_error_relative u v = Ok (Fin (linf u v / bi)).
Proof.
  intros u v H (x & Hx & Nx). pose proof (zero_comparable u (proj2 H)) as Z. exists (l2 u (zero_like u)), (l1 u (zero_like u)), (linf u (zero_like u)).
  assert (D : a_data u <> a_data (zero_like u)).
  { intros E. rewrite E in Hx. cbn in Hx. apply in_map_iff in Hx. destruct Hx as (? & E' & _). congruence. }
  pose proof (l2_nonneg u (zero_like u)). pose proof (l1_nonneg u (zero_like u) Z). pose proof (linf_nonneg u (zero_like u)).
  assert (l2 u (zero_like u) <> 0) by (rewrite (l2_zero _ _ Z); auto).
  assert (l1 u (zero_like u) <> 0) by (rewrite (l1_zero _ _ Z); auto).
  assert (linf u (zero_like u) <> 0) by (rewrite (linf_zero _ _ Z); auto).
  destruct (relative_eq u v H) as (-> & -> & ->). rewrite (l2_eq _ _ Z), (l1_eq _ _ Z), (linf_eq _ _ Z).
  unfold quot, np_divide. repeat match goal with |- context [Req_EM_T ?b 0] => destruct (Req_EM_T b 0); [tauto|] end.
  refine (conj _ (conj _ (conj _ _))); [lra | lra | lra | tauto].
Qed.
Lemma relative_zero_exact : forall u v, comparable u v -> (forall x, In x (a_data u) -> x = 0) ->
  let r := if list_eq_dec Req_EM_T (a_data u) (a_data v) then NaN else PosInf in
  compute_l2_error_relative u v = Ok r /\ compute_l1_error_relative u v = Ok r /\ compute_linf_error_relative u v = Ok r.
Proof.
  intros u v H K r. pose proof (zero_comparable u (proj2 H)) as Z.
  assert (D : a_data u = a_data (zero_like u)).
  { cbn. clear H Z r. induction (a_data u) as [|a l IH]; auto. cbn. f_equal; [apply K; now left | apply IH; intros x Hx; apply K; now right]. }
  destruct (relative_eq u v H) as (-> & -> & ->). unfold quot, np_divide.
  rewrite (proj2 (l2_zero _ _ Z) D), (proj2 (l1_zero _ _ Z) D), (proj2 (linf_zero _ _ Z) D).
  destruct (Req_EM_T 0 0) as [_|]; [|congruence]. unfold r. destruct (list_eq_dec Req_EM_T (a_data u) (a_data v)) as [E|E].
  - rewrite (proj2 (l2_zero _ _ H) E), (proj2 (l1_zero _ _ H) E), (proj2 (linf_zero _ _ H) E). destruct (Req_EM_T 0 0); [auto | congruence].
  - destruct (Req_EM_T (l2 u v) 0) as [A|]; [apply (l2_zero _ _ H) in A; tauto|].
    destruct (Req_EM_T (l1 u v) 0) as [A|]; [apply (l1_zero _ _ H) in A; tauto|].
    destruct (Req_EM_T (linf u v) 0) as [A|]; [apply (linf_zero _ _ H) in A; tauto|]. auto.
Qed.
Lemma combined_eq : forall u v, compute_errors_combined u v =
  do a <- compute_l2_error u v; do b <- compute_linf_error u v; do c <- compute_l2_error_relative u v;
  do d <- compute_linf_error_relative u v; do e <- compute_l1_error u v; do f <- compute_l1_error_relative u v;
  Ok (a, b, c, d, e, f).
Proof. reflexivity. Qed.

Lemma values : forall u v, comparable u v ->
  compute_l2_error u v = Ok (Fin (sqrt (Sum (fun i => (nth i (a_data u) 0 - nth i (a_data v) 0) ^ 2) (length (a_data u)) / INR (length (a_data u))))) /\
  compute_l1_error u v = Ok (Fin (Sum (fun i => Rabs (nth i (a_data u) 0 - nth i (a_data v) 0)) (length (a_data u)) / INR (length (a_data u)))) /\
  exists m, compute_linf_error u v = Ok (Fin m) /\
    (forall i, (i < length (a_data u))%nat -> Rabs (nth i (a_data u) 0 - nth i (a_data v) 0) <= m) /\
    (exists i, (i < length (a_data u))%nat /\ m = Rabs (nth i (a_data u) 0 - nth i (a_data v) 0)).
Proof.
  intros u v H. rewrite (l2_eq _ _ H), (l1_eq _ _ H), (linf_eq _ _ H). unfold l2, l1, sq, N. change Sum with rsum.
  rewrite !vsum_rsum. unfold np_square, np_abs. rewrite !map_length, !dist_length by apply H.
  assert (D : forall i, (i < length (a_data u))%nat -> nth i (dist (a_data u) (a_data v)) 0 = nth i (a_data u) 0 - nth i (a_data v) 0).
  { intros i Hi. unfold dist. apply map2_nth; auto. now rewrite <- (proj1 H). }
  split; [|split].
  - do 4 f_equal. apply rsum_ext. intros i Hi. rewrite (nth_map_lt _ _ i 0 0) by now rewrite dist_length by apply H. rewrite D by auto. ring.
  - do 3 f_equal. apply rsum_ext. intros i Hi. rewrite (nth_map_lt _ _ i 0 0) by now rewrite dist_length by apply H. now rewrite D by auto.
  - exists (linf u v). split; auto. unfold linf. destruct (lmax_spec _ (dist_neq u v H)) as [U (x & Hx & E)]. split.
    + intros i Hi. rewrite <- D by auto. apply U. apply nth_In. now rewrite dist_length by apply H.
    + destruct (In_nth _ _ 0 Hx) as (i & Hi & Ex). rewrite dist_length in Hi by apply H. exists i. split; auto. now rewrite E, <- Ex, D.
Qed.

(* ---------- sizes ---------- *)
Lemma sizes_refused : forall u v, length (a_data u) <> length (a_data v) -> length (a_data u) <> 1%nat -> length (a_data v) <> 1%nat ->
  compute_l2_error u v = Err ValueError /\ compute_l1_error u v = Err ValueError /\ compute_linf_error u v = Err ValueError /\
  compute_l2_error_relative u v = Err ValueError /\ compute_l1_error_relative u v = Err ValueError /\ compute_linf_error_relative u v = Err ValueError /\
  compute_errors_combined u v = Err ValueError.
Proof.
  intros u v H Hu Hv.
  assert (E : np_subtract (a_data u) (a_data v) = Err ValueError).
  { unfold np_subtract. destruct (Nat.eqb_spec (length (a_data u)) (length (a_data v))); [contradiction|].
    destruct (a_data u) as [|? [|? ?]], (a_data v) as [|? [|? ?]]; simpl in *; auto; congruence. }
  unfold compute_l2_error_relative, compute_l1_error_relative, compute_linf_error_relative, compute_errors_combined,
    compute_l2_error, compute_l1_error, compute_linf_error. cbn [flatten a_data]. rewrite E. cbn [bind]. tauto.
Qed.
Lemma single_broadcast : forall u v c, a_data v = [c] -> a_data u <> [] ->
  compute_l2_error u v = compute_l2_error u {| a_shape := a_shape u; a_data := map (fun _ => c) (a_data u) |}.
Proof.
  intros u v c Hv Hu. set (w := {| a_shape := a_shape u; a_data := map (fun _ => c) (a_data u) |}).
  assert (C : comparable u w) by (split; auto; cbn; now rewrite map_length).
  rewrite (l2_eq _ _ C). unfold compute_l2_error. cbn [flatten a_data]. rewrite Hv.
  assert (E : np_subtract (a_data u) [c] = Ok (dist (a_data u) (a_data w))).
  { assert (M : dist (a_data u) (a_data w) = map (fun x => x - c) (a_data u)).
    { unfold dist, w. cbn. clear. induction (a_data u) as [|a l IH]; [reflexivity|]. cbn. now f_equal. }
    rewrite M. unfold np_subtract. cbn [length]. destruct (a_data u) as [|a [|b l]]; [congruence | reflexivity | reflexivity]. }
  rewrite E. cbn [bind]. rewrite mean_fin by now apply map_neq, dist_neq. unfold l2, N, sq, np_square. rewrite map_length, dist_length by apply C. reflexivity.
Qed.
Lemma empty_arrays : forall u v, a_data u = [] -> a_data v = [] ->
  compute_l2_error u v = Ok NaN /\ compute_l1_error u v = Ok NaN /\ compute_linf_error u v = Err ValueError /\ compute_errors_combined u v = Err ValueError.
Proof.
  intros u v Hu Hv. unfold compute_errors_combined, compute_l2_error, compute_l1_error, compute_linf_error. cbn [flatten a_data].
  rewrite Hu, Hv. cbn. tauto.
Qed.

(* ---------- as stated ---------- *)
Lemma distance : forall err, In err [compute_l2_error; compute_l1_error; compute_linf_error] -> forall u v w, comparable u v -> comparable v w ->
  exists a b c, err u v = Ok (Fin a) /\ err v w = Ok (Fin b) /\ err u w = Ok (Fin c) /\
    0 <= a /\ (a = 0 <-> a_data u = a_data v) /\ err v u = err u v /\ c <= a + b.
Proof.
  intros err Herr u v w H K. pose proof (comparable_trans _ _ _ H K) as HK. pose proof (comparable_sym _ _ H) as Hs.
  destruct Herr as [<- | [<- | [<- | []]]].
  - exists (l2 u v), (l2 v w), (l2 u w). rewrite !l2_eq by auto. rewrite (l2_sym u v H).
    refine (conj eq_refl (conj eq_refl (conj eq_refl (conj _ (conj _ (conj eq_refl _)))))); [apply l2_nonneg | rewrite <- (l2_sym u v H); now apply l2_zero |].
    rewrite <- (l2_sym u v H). now apply l2_triangle.
  - exists (l1 u v), (l1 v w), (l1 u w). rewrite !l1_eq by auto. rewrite (l1_sym u v H).
    refine (conj eq_refl (conj eq_refl (conj eq_refl (conj _ (conj _ (conj eq_refl _)))))); [now apply l1_nonneg | rewrite <- (l1_sym u v H); now apply l1_zero |].
    rewrite <- (l1_sym u v H). now apply l1_triangle.
  - exists (linf u v), (linf v w), (linf u w). rewrite !linf_eq by auto. rewrite (linf_sym u v).
    refine (conj eq_refl (conj eq_refl (conj eq_refl (conj _ (conj _ (conj eq_refl _)))))); [apply linf_nonneg | rewrite <- (linf_sym u v); now apply linf_zero |].
    rewrite <- (linf_sym u v). now apply linf_triangle.
Qed.
Lemma order : forall u v, comparable u v -> exists a b c,
  compute_l1_error u v = Ok (Fin a) /\ compute_l2_error u v = Ok (Fin b) /\ compute_linf_error u v = Ok (Fin c) /\ a <= b <= c.
Proof.
  intros u v H. exists (l1 u v), (l2 u v), (linf u v). rewrite l1_eq, l2_eq, linf_eq by auto.
  refine (conj eq_refl (conj eq_refl (conj eq_refl (conj _ _)))); [now apply l1_l2 | now apply l2_linf].
Qed.
Lemma relative : forall u v, comparable u v -> (exists x, In x (a_data u) /\ x <> 0) ->
  let zero := {| a_shape := a_shape u; a_data := map (fun _ => 0) (a_data u) |} in
  forall err rel, In (err, rel) [(compute_l2_error, compute_l2_error_relative); (compute_l1_error, compute_l1_error_relative);
                                 (compute_linf_error, compute_linf_error_relative)] ->
  exists a b, err u v = Ok (Fin a) /\ err u zero = Ok (Fin b) /\ 0 < b /\ rel u v = Ok (Fin (a / b)).
Proof.
  intros u v H Hx zero err rel Hin. destruct (relative_value u v H Hx) as (b2 & b1 & bi & P2 & P1 & Pi & E2 & E1 & Ei & R2 & R1 & Ri).
  change (zero_like u) with zero in *.
  destruct Hin as [E | [E | [E | []]]]; injection E as <- <-.
  - exists (l2 u v), b2. rewrite (l2_eq u v H). auto.
  - exists (l1 u v), b1. rewrite (l1_eq u v H). auto.
  - exists (linf u v), bi. rewrite (linf_eq u v H). auto.
Qed.
Lemma combined : forall u v, comparable u v -> exists a b c d e f,
  compute_errors_combined u v = Ok (a, b, c, d, e, f) /\
  compute_l2_error u v = Ok a /\ compute_linf_error u v = Ok b /\ compute_l2_error_relative u v = Ok c /\
  compute_linf_error_relative u v = Ok d /\ compute_l1_error u v = Ok e /\ compute_l1_error_relative u v = Ok f.
Proof.
  intros u v H. rewrite combined_eq. destruct (relative_eq u v H) as (A & B & C). rewrite (l2_eq u v H), (l1_eq u v H), (linf_eq u v H), A, B, C.
  cbn [bind]. do 6 eexists. split; [reflexivity|]. auto 10.
Qed.
Lemma shapes_ignored : forall u v u' v', a_data u = a_data u' -> a_data v = a_data v' ->
  compute_errors_combined u v = compute_errors_combined u' v'.
Proof. intros [s d] [s2 d2] [s' d'] [s2' d2'] E E'. cbn in E, E'. subst. reflexivity. Qed.
Lemma single_accepted : forall u v c, a_data v = [c] -> a_data u <> [] -> exists a,
  compute_l2_error u v = Ok (Fin a) /\
  compute_l2_error u {| a_shape := a_shape u; a_data := map (fun _ => c) (a_data u) |} = Ok (Fin a).
Proof.
  intros u v c Hv Hu. rewrite (single_broadcast u v c Hv Hu). rewrite l2_eq; [eauto|]. split; [|exact Hu]. cbn. now rewrite map_length.
Qed.
