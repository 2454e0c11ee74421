(* Quantities that depend on the trainable variables and on one coordinate: differentiable in the
   coordinate, and value and derivative differentiable in the variables, with a derivative that is linear
   in the direction.  Dense networks with a twice differentiable activation are of this kind. *)
From Coq Require Import String ZArith List Arith Bool Lia Reals Lra FunctionalExtensionality.
From Coquelicot Require Import Coquelicot.
From Verif Require Import Num Py Basis Tensor Physics Train PolyFacts ListFacts PyFacts Spec TensorFacts SpecTrain Nets NetFacts Optim.
Import ListNotations.
Local Open Scope R_scope.

Definition twice (f : R -> R) : Prop := exists f1 f2, forall x, is_derive f x (f1 x) /\ is_derive f1 x (f2 x).
(* coordinates of a vector *)
Notation vars := (nat -> R).
Definition lin (n : nat) (F : vars -> R) : Prop := exists g, forall v, F v = Sum (fun k => g k * v k) n.
Definition shift (w v : vars) (s : R) : vars := fun k => w k + s * v k.

Lemma shift_0 : forall w v, shift w v 0 = w.
Proof. intros. apply functional_extensionality. intros k. unfold shift. ring. Qed.
Lemma lin_ext : forall n F G, (forall v, F v = G v) -> lin n G -> lin n F.
Proof. intros n F G E [g H]. exists g. intros v. now rewrite E. Qed.
Lemma lin_0 : forall n, lin n (fun _ => 0).
Proof. intros n. exists (fun _ => 0). intros v. change Sum with rsum. rewrite (rsum_ext _ (fun _ => 0)) by (intros; ring). now rewrite rsum_0. Qed.
Lemma lin_plus : forall n F G, lin n F -> lin n G -> lin n (fun v => F v + G v).
Proof.
  intros n F G [f HF] [g HG]. exists (fun k => f k + g k). intros v. rewrite HF, HG. change Sum with rsum. rewrite <- rsum_plus. apply rsum_ext. intros. ring.
Qed.
Lemma lin_scal : forall n c F, lin n F -> lin n (fun v => c * F v).
Proof. intros n c F [f HF]. exists (fun k => c * f k). intros v. rewrite HF. change Sum with rsum. rewrite <- rsum_scal. apply rsum_ext. intros. ring. Qed.
Lemma lin_coord : forall n k, (k < n)%nat -> lin n (fun v => v k).
Proof.
  intros n k Hk. exists (fun i => if Nat.eqb i k then 1 else 0). intros v. change Sum with rsum.
  rewrite (rsum_single _ n k Hk); [rewrite Nat.eqb_refl; ring|]. intros i Hi Hn. apply Nat.eqb_neq in Hn. rewrite Hn. ring.
Qed.
Lemma lin_sum : forall n N (c : nat -> R) (F : nat -> vars -> R), (forall i, (i < N)%nat -> lin n (F i)) -> lin n (fun v => Sum (fun i => c i * F i v) N).
Proof.
  intros n N c F. induction N as [|N IH]; intros H; [apply lin_0|]. cbn [Sum]. apply lin_plus; [apply IH; auto | apply lin_scal, H; auto].
Qed.

Section Jet.
Variables (n : nat) (w0 : vars).
Definition jet (q : vars -> R -> R) (t0 : R) : Prop :=
  exists (qs : vars -> R) (qt : vars -> R) (qts : vars -> R), lin n qs /\ lin n qts /\
    (forall v, is_derive (fun s => q (shift w0 v s) t0) 0 (qs v)) /\ (forall w, is_derive (q w) t0 (qt w)) /\
    (forall v, is_derive (fun s => qt (shift w0 v s)) 0 (qts v)).

Lemma jet_ext : forall p q t0, (forall w t, p w t = q w t) -> jet q t0 -> jet p t0.
Proof.
  intros p q t0 E (qs & qt & qts & L1 & L2 & D1 & D2 & D3). exists qs, qt, qts. refine (conj L1 (conj L2 (conj _ (conj _ D3)))); intros.
  - eapply is_derive_ext; [|apply D1]. intros; now rewrite E.
  - eapply is_derive_ext; [|apply D2]. intros; now rewrite E.
Qed.
Lemma jet_coord : forall (f : R -> R) t0, ex_derive f t0 -> jet (fun _ t => f t) t0.
Proof.
  intros f t0 H. exists (fun _ => 0), (fun _ => Derive f t0), (fun _ => 0).
  refine (conj (lin_0 n) (conj (lin_0 n) (conj _ (conj _ _)))); intros; [apply (is_derive_const (f t0)) | now apply Derive_correct | apply (is_derive_const (Derive f t0))].
Qed.
Lemma jet_const : forall c t0, jet (fun _ _ => c) t0.
Proof. intros c t0. apply (jet_coord (fun _ => c)). apply ex_derive_const. Qed.
Lemma jet_var : forall k t0, (k < n)%nat -> jet (fun w _ => w k) t0.
Proof.
  intros k t0 Hk. exists (fun v => v k), (fun _ => 0), (fun _ => 0).
  refine (conj (lin_coord n k Hk) (conj (lin_0 n) (conj _ (conj _ _)))); intros.
  - unfold shift. auto_derive; auto. ring.
  - apply (is_derive_const (w k)).
  - apply (is_derive_const 0).
Qed.
Lemma jet_plus : forall p q t0, jet p t0 -> jet q t0 -> jet (fun w t => p w t + q w t) t0.
Proof.
  intros p q t0 (ps & pt & pts & L1 & L2 & D1 & D2 & D3) (qs & qt & qts & M1 & M2 & E1 & E2 & E3).
  exists (fun v => ps v + qs v), (fun w => pt w + qt w), (fun v => pts v + qts v).
  refine (conj (lin_plus _ _ _ L1 M1) (conj (lin_plus _ _ _ L2 M2) (conj _ (conj _ _)))); intros.
  - apply (is_derive_plus (fun s => p _ t0) (fun s => q _ t0)); auto.
  - apply (is_derive_plus (p w) (q w)); auto.
  - apply (is_derive_plus (fun s => pt _) (fun s => qt _)); auto.
Qed.
Lemma is_derive_mul : forall (f g : R -> R) x a b, is_derive f x a -> is_derive g x b -> is_derive (fun t => f t * g t) x (a * g x + f x * b).
Proof. intros f g x a b Hf Hg. apply (is_derive_mult f g x a b Hf Hg). intros; apply Rmult_comm. Qed.
Lemma jet_mult : forall p q t0, jet p t0 -> jet q t0 -> jet (fun w t => p w t * q w t) t0.
Proof.
  intros p q t0 (ps & pt & pts & L1 & L2 & D1 & D2 & D3) (qs & qt & qts & M1 & M2 & E1 & E2 & E3).
  exists (fun v => q w0 t0 * ps v + p w0 t0 * qs v), (fun w => pt w * q w t0 + p w t0 * qt w),
    (fun v => (q w0 t0 * pts v + pt w0 * qs v) + (qt w0 * ps v + p w0 t0 * qts v)).
  refine (conj _ (conj _ (conj _ (conj _ _)))); try intros v.
  - apply lin_plus; now apply lin_scal.
  - apply lin_plus; apply lin_plus; now apply lin_scal.
  - pose proof (is_derive_mul _ _ _ _ _ (D1 v) (E1 v)) as H. cbv beta in H. rewrite shift_0, Rmult_comm in H. exact H.
  - apply is_derive_mul; auto.
  - apply (is_derive_plus (fun s => pt (shift w0 v s) * q (shift w0 v s) t0) (fun s => p (shift w0 v s) t0 * qt (shift w0 v s))).
    + pose proof (is_derive_mul _ _ _ _ _ (D3 v) (E1 v)) as H. cbv beta in H. rewrite shift_0, Rmult_comm in H. exact H.
    + pose proof (is_derive_mul _ _ _ _ _ (D1 v) (E3 v)) as H. cbv beta in H. rewrite shift_0, Rmult_comm in H. exact H.
Qed.
Lemma is_derive_after : forall (f g : R -> R) x a b, is_derive f (g x) a -> is_derive g x b -> is_derive (fun t => f (g t)) x (a * b).
Proof. intros f g x a b Hf Hg. pose proof (is_derive_comp f g x a b Hf Hg) as H. cbn in H. unfold mult in H; cbn in H. now rewrite Rmult_comm in H. Qed.
Lemma jet_comp : forall f q t0, twice f -> jet q t0 -> jet (fun w t => f (q w t)) t0.
Proof.
  intros f q t0 (f1 & f2 & Hf) (qs & qt & qts & M1 & M2 & E1 & E2 & E3).
  exists (fun v => f1 (q w0 t0) * qs v), (fun w => f1 (q w t0) * qt w),
    (fun v => (qt w0 * f2 (q w0 t0)) * qs v + f1 (q w0 t0) * qts v).
  refine (conj (lin_scal _ _ _ M1) (conj (lin_plus _ _ _ (lin_scal _ _ _ M1) (lin_scal _ _ _ M2)) (conj _ (conj _ _)))); intros v.
  - pose proof (is_derive_after f (fun s => q (shift w0 v s) t0) 0 _ _ (proj1 (Hf _)) (E1 v)) as H. cbv beta in H. now rewrite shift_0 in H.
  - apply (is_derive_after f (q v)); [apply Hf | auto].
  - pose proof (is_derive_after f1 (fun s => q (shift w0 v s) t0) 0 _ _ (proj2 (Hf _)) (E1 v)) as H.
    pose proof (is_derive_mul _ _ _ _ _ H (E3 v)) as H2. cbv beta in H2. rewrite shift_0 in H2.
    replace (qt w0 * f2 (q w0 t0) * qs v + f1 (q w0 t0) * qts v) with (f2 (q w0 t0) * qs v * qt w0 + f1 (q w0 t0) * qts v) by ring. exact H2.
Qed.

(* rows of such quantities *)
Definition jrow (c : vars -> R -> list R) (t0 : R) : Prop :=
  exists l : list (vars -> R -> R), (forall w t, c w t = map (fun q => q w t) l) /\ List.Forall (fun q => jet q t0) l.
Lemma jet_vsum : forall (l : list (vars -> R -> R)) t0, List.Forall (fun q => jet q t0) l -> jet (fun w t => vsum (map (fun q => q w t) l)) t0.
Proof.
  intros l t0 H. induction H as [|q l Hq H IH]; cbn [map].
  - apply (jet_ext _ (fun _ _ => 0)); [intros; now rewrite vsum_nil | apply jet_const].
  - eapply jet_ext; [intros; apply vsum_cons | now apply jet_plus].
Qed.
Lemma jet_nth : forall (l : list (vars -> R -> R)) j t0, List.Forall (fun q => jet q t0) l -> jet (fun w t => nth j (map (fun q => q w t) l) 0) t0.
Proof.
  intros l j t0 H. eapply jet_ext; [intros w t; apply (map_nth (fun q : vars -> R -> R => q w t) l (fun _ _ => 0))|].
  destruct (nth_in_or_default j l (fun _ _ => 0)) as [I | ->]; [|apply jet_const]. rewrite Forall_forall in H. auto.
Qed.
Lemma jet_dot : forall (l : list (vars -> R -> R)) (K : list (list (vars -> R -> R))) j t0, List.Forall (fun q => jet q t0) l -> List.Forall (List.Forall (fun q => jet q t0)) K ->
  jet (fun w t => vsum (map2 Rmult (map (fun q => q w t) l) (map (fun row => nth j row 0) (map (map (fun q => q w t)) K)))) t0.
Proof.
  intros l. induction l as [|q l IH]; intros K j t0 Hl HK.
  - apply (jet_ext _ (fun _ _ => 0)); [intros; cbn; now rewrite vsum_nil | apply jet_const].
  - destruct K as [|row K]; [apply (jet_ext _ (fun _ _ => 0)); [intros; cbn; now rewrite vsum_nil | apply jet_const]|].
    inversion Hl; subst. inversion HK; subst. eapply jet_ext; [intros w t; cbn [map map2]; apply vsum_cons|].
    apply jet_plus; [apply jet_mult; auto; now apply jet_nth | now apply IH].
Qed.
Definition layer_at (w : vars) (t : R) (l : bool * (list (list (vars -> R -> R)) * list (vars -> R -> R))) : bool * (mat R * list R) :=
  (fst l, (map (map (fun q => q w t)) (fst (snd l)), map (fun q => q w t) (snd (snd l)))).
Definition layer_jet (t0 : R) (l : bool * (list (list (vars -> R -> R)) * list (vars -> R -> R))) : Prop :=
  List.Forall (List.Forall (fun q => jet q t0)) (fst (snd l)) /\ List.Forall (fun q => jet q t0) (snd (snd l)).
Lemma dense_jrow : forall f K B c t0, twice f -> List.Forall (List.Forall (fun q => jet q t0)) K -> List.Forall (fun q => jet q t0) B -> jrow c t0 ->
  jrow (fun w t => dense_row f (map (map (fun q => q w t)) K) (map (fun q => q w t) B) (c w t)) t0.
Proof.
  intros f K B c t0 Hf HK HB (l & E & Hl).
  exists (map (fun j w t => f (vsum (map2 Rmult (map (fun q => q w t) l) (map (fun row => nth j row 0) (map (map (fun q => q w t)) K))) + nth j (map (fun q => q w t) B) 0))
    (seq 0 (length B))). split.
  - intros w t. unfold dense_row. rewrite map_map, map_length, E. reflexivity.
  - apply Forall_forall. intros q Hq. apply in_map_iff in Hq as (j & <- & _). apply (jet_comp f (fun w t => _ + _)); auto.
    apply jet_plus; [now apply jet_dot | now apply jet_nth].
Qed.
Lemma net_jrow : forall f ls c t0, (forall a, twice (f a)) -> List.Forall (layer_jet t0) ls -> jrow c t0 ->
  jrow (fun w t => net_row f (map (layer_at w t) ls) (c w t)) t0.
Proof.
  intros f ls. induction ls as [|[a [K B]] r IH]; intros c t0 Hf Hl Hc; cbn [map net_row layer_at fst snd]; auto.
  inversion Hl as [|x y [H1 H2] H3]; subst. apply (IH (fun w t => dense_row (f a) _ _ (c w t)) t0 Hf H3). now apply dense_jrow.
Qed.
End Jet.

(* ---------- filling the layers ---------- *)
Lemma fill_rows_map : forall {S T} (f : S -> T) k w, fill_rows k (map f w) = map (map f) (fill_rows k w).
Proof.
  intros S T f k. induction k as [|row k IH]; intros w; cbn [fill_rows map]; auto. now rewrite firstn_map, skipn_map, IH.
Qed.
Lemma fill_layers_map : forall {S T} (f : S -> T) ls w,
  fill_layers ls (map f w) = map (fun l => (fst l, (map (map f) (fst (snd l)), map f (snd (snd l))))) (fill_layers ls w).
Proof.
  intros S T f ls. induction ls as [|[a [k b]] r IH]; intros w; cbn [fill_layers map fst snd]; auto.
  now rewrite !skipn_map, firstn_map, fill_rows_map, IH.
Qed.
Lemma Forall_firstn : forall {T} (P : T -> Prop) k l, List.Forall P l -> List.Forall P (firstn k l).
Proof. intros T P k. induction k; intros l H; cbn; auto. destruct H; auto. Qed.
Lemma Forall_skipn : forall {T} (P : T -> Prop) k l, List.Forall P l -> List.Forall P (skipn k l).
Proof. intros T P k. induction k; intros l H; cbn; auto. destruct H; auto. Qed.
Lemma fill_rows_all : forall {T} (P : T -> Prop) k w, List.Forall P w -> List.Forall (List.Forall P) (fill_rows k w).
Proof. intros T P k. induction k as [|row k IH]; intros w H; cbn; auto. constructor; [now apply Forall_firstn | apply IH; now apply Forall_skipn]. Qed.
Lemma fill_layers_all : forall {T} (P : T -> Prop) ls w, List.Forall P w -> List.Forall (fun l => List.Forall (List.Forall P) (fst (snd l)) /\ List.Forall P (snd (snd l))) (fill_layers ls w).
Proof.
  intros T P ls. induction ls as [|[a [k b]] r IH]; intros w H; cbn; auto.
  constructor; [split; cbn; [now apply fill_rows_all | now apply Forall_firstn, Forall_skipn] | apply IH; now apply Forall_skipn, Forall_skipn].
Qed.
Lemma fill_rows_length : forall {T} k (w : list T), length (fill_rows k w) = length k.
Proof. intros T k. induction k; intros w; cbn; auto. Qed.
(* the shapes of the layers stay *)
Definition shape_of (l : bool * (mat R * list R)) : nat * nat := (length (fst (snd l)), length (snd (snd l))).
Lemma fill_shapes : forall ls (w : list R), (length (concat (map layer_weights ls)) <= length w)%nat -> map shape_of (fill_layers ls w) = map shape_of ls.
Proof.
  intros ls. induction ls as [|[a [k b]] r IH]; intros w H; cbn [fill_layers map]; auto.
  cbn [map concat] in H. unfold layer_weights at 1 in H. cbn [fst snd] in H. rewrite !app_length in H. f_equal.
  - unfold shape_of. cbn [fst snd]. rewrite fill_rows_length, firstn_length, skipn_length. f_equal. lia.
  - apply IH. rewrite !skipn_length. lia.
Qed.
Lemma fits_shapes : forall ls ls' w, map shape_of ls' = map shape_of ls -> fits_layers ls' w = fits_layers ls w /\ out_width ls' w = out_width ls w.
Proof.
  intros ls. induction ls as [|[a [k b]] r IH]; intros [|[a' [k' b']] r'] w E; try discriminate; cbn; auto.
  injection E as E1 E2 E3. destruct (IH r' (length b) E3) as [F O]. unfold shape_of in E1, E2. cbn in E1, E2. now rewrite E1, E2, F, O.
Qed.
