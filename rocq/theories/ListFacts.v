(* List lemmas: map2, block concatenation, row-major indexing. *)
From Coq Require Import ZArith List Arith Lia Reals Lra.
From Verif Require Import Num Py RCalc PolyFacts.
Import ListNotations.

Lemma map2_length : forall {A B C} (f : A -> B -> C) l m,
  length (map2 f l m) = Nat.min (length l) (length m).
Proof. induction l; destruct m; simpl; auto. Qed.

Lemma map2_nth : forall {A B C} (f : A -> B -> C) l m i da db dc,
  i < length l -> i < length m -> nth i (map2 f l m) dc = f (nth i l da) (nth i m db).
Proof.
  induction l; destruct m; simpl; intros; try lia.
  destruct i; auto. apply IHl; lia.
Qed.

Lemma map2_map : forall {A B C D E} (f : C -> D -> E) (g : A -> C) (h : B -> D) l m,
  map2 f (map g l) (map h m) = map2 (fun a b => f (g a) (h b)) l m.
Proof. induction l; destruct m; simpl; auto; f_equal; auto. Qed.

Lemma map2_diag : forall {A C} (f : A -> A -> C) l, map2 f l l = map (fun a => f a a) l.
Proof. induction l; simpl; f_equal; auto. Qed.

Lemma map2_ext : forall {A B C} (f g : A -> B -> C) l m,
  (forall a b, f a b = g a b) -> map2 f l m = map2 g l m.
Proof. induction l; destruct m; simpl; intros; f_equal; auto. Qed.

Lemma map_map2 : forall {A B C D} (g : C -> D) (f : A -> B -> C) l m,
  map g (map2 f l m) = map2 (fun a b => g (f a b)) l m.
Proof. induction l; destruct m; simpl; f_equal; auto. Qed.

Lemma map2_combine : forall {A B C} (f : A -> B -> C) l m,
  map2 f l m = map (fun p => f (fst p) (snd p)) (combine l m).
Proof. induction l; destruct m; simpl; f_equal; auto. Qed.

Lemma map2_app : forall {A B C} (f : A -> B -> C) l1 l2 m1 m2,
  length l1 = length m1 -> map2 f (l1 ++ l2) (m1 ++ m2) = map2 f l1 m1 ++ map2 f l2 m2.
Proof. induction l1; destruct m1; simpl; intros; try discriminate; auto. f_equal; auto. Qed.

Lemma nth_map_lt : forall {A B} (f : A -> B) l i d d',
  i < length l -> nth i (map f l) d = f (nth i l d').
Proof. intros. rewrite nth_indep with (d' := f d') by (rewrite map_length; auto). apply map_nth. Qed.

Lemma nth_seq_map : forall {B} (f : nat -> B) a n i d,
  i < n -> nth i (map f (seq a n)) d = f (a + i).
Proof.
  intros. rewrite nth_map_lt with (d' := 0) by (rewrite seq_length; auto).
  rewrite seq_nth; auto.
Qed.

(* Concatenation of blocks of equal length m *)
Lemma concat_blocks_length : forall {A} m (l : list (list A)),
  (forall b, In b l -> length b = m) -> length (concat l) = length l * m.
Proof.
  induction l; simpl; intros; auto. rewrite app_length, IHl, H; auto.
Qed.

Lemma concat_blocks_nth : forall {A} m (l : list (list A)) i j d,
  (forall b, In b l -> length b = m) -> i < length l -> j < m ->
  nth (i * m + j) (concat l) d = nth j (nth i l []) d.
Proof.
  induction l; simpl; intros; try lia.
  destruct i.
  - simpl. rewrite app_nth1; auto. rewrite H; auto.
  - rewrite app_nth2; rewrite (H a) by auto; try nia.
    replace (S i * m + j - m) with (i * m + j) by nia.
    rewrite IHl; auto; lia.
Qed.

Lemma concat_map_nth : forall {A B} (f : A -> list B) m l i j da d,
  (forall a, In a l -> length (f a) = m) -> i < length l -> j < m ->
  nth (i * m + j) (concat (map f l)) d = nth j (f (nth i l da)) d.
Proof.
  intros. rewrite concat_blocks_nth.
  - rewrite nth_map_lt with (d' := da); auto.
  - intros b Hb. apply in_map_iff in Hb. destruct Hb as (a & <- & Ha); auto.
  - rewrite map_length; auto.
  - auto.
Qed.

Lemma divmod_index : forall p k, p < k * k -> exists i j, i < k /\ j < k /\ p = i * k + j.
Proof.
  intros. exists (p / k), (p mod k). destruct k; [lia|].
  repeat split.
  - apply Nat.div_lt_upper_bound; lia.
  - apply Nat.mod_upper_bound; lia.
  - rewrite Nat.mul_comm. apply Nat.div_mod. lia.
Qed.

(* Sums over lists *)
#[global] Arguments vsum {A H} l : simpl never.
Lemma vsum_rsum : forall (l : list R), vsum l = rsum (fun i => nth i l 0%R) (length l).
Proof.
  induction l; simpl length; [reflexivity|].
  rewrite rsum_S_l. cbn [nth]. rewrite <- IHl. reflexivity.
Qed.

Lemma vsum_cons : forall a (l : list R), vsum (a :: l) = (a + vsum l)%R.
Proof. reflexivity. Qed.
Lemma vsum_nil : vsum (@nil R) = 0%R.
Proof. reflexivity. Qed.
Lemma vsum_app : forall (l m : list R), vsum (l ++ m) = (vsum l + vsum m)%R.
Proof.
  induction l; simpl; intros; rewrite ?vsum_nil, ?vsum_cons; try rewrite IHl; lra.
Qed.
Lemma vsum_map_scal : forall {A} c (f : A -> R) l, vsum (map (fun a => (c * f a)%R) l) = (c * vsum (map f l))%R.
Proof. induction l; simpl; rewrite ?vsum_nil, ?vsum_cons; try rewrite IHl; lra. Qed.
Lemma vsum_map_scal_r : forall {A} c (f : A -> R) l, vsum (map (fun a => (f a * c)%R) l) = (vsum (map f l) * c)%R.
Proof. induction l; simpl; rewrite ?vsum_nil, ?vsum_cons; try rewrite IHl; lra. Qed.
Lemma vsum_map_plus : forall {A} (f g : A -> R) l,
  vsum (map (fun a => (f a + g a)%R) l) = (vsum (map f l) + vsum (map g l))%R.
Proof. induction l; simpl; rewrite ?vsum_nil, ?vsum_cons; try rewrite IHl; lra. Qed.
Lemma vsum_map_minus : forall {A} (f g : A -> R) l,
  vsum (map (fun a => (f a - g a)%R) l) = (vsum (map f l) - vsum (map g l))%R.
Proof. induction l; simpl; rewrite ?vsum_nil, ?vsum_cons; try rewrite IHl; lra. Qed.
Lemma vsum_map_0 : forall {A} (l : list A), vsum (map (fun _ => 0%R) l) = 0%R.
Proof. induction l; simpl; rewrite ?vsum_nil, ?vsum_cons; try rewrite IHl; lra. Qed.
Lemma vsum_map_ext : forall {A} (f g : A -> R) l,
  (forall a, In a l -> f a = g a) -> vsum (map f l) = vsum (map g l).
Proof. intros. f_equal. now apply map_ext_in. Qed.
Lemma vsum_concat : forall (l : list (list R)), vsum (concat l) = vsum (map vsum l).
Proof. induction l; simpl; auto. rewrite vsum_app, IHl. reflexivity. Qed.
Lemma vsum_swap : forall {A B} (f : A -> B -> R) l m,
  vsum (map (fun a => vsum (map (f a) m)) l) = vsum (map (fun b => vsum (map (fun a => f a b) l)) m).
Proof.
  induction l; simpl; intros.
  - symmetry. apply (vsum_map_0 m).
  - rewrite vsum_cons, IHl. rewrite <- vsum_map_plus. apply vsum_map_ext; intros. now rewrite vsum_cons.
Qed.
Lemma vsum_nonneg : forall (l : list R), (forall a, In a l -> 0 <= a)%R -> (0 <= vsum l)%R.
Proof.
  induction l; intros; rewrite ?vsum_nil, ?vsum_cons; try lra.
  assert (0 <= a)%R by (apply H; left; auto).
  assert (0 <= vsum l)%R by (apply IHl; intros; apply H; right; auto). lra.
Qed.
Lemma vsum_nonneg_0 : forall (l : list R), (forall a, In a l -> 0 <= a)%R -> vsum l = 0%R ->
  forall a, In a l -> a = 0%R.
Proof.
  induction l; intros; [destruct H1|]. rewrite vsum_cons in H0.
  assert (0 <= a)%R by (apply H; left; auto).
  assert (0 <= vsum l)%R by (apply vsum_nonneg; intros; apply H; right; auto).
  destruct H1. subst. lra. apply IHl; auto. intros; apply H; right; auto. lra.
Qed.

Lemma fold_left_Rplus : forall {A} (f : A -> R) l acc,
  fold_left (fun v a => (v + f a)%R) l acc = (acc + vsum (map f l))%R.
Proof.
  induction l; simpl; intros.
  - rewrite vsum_nil; lra.
  - rewrite IHl, vsum_cons. lra.
Qed.

Lemma skipn_skipn_add : forall {A} (l : list A) a b, skipn a (skipn b l) = skipn (a + b) l.
Proof.
  induction l; intros.
  - now rewrite !skipn_nil.
  - destruct b; simpl.
    + now rewrite Nat.add_0_r.
    + rewrite Nat.add_succ_r. simpl. apply IHl.
Qed.
