(* Facts about the tensor operations: every well-shaped tensor is a table of its
   entries, and each operation maps tables to tables. *)
From Coq Require Import String ZArith List Arith Lia Bool Reals Lra.
From Verif Require Import Num Py Basis Tensor RCalc PolyFacts ListFacts Spec PyFacts.
Import ListNotations.
Local Open Scope R_scope.

Definition tab {X} (n : nat) (f : nat -> X) : list X := map f (seq 0 n).
Definition mk (r c : nat) (f : nat -> nat -> R) : mat R := tab r (fun i => tab c (f i)).
Definition mk3 (b r c : nat) (f : nat -> nat -> nat -> R) : list (mat R) := tab b (fun i => mk r c (f i)).

Lemma tab_length : forall {X} n (f : nat -> X), length (tab n f) = n.
Proof. intros. unfold tab. now rewrite map_length, seq_length. Qed.
Lemma tab_nth : forall {X} n (f : nat -> X) i d, (i < n)%nat -> nth i (tab n f) d = f i.
Proof. intros. unfold tab. now rewrite nth_seq_map. Qed.
Lemma tab_ext : forall {X} n (f g : nat -> X), (forall i, (i < n)%nat -> f i = g i) -> tab n f = tab n g.
Proof. intros. unfold tab. apply map_ext_in. intros a Ha. apply in_seq in Ha. apply H. lia. Qed.
Lemma tab_of : forall {X} (l : list X) d, l = tab (length l) (fun i => nth i l d).
Proof.
  intros. apply nth_ext with (d := d) (d' := d). now rewrite tab_length.
  intros n H. now rewrite tab_nth.
Qed.
Lemma tab_map : forall {X Y} (g : X -> Y) n f, map g (tab n f) = tab n (fun i => g (f i)).
Proof. intros. unfold tab. now rewrite map_map. Qed.
Lemma tab_combine : forall {X Y} n (f : nat -> X) (g : nat -> Y), combine (tab n f) (tab n g) = tab n (fun i => (f i, g i)).
Proof.
  intros. unfold tab. generalize (seq 0 n). induction l; simpl; congruence.
Qed.
Lemma tab_map2 : forall {X Y Z} (h : X -> Y -> Z) n f g, map2 h (tab n f) (tab n g) = tab n (fun i => h (f i) (g i)).
Proof. intros. unfold tab. generalize (seq 0 n). induction l; simpl; congruence. Qed.
Lemma tab_mapM : forall {X Y} (g : X -> result Y) (f : nat -> X) (h : nat -> Y) n,
  (forall i, (i < n)%nat -> g (f i) = Ok (h i)) -> mapM g (tab n f) = Ok (tab n h).
Proof.
  intros X Y g f h n H. unfold tab.
  assert (G : forall l, (forall i, In i l -> g (f i) = Ok (h i)) -> mapM g (map f l) = Ok (map h l)).
  { induction l; simpl; intros K; auto. rewrite K by auto. cbn [bind]. rewrite IHl by auto. reflexivity. }
  apply G. intros i Hi. apply in_seq in Hi. apply H. lia.
Qed.
Lemma tab_vsum : forall n (f : nat -> R), vsum (tab n f) = Sum f n.
Proof.
  intros. rewrite vsum_rsum, tab_length. change Sum with rsum. apply rsum_ext. intros. now apply tab_nth.
Qed.

Lemma mk_ext : forall r c f g, (forall i j, (i < r)%nat -> (j < c)%nat -> f i j = g i j) -> mk r c f = mk r c g.
Proof. intros. unfold mk. apply tab_ext. intros. apply tab_ext. auto. Qed.
Lemma mk_shape : forall r c f, has_shape (mk r c f) r c.
Proof.
  intros. split. apply tab_length. intros row H. unfold mk, tab in H. apply in_map_iff in H.
  destruct H as (i & <- & _). apply tab_length.
Qed.
Lemma mk_entry : forall r c f i j, (i < r)%nat -> (j < c)%nat -> entry (mk r c f) i j = f i j.
Proof. intros. unfold entry, mk. now rewrite !tab_nth. Qed.
Lemma mk_of : forall (m : mat R) r c, has_shape m r c -> m = mk r c (entry m).
Proof.
  intros m r c [L H]. unfold mk. rewrite (tab_of m []) at 1. rewrite L. apply tab_ext. intros i Hi.
  rewrite (tab_of (nth i m []) 0) at 1. rewrite H by (apply nth_In; lia). reflexivity.
Qed.

(* Shape of a rank-3 tensor *)
Definition shape3 (t : list (mat R)) (b r c : nat) : Prop :=
  length t = b /\ forall m, In m t -> has_shape m r c.
Definition entry3 (t : list (mat R)) (i r c : nat) : R := entry (nth i t []) r c.
Lemma mk3_of : forall t b r c, shape3 t b r c -> t = mk3 b r c (entry3 t).
Proof.
  intros t b r c [L H]. unfold mk3. rewrite (tab_of t []) at 1. rewrite L. apply tab_ext. intros i Hi.
  apply mk_of. apply H. apply nth_In. lia.
Qed.
Lemma mk3_shape : forall b r c f, shape3 (mk3 b r c f) b r c.
Proof.
  intros. split. apply tab_length. intros m H. unfold mk3, tab in H. apply in_map_iff in H.
  destruct H as (i & <- & _). apply mk_shape.
Qed.

Lemma bcastM_tab : forall {X Y Z} (g : X -> Y -> result Z) n f h k,
  (forall i, (i < n)%nat -> g (f i) (h i) = Ok (k i)) -> bcastM g (tab n f) (tab n h) = Ok (tab n k).
Proof.
  intros. unfold bcastM. rewrite !tab_length, Nat.eqb_refl, tab_combine. apply tab_mapM. auto.
Qed.
Lemma bc1_tab : forall g n (f h : nat -> R), bc1 g (tab n f) (tab n h) = Ok (tab n (fun i => g (f i) (h i))).
Proof. intros. unfold bc1. now apply bcastM_tab. Qed.
Lemma bc2_mk : forall g r c f h, bc2 g (mk r c f) (mk r c h) = Ok (mk r c (fun i j => g (f i j) (h i j))).
Proof. intros. unfold bc2, mk. apply bcastM_tab. intros. apply bc1_tab. Qed.
Lemma mscale_mk : forall a r c f, mscale a (mk r c f) = mk r c (fun i j => a * f i j).
Proof. intros. unfold mscale, mk. rewrite tab_map. apply tab_ext. intros. now rewrite tab_map. Qed.
Lemma msquare_mk : forall r c (f : nat -> nat -> R), msquare (mk r c f) = mk r c (fun i j => f i j * f i j).
Proof. intros. unfold msquare, mk. rewrite tab_map. apply tab_ext. intros. now rewrite tab_map. Qed.
Lemma width_mk : forall r c f, (0 < r)%nat -> width (mk r c f) = c.
Proof. intros [|r] c f H; [lia|]. unfold mk, tab. simpl. now rewrite map_length, seq_length. Qed.
Lemma transpose_mk : forall r c f, (0 < r)%nat -> transpose (mk r c f) = mk c r (fun i j => f j i).
Proof.
  intros r c f H. unfold transpose. rewrite width_mk by auto. unfold mk at 2. unfold tab at 1.
  apply map_ext_in. intros j Hj. apply in_seq in Hj. unfold mk. rewrite tab_map. apply tab_ext. intros i Hi.
  now rewrite tab_nth by lia.
Qed.
Lemma dot_tab : forall n (f g : nat -> R), dot (tab n f) (tab n g) = Sum (fun q => f q * g q) n.
Proof. intros. unfold dot, vmul. rewrite tab_map2, tab_vsum. reflexivity. Qed.
Lemma matvec_mk : forall b r c t v,
  matvec (mk3 b r c t) (mk b c v) = Ok (mk b r (fun i k => Sum (fun q => t i k q * v i q) c)).
Proof.
  intros. unfold matvec, mk3. unfold mk at 2 3. apply bcastM_tab. intros i Hi. unfold mat_vec, mk. apply tab_mapM.
  intros k Hk. rewrite !tab_length, Nat.eqb_refl. now rewrite dot_tab.
Qed.
Lemma reduce_mean0_mk : forall r c f, (0 < r)%nat ->
  reduce_mean0 (mk r c f) = tab c (fun j => Sum (fun i => f i j) r / INR r).
Proof.
  intros. unfold reduce_mean0. rewrite transpose_mk by auto. unfold mk. rewrite tab_map. apply tab_ext. intros j Hj.
  unfold vmean. rewrite tab_vsum, tab_length, nofnat_R. reflexivity.
Qed.

Lemma chunks_tab : forall {X} r c (f : nat -> X), chunks r c (tab (r * c) f) = tab r (fun i => tab c (fun j => f (i * c + j)%nat)).
Proof.
  induction r; intros c f; [reflexivity|]. cbn [chunks].
  assert (E : tab (S r * c) f = tab c f ++ tab (r * c) (fun i => f (c + i)%nat)).
  { apply nth_ext with (d := f 0%nat) (d' := f 0%nat). rewrite app_length, !tab_length; simpl; auto.
    intros n Hn. rewrite tab_length in Hn. rewrite tab_nth by auto. destruct (Nat.lt_ge_cases n c).
    - rewrite app_nth1 by (rewrite tab_length; auto). now rewrite tab_nth.
    - rewrite app_nth2 by (rewrite tab_length; auto). rewrite tab_length, tab_nth by (simpl in Hn; lia). f_equal. lia. }
  rewrite E. rewrite firstn_app, firstn_all2 by (rewrite tab_length; auto).
  rewrite skipn_app, skipn_all2 by (rewrite tab_length; auto). rewrite tab_length, Nat.sub_diag.
  cbn [firstn skipn app]. rewrite app_nil_r. rewrite IHr.
  unfold tab at 4. cbn [seq map]. f_equal. unfold tab at 3. rewrite <- seq_shift, map_map. unfold tab at 1.
  apply map_ext. intros a. apply tab_ext. intros j Hj. f_equal. simpl. lia.
Qed.
Lemma reshape_ok : forall r c (l : list R) , length l = (r * c)%nat -> reshape r c l = Ok (mk r c (fun i j => nth (i * c + j) l 0)).
Proof.
  intros r c l H. unfold reshape. rewrite H, Nat.eqb_refl. rewrite (tab_of l 0) at 1. rewrite H.
  apply (f_equal Ok). apply chunks_tab.
Qed.
Lemma reshape_err : forall {X} r c (l : list X), length l <> (r * c)%nat -> reshape r c l = Err InvalidArgumentError.
Proof. intros. unfold reshape. destruct (Nat.eqb_spec (r * c) (length l)); auto. congruence. Qed.
Lemma last_dim_mk3 : forall b r c f, (0 < b)%nat -> (0 < r)%nat -> width (hd [] (mk3 b r c f)) = c.
Proof. intros [|b] r c f Hb Hr; [lia|]. unfold mk3, tab. cbn [seq map hd]. now apply width_mk. Qed.
