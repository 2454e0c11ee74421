(* Facts about mapM and dictionaries. *)
From Coq Require Import List Arith Lia ZArith.
From Verif Require Import Py.
Import ListNotations.

Lemma mapM_inv : forall {A B} (f : A -> result B) l r, mapM f l = Ok r -> Forall2 (fun a b => f a = Ok b) l r.
Proof.
  induction l; simpl; intros r H.
  - injection H as <-. constructor.
  - destruct (f a) eqn:E; [|discriminate]. cbn [bind] in H. destruct (mapM f l) eqn:E2; [|discriminate].
    cbn [bind] in H. injection H as <-. constructor; auto.
Qed.
Lemma mapM_intro : forall {A B} (f : A -> result B) l r, Forall2 (fun a b => f a = Ok b) l r -> mapM f l = Ok r.
Proof. intros A B f l r H. induction H; simpl; auto. rewrite H. cbn [bind]. rewrite IHForall2. reflexivity. Qed.
Lemma mapM_ok : forall {A B} (f : A -> result B) l, (forall a, In a l -> exists b, f a = Ok b) -> exists r, mapM f l = Ok r.
Proof.
  induction l; simpl; intros H; [eauto|].
  destruct (H a (or_introl eq_refl)) as [b ->]. cbn [bind].
  destruct IHl as [r ->]. { intros; apply H; auto. } cbn [bind]. eauto.
Qed.
Lemma mapM_err : forall {A B} (f : A -> result B) l e, mapM f l = Err e -> exists a, In a l /\ f a = Err e.
Proof.
  induction l; simpl; intros e H; [discriminate|].
  destruct (f a) eqn:E; cbn [bind] in H.
  - destruct (mapM f l) eqn:E2; cbn [bind] in H; [discriminate|]. injection H as ->.
    destruct (IHl e eq_refl) as (x & Hx & Ex). eauto.
  - injection H as ->. eauto.
Qed.
Lemma mapM_err_intro : forall {A B} (f : A -> result B) l a e, In a l -> f a = Err e -> exists e', mapM f l = Err e'.
Proof.
  intros A B f l a e Hin He. destruct (mapM f l) eqn:E; [|eauto]. apply mapM_inv in E.
  exfalso. induction E; [destruct Hin|]. destruct Hin as [<-|Hin]; auto. congruence.
Qed.
Lemma mapM_length : forall {A B} (f : A -> result B) l r, mapM f l = Ok r -> length r = length l.
Proof. intros A B f l r H. apply mapM_inv in H. induction H; simpl; auto. Qed.
Lemma mapM_nth : forall {A B} (f : A -> result B) l r i da db, mapM f l = Ok r -> i < length l ->
  f (nth i l da) = Ok (nth i r db).
Proof.
  intros A B f l r i da db H. apply mapM_inv in H. revert i. induction H; simpl; intros; [lia|].
  destruct i; auto. apply IHForall2. lia.
Qed.
Lemma mapM_map : forall {A B C} (f : A -> result B) (g : C -> A) l, mapM f (map g l) = mapM (fun c => f (g c)) l.
Proof. induction l; simpl; auto. rewrite IHl. reflexivity. Qed.
Lemma mapM_pure : forall {A B} (f : A -> B) l, mapM (fun a => Ok (f a)) l = Ok (map f l).
Proof. induction l; simpl; auto. rewrite IHl. reflexivity. Qed.
Lemma mapM_ext : forall {A B} (f g : A -> result B) l, (forall a, In a l -> f a = g a) -> mapM f l = mapM g l.
Proof.
  induction l; simpl; intros; auto. rewrite (H a) by auto. rewrite IHl by auto. reflexivity.
Qed.

(* dictionaries with integer keys *)
Lemma dgetZ_in : forall {V} (d : list (Z * V)) k v, dget Z.eqb d k = Ok v -> In (k, v) d.
Proof.
  induction d as [|[k' v'] d IH]; simpl; intros; [discriminate|].
  destruct (Z.eqb_spec k k'); [injection H as ->; subst; auto | right; auto].
Qed.
Lemma dgetZ_ok : forall {V} (d : list (Z * V)) k, (exists v, dget Z.eqb d k = Ok v) <-> In k (map fst d).
Proof.
  induction d as [|[k' v'] d IH]; simpl; intros.
  - split; [intros [v H]; discriminate | tauto].
  - destruct (Z.eqb_spec k k').
    + subst. split; eauto.
    + rewrite IH. split; [auto | intros [E|H]; [congruence | auto]].
Qed.
Lemma dgetZ_err : forall {V} (d : list (Z * V)) k e, dget Z.eqb d k = Err e -> e = KeyError.
Proof.
  induction d as [|[k' v'] d IH]; simpl; intros; [congruence|].
  destruct (Z.eqb_spec k k'); [discriminate | eauto].
Qed.
