(* Sorting by angle: geometry_2d.py:140-147, 280-287. *)
From Coq Require Import String ZArith List Arith Lia Reals Lra Sorted Permutation.
From Verif Require Import Num Py PyFacts Transform Geometry RCalc ListFacts SpecGeom SpecMesh TransformFacts CellFacts2.
Import ListNotations.
Local Open Scope R_scope.

(* ---------- polar angles ---------- *)
Definition crossv (u v : point) : R := fst u * snd v - snd u * fst v.
Lemma norm_pos : forall x y, x <> 0 \/ y <> 0 -> 0 < sqrt (x * x + y * y).
Proof. intros x y [H | H]; apply sqrt_lt_R0; nra. Qed.
Lemma angle_sin : forall u v tu tv, is_angle (fst u) (snd u) tu -> is_angle (fst v) (snd v) tv ->
  crossv u v = sqrt (fst u * fst u + snd u * snd u) * sqrt (fst v * fst v + snd v * snd v) * sin (tv - tu).
Proof.
  intros u v tu tv (_ & Hx & Hy) (_ & Vx & Vy). unfold crossv. rewrite sin_minus.
  set (r := sqrt (fst u * fst u + snd u * snd u)) in *. set (q := sqrt (fst v * fst v + snd v * snd v)) in *.
  rewrite Hx at 1. rewrite Hy at 1. rewrite Vx at 1. rewrite Vy at 1. ring.
Qed.
Lemma crossv_nonzero : forall u v, crossv u v <> 0 -> (fst u <> 0 \/ snd u <> 0) /\ (fst v <> 0 \/ snd v <> 0).
Proof.
  intros u v H. unfold crossv in H. split.
  - destruct (Req_dec (fst u) 0) as [E | E]; auto. right. intros E2. apply H. rewrite E, E2. ring.
  - destruct (Req_dec (fst v) 0) as [E | E]; auto. right. intros E2. apply H. rewrite E, E2. ring.
Qed.
(* v is less than half a turn to the left of u: the angle grows by less than PI, or
   it jumps down by more than PI *)
Lemma wrap : forall u v tu tv, is_angle (fst u) (snd u) tu -> is_angle (fst v) (snd v) tv -> 0 < crossv u v ->
  0 < tv - tu < PI \/ - (2 * PI) < tv - tu < - PI.
Proof.
  intros u v tu tv Hu Hv Hc. rewrite (angle_sin u v tu tv Hu Hv) in Hc.
  set (r := sqrt (fst u * fst u + snd u * snd u)) in *. set (q := sqrt (fst v * fst v + snd v * snd v)) in *.
  assert (0 <= r) by apply sqrt_pos. assert (0 <= q) by apply sqrt_pos.
  assert (S : 0 < sin (tv - tu)). { assert (0 <= r * q) by nra. nra. }
  destruct Hu as [Bu _], Hv as [Bv _]. pose proof PI_RGT_0.
  set (d := tv - tu) in *. assert (- (2 * PI) < d < 2 * PI) by (unfold d; lra).
  destruct (Rle_lt_dec d (- PI)) as [A | A].
  - destruct (Req_dec d (- PI)) as [E | E]; [rewrite E, sin_neg, sin_PI in S; lra | right; lra].
  - destruct (Rle_lt_dec d 0) as [B | B].
    + exfalso. assert (K : 0 <= sin (- d)) by (apply sin_ge_0; lra). rewrite sin_neg in K. lra.
    + destruct (Rle_lt_dec PI d) as [D | D]; [|left; lra]. exfalso. assert (sin d <= 0) by (apply sin_le_0; lra). lra.
Qed.
Lemma angle_upper : forall x y t, is_angle x y t -> 0 < y -> 0 < t < PI.
Proof.
  intros x y t (B & _ & Hy) P. pose proof (sqrt_pos (x * x + y * y)). set (r := sqrt (x * x + y * y)) in *.
  assert (S : 0 < sin t) by nra. split.
  - destruct (Rle_lt_dec t 0) as [A | A]; auto. exfalso. assert (K : 0 <= sin (- t)) by (apply sin_ge_0; lra). rewrite sin_neg in K. lra.
  - destruct (Req_dec t PI) as [-> | E]; [rewrite sin_PI in S; lra | lra].
Qed.
Lemma angle_lower : forall x y t, is_angle x y t -> y < 0 -> - PI < t < 0.
Proof.
  intros x y t (B & _ & Hy) P. pose proof (sqrt_pos (x * x + y * y)). set (r := sqrt (x * x + y * y)) in *.
  assert (S : sin t < 0) by nra. split; [lra|].
  destruct (Rle_lt_dec 0 t) as [A | A]; auto. exfalso. assert (0 <= sin t) by (apply sin_ge_0; lra). lra.
Qed.

(* ---------- sorted lists ---------- *)
Lemma sorted_perm_unique : forall {X} (key : X -> R) (l1 l2 : list X), Permutation l1 l2 ->
  StronglySorted (fun a b => key a <= key b) l1 -> StronglySorted (fun a b => key a < key b) l2 -> l1 = l2.
Proof.
  intros X key l1 l2; revert l1. induction l2 as [|a l2 IH]; intros l1 P S1 S2.
  - now apply Permutation_sym, Permutation_nil in P.
  - destruct l1 as [|b l1]; [now apply Permutation_nil in P|].
    inversion S1 as [|? ? S1' F1]; subst. inversion S2 as [|? ? S2' F2]; subst.
    assert (E : b = a).
    { assert (Hb : In b (a :: l2)) by (apply (Permutation_in _ P); now left).
      destruct Hb as [Hb | Hb]; auto. rewrite Forall_forall in F1, F2. specialize (F2 b Hb).
      assert (Ha : In a (b :: l1)) by (apply (Permutation_in _ (Permutation_sym P)); now left).
      destruct Ha as [Ha | Ha]; auto. specialize (F1 a Ha). lra. }
    subst b. f_equal. apply IH; auto. now apply Permutation_cons_inv in P.
Qed.
Lemma StronglySorted_map : forall {X Y} (f : X -> Y) (r : Y -> Y -> Prop) l, StronglySorted r (map f l) <->
  StronglySorted (fun a b => r (f a) (f b)) l.
Proof.
  intros X Y f r l. induction l as [|a l IH]; simpl; [split; constructor|]. split; intros S; inversion S as [|? ? S' F]; subst;
    (constructor; [now apply IH|]); rewrite Forall_forall in *; intros y Hy.
  - apply F, in_map, Hy.
  - apply in_map_iff in Hy. destruct Hy as (x & <- & Hx). now apply F.
Qed.
Lemma Permutation_index : forall {X} (l : list X) ks d, Permutation ks (seq 0 (length l)) -> Permutation (map (fun k => nth k l d) ks) l.
Proof.
  intros X l ks d P. rewrite (Permutation_map (fun k => nth k l d) P).
  replace (map (fun k => nth k l d) (seq 0 (length l))) with l; auto.
  apply (nth_ext _ _ d (nth 0 l d)); [now rewrite map_length, seq_length|]. intros i Hi.
  rewrite (nth_map_lt _ _ i _ 0%nat) by (now rewrite seq_length). now rewrite seq_nth.
Qed.

(* ---------- sort_cell ---------- *)
Definition center (c : cell R) : point :=
  ((fst (v0 c) + fst (v1 c) + fst (v2 c) + fst (v3 c)) / 4, (snd (v0 c) + snd (v1 c) + snd (v2 c) + snd (v3 c)) / 4).
Definition angle_of (e : numpy R) (g p : point) : R := np_arctan2 e (snd p - snd g) (fst p - fst g).

Lemma sort_cell_eq : forall (e : numpy R) c,
  sort_cell e c = match map (fun k => nth k (vertices c) (0, 0)) (np_argsort e (map (angle_of e (center c)) (vertices c))) with
                  | [a; b; c; d] => Ok (mkcell a b c d) | _ => Err ValueError end.
Proof.
  intros e c. unfold sort_cell.
  assert (Ex : vmean (map fst (vertices c)) = fst (center c)) by (unfold vmean, vsum, vertices, center, nofnat; cbn; to_R; field).
  assert (Ey : vmean (map snd (vertices c)) = snd (center c)) by (unfold vmean, vsum, vertices, center, nofnat; cbn; to_R; field).
  rewrite Ex, Ey. reflexivity.
Qed.
Lemma sort_cell_sorts : forall e c, (forall l, sorts l (np_argsort e l)) -> exists r, sort_cell e c = Ok r /\
  Permutation (vertices r) (vertices c) /\
  StronglySorted (fun p q => angle_of e (center c) p <= angle_of e (center c) q) (vertices r).
Proof.
  intros e c Hs. rewrite sort_cell_eq. set (ang := angle_of e (center c)). set (ks := np_argsort e (map ang (vertices c))).
  destruct (Hs (map ang (vertices c))) as [P S]. fold ks in P, S. rewrite map_length in P.
  pose proof (Permutation_index (vertices c) ks (0, 0) P) as P'.
  set (l := map (fun k => nth k (vertices c) (0, 0)) ks) in *.
  assert (L : length l = 4%nat) by (rewrite (Permutation_length P'); reflexivity).
  assert (Es : map (fun k => nth k (map ang (vertices c)) 0) ks = map ang l).
  { unfold l. rewrite map_map. apply map_ext_in. intros k Hk. 
    assert (Hk' : In k (seq 0 (length (vertices c)))) by (now apply (Permutation_in _ P)). apply in_seq in Hk'.
    apply nth_map_lt. exact (proj2 Hk'). }
  rewrite Es in S. apply (proj1 (StronglySorted_map ang Rle l)) in S. clear Es. clearbody l.
  destruct l as [|a [|b [|c' [|d [|]]]]]; try discriminate. exists (mkcell a b c' d). exact (conj eq_refl (conj P' S)).
Qed.

(* Four points around a center, each less than half a turn after the previous one *)
Section Ring.
Variables (e : numpy R) (g a b c d : point).
Hypothesis He : numpy_ok e.
Hypothesis Hab : 0 < cross g a b.
Hypothesis Hbc : 0 < cross g b c.
Hypothesis Hcd : 0 < cross g c d.
Hypothesis Hda : 0 < cross g d a.
Let v (p : point) : point := (fst p - fst g, snd p - snd g).
Let th := angle_of e g.
Lemma cross_v : forall p q, cross g p q = crossv (v p) (v q).
Proof. reflexivity. Qed.
Lemma ring_angle : forall p, (fst p - fst g <> 0 \/ snd p - snd g <> 0) -> is_angle (fst (v p)) (snd (v p)) (th p).
Proof. intros p Hp. unfold th, angle_of. apply (arctan2_ok e He). exact Hp. Qed.
Lemma ring_angles : is_angle (fst (v a)) (snd (v a)) (th a) /\ is_angle (fst (v b)) (snd (v b)) (th b) /\
  is_angle (fst (v c)) (snd (v c)) (th c) /\ is_angle (fst (v d)) (snd (v d)) (th d).
Proof.
  rewrite cross_v in Hab, Hbc, Hcd, Hda.
  destruct (crossv_nonzero (v a) (v b) (Rgt_not_eq _ _ Hab)) as [Na Nb]. destruct (crossv_nonzero (v c) (v d) (Rgt_not_eq _ _ Hcd)) as [Nc Nd].
  refine (conj _ (conj _ (conj _ _))); apply ring_angle; assumption.
Qed.
Lemma ring_step : forall p q, is_angle (fst (v p)) (snd (v p)) (th p) -> is_angle (fst (v q)) (snd (v q)) (th q) -> 0 < cross g p q ->
  0 < th q - th p < PI \/ - (2 * PI) < th q - th p < - PI.
Proof. intros p q Hp Hq H. rewrite cross_v in H. now apply (wrap (v p) (v q)). Qed.
Lemma ring_order :
  (th a < th b < th c /\ th c < th d) \/ (th b < th c < th d /\ th d < th a) \/
  (th c < th d < th a /\ th a < th b) \/ (th d < th a < th b /\ th b < th c).
Proof.
  destruct ring_angles as (Aa & Ab & Ac & Ad). pose proof PI_RGT_0.
  pose proof (ring_step a b Aa Ab Hab). pose proof (ring_step b c Ab Ac Hbc).
  pose proof (ring_step c d Ac Ad Hcd). pose proof (ring_step d a Ad Aa Hda).
  destruct H0, H1, H2, H3; try (exfalso; lra).
  - left; lra.
  - right; right; right; lra.
  - right; right; left; lra.
  - right; left; lra.
Qed.
(* any listing of the four points is sorted to a rotation of a b c d *)
Lemma ring_sorted : forall l, Permutation l [a; b; c; d] -> StronglySorted (fun p q => th p <= th q) l ->
  In l [[a; b; c; d]; [b; c; d; a]; [c; d; a; b]; [d; a; b; c]].
Proof.
  intros l P S.
  assert (G : forall w x y z, Permutation [a; b; c; d] [w; x; y; z] -> th w < th x < th y -> th y < th z -> l = [w; x; y; z]).
  { intros w x y z P' H1 H2. apply (sorted_perm_unique th); auto; [now transitivity [a; b; c; d]|].
    repeat constructor; lra. }
  destruct ring_order as [[H1 H2] | [[H1 H2] | [[H1 H2] | [H1 H2]]]].
  - left. symmetry. apply G; auto.
  - right; left. symmetry. apply G; auto. apply (Permutation_cons_append [b; c; d] a).
  - right; right; left. symmetry. apply G; auto. apply (Permutation_app_comm [a; b] [c; d]).
  - right; right; right; left. symmetry. apply G; auto. apply (Permutation_app_comm [a; b; c] [d]).
Qed.
End Ring.

(* ---------- convex cells ---------- *)
Lemma center_perm : forall c c', Permutation (vertices c) (vertices c') -> center c = center c'.
Proof.
  intros c c' P.
  assert (S : forall f : point -> R, vsum (map f (vertices c)) = vsum (map f (vertices c'))).
  { intros f. apply (Permutation_map f) in P. revert P. generalize (map f (vertices c)) (map f (vertices c')).
    intros l l' P. induction P; rewrite ?vsum_cons; try lra; auto. }
  pose proof (S fst) as Sx. pose proof (S snd) as Sy. unfold vertices in Sx, Sy. cbn [map] in Sx, Sy.
  rewrite !vsum_cons, !vsum_nil in Sx, Sy. unfold center. f_equal; lra.
Qed.
Lemma center_inside : forall c, convex_ccw c -> interior c (center c).
Proof. intros c (A & B & C & D). unfold interior, center, cross in *. cbn [fst snd]. repeat split; nra. Qed.
Lemma cross_turn : forall p q r, cross p q r = cross q r p.
Proof. intros. unfold cross. ring. Qed.

Lemma sort_convex : forall e c0 c, numpy_ok e -> convex_ccw c0 -> Permutation (vertices c) (vertices c0) ->
  exists r, sort_cell e c = Ok r /\ In r (rotations c0).
Proof.
  intros e c0 c He H0 P. destruct (sort_cell_sorts e c (argsort_ok e He)) as (r & E & Pr & S). exists r. split; [exact E|].
  rewrite (center_perm c c0 P) in S. destruct (center_inside c0 H0) as (A & B & C & D).
  assert (P0 : Permutation (vertices r) (vertices c0)) by (now transitivity (vertices c)).
  assert (T : forall p q, 0 < cross p q (center c0) -> 0 < cross (center c0) p q) by (intros p q H; now rewrite cross_turn).
  pose proof (ring_sorted e (center c0) (v0 c0) (v1 c0) (v2 c0) (v3 c0) He (T _ _ A) (T _ _ B) (T _ _ C) (T _ _ D)
    (vertices r) P0 S) as H. destruct r as [r0 r1 r2 r3]. unfold vertices in H; cbn [v0 v1 v2 v3] in H.
  unfold rotations. destruct c0 as [c0 c1 c2 c3]. cbn [v0 v1 v2 v3] in *.
  destruct H as [H | [H | [H | [H | []]]]]; injection H as <- <- <- <-; simpl; auto.
Qed.
Lemma rotation_convex : forall c r, convex_ccw c -> In r (rotations c) -> convex_ccw r.
Proof.
  intros c r (A & B & C & D) H. destruct H as [<- | [<- | [<- | [<- | []]]]]; unfold convex_ccw; cbn [v0 v1 v2 v3];
    repeat split; auto.
Qed.
Lemma rotation_area : forall c r, In r (rotations c) -> area r = area c.
Proof.
  intros c r H. destruct H as [<- | [<- | [<- | [<- | []]]]]; unfold area; cbn [v0 v1 v2 v3]; f_equal; f_equal; ring.
Qed.
(* the listing of the vertices does not matter when the angles differ *)
Lemma sort_independent : forall e c c', (forall l, sorts l (np_argsort e l)) -> Permutation (vertices c) (vertices c') ->
  (forall p q, In p (vertices c) -> In q (vertices c) -> angle_of e (center c) p = angle_of e (center c) q -> p = q) ->
  NoDup (vertices c) -> sort_cell e c = sort_cell e c'.
Proof.
  intros e c c' Hs P Hd Hn. destruct (sort_cell_sorts e c Hs) as (r & -> & Pr & S).
  destruct (sort_cell_sorts e c' Hs) as (r' & -> & Pr' & S'). rewrite <- (center_perm c c' P) in S'.
  assert (SS : forall l, Permutation l (vertices c) -> StronglySorted (fun p q => angle_of e (center c) p <= angle_of e (center c) q) l ->
     StronglySorted (fun p q => angle_of e (center c) p < angle_of e (center c) q) l).
  { intros l Pl. assert (Nl : NoDup l) by (apply (Permutation_NoDup (Permutation_sym Pl)); auto).
    assert (Hin : forall x, In x l -> In x (vertices c)) by (intros x; apply (Permutation_in _ Pl)). clear Pl.
    induction l as [|x l IH]; intros Sl; [constructor|]. inversion Sl as [|? ? Sl' F]; subst. inversion Nl as [|? ? Nx Nl']; subst.
    constructor; [apply IH; auto; intros y Hy; apply Hin; now right|]. rewrite Forall_forall in *. intros y Hy. specialize (F y Hy).
    destruct F as [F | F]; auto. exfalso. apply Nx. rewrite (Hd x y); auto; apply Hin; [now left | now right]. }
  assert (E : vertices r = vertices r').
  { apply (sorted_perm_unique (angle_of e (center c))); auto.
    - transitivity (vertices c); auto. symmetry. transitivity (vertices c'); auto. now symmetry.
    - apply SS; auto. transitivity (vertices c'); auto. now symmetry. }
  destruct r, r'. unfold vertices in E. cbn in E. injection E as -> -> -> ->. reflexivity.
Qed.

(* ---------- rectangles ---------- *)
Lemma rect_convex : forall a b c d, a < b -> c < d -> convex_ccw (rect a b c d).
Proof. intros. unfold convex_ccw, rect, cross; cbn. repeat split; nra. Qed.
Lemma sort_rect : forall e a b c d s, numpy_ok e -> a < b -> c < d -> Permutation (vertices s) (vertices (rect a b c d)) ->
  sort_cell e s = Ok (rect a b c d).
Proof.
  intros e a b c d s He Hab Hcd P. destruct (sort_convex e _ s He (rect_convex a b c d Hab Hcd) P) as (r & E & Hr).
  rewrite E. f_equal. destruct (sort_cell_sorts e s (argsort_ok e He)) as (r' & E' & _ & S). rewrite E in E'. injection E' as <-.
  rewrite (center_perm s _ P) in S. set (g := center (rect a b c d)) in *.
  assert (Gx : fst g = (a + b) / 2) by (unfold g, center, rect; cbn; field).
  assert (Gy : snd g = (c + d) / 2) by (unfold g, center, rect; cbn; field).
  assert (An : forall p, fst p <> fst g -> is_angle (fst p - fst g) (snd p - snd g) (angle_of e g p)).
  { intros p Hp. apply (arctan2_ok e He). left. lra. }
  assert (A0 := An (a, c)). assert (A1 := An (b, c)). assert (A2 := An (b, d)). assert (A3 := An (a, d)). cbn [fst snd] in *.
  assert (L0 := angle_lower _ _ _ (A0 ltac:(lra)) ltac:(lra)). assert (L1 := angle_lower _ _ _ (A1 ltac:(lra)) ltac:(lra)).
  assert (L2 := angle_upper _ _ _ (A2 ltac:(lra)) ltac:(lra)). assert (L3 := angle_upper _ _ _ (A3 ltac:(lra)) ltac:(lra)).
  pose proof PI_RGT_0 as PP.
  assert (W : angle_of e g (a, c) < angle_of e g (b, c)).
  { destruct (wrap (a - fst g, c - snd g) (b - fst g, c - snd g) _ _ (A0 ltac:(lra)) (A1 ltac:(lra))) as [W|W]; [|lra|lra].
    unfold crossv; cbn [fst snd]. rewrite Gx, Gy. nra. }
  assert (W2 : angle_of e g (b, d) < angle_of e g (a, d)).
  { destruct (wrap (b - fst g, d - snd g) (a - fst g, d - snd g) _ _ (A2 ltac:(lra)) (A3 ltac:(lra))) as [W2|W2]; [|lra|lra].
    unfold crossv; cbn [fst snd]. rewrite Gx, Gy. nra. }
  unfold rotations, rect in Hr. cbn [v0 v1 v2 v3] in Hr.
  destruct Hr as [<- | [<- | [<- | [<- | []]]]]; auto; exfalso; unfold vertices in S; cbn [v0 v1 v2 v3] in S;
    inversion S as [|? ? S1 F1]; subst; inversion S1 as [|? ? S2 F2]; subst;
    rewrite !Forall_cons_iff in F1, F2; lra.
Qed.

(* ---------- a numpy that meets the contract ---------- *)
Definition atan2 (y x : R) : R :=
  if Rlt_dec 0 x then atan (y / x)
  else if Rlt_dec x 0 then (if Rle_dec 0 y then atan (y / x) + PI else atan (y / x) - PI)
  else if Rlt_dec 0 y then PI / 2 else - (PI / 2).
Lemma sqrt_scale : forall x y, x <> 0 -> sqrt (x * x + y * y) = Rabs x * sqrt (1 + (y / x) ^ 2).
Proof.
  intros x y Hx. replace (x * x + y * y) with ((x * x) * (1 + (y / x) ^ 2)) by (field; auto).
  rewrite sqrt_mult_alt by nra. f_equal. apply sqrt_Rsqr_abs.
Qed.
Lemma atan2_angle : forall x y, x <> 0 \/ y <> 0 -> is_angle x y (atan2 y x).
Proof.
  intros x y H. pose proof PI_RGT_0. unfold atan2, is_angle.
  assert (Q : forall z, 0 < sqrt (1 + z ^ 2)) by (intros z; apply sqrt_lt_R0; nra).
  assert (C : forall z, cos (atan z) = / sqrt (1 + z ^ 2) /\ sin (atan z) = z / sqrt (1 + z ^ 2)).
  { intros z. split; [rewrite cos_atan | rewrite sin_atan]; unfold Rsqr; replace (z * z) with (z ^ 2) by ring; [unfold Rdiv; lra | reflexivity]. }
  destruct (Rlt_dec 0 x) as [P | P].
  - pose proof (atan_bound (y / x)). destruct (C (y / x)) as [-> ->]. rewrite (sqrt_scale x y) by lra. rewrite Rabs_right by lra.
    specialize (Q (y / x)). split; [lra|]. split; field; lra.
  - destruct (Rlt_dec x 0) as [N | N].
    + pose proof (atan_bound (y / x)). destruct (C (y / x)) as [Cc Cs]. rewrite (sqrt_scale x y) by lra. rewrite (Rabs_left x) by lra.
      specialize (Q (y / x)). destruct (Rle_dec 0 y) as [Y | Y].
      * assert (atan (y / x) <= 0).
        { assert (y / x <= 0) by (unfold Rdiv; assert (/ x < 0) by (now apply Rinv_lt_0_compat); nra).
          destruct H2 as [H2 | ->]; [|rewrite atan_0; lra]. left. rewrite <- atan_0. now apply atan_increasing. }
        rewrite neg_cos, neg_sin, Cc, Cs. split; [lra|]. split; field; lra.
      * assert (0 < atan (y / x)).
        { rewrite <- atan_0. apply atan_increasing. unfold Rdiv; assert (/ x < 0) by (now apply Rinv_lt_0_compat); nra. }
        rewrite cos_minus, sin_minus, cos_PI, sin_PI, Cc, Cs. split; [lra|]. split; field; lra.
    + assert (x = 0) by lra. subst x. assert (y <> 0) by (destruct H; lra). rewrite Rmult_0_l, Rplus_0_l.
      change (y * y) with (Rsqr y). rewrite sqrt_Rsqr_abs. destruct (Rlt_dec 0 y).
      * rewrite cos_PI2, sin_PI2, Rabs_right by lra. lra.
      * rewrite cos_neg, sin_neg, cos_PI2, sin_PI2, Rabs_left by lra. lra.
Qed.
Fixpoint ins_key (key : nat -> R) (k : nat) (l : list nat) : list nat :=
  match l with [] => [k] | j :: r => if Rle_dec (key k) (key j) then k :: l else j :: ins_key key k r end.
Definition isort (l : list R) : list nat := fold_right (ins_key (fun k => nth k l 0)) [] (seq 0 (length l)).
Lemma ins_perm : forall key k l, Permutation (ins_key key k l) (k :: l).
Proof.
  intros key k l. induction l as [|j l IH]; simpl; auto. destruct (Rle_dec (key k) (key j)); auto.
  rewrite IH. apply perm_swap.
Qed.
Lemma ins_sorted : forall key k l, StronglySorted (fun a b => key a <= key b) l -> StronglySorted (fun a b => key a <= key b) (ins_key key k l).
Proof.
  intros key k l S. induction S as [|j l S IH F]; simpl; [repeat constructor|]. destruct (Rle_dec (key k) (key j)) as [H | H].
  - constructor; [constructor; auto|]. constructor; auto. rewrite Forall_forall in *. intros y Hy. specialize (F y Hy). lra.
  - constructor; auto. rewrite Forall_forall in *. intros y Hy. apply (Permutation_in _ (ins_perm key k l)) in Hy.
    destruct Hy as [<- | Hy]; [lra | auto].
Qed.
Definition numpy_R : numpy R := {| np_arctan2 := atan2; np_argsort := isort |}.
Lemma numpy_R_ok : numpy_ok numpy_R.
Proof.
  constructor; [exact atan2_angle|]. intros l. unfold sorts. cbn [np_argsort numpy_R]. unfold isort. set (key := fun k => nth k l 0).
  split.
  - induction (seq 0 (length l)) as [|k ks IH]; simpl; auto. rewrite ins_perm. now constructor.
  - apply StronglySorted_map. induction (seq 0 (length l)) as [|k ks IH]; simpl; [constructor|]. now apply ins_sorted.
Qed.

(* ---------- a non-convex cell is changed ---------- *)
Definition dart : cell R := mkcell (-10, 0) (1, 9) (10, 0) (0, 10).
Lemma dart_changed : forall e, numpy_ok e -> exists r, sort_cell e dart = Ok r /\
  In r (rotations (mkcell (-10, 0) (10, 0) (1, 9) (0, 10))) /\ area dart = 10 /\ area r = 100.
Proof.
  intros e He. destruct (sort_cell_sorts e dart (argsort_ok e He)) as (r & E & Pr & S). exists r. split; [exact E|].
  assert (Gx : center dart = (1 / 4, 19 / 4)) by (unfold center, dart; cbn; f_equal; field). rewrite Gx in S.
  assert (P0 : Permutation (vertices r) [(-10, 0); (10, 0); (1, 9); (0, 10)]).
  { rewrite Pr. unfold vertices, dart; cbn [v0 v1 v2 v3]. constructor. apply perm_swap. }
  assert (H : In r (rotations (mkcell (-10, 0) (10, 0) (1, 9) (0, 10)))).
  { pose proof (ring_sorted e (1/4, 19/4) (-10, 0) (10, 0) (1, 9) (0, 10) He
      ltac:(unfold cross; cbn; lra) ltac:(unfold cross; cbn; lra) ltac:(unfold cross; cbn; lra) ltac:(unfold cross; cbn; lra) _ P0 S) as H.
    destruct r as [r0 r1 r2 r3]. unfold vertices in H; cbn [v0 v1 v2 v3] in H. unfold rotations; cbn [v0 v1 v2 v3].
    destruct H as [H | [H | [H | [H | []]]]]; injection H as <- <- <- <-; simpl; auto. }
  split; [exact H|]. split.
  - unfold area, dart; cbn. rewrite Rabs_right by lra. lra.
  - rewrite (rotation_area _ r H). unfold area; cbn. rewrite Rabs_right by lra. lra.
Qed.
Lemma sort_convex_jacobian : forall e c0 c, numpy_ok e -> convex_ccw c0 -> Permutation (vertices c) (vertices c0) ->
  exists r, sort_cell e c = Ok r /\ In r (rotations c0) /\ convex_ccw r /\
    forall x y, in_square x y -> 0 < JacDet (RefMap "bilinear" r) x y.
Proof.
  intros e c0 c He H0 P. destruct (sort_convex e c0 c He H0 P) as (r & E & Hr). exists r. split; [exact E|]. split; [exact Hr|].
  pose proof (rotation_convex c0 r H0 Hr) as Cr. split; [exact Cr|]. intros x y Hxy.
  rewrite (CellFacts2.JacDet_ext _ (t_orig (bil r)) x y); [rewrite jacdet_bil; now apply convex_det|].
  intros s t. symmetry. now apply (CellFacts2.refmap_orig r (bil r) "bilinear"); right.
Qed.
