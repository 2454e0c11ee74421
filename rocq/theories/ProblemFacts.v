(* The shipped example problems: their exact solutions solve the equations. *)
From Coq Require Import String ZArith List Reals Lra Lia.
From Coquelicot Require Import Coquelicot.
From Verif Require Import Num Py Basis Transform Cell Space Heap Tensor Data Physics Train Geometry Nets Problems Spec SpecGeom SpecMesh SpecProblem ListFacts PyFacts SpaceFacts MeshFacts NetFacts.
Import ListNotations.
Local Open Scope R_scope.

Lemma cosh_pos : forall x, 0 < cosh x.
Proof. intro x. unfold cosh. pose proof (exp_pos x). pose proof (exp_pos (- x)). lra. Qed.
Lemma is_derive_tanh : forall x, is_derive tanh x (1 - tanh x ^ 2).
Proof.
  intro x. pose proof (cosh_pos x) as C. unfold tanh, sinh, cosh in *.
  auto_derive. 1: intro K; lra. field. intro K; lra.
Qed.
Lemma tanh_0 : tanh 0 = 0.
Proof. unfold tanh, sinh. rewrite Ropp_0. field_simplify. - unfold Rdiv; ring. - pose proof (cosh_pos 0); lra. Qed.
Lemma tanh_eq0 : forall x, tanh x = 0 -> x = 0.
Proof.
  intros x H. unfold tanh in H. pose proof (cosh_pos x) as C.
  assert (S : sinh x = 0). { replace (sinh x) with (sinh x / cosh x * cosh x) by (field; lra). rewrite H. ring. }
  unfold sinh in S. assert (E : exp x = exp (- x)) by lra. apply exp_inv in E. lra.
Qed.

Ltac sol ux uy uxx uyy := exists ux, uy, uxx, uyy; split;
  [ intros x y; refine (conj _ (conj _ (conj _ _))); auto_derive; auto; simpl pow; ring | intros x y; simpl pow; ring ].

Lemma sincos_solves : forall w, solves_poisson 1 (fun x y => -1 * sin (w * x) * sin (w * y))
  (fun x y => -2 * w ^ 2 * (sin (w * x) * sin (w * y))).
Proof.
  intro w. sol (fun x y => - w * cos (w * x) * sin (w * y)) (fun x y => - w * sin (w * x) * cos (w * y))
    (fun x y => w ^ 2 * sin (w * x) * sin (w * y)) (fun x y => w ^ 2 * sin (w * x) * sin (w * y)).
Qed.
Lemma helmholtz_solves : solves_helmholtz 1 1 helmholtz_exact helmholtz_rhs.
Proof.
  unfold helmholtz_exact, helmholtz_rhs.
  sol (fun x y => sin (PI * x) * sin (PI * y) + (x + y) * (PI * cos (PI * x)) * sin (PI * y))
    (fun x y => sin (PI * x) * sin (PI * y) + (x + y) * sin (PI * x) * (PI * cos (PI * y)))
    (fun x y => 2 * PI * cos (PI * x) * sin (PI * y) - (x + y) * PI ^ 2 * sin (PI * x) * sin (PI * y))
    (fun x y => 2 * PI * sin (PI * x) * cos (PI * y) - (x + y) * PI ^ 2 * sin (PI * x) * sin (PI * y)).
Qed.
Lemma circle_cd_solves : solves_cd 1 1 0 0 (pb_exact circle_cd) (pb_rhs circle_cd).
Proof.
  unfold circle_cd; cbn [pb_exact pb_rhs].
  sol (fun x y => - (2 * x) * sin (x ^ 2 + y ^ 2)) (fun x y => - (2 * y) * sin (x ^ 2 + y ^ 2))
    (fun x y => - 2 * sin (x ^ 2 + y ^ 2) - 4 * x ^ 2 * cos (x ^ 2 + y ^ 2))
    (fun x y => - 2 * sin (x ^ 2 + y ^ 2) - 4 * y ^ 2 * cos (x ^ 2 + y ^ 2)).
Qed.
Definition inv_ux (x y : R) : R :=
  10 * (cos x * tanh x + sin x * (1 - tanh x ^ 2) - 2 * EPS * x * sin x * tanh x) * exp (-1 * EPS * x ^ 2).
Definition inv_uxx (x y : R) : R :=
  10 * (2 * cos x * (1 - tanh x ^ 2) - sin x * tanh x - 2 * sin x * tanh x * (1 - tanh x ^ 2)
        - 4 * EPS * x * (cos x * tanh x + sin x * (1 - tanh x ^ 2)) - 2 * EPS * sin x * tanh x
        + 4 * EPS ^ 2 * x ^ 2 * sin x * tanh x) * exp (-1 * EPS * x ^ 2).
Lemma inv_partials : second_partials inverse_exact inv_ux (fun _ _ => 0) inv_uxx (fun _ _ => 0).
Proof.
  assert (T : forall x, ex_derive tanh x) by (intro x; eexists; apply is_derive_tanh).
  assert (D : forall x, Derive tanh x = 1 - tanh x ^ 2) by (intro x; apply is_derive_unique, is_derive_tanh).
  intros x y. unfold inverse_exact, inv_ux, inv_uxx. refine (conj _ (conj _ (conj _ _))).
  - auto_derive. { auto. } rewrite !D. simpl pow. ring.
  - auto_derive; auto.
  - auto_derive. { repeat split; auto. } rewrite D. simpl pow. ring.
  - auto_derive; auto.
Qed.
Lemma inv_solves : solves_poisson EPS inverse_exact (pb_rhs inverse_poisson).
Proof.
  exists inv_ux, (fun _ _ => 0), inv_uxx, (fun _ _ => 0). split. { exact inv_partials. }
  intros x y. cbn [pb_rhs inverse_poisson]. unfold inv_uxx.
  replace (-1 * x ^ 2 * EPS) with (-1 * EPS * x ^ 2) by ring. ring.
Qed.
Lemma usa_solves : solves_field (fun x y => sin x * cos (x * y)) 0 0 0 (pb_exact usa_inverse) (pb_rhs usa_inverse).
Proof.
  unfold usa_inverse; cbn [pb_exact pb_rhs].
  exists (fun x y => - exp (- (1 / 10) * y) * sin x), (fun x y => - (1 / 10) * exp (- (1 / 10) * y) * cos x),
    (fun x y => - exp (- (1 / 10) * y) * ((cos x * cos (x * y) - y * sin x * sin (x * y)) * sin x + sin x * cos (x * y) * cos x)),
    (fun x y => - (1 / 10) * cos x * sin x * exp (- (1 / 10) * y) * (- x * sin (x * y) - 1 / 10 * cos (x * y))).
  split.
  - intros x y; refine (conj _ (conj _ (conj _ _))); auto_derive; auto; field.
  - intros x y. field.
Qed.
(* Uniqueness of partial derivatives *)
Lemma second_partials_uniq : forall u ux uy uxx uyy vx vy vxx vyy, second_partials u ux uy uxx uyy -> second_partials u vx vy vxx vyy ->
  forall x y, ux x y = vx x y /\ uy x y = vy x y /\ uxx x y = vxx x y /\ uyy x y = vyy x y.
Proof.
  intros u ux uy uxx uyy vx vy vxx vyy H K.
  assert (E1 : forall x y, ux x y = vx x y) by (intros x y; rewrite <- (is_derive_unique _ _ _ (proj1 (H x y))); apply is_derive_unique, (K x y)).
  assert (E2 : forall x y, uy x y = vy x y) by (intros x y; destruct (H x y) as (_ & H2 & _); rewrite <- (is_derive_unique _ _ _ H2); apply is_derive_unique, (K x y)).
  intros x y. refine (conj (E1 x y) (conj (E2 x y) (conj _ _))).
  - destruct (H x y) as (_ & _ & H3 & _). rewrite <- (is_derive_unique _ _ _ H3). apply is_derive_unique.
    apply (is_derive_ext (fun t => vx t y)). { intro t. now rewrite E1. } apply (K x y).
  - destruct (H x y) as (_ & _ & _ & H3). rewrite <- (is_derive_unique _ _ _ H3). apply is_derive_unique.
    apply (is_derive_ext (fun t => vy x t)). { intro t. now rewrite E2. } apply (K x y).
Qed.
Lemma zero_second_partials : second_partials (fun _ _ => 1 * 0) (fun _ _ => 0) (fun _ _ => 0) (fun _ _ => 0) (fun _ _ => 0).
Proof. intros x y. refine (conj _ (conj _ (conj _ _))); auto_derive; auto; ring. Qed.

(* ---------- Boundary data ---------- *)
Lemma sin_4PI : sin (4 * PI) = 0.
Proof. replace (4 * PI) with (2 * (2 * PI)) by ring. rewrite sin_2a, sin_2PI. ring. Qed.
Lemma in_sides : forall b r t l n g, In (n, g) (sides b r t l) ->
  n = 1000%Z /\ g = b \/ n = 1001%Z /\ g = r \/ n = 1002%Z /\ g = t \/ n = 1003%Z /\ g = l.
Proof.
  intros b r t l n g [E | [E | [E | [E | []]]]]; injection E as <- <-; auto.
Qed.
Lemma unit_sincos : forall t p, on_side unit_limits t p -> -1 * sin (4 * PI * fst p) * sin (4 * PI * snd p) = 0.
Proof.
  intros t p H. unfold on_side, unit_limits in H. destruct H as [[_ H] | [[_ H] | [[_ H] | [_ H]]]]; rewrite H, ?Rmult_0_r, ?Rmult_1_r, ?sin_0, ?sin_4PI; ring.
Qed.
Lemma uniform_boundary_values : forall t g p, In (t, g) (pb_bound uniform_poisson) \/ In (t, g) (pb_bound hard_poisson) ->
  on_side unit_limits t p -> g (fst p) (snd p) = -1 * sin (4 * PI * fst p) * sin (4 * PI * snd p).
Proof.
  intros t g p [H | H] Hs; rewrite (unit_sincos t p Hs); cbn [pb_bound uniform_poisson hard_poisson] in H;
    apply in_sides in H; destruct H as [[_ ->] | [[_ ->] | [[_ ->] | [_ ->]]]]; unfold zero_side; ring.
Qed.
(* ---------- The hard constraint of the example ---------- *)
Lemma ansatz_sides : forall p t, on_side unit_limits t p -> ansatz p = 0.
Proof.
  intros p t H. unfold on_side, unit_limits in H. unfold ansatz.
  destruct H as [[_ H] | [[_ H] | [[_ H] | [_ H]]]]; rewrite H;
    [replace (4 * PI * 0) with 0 by ring | replace (4 * PI * (1 - 1)) with 0 by ring
    |replace (4 * PI * (1 - 1)) with 0 by ring | replace (4 * PI * 0) with 0 by ring]; rewrite tanh_0; ring.
Qed.
Lemma ansatz_zero : forall p, ansatz p = 0 -> exists t, on_side unit_limits t p.
Proof.
  intros p H. unfold ansatz in H. pose proof PI_RGT_0 as P.
  apply Rmult_integral in H as [H | H]; [apply Rmult_integral in H as [H | H]; [apply Rmult_integral in H as [H | H]|]|];
    apply tanh_eq0 in H; apply Rmult_integral in H as [H | H]; try lra.
  - exists 1003%Z. unfold on_side, unit_limits. intuition.
  - exists 1000%Z. unfold on_side, unit_limits. intuition.
  - exists 1001%Z. unfold on_side, unit_limits. right; left. split; auto; lra.
  - exists 1002%Z. unfold on_side, unit_limits. right; right; left. split; auto; lra.
Qed.
Lemma ansatz_rows : forall b y r, length y = length b -> (r < length b)%nat ->
  nth r (ansatz_constraint b y) [] = map (Rmult (ansatz (nth r b (0, 0)))) (nth r y []).
Proof.
  intros b y r L Hr. unfold ansatz_constraint.
  rewrite (map2_nth (fun p row => map (Rmult (ansatz p)) row) b y r (0, 0) [] []); auto; lia.
Qed.

(* ---------- Dirichlet rows of the examples with an internal mesh ---------- *)
Definition internal_examples : list (problem * ((R * R) * (R * R))) :=
  [(uniform_poisson, unit_limits); (hard_poisson, unit_limits); (uniform_helmholtz, unit_limits); (inverse_poisson, inverse_limits)].
Lemma example_values : forall pb lim t g p, In (pb, lim) internal_examples -> In (t, g) (pb_bound pb) -> on_side lim t p ->
  g (fst p) (snd p) = pb_exact pb (fst p) (snd p).
Proof.
  intros pb lim t g p [E | [E | [E | [E | []]]]] Hg Hs; injection E as <- <-.
  - apply (uniform_boundary_values t g p); auto.
  - apply (uniform_boundary_values t g p); auto.
  - cbn [pb_bound pb_exact uniform_helmholtz] in *. apply in_sides in Hg. destruct Hg as [[_ ->] | [[_ ->] | [[_ ->] | [_ ->]]]]; reflexivity.
  - cbn [pb_bound pb_exact inverse_poisson] in *. apply in_sides in Hg. destruct Hg as [[_ ->] | [[_ ->] | [[_ ->] | [_ ->]]]]; reflexivity.
Qed.
Lemma example_tags : forall pb lim, In (pb, lim) internal_examples -> map fst (pb_bound pb) = [1000; 1001; 1002; 1003]%Z.
Proof. intros pb lim [E | [E | [E | [E | []]]]]; injection E as <- _; reflexivity. Qed.
Lemma dget_in : forall (bf : bfun R) t f, dget Z.eqb bf t = Ok f -> In (t, f) bf.
Proof.
  induction bf as [|[k g] r IH]; intros t f H; cbn in H; [discriminate|].
  destruct (Z.eqb_spec t k) as [-> | _]. { injection H as <-. now left. } right. now apply IH.
Qed.
Lemma example_rows : forall pb lim, In (pb, lim) internal_examples -> forall lhs1 num, sampler_ok lhs1 -> (0 <= num)%Z ->
  exists bd x y, internal_boundary lhs1 (fst lim) (snd lim) num = Ok bd /\ dirichlet_data bd (pb_bound pb) = Ok (x, y) /\
    length x = (4 * Z.to_nat (num / 4))%nat /\ length y = length x /\
    forall i, (i < length x)%nat -> (exists t, on_side lim t (nth i x (0, 0))) /\
      nth i y 0 = pb_exact pb (fst (nth i x (0, 0))) (snd (nth i x (0, 0))).
Proof.
  intros pb [[x0 x1] [y0 y1]] Hpb lhs1 num Hs Hn.
  destruct (boundary_sides lhs1 x0 x1 y0 y1 num Hs Hn) as (b & r & t & l & E & Lb & Lr & Lt & Ll & _ & _ & Sb & Sr & St & Sl).
  set (bd := [(1000, b); (1001, r); (1002, t); (1003, l)]%Z) in *.
  assert (Hok : exists xy, dirichlet_data bd (pb_bound pb) = Ok xy).
  { apply dirichlet_ok_iff. intros tag pts H _. rewrite (example_tags _ _ Hpb).
    destruct H as [H | [H | [H | [H | []]]]]; injection H as <- _; cbn; auto. }
  destruct Hok as [[x y] Hd]. exists bd, x, y.
  destruct (dirichlet_rows bd (pb_bound pb) x y Hd) as (Ex & Ly & Hv).
  assert (Lx : length x = (4 * Z.to_nat (num / 4))%nat).
  { rewrite Ex. unfold tagged, bd. cbn [map concat fst snd]. rewrite map_length. repeat (rewrite app_length || rewrite map_length). cbn [length]. lia. }
  refine (conj E (conj Hd (conj Lx (conj Ly _)))).
  intros i Hi. destruct (Hv i Hi) as (f & Hf & Ev). rewrite Ev.
  unfold SpaceFacts.tagged in *. set (tagged := concat (map (fun tp => map (fun p => (fst tp, p)) (snd tp)) bd)) in *.
  assert (Hin : In (nth i tagged (0%Z, (0, 0))) tagged). { apply nth_In. rewrite Ex, map_length in Hi. exact Hi. }
  assert (Ep : nth i x (0, 0) = snd (nth i tagged (0%Z, (0, 0)))). { rewrite Ex. now rewrite (map_nth snd tagged (0%Z, (0, 0))). }
  rewrite Ep. destruct (nth i tagged (0%Z, (0, 0))) as [tg p]. cbn [fst snd] in *.
  assert (Hsd : on_side (x0, x1, (y0, y1)) tg p).
  { apply in_concat in Hin as (row & Hr & Hp). apply in_map_iff in Hr as ((tg' & pts) & <- & Hb).
    apply in_map_iff in Hp as (q & Eq & Hq). cbn [fst snd] in *. injection Eq as -> ->. unfold on_side.
    destruct Hb as [H | [H | [H | [H | []]]]]; injection H as <- <-; auto 6. }
  split; [now exists tg|]. apply (example_values pb _ tg f p Hpb); auto. now apply dget_in.
Qed.
Lemma hard_example : forall nt b y r v, nn_out (hard_network (Some ansatz_constraint) nt) b = Ok y -> (r < length b)%nat ->
  (exists t, on_side unit_limits t (nth r b (0, 0))) -> In v (nth r y []) -> v = pb_exact hard_poisson (fst (nth r b (0, 0))) (snd (nth r b (0, 0))).
Proof.
  intros nt b y r v. cbn [nn_out hard_network]. unfold call_hard. destruct (call nt b) as [z|] eqn:E; [|discriminate]. cbn [bind].
  intros F. injection F as <-. intros Hr [t Ht] Hv. rewrite ansatz_rows in Hv; auto. 2: now apply call_rows_length in E.
  cbn [pb_exact hard_poisson]. rewrite (unit_sincos t _ Ht). rewrite (ansatz_sides _ t Ht) in Hv.
  apply in_map_iff in Hv as (w & <- & _). ring.
Qed.

(* ---------- Uniqueness, placeholders, examples ---------- *)
Lemma inverse_unique : forall eps, solves_poisson eps (pb_exact inverse_poisson) (pb_rhs inverse_poisson) <-> entry inverse_actual "eps" eps.
Proof.
  intro eps. split.
  - intros (ux & uy & uxx & uyy & P & E). change (pb_exact inverse_poisson) with inverse_exact in *.
    destruct (second_partials_uniq _ _ _ _ _ _ _ _ _ P inv_partials 0 0) as (_ & _ & E3 & E4).
    specialize (E 0 0). rewrite E3, E4 in E. cbn [pb_rhs inverse_poisson] in E. unfold inv_uxx in E.
    rewrite tanh_0, sin_0, cos_0 in E. replace (-1 * EPS * 0 ^ 2) with 0 in E by ring.
    replace (-1 * 0 ^ 2 * EPS) with 0 in E by ring. rewrite exp_0 in E.
    unfold entry, inverse_actual. cbn. f_equal. lra.
  - unfold entry, inverse_actual. cbn. intros E. injection E as <-. exact inv_solves.
Qed.
Lemma gear_not : ~ exists eps bx by_ c,
  entry (pb_params gear_cd) "eps" eps /\ entry (pb_params gear_cd) "b_x" bx /\ entry (pb_params gear_cd) "b_y" by_ /\
  entry (pb_params gear_cd) "c" c /\ solves_cd eps bx by_ c (pb_exact gear_cd) (pb_rhs gear_cd).
Proof.
  intros (eps & bx & by_ & c & _ & _ & _ & _ & ux & uy & uxx & uyy & P & E).
  destruct (second_partials_uniq _ _ _ _ _ _ _ _ _ P zero_second_partials 0 0) as (E1 & E2 & E3 & E4).
  specialize (E 0 0). rewrite E1, E2, E3, E4 in E. cbn [pb_rhs pb_exact gear_cd] in E. rewrite sin_0, cos_0 in E. lra.
Qed.
Lemma circle_inverse_not : ~ exists bx by_ c a, (forall x y, entry (circle_actual x y) "eps" (a x y)) /\
  solves_field a bx by_ c (pb_exact circle_inverse) (pb_rhs circle_inverse).
Proof.
  intros (bx & by_ & c & a & _ & ux & uy & px & qy & P & E).
  assert (U1 : forall x y, ux x y = 0).
  { intros x y. destruct (P x y) as (H & _). rewrite <- (is_derive_unique _ _ _ H). apply is_derive_unique. apply (zero_second_partials x y). }
  assert (U2 : forall x y, uy x y = 0).
  { intros x y. destruct (P x y) as (_ & H & _). rewrite <- (is_derive_unique _ _ _ H). apply is_derive_unique. apply (zero_second_partials x y). }
  destruct (P 0 0) as (_ & _ & H3 & H4).
  assert (Z : is_derive (fun _ : R => 0) 0 0) by (auto_derive; auto).
  assert (P0 : px 0 0 = 0).
  { rewrite <- (is_derive_unique _ _ _ H3). apply is_derive_unique. apply (is_derive_ext (fun _ => 0)); [|exact Z]. intro t. rewrite U1. symmetry. apply Rmult_0_r. }
  assert (Q0 : qy 0 0 = 0).
  { rewrite <- (is_derive_unique _ _ _ H4). apply is_derive_unique. apply (is_derive_ext (fun _ => 0)); [|exact Z]. intro t. rewrite U2. symmetry. apply Rmult_0_r. }
  specialize (E 0 0). rewrite P0, Q0, U1, U2 in E. cbn [pb_rhs pb_exact circle_inverse] in E. lra.
Qed.
Lemma ansatz_interior : forall p, (forall t, ~ on_side unit_limits t p) ->
  forall u : R, exists! raw, forall b y r, length y = length b -> (r < length b)%nat -> nth r b (0, 0) = p -> nth r y [] = [raw] ->
    nth r (ansatz_constraint b y) [] = [u].
Proof.
  intros p Hp u. assert (N : ansatz p <> 0). { intro K. apply ansatz_zero in K as [t K]. now apply (Hp t). }
  exists (u / ansatz p). split.
  - intros b y r L Hr Eb Ey. rewrite ansatz_rows, Eb, Ey; auto. cbn [map]. f_equal. field. exact N.
  - intros raw H. specialize (H [p] [[raw]] 0%nat eq_refl (Nat.lt_0_succ 0) eq_refl eq_refl).
    cbn in H. injection H as <-. field. exact N.
Qed.
Lemma hard_run : exists nt y, nn_out (hard_network (Some ansatz_constraint) nt) [(1, 1 / 3); (1 / 2, 1 / 2)] = Ok y /\
  n_layers nt <> [] /\ exists u v, y = [[u]; [v]] /\ u = 0 /\ v <> 0.
Proof.
  exists {| n_act := tanh; n_attention := false; n_layers := [(false, ([[0]; [0]], [1]))] |}.
  eexists. split; [reflexivity|]. split; [discriminate|]. do 2 eexists. split; [reflexivity|].
  cbn. split.
  - rewrite (ansatz_sides (1, 1 / 3) 1001); [ring|]. right; left. split; reflexivity.
  - intro K. apply Rmult_integral in K as [K | K]; [|unfold vsum in K; cbn in K; lra]. apply ansatz_zero in K as [t K].
    unfold on_side, unit_limits in K. cbn [fst snd] in K. lra.
Qed.
Lemma rhs_nonzero : pb_rhs uniform_poisson (1 / 8) (1 / 8) <> 0.
Proof.
  cbn [pb_rhs uniform_poisson]. replace (4 * PI * (1 / 8)) with (PI / 2) by field. rewrite sin_PI2.
  pose proof PI_RGT_0. intro K. nra.
Qed.
