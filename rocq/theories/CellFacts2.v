(* Proofs about make_cell: acceptance, tables, multipliers. *)
From Coq Require Import String ZArith List Arith Lia Reals Lra Bool.
From Coquelicot Require Import Coquelicot.
From Verif Require Import Num Py Jacobi Quadrature Basis Transform Cell Spec SpecGeom RCalc PolyFacts PolyDeg
  ListFacts BasisFacts BasisFacts2 CellFacts LegendreFacts Interp QuadFacts TransformFacts.
Import ListNotations.
Local Open Scope R_scope.

Lemma oracle_lengths : forall o n, oracle_ok o n -> lengths_ok o n.
Proof. intros o n [(A & B & _) (C & _)]. repeat split; auto. Qed.

Lemma family_of_some : forall s,
  In s ["legendre"; "jacobi"; "legendre_special"; "chebyshev_2"; "jacobi_plain"]%string <-> exists f, family_of s = Some f.
Proof.
  intros s. unfold family_of. split.
  - intros [<-|[<-|[<-|[<-|[<-|[]]]]]]; eexists; reflexivity.
  - destruct (String.eqb_spec s "legendre"); [subst; simpl; auto|].
    destruct (String.eqb_spec s "jacobi"); [subst; simpl; auto|]. simpl orb.
    destruct (String.eqb_spec s "legendre_special"); [subst; simpl; auto|].
    destruct (String.eqb_spec s "chebyshev_2"); [subst; simpl; auto|].
    destruct (String.eqb_spec s "jacobi_plain"); [subst; simpl; auto 6|].
    intros [f H]; discriminate.
Qed.
Lemma assign_basis_iff : forall cf f, assign_basis_function cf = Ok (Some f) <->
  (1 < cf_fe_order cf < 1000)%Z /\ cf_cell_type cf = "quadrilateral"%string /\ family_of (cf_fe_type cf) = Some f.
Proof.
  intros cf f. unfold assign_basis_function, family_of.
  destruct (Z.leb_spec (cf_fe_order cf) 1); simpl orb; [split; [discriminate|intros ([? ?] & _); lia]|].
  rewrite Z.geb_leb. destruct (Z.leb_spec 1000 (cf_fe_order cf)); [split; [discriminate|intros ([? ?] & _); lia]|].
  destruct (String.eqb_spec (cf_cell_type cf) "quadrilateral"); [|split; [discriminate | intros (_ & ? & _); contradiction]].
  repeat match goal with |- context [if ?b then _ else _] => destruct b end;
  (split; [intros E; injection E as <-; repeat split; auto; lia || discriminate
          | intros (_ & _ & E); try (injection E as <-); try reflexivity; try discriminate]) ||
  (split; [discriminate | intros (_ & _ & E); discriminate]).
Qed.
Lemma assign_basis_none : forall cf, assign_basis_function cf = Ok None -> cf_cell_type cf <> "quadrilateral"%string.
Proof.
  intros cf. unfold assign_basis_function.
  destruct (_ || _)%bool; [discriminate|].
  destruct (String.eqb_spec (cf_cell_type cf) "quadrilateral"); [|auto].
  repeat match goal with |- context [if ?b then _ else _] => destruct b end; discriminate.
Qed.

Lemma assign_quad_iff : forall (o : quad_oracle R) cf r, assign_quadrature_rules o cf = Ok r <->
  cf_cell_type cf = "quadrilateral"%string /\ (3 <= cf_quad_order cf <= 9999)%Z /\
  quad2d o (cf_quad_order cf) (cf_quad_type cf) = Ok r.
Proof.
  intros. unfold assign_quadrature_rules.
  destruct (String.eqb_spec (cf_cell_type cf) "quadrilateral"); [|split; [discriminate | intros (? & _); contradiction]].
  destruct (Z.ltb_spec (cf_quad_order cf) 3); [split; [discriminate | intros (_ & ? & _); lia]|].
  rewrite Z.geb_leb. destruct (Z.leb_spec 2 (cf_quad_order cf)); [|lia].
  destruct (Z.leb_spec (cf_quad_order cf) 9999); simpl andb; [|split; [discriminate | intros (_ & ? & _); lia]].
  split; [intros E; repeat split; auto; lia | intros (_ & _ & E); auto].
Qed.
Lemma assign_trafo_iff : forall cf (c : cell R) t, assign_fe_transformation cf c = Ok t <->
  cf_cell_type cf = "quadrilateral"%string /\
  (cf_trafo cf = "affine"%string /\ t = aff c \/ cf_trafo cf = "bilinear"%string /\ t = bil c).
Proof.
  intros. unfold assign_fe_transformation.
  destruct (String.eqb_spec (cf_cell_type cf) "quadrilateral"); [|split; [discriminate | intros (? & _); contradiction]].
  destruct (String.eqb_spec (cf_trafo cf) "affine") as [E|E].
  - split; [intros H; injection H as <-; auto|]. intros (_ & [[_ ->]|[H _]]); [reflexivity | congruence].
  - destruct (String.eqb_spec (cf_trafo cf) "bilinear") as [E'|E'].
    + split; [intros H; injection H as <-; auto|]. intros (_ & [[H _]|[_ ->]]); [congruence | reflexivity].
    + split; [discriminate|]. intros (_ & [[H _]|[H _]]); congruence.
Qed.

Lemma cross_aff : forall c, affine_detjk (affine_set_cell c) = 0 <-> cross (v0 c) (v1 c) (v3 c) = 0.
Proof. intros; cells; unfold cross; unf. split; intros; lra. Qed.

(* the multipliers *)
Lemma mult_spec : forall c t w xi eta n, t = aff c \/ t = bil c -> (2 <= n)%nat ->
  length w = n -> length xi = n -> length eta = n ->
  exists mult, bcast_mul w (t_jacobian t xi eta) = Ok mult /\ length mult = n /\
    forall q, (q < n)%nat -> nth q mult 0 = nth q w 0 * Rabs (JacDet (t_orig t) (nth q xi 0) (nth q eta 0)).
Proof.
  intros c t w xi eta n [->| ->] Hn Lw Lx Le; unfold bcast_mul.
  - rewrite (aff_jacobian_spec c xi eta 0 0). simpl length. rewrite Lw. destruct (Nat.eqb_spec n 1); [lia|].
    eexists. split.
    { destruct w as [|a [|b w]]; simpl in Lw; try lia. reflexivity. }
    rewrite map_length. split; auto. intros q Hq. rewrite nth_map_lt with (d' := 0) by lia.
    rewrite !jacdet_aff. reflexivity.
  - destruct (bil_jacobian_spec c xi eta ltac:(lia)) as [L E]. rewrite L, Lw, Lx, Nat.eqb_refl.
    eexists. split; [reflexivity|]. unfold vmul. rewrite map2_length, L. split; [lia|].
    intros q Hq. rewrite map2_nth with (da := 0) (db := 0) by lia. rewrite E by lia. reflexivity.
Qed.

Record cell_spec (o : quad_oracle R) (cf : config) (c : cell R) (d : cell_data R) : Prop := {
  cs_acc : accepted cf c;
  cs_all : exists fam t w xi eta txx txy tyy, let n := Z.to_nat (cf_quad_order cf) in let k := Z.to_nat (cf_fe_order cf) in
    family_of (cf_fe_type cf) = Some fam /\
    (cf_trafo cf = "affine"%string /\ t = aff c \/ cf_trafo cf = "bilinear"%string /\ t = bil c) /\
    quad2d o (cf_quad_order cf) (cf_quad_type cf) = Ok (w, xi, eta) /\
    length w = (n * n)%nat /\ length xi = (n * n)%nat /\ length eta = (n * n)%nat /\
    cd_weight d = w /\ cd_xi d = xi /\ cd_eta d = eta /\ cd_coords0 d = c /\ cd_nsf d = (k * k)%nat /\
    length (cd_mult d) = (n * n)%nat /\
    (forall q, (q < n * n)%nat -> nth q (cd_mult d) 0 = nth q w 0 * Rabs (JacDet (t_orig t) (nth q xi 0) (nth q eta 0))) /\
    cd_val d = mat_mult (b_value fam (k * k) xi eta) (cd_mult d) /\
    cd_gradx d = mat_mult (fst (t_derivative t (b_gradx fam (k * k) xi eta) (b_grady fam (k * k) xi eta) xi eta)) (cd_mult d) /\
    cd_grady d = mat_mult (snd (t_derivative t (b_gradx fam (k * k) xi eta) (b_grady fam (k * k) xi eta) xi eta)) (cd_mult d) /\
    cd_gradx_ref d = b_gradx fam (k * k) xi eta /\ cd_grady_ref d = b_grady fam (k * k) xi eta /\
    t_second t (b_gradxx fam (k * k) xi eta) (b_gradxy fam (k * k) xi eta) (b_gradyy fam (k * k) xi eta) = Ok (txx, txy, tyy) /\
    cd_gradxx d = mat_mult txx (cd_mult d) /\ cd_gradxy d = mat_mult txy (cd_mult d) /\ cd_gradyy d = mat_mult tyy (cd_mult d) /\
    cd_actual d = map2 (t_orig t) xi eta /\
    cd_forcing d = zeros2 (k * k) 1
}.

Lemma make_cell_inv : forall o cf c d, lengths_ok o (Z.to_nat (cf_quad_order cf)) -> make_cell o cf c = Ok d -> cell_spec o cf c d.
Proof.
  intros o cf c d Ho H. unfold make_cell in H.
  destruct (assign_basis_function cf) as [of|] eqn:Eb; [|discriminate]. cbn [bind] in H.
  destruct (assign_quadrature_rules o cf) as [[[w xi] eta]|] eqn:Eq; [|discriminate]. cbn [bind] in H.
  destruct (assign_fe_transformation cf c) as [t|] eqn:Et; [|discriminate]. cbn [bind] in H.
  destruct (bcast_mul w (t_jacobian t xi eta)) as [mult|] eqn:Em; [|discriminate]. cbn [bind] in H.
  destruct of as [fam|]; [|discriminate].
  destruct (t_derivative t _ _ xi eta) as [gx gy] eqn:Ed.
  destruct (t_second t _ _ _) as [[[txx txy] tyy]|] eqn:Es; [|discriminate]. cbn [bind] in H. injection H as <-.
  apply assign_basis_iff in Eb. destruct Eb as (Hfe & Hct & Hf).
  apply assign_quad_iff in Eq. destruct Eq as (_ & Hqo & Hq).
  apply assign_trafo_iff in Et. destruct Et as (_ & Ht).
  destruct (quad2d_tensor o _ _ _ _ _ Ho Hq) as (x & v & _ & _ & _ & _ & Lw & Lx & Le & _).
  set (n := Z.to_nat (cf_quad_order cf)) in *. assert (Hn : (3 <= n)%nat) by lia.
  assert (Ht' : t = aff c \/ t = bil c) by tauto.
  destruct (mult_spec c t w xi eta (n * n) Ht' ltac:(nia) Lw Lx Le) as (mult' & Em' & Lm & Hm).
  rewrite Em in Em'. injection Em' as <-.
  assert (Hk : num_shape_functions cf = (Z.to_nat (cf_fe_order cf) * Z.to_nat (cf_fe_order cf))%nat)
    by (apply nsf_square; lia).
  split.
  - split; auto.
    + apply family_of_some. eauto.
    + destruct (proj1 (quad2d_valid o (cf_quad_order cf) (cf_quad_type cf)) (ex_intro _ _ Hq)) as [[-> _]|[-> _]]; simpl; auto.
    + destruct Ht as [[E ->]|[E ->]]; auto. right. split; auto. intros Hc. apply cross_aff in Hc.
      unfold t_second, aff in Es. destruct (inv3_ok (affine_set_cell c)) as [Hz _]. rewrite (Hz Hc) in Es. discriminate.
  - exists fam, t, w, xi, eta, txx, txy, tyy. fold n. cbn [cd_weight cd_xi cd_eta cd_coords0 cd_nsf cd_mult cd_val cd_gradx cd_grady
      cd_gradx_ref cd_grady_ref cd_gradxx cd_gradxy cd_gradyy cd_actual cd_forcing].
    rewrite Hk in *. rewrite Ed. cbn [fst snd]. repeat (split; [now auto|]). reflexivity.
Qed.

Lemma make_cell_ok : forall o cf c, lengths_ok o (Z.to_nat (cf_quad_order cf)) -> accepted cf c ->
  exists d, make_cell o cf c = Ok d.
Proof.
  intros o cf c Ho [H1 H2 H3 H4 H5 H6]. unfold make_cell.
  apply family_of_some in H4. destruct H4 as (fam & Hf).
  rewrite (proj2 (assign_basis_iff cf fam) (conj H2 (conj H1 Hf))). cbn [bind].
  assert (Hv : cf_quad_type cf = "gauss-legendre"%string /\ (1 <= cf_quad_order cf)%Z \/
               cf_quad_type cf = "gauss-jacobi"%string /\ (3 <= cf_quad_order cf)%Z).
  { destruct H5 as [<-|[<-|[]]]; [left | right]; split; auto; lia. }
  destruct (proj2 (quad2d_valid o _ _) Hv) as [[[w xi] eta] Hq].
  rewrite (proj2 (assign_quad_iff o cf _) (conj H1 (conj H3 Hq))). cbn [bind].
  destruct (quad2d_tensor o _ _ _ _ _ Ho Hq) as (x & v & _ & _ & _ & _ & Lw & Lx & Le & _).
  set (n := Z.to_nat (cf_quad_order cf)) in *. assert (Hn : (3 <= n)%nat) by lia.
  assert (Ht : exists t, assign_fe_transformation cf c = Ok t /\ (t = bil c \/ t = aff c /\ cross (v0 c) (v1 c) (v3 c) <> 0)).
  { destruct H6 as [E|[E Hc]]; [exists (bil c) | exists (aff c)]; split; auto; apply assign_trafo_iff; auto. }
  destruct Ht as (t & Et & Ht). rewrite Et. cbn [bind].
  destruct (mult_spec c t w xi eta (n * n) ltac:(tauto) ltac:(nia) Lw Lx Le) as (mult & Em & _).
  rewrite Em. cbn [bind].
  destruct (t_derivative t _ _ xi eta) as [gx gy].
  destruct Ht as [->|[-> Hc]].
  - unfold bil at 1, t_second. cbn [bind]. eexists. reflexivity.
  - destruct (inv3_ok (affine_set_cell c)) as [_ Hi].
    destruct Hi as (sol & Es & _). { intros E. apply Hc. now apply cross_aff. }
    unfold aff at 1, t_second. rewrite Es. cbn [bind]. eexists. reflexivity.
Qed.

(* ---------- the map by its vertices ---------- *)
Lemma refmap_orig : forall c t name, (name = "affine"%string /\ t = aff c \/ name = "bilinear"%string /\ t = bil c) ->
  forall x y, t_orig t x y = RefMap name c x y.
Proof.
  intros c t name [[-> ->] | [-> ->]] x y; unfold RefMap; cbn [String.eqb Ascii.eqb Bool.eqb]; cells; unf;
  apply pair_eq; cbn [fst snd]; field.
Qed.
Lemma JacDet_ext : forall F G x y, (forall s r, F s r = G s r) -> JacDet F x y = JacDet G x y.
Proof.
  intros F G x y E. unfold JacDet.
  rewrite (Derive_ext (fun t => fst (F t y)) (fun t => fst (G t y))) by (intros; now rewrite E).
  rewrite (Derive_ext (fun t => snd (F x t)) (fun t => snd (G x t))) by (intros; now rewrite E).
  rewrite (Derive_ext (fun t => fst (F x t)) (fun t => fst (G x t))) by (intros; now rewrite E).
  rewrite (Derive_ext (fun t => snd (F t y)) (fun t => snd (G t y))) by (intros; now rewrite E).
  reflexivity.
Qed.

Lemma mat_mult_entry : forall (m : list (list R)) mult n l i q, has_shape m n l -> length mult = l ->
  (i < n)%nat -> (q < l)%nat -> entry (mat_mult m mult) i q = nth q mult 0 * entry m i q.
Proof.
  intros m mult n l i q [L S] Lm Hi Hq. unfold entry, mat_mult.
  rewrite nth_map_lt with (d' := []) by lia. unfold vmul.
  assert (length (nth i m []) = l) by (apply S, nth_In; lia).
  rewrite map2_nth with (da := 0) (db := 0) by lia. to_R. ring.
Qed.
Lemma mat_mult_shape : forall (m : list (list R)) mult n l, has_shape m n l -> length mult = l ->
  has_shape (mat_mult m mult) n l.
Proof.
  intros m mult n l [L S] Lm. unfold mat_mult. split; [now rewrite map_length|].
  intros row Hr. apply in_map_iff in Hr. destruct Hr as (r & <- & Hr). unfold vmul. rewrite map2_length, (S _ Hr). lia.
Qed.

Lemma make_cell_tables : forall o cf c d, lengths_ok o (Z.to_nat (cf_quad_order cf)) -> make_cell o cf c = Ok d ->
  let n := Z.to_nat (cf_quad_order cf) in let k := Z.to_nat (cf_fe_order cf) in
  let F := RefMap (cf_trafo cf) c in
  exists fam w xi eta, family_of (cf_fe_type cf) = Some fam /\
    quad2d o (cf_quad_order cf) (cf_quad_type cf) = Ok (w, xi, eta) /\
    length w = (n * n)%nat /\ length xi = (n * n)%nat /\ length eta = (n * n)%nat /\
    length (cd_mult d) = (n * n)%nat /\ length (cd_actual d) = (n * n)%nat /\
    has_shape (cd_val d) (k * k) (n * n) /\ has_shape (cd_gradx d) (k * k) (n * n) /\ has_shape (cd_grady d) (k * k) (n * n) /\
    has_shape (cd_gradx_ref d) (k * k) (n * n) /\ has_shape (cd_grady_ref d) (k * k) (n * n) /\
    forall q, (q < n * n)%nat -> let x := nth q xi 0 in let y := nth q eta 0 in
      nth q (cd_mult d) 0 = nth q w 0 * Rabs (JacDet F x y) /\
      nth q (cd_actual d) (0, 0) = F x y /\
      forall i j, (i < k)%nat -> (j < k)%nat -> let r := (k * i + j)%nat in
        entry (cd_val d) r q = nth q (cd_mult d) 0 * Phi fam i j x y /\
        entry (cd_gradx_ref d) r q = Dx (Phi fam i j) x y /\
        entry (cd_grady_ref d) r q = Dy (Phi fam i j) x y /\
        forall u a b, JacDet F x y <> 0 ->
          locally_2d (fun s p => u (fst (F s p)) (snd (F s p)) = Phi fam i j s p) x y ->
          differentiable_pt_lim u (fst (F x y)) (snd (F x y)) a b ->
          entry (cd_gradx d) r q = nth q (cd_mult d) 0 * a /\
          entry (cd_grady d) r q = nth q (cd_mult d) 0 * b.
Proof.
  intros o cf c d Ho H n k F. destruct (make_cell_inv o cf c d Ho H) as [Hacc Hall].
  destruct Hall as (fam & t & w & xi & eta & txx & txy & tyy & Hf & Ht & Hq & Lw & Lx & Le & Ew & Exi & Eeta & _ & _ &
    Lm & Hm & Ev & Egx & Egy & Egxr & Egyr & _ & _ & _ & _ & Ea & _).
  fold n k in Lw, Lx, Le, Lm, Hm, Ev, Egx, Egy, Egxr, Egyr. 
  pose proof (refmap_orig c t (cf_trafo cf) Ht) as HF. fold F in HF.
  destruct (tables_shape fam k xi eta ltac:(lia)) as (S0 & S1 & S2 & _). rewrite Lx in S0, S1, S2.
  destruct (t_derivative_spec t (b_gradx fam (k * k) xi eta) (b_grady fam (k * k) xi eta) xi eta (k * k)
     ltac:(lia) ltac:(rewrite Lx; auto) ltac:(rewrite Lx; auto)) as (S3 & S4 & _).
  rewrite Lx in S3, S4.
  exists fam, w, xi, eta.
  split; [exact Hf|]. split; [exact Hq|]. split; [exact Lw|]. split; [exact Lx|]. split; [exact Le|]. split; [exact Lm|].
  split. { rewrite Ea, map2_length. lia. }
  split. { rewrite Ev. apply mat_mult_shape; auto. }
  split. { rewrite Egx. apply mat_mult_shape; auto. }
  split. { rewrite Egy. apply mat_mult_shape; auto. }
  split. { rewrite Egxr. auto. }
  split. { rewrite Egyr. auto. }
  intros q Hq' x y. split. { rewrite Hm by auto. fold x y. f_equal. f_equal. apply JacDet_ext. exact HF. }
  split. { rewrite Ea. rewrite map2_nth with (da := 0) (db := 0) by lia. apply HF. }
  intros i j Hi Hj r. assert (Hr : (r < k * k)%nat) by (unfold r; nia).
  destruct (tables_layout fam k xi eta i j q ltac:(lia) Hi Hj ltac:(lia)) as (T0 & T1 & T2 & _).
  fold x y r in T0, T1, T2.
  assert (D1 : Dx (Phi fam i j) x y = Derive (phi fam (S i)) x * phi fam (S j) y).
  { unfold Dx, Phi. rewrite (Derive_ext _ (fun s => phi fam (S j) y * phi fam (S i) s)) by (intros; ring).
    rewrite Derive_scal. ring. }
  assert (D2 : Dy (Phi fam i j) x y = phi fam (S i) x * Derive (phi fam (S j)) y).
  { unfold Dy, Phi. rewrite Derive_scal. ring. }
  split. { rewrite Ev. rewrite (mat_mult_entry _ _ (k * k) (n * n)) by auto. rewrite T0. reflexivity. }
  split. { rewrite Egxr, T1. symmetry; exact D1. }
  split. { rewrite Egyr, T2. symmetry; exact D2. }
  intros u a b Hd Hl Hu.
  destruct (table_gradient t (b_gradx fam (k * k) xi eta) (b_grady fam (k * k) xi eta) xi eta (k * k) r q u a b) as [Ga Gb];
    try (rewrite Lx); auto; try lia.
  - fold x y. rewrite (JacDet_ext _ F) by exact HF. exact Hd.
  - fold x y. rewrite HF. exact Hu.
  - fold x y. rewrite T1, <- D1.
    assert (Dl : is_derive (fun s : R => Phi fam i j s y) x (Dx (Phi fam i j) x y)).
    { destruct (tables_derivatives fam k xi eta r q ltac:(lia) Hr ltac:(lia)) as (TD & _).
      cbv beta in TD. fold x y in TD. rewrite T1, <- D1 in TD.
      eapply derR_ext; [|exact TD]. intros s. cbv beta.
      destruct (tables_layout fam k [s] [y] i j 0%nat eq_refl Hi Hj ltac:(simpl; lia)) as (Z0 & _). exact Z0. }
    eapply is_derive_ext_loc; [|exact Dl].
    apply locally_2d_1d_const_y in Hl. eapply filter_imp; [|exact Hl].
    intros s Hs. cbv beta. rewrite HF. symmetry. exact Hs.
  - fold x y. rewrite T2, <- D2.
    assert (Dl : is_derive (fun s : R => Phi fam i j x s) y (Dy (Phi fam i j) x y)).
    { destruct (tables_derivatives fam k xi eta r q ltac:(lia) Hr ltac:(lia)) as (_ & TD & _).
      cbv beta in TD. fold x y in TD. rewrite T2, <- D2 in TD.
      eapply derR_ext; [|exact TD]. intros s. cbv beta.
      destruct (tables_layout fam k [x] [s] i j 0%nat eq_refl Hi Hj ltac:(simpl; lia)) as (Z0 & _). exact Z0. }
    eapply is_derive_ext_loc; [|exact Dl].
    apply locally_2d_1d_const_x in Hl. eapply filter_imp; [|exact Hl].
    intros s Hs. cbv beta. rewrite HF. symmetry. exact Hs.
  - split.
    + rewrite Egx. rewrite (mat_mult_entry _ _ (k * k) (n * n)) by auto. now rewrite Ga.
    + rewrite Egy. rewrite (mat_mult_entry _ _ (k * k) (n * n)) by auto. now rewrite Gb.
Qed.

(* ---------- C04 ---------- *)
Lemma quad_exact_low : forall o order ty w xi eta d, oracle_ok o (Z.to_nat order) ->
  quad2d o order ty = Ok (w, xi, eta) -> (d <= 2 * Z.to_nat order - 2)%nat ->
  (forall c, Rule2 w xi eta (Poly2 c d) = Int2 (Poly2 c d) (-1) 1 (-1) 1) /\
  (forall q, (q < length w)%nat -> 0 < nth q w 0 /\ -1 <= nth q xi 0 <= 1 /\ -1 <= nth q eta 0 <= 1) /\
  Sum (fun q => nth q w 0) (length w) = 4.
Proof.
  intros o order ty w xi eta d [Ho1 Ho2] H Hd.
  pose proof (quad2d_inv _ _ _ _ _ _ H) as [[[-> Hn] | [-> Hn]] T].
  - destruct (gauss_legendre_exact o order w xi eta Ho1 H) as (_ & B & C).
    split; [|split; [intros q Hq; destruct (B q Hq) as (?&?&?); repeat split; lra | auto]].
    set (n := Z.to_nat order) in *.
    destruct (leggauss o n) as [x v] eqn:E. destruct Ho1 as (L1 & L2 & He). cbn [fst snd] in *.
    unfold rule1d in T. cbn [String.eqb Ascii.eqb Bool.eqb] in T. rewrite E in T. cbn [fst snd] in T.
    unfold tensorise, meshgrid_flat in T. injection T as <- <- <-. intros c.
    apply (Rule2_poly x v n L1 L2). eapply exact_mono; [|exact He]. lia.
  - destruct (gauss_jacobi_exact o order w xi eta Ho2 H) as (_ & B & C).
    split; [|split; auto]. set (n := Z.to_nat order) in *. assert (Hn' : (3 <= n)%nat) by lia.
    destruct (rule1d_gj_len o n Hn' (proj1 Ho2)) as [L1 L2].
    destruct (rule1d_gj_exact o n Hn' Ho2) as [He _].
    destruct (rule1d o n "gauss-jacobi") as [x v]. cbn [fst snd] in *.
    unfold tensorise, meshgrid_flat in T. injection T as <- <- <-. intros c.
    apply (Rule2_poly x v n L1 L2). eapply exact_mono; [|exact He]. lia.
Qed.

Lemma Rule2_ext : forall w xi eta F G, (forall q, (q < length w)%nat -> F (nth q xi 0) (nth q eta 0) = G (nth q xi 0) (nth q eta 0)) ->
  Rule2 w xi eta F = Rule2 w xi eta G.
Proof. intros. unfold Rule2. change Sum with rsum. apply rsum_ext. intros. now rewrite H. Qed.

Lemma Int1_pow01 : RInt (fun t => t ^ 0) (-1) 1 = 2 /\ RInt (fun t => t ^ 1) (-1) 1 = 0.
Proof.
  split.
  - rewrite (RIntR_ext _ (fun _ => 1)) by reflexivity. rewrite RIntR_const. lra.
  - rewrite (RInt_of_derive (fun t => t * t / 2) (fun t => t ^ 1)).
    + eqR. lra.
    + intros x. auto_derive; auto. eqR. field.
    + intros x. eapply pdeg_continuous. apply pdeg_pow.
Qed.
Lemma rule_linear : forall o order ty w xi eta k0 k1 k2, oracle_ok o (Z.to_nat order) -> (3 <= order)%Z ->
  quad2d o order ty = Ok (w, xi, eta) -> Rule2 w xi eta (fun x y => k0 + k1 * x + k2 * y) = 4 * k0.
Proof.
  intros o order ty w xi eta k0 k1 k2 Ho Hn H.
  set (c := fun i j => match i, j with O, O => k0 | S O, O => k1 | O, S O => k2 | _, _ => 0 end : R).
  destruct (quad_exact_low o order ty w xi eta 2 Ho H ltac:(lia)) as (E & _). specialize (E c).
  rewrite (Rule2_ext _ _ _ _ (Poly2 c 2)).
  - rewrite E, Int2_poly. destruct Int1_pow01 as [I0 I1]. cbn [rsum c]. rewrite I0, I1. ring.
  - intros. unfold Poly2. cbn [Sum c]. simpl pow. ring.
Qed.

Lemma area_center : forall c, strictly_convex c -> area c = 4 * Rabs (bilinear_det (bilinear_set_cell c) 0 0).
Proof.
  intros c _. rewrite bil_det_corners. unfold area.
  assert (E : forall a b : R, a = 2 * b -> Rabs a / 2 = Rabs b).
  { intros a b ->. rewrite Rabs_mult, (Rabs_right 2) by lra. field. }
  rewrite <- (Rabs_right 4) at 1 by lra. rewrite <- Rabs_mult. apply E.
  cells. unfold cross. cbn [v0 v1 v2 v3 fst snd]. field.
Qed.
Lemma det_linear : forall c, exists k1 k2, forall x y,
  bilinear_det (bilinear_set_cell c) x y = bilinear_det (bilinear_set_cell c) 0 0 + k1 * x + k2 * y.
Proof.
  intros c. set (m := bilinear_set_cell c).
  exists (bxc1 m * byc3 m - bxc3 m * byc1 m), (bxc3 m * byc2 m - bxc2 m * byc3 m). intros. unfold bilinear_det. to_R. ring.
Qed.
Lemma signed_det : forall c, strictly_convex c -> exists e, (e = 1 \/ e = -1) /\
  forall x y, in_square x y -> Rabs (bilinear_det (bilinear_set_cell c) x y) = e * bilinear_det (bilinear_set_cell c) x y.
Proof.
  intros c [H|H].
  - exists 1. split; auto. intros x y Hs. rewrite Rabs_right; [ring|]. left. now apply convex_det.
  - exists (-1). split; auto. intros x y Hs.
    pose proof (convex_det _ x (-y) H ltac:(unfold in_square in *; lra)) as P. rewrite det_reversed in P.
    rewrite Rabs_left by lra. ring.
Qed.

Lemma mult_area : forall o cf c d, oracle_ok o (Z.to_nat (cf_quad_order cf)) -> make_cell o cf c = Ok d ->
  (cf_trafo cf = "bilinear"%string -> strictly_convex c ->
     (forall q, (q < length (cd_mult d))%nat -> 0 < nth q (cd_mult d) 0) /\
     Sum (fun q => nth q (cd_mult d) 0) (length (cd_mult d)) = area c) /\
  (cf_trafo cf = "affine"%string ->
     (forall q, (q < length (cd_mult d))%nat -> 0 < nth q (cd_mult d) 0) /\
     Sum (fun q => nth q (cd_mult d) 0) (length (cd_mult d)) = Rabs (cross (v0 c) (v1 c) (v3 c))).
Proof.
  intros o cf c d Ho H.
  destruct (make_cell_inv o cf c d (oracle_lengths _ _ Ho) H) as [Hacc Hall].
  destruct Hall as (fam & t & w & xi & eta & txx & txy & tyy & Hf & Ht & Hq & Lw & Lx & Le & _ & _ & _ & _ & _ & Lm & Hm & _).
  set (n := Z.to_nat (cf_quad_order cf)) in *. pose proof (ac_quad _ _ Hacc) as Hn.
  destruct (quad_exact_low o _ _ w xi eta 2 Ho Hq ltac:(lia)) as (_ & Hpos & Hsum).
  assert (ES : forall F, (forall q, (q < n * n)%nat -> Rabs (JacDet (t_orig t) (nth q xi 0) (nth q eta 0)) = F (nth q xi 0) (nth q eta 0)) ->
     Sum (fun q => nth q (cd_mult d) 0) (length (cd_mult d)) = Rule2 w xi eta F).
  { intros F HF. unfold Rule2. rewrite Lm, Lw. change Sum with rsum. apply rsum_ext. intros q Hq'.
    rewrite Hm, HF by auto. reflexivity. }
  split; intros Hname.
  - assert (Et : t = bil c). { destruct Ht as [[E _]|[_ E]]; auto. rewrite E in Hname. discriminate. } subst t.
    intros Hc. split.
    + intros q Hq'. rewrite Lm in Hq'. rewrite Hm, jacdet_bil by auto. destruct (Hpos q ltac:(lia)) as (P1 & P2 & P3).
      apply Rmult_lt_0_compat; auto. apply convex_jac_pos; auto. split; auto.
    + destruct (signed_det c Hc) as (e & He & HE). destruct (det_linear c) as (k1 & k2 & Hl).
      set (D0 := bilinear_det (bilinear_set_cell c) 0 0) in *.
      rewrite (ES (fun x y => e * D0 + (e * k1) * x + (e * k2) * y)).
      * rewrite (rule_linear o _ _ w xi eta _ _ _ Ho ltac:(lia) Hq). rewrite area_center by auto. rewrite HE; [unfold D0; ring|].
        unfold in_square; lra.
      * intros q Hq'. rewrite jacdet_bil. rewrite HE.
        -- rewrite Hl. ring.
        -- destruct (Hpos q ltac:(lia)) as (_ & P2 & P3). split; auto.
  - assert (Et : t = aff c). { destruct Ht as [[_ E]|[E _]]; auto. rewrite E in Hname. discriminate. } subst t.
    assert (Hd : affine_detjk (affine_set_cell c) <> 0).
    { destruct (ac_tr _ _ Hacc) as [E|[_ E]]; [rewrite E in Hname; discriminate|]. intros Z. apply E. now apply cross_aff. }
    split.
    + intros q Hq'. rewrite Lm in Hq'. rewrite Hm, jacdet_aff by auto. destruct (Hpos q ltac:(lia)) as (P1 & _).
      apply Rmult_lt_0_compat; auto. now apply Rabs_pos_lt.
    + rewrite (ES (fun x y => Rabs (affine_detjk (affine_set_cell c)) + 0 * x + 0 * y)).
      * rewrite (rule_linear o _ _ w xi eta _ _ _ Ho ltac:(lia) Hq).
        rewrite <- (Rabs_right 4) at 1 by lra. rewrite <- Rabs_mult. f_equal.
        cells; unfold cross; unf. field.
      * intros q Hq'. rewrite jacdet_aff. ring.
Qed.
Lemma area_parallelogram : forall c, parallelogram c -> area c = Rabs (cross (v0 c) (v1 c) (v3 c)).
Proof.
  intros c H. unfold area. assert (E : forall a b : R, a = 2 * b -> Rabs a / 2 = Rabs b).
  { intros a b ->. rewrite Rabs_mult, (Rabs_right 2) by lra. field. }
  apply E. cells. unfold parallelogram, cross in *. cbn [v0 v1 v2 v3 fst snd] in *. destruct H as [H1 H2].
  replace r3 with (r1 + r5 - r) by lra. replace r4 with (r2 + r6 - r0) by lra. ring.
Qed.
(* The affine rule gives the area exactly when the diagonal 1-3 halves the cell. *)
Lemma area_affine_iff : forall c, strictly_convex c ->
  (Rabs (cross (v0 c) (v1 c) (v3 c)) = area c <-> cross (v0 c) (v1 c) (v3 c) = cross (v2 c) (v3 c) (v1 c)).
Proof.
  intros c H.
  assert (EA : area c = Rabs ((cross (v0 c) (v1 c) (v3 c) + cross (v2 c) (v3 c) (v1 c)) / 2)).
  { unfold area. assert (E : forall a b : R, a = 2 * b -> Rabs a / 2 = Rabs b).
    { intros a b ->. rewrite Rabs_mult, (Rabs_right 2) by lra. field. }
    apply E. cells. unfold cross. cbn [v0 v1 v2 v3 fst snd]. field. }
  assert (C : (0 < cross (v0 c) (v1 c) (v3 c) /\ 0 < cross (v2 c) (v3 c) (v1 c)) \/
              (cross (v0 c) (v1 c) (v3 c) < 0 /\ cross (v2 c) (v3 c) (v1 c) < 0)).
  { cells. unfold strictly_convex, convex_ccw, reversed, cross in *. cbn [v0 v1 v2 v3 fst snd] in *.
    destruct H as [H|H]; decompose [and] H; [left | right]; split; nra. }
  rewrite EA. set (a := cross (v0 c) _ _) in *. set (b := cross (v2 c) _ _) in *.
  destruct C as [[Ha Hb]|[Ha Hb]].
  - rewrite !Rabs_right by lra. lra.
  - rewrite !Rabs_left by lra. lra.
Qed.

(* The gradient tables solve the chain rule, at every cell and point with nonzero Jacobian. *)
Lemma make_cell_chain : forall o cf c d, lengths_ok o (Z.to_nat (cf_quad_order cf)) -> make_cell o cf c = Ok d ->
  let n := Z.to_nat (cf_quad_order cf) in let k := Z.to_nat (cf_fe_order cf) in
  let F := RefMap (cf_trafo cf) c in
  exists fam w xi eta, family_of (cf_fe_type cf) = Some fam /\
    quad2d o (cf_quad_order cf) (cf_quad_type cf) = Ok (w, xi, eta) /\
    forall q i j, (q < n * n)%nat -> (i < k)%nat -> (j < k)%nat ->
      let x := nth q xi 0 in let y := nth q eta 0 in let r := (k * i + j)%nat in
      JacDet F x y <> 0 -> exists a b,
        entry (cd_gradx d) r q = nth q (cd_mult d) 0 * a /\ entry (cd_grady d) r q = nth q (cd_mult d) 0 * b /\
        Dx (Phi fam i j) x y = a * Dx (fun s t => fst (F s t)) x y + b * Dx (fun s t => snd (F s t)) x y /\
        Dy (Phi fam i j) x y = a * Dy (fun s t => fst (F s t)) x y + b * Dy (fun s t => snd (F s t)) x y.
Proof.
  intros o cf c d Ho H n k F. destruct (make_cell_tables o cf c d Ho H) as (fam' & w' & xi' & eta' & Tf & Tq & _ & _ & _ & _ & _ & _ & _ & _ & _ & _ & T).
  destruct (make_cell_inv o cf c d Ho H) as [Hacc Hall].
  destruct Hall as (fam & t & w & xi & eta & txx & txy & tyy & Hf & Ht & Hq & Lw & Lx & Le & Ew & Exi & Eeta & _ & _ &
    Lm & Hm & Ev & Egx & Egy & Egxr & Egyr & _).
  fold n k in Lw, Lx, Le, Lm, Hm, Ev, Egx, Egy, Egxr, Egyr.
  rewrite Hf in Tf. injection Tf as <-. rewrite Hq in Tq. injection Tq as <- <- <-.
  pose proof (refmap_orig c t (cf_trafo cf) Ht) as HF. fold F in HF.
  destruct (tables_shape fam k xi eta ltac:(lia)) as (S0 & S1 & S2 & _). rewrite Lx in S0, S1, S2.
  destruct (t_derivative_spec t (b_gradx fam (k * k) xi eta) (b_grady fam (k * k) xi eta) xi eta (k * k)
     ltac:(lia) ltac:(rewrite Lx; auto) ltac:(rewrite Lx; auto)) as (S3 & S4 & G).
  rewrite Lx in S3, S4, G.
  exists fam, w, xi, eta. split; [auto|]. split; [auto|]. intros q i j Hq' Hi Hj x y r Hd.
  assert (Hr : (r < k * k)%nat) by (unfold r; nia).
  specialize (T q Hq'). destruct T as (_ & _ & T). specialize (T i j Hi Hj). cbv zeta in T. fold k in T. fold x y r in T.
  destruct T as (_ & Tx & Ty & _). specialize (G r q Hr Hq'). fold x y in G.
  rewrite Egxr in Tx. rewrite Egyr in Ty. rewrite Tx, Ty in G.
  assert (Hd' : JacDet (t_orig t) x y <> 0) by (rewrite (JacDet_ext _ F) by exact HF; exact Hd).
  symmetry in G. apply grad1_solves in G; auto. destruct G as [G1 G2].
  eexists; eexists. split; [rewrite Egx; rewrite (mat_mult_entry _ _ (k * k) (n * n)) by auto; reflexivity|].
  split; [rewrite Egy; rewrite (mat_mult_entry _ _ (k * k) (n * n)) by auto; reflexivity|].
  assert (E : forall g : point -> R, Dx (fun s r0 => g (t_orig t s r0)) x y = Dx (fun s r0 => g (F s r0)) x y /\
              Dy (fun s r0 => g (t_orig t s r0)) x y = Dy (fun s r0 => g (F s r0)) x y).
  { intros g. unfold Dx, Dy. split; apply Derive_ext; intros; now rewrite HF. }
  destruct (E fst) as [<- <-]. destruct (E snd) as [<- <-]. auto.
Qed.
