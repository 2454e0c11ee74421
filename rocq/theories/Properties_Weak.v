(* Properties C54-C57: what zero loss means; the loss as a sum over cells; change of coordinates; numbering. *)
From Coq Require Import String ZArith List Arith Lia Permutation Reals Lra.
From Coquelicot Require Import Coquelicot.
From Verif Require Import Num Py Jacobi Quadrature Basis Transform Cell Space Tensor Data Physics Train Geometry
  Spec SpecGeom SpecMesh SpecTrain SpecPde QuadFacts QuadExamples TransformFacts TransformFacts2 SpaceFacts CellFacts2 ForcingFacts
  DataFacts PipelineFacts AngleFacts MeshFacts ExactFacts ExactTrain ExactExamples SpecWeak WeakFacts SimilarFacts NumberFacts.
Import ListNotations.
Local Open Scope R_scope.

(* C54: the total loss is never negative, and zero exactly when the network annihilates every
   weak residual of every cell and has the prescribed values at every boundary point (and sensor). *)
Theorem C54_standard : forall o cf cells bp bf plot s f h dir sensor nn beta U G loss d al bx bn g,
  oracle_ok o (Z.to_nat (cf_quad_order cf)) -> make_space o cf cells bp bf plot = Ok s -> make_handler s f true = Ok h ->
  get_dirichlet_input bp bf = Ok dir -> fst dir <> [] -> 0 < beta -> pointwise nn U G -> equation loss d al bx bn g ->
  let k := Z.to_nat (cf_fe_order cf) in
  exists L t, train_standard (model_of h dir sensor loss (length cells)) nn beta (Some d) = Ok L /\ l_total L = [t] /\ 0 <= t /\
    (t = 0 <-> weak_solution s (length cells) (k * k) (fun _ => al) bx bn g U G f /\ boundary_match bp bf U).
Proof.
  intros o cf cells bp bf plot s f h dir sensor nn beta U G loss d al bx bn g Ho Hs Hh Hd Hne Hb Hn He k.
  exact (zero_standard o cf cells bp bf plot s f h dir sensor nn beta Ho Hs Hh Hd Hne Hb U G loss d al bx bn g Hn He).
Qed.
Print Assumptions C54_standard.
Theorem C54_hard : forall o cf cells bp bf plot s f h dir sensor nn beta U G loss d al bx bn g,
  oracle_ok o (Z.to_nat (cf_quad_order cf)) -> make_space o cf cells bp bf plot = Ok s -> make_handler s f true = Ok h ->
  get_dirichlet_input bp bf = Ok dir -> fst dir <> [] -> pointwise nn U G -> equation loss d al bx bn g ->
  let k := Z.to_nat (cf_fe_order cf) in
  exists L t, train_hard (model_of h dir sensor loss (length cells)) nn beta (Some d) = Ok L /\ l_total L = [t] /\ 0 <= t /\
    (t = 0 <-> weak_solution s (length cells) (k * k) (fun _ => al) bx bn g U G f).
Proof.
  intros o cf cells bp bf plot s f h dir sensor nn beta U G loss d al bx bn g Ho Hs Hh Hd Hne Hn He k.
  exact (zero_hard o cf cells bp bf plot s f h dir sensor nn beta Ho Hs Hh Hd Hne U G loss d al bx bn g Hn He).
Qed.
Print Assumptions C54_hard.
Theorem C54_inverse : forall o cf cells bp bf plot s f h dir sensor nn beta U G d ip eps,
  oracle_ok o (Z.to_nat (cf_quad_order cf)) -> make_space o cf cells bp bf plot = Ok s -> make_handler s f true = Ok h ->
  get_dirichlet_input bp bf = Ok dir -> fst dir <> [] -> 0 < beta -> pointwise nn U G -> has ip "eps" eps ->
  let k := Z.to_nat (cf_fe_order cf) in let m := model_of h dir sensor pde_loss_poisson_inverse (length cells) in
  sensors_fit m ->
  exists L t, train_inverse m nn beta d (Some ip) = Ok L /\ l_total L = [t] /\ 0 <= t /\
    (t = 0 <-> weak_solution s (length cells) (k * k) (fun _ => eps) 0 0 0 U G f /\ boundary_match bp bf U /\ data_match sensor U).
Proof.
  intros o cf cells bp bf plot s f h dir sensor nn beta U G d ip eps Ho Hs Hh Hd Hne Hb Hn He k m Hsen.
  exact (zero_inverse o cf cells bp bf plot s f h dir sensor nn beta Ho Hs Hh Hd Hne Hb U G d ip eps Hn He Hsen).
Qed.
Print Assumptions C54_inverse.
(* ... with a diffusion field a(x, y), the second output of the network *)
Theorem C54_inverse_domain : forall o cf cells bp bf plot s f h dir sensor nn beta U (a : point -> R) G d bx bn g,
  oracle_ok o (Z.to_nat (cf_quad_order cf)) -> make_space o cf cells bp bf plot = Ok s -> make_handler s f true = Ok h ->
  get_dirichlet_input bp bf = Ok dir -> fst dir <> [] -> 0 < beta -> pointwise2 nn U a G ->
  has d "b_x" bx -> has d "b_y" bn -> has d "c" g ->
  let k := Z.to_nat (cf_fe_order cf) in let m := model_of h dir sensor pde_loss_cd2d_inverse_domain (length cells) in
  sensors_fit m ->
  exists L t, train_inverse_domain m nn beta (Some d) = Ok L /\ l_total L = [t] /\ 0 <= t /\
    (t = 0 <-> weak_solution s (length cells) (k * k) a bx bn g U G f /\ boundary_match bp bf U /\ data_match sensor U).
Proof.
  intros o cf cells bp bf plot s f h dir sensor nn beta U a G d bx bn g Ho Hs Hh Hd Hne Hb Hn H1 H2 H3 k m Hsen.
  exact (zero_domain o cf cells bp bf plot s f h dir sensor nn beta Ho Hs Hh Hd Hne Hb U G d a bx bn g Hn H1 H2 H3 Hsen).
Qed.
Print Assumptions C54_inverse_domain.

(* C55: every cell contributes an amount that depends on this cell alone - not on the other cells,
   their order, the boundary data or the sensors *)
Theorem C55_local : forall o cf f U G loss d al bx bn g, oracle_ok o (Z.to_nat (cf_quad_order cf)) -> equation loss d al bx bn g ->
  exists w : cell R -> R, (forall c, 0 <= w c) /\
  forall cells bp bf plot s h dir sensor nn beta, make_space o cf cells bp bf plot = Ok s -> make_handler s f true = Ok h ->
    get_dirichlet_input bp bf = Ok dir -> fst dir <> [] -> pointwise nn U G ->
    let m := model_of h dir sensor loss (length cells) in
    (exists L, train_standard m nn beta (Some d) = Ok L /\ l_pde L = fold_right (fun c acc => w c + acc) 0 cells) /\
    (exists L, train_hard m nn beta (Some d) = Ok L /\ l_pde L = fold_right (fun c acc => w c + acc) 0 cells).
Proof. exact local_loss. Qed.
Print Assumptions C55_local.
(* the order of the cells does not matter *)
Theorem C55_order : forall o cf f U G loss d al bx bn g cells cells' bp bf plot s s' h h' dir sensor nn beta,
  oracle_ok o (Z.to_nat (cf_quad_order cf)) -> equation loss d al bx bn g -> Permutation cells cells' ->
  make_space o cf cells bp bf plot = Ok s -> make_space o cf cells' bp bf plot = Ok s' ->
  make_handler s f true = Ok h -> make_handler s' f true = Ok h' ->
  get_dirichlet_input bp bf = Ok dir -> fst dir <> [] -> pointwise nn U G ->
  exists L L', train_standard (model_of h dir sensor loss (length cells)) nn beta (Some d) = Ok L /\
    train_standard (model_of h' dir sensor loss (length cells')) nn beta (Some d) = Ok L' /\
    l_pde L' = l_pde L /\ l_total L' = l_total L.
Proof. exact order_loss. Qed.
Print Assumptions C55_order.
(* a mesh put together from two parts *)
Theorem C55_parts : forall o cf f U G loss d al bx bn g cells cells' bp bf plot s1 s2 s h1 h2 h dir sensor nn beta,
  oracle_ok o (Z.to_nat (cf_quad_order cf)) -> equation loss d al bx bn g ->
  make_space o cf cells bp bf plot = Ok s1 -> make_space o cf cells' bp bf plot = Ok s2 -> make_space o cf (cells ++ cells') bp bf plot = Ok s ->
  make_handler s1 f true = Ok h1 -> make_handler s2 f true = Ok h2 -> make_handler s f true = Ok h ->
  get_dirichlet_input bp bf = Ok dir -> fst dir <> [] -> pointwise nn U G ->
  exists L1 L2 L, train_hard (model_of h1 dir sensor loss (length cells)) nn beta (Some d) = Ok L1 /\
    train_hard (model_of h2 dir sensor loss (length cells')) nn beta (Some d) = Ok L2 /\
    train_hard (model_of h dir sensor loss (length (cells ++ cells'))) nn beta (Some d) = Ok L /\ l_pde L = l_pde L1 + l_pde L2.
Proof. exact parts_loss. Qed.
Print Assumptions C55_parts.

(* C56: rotate, reflect, shift and scale the mesh, the boundary points and all functions: with
   the coefficients in the new units the mesh is accepted again and all losses are the same. *)
Theorem C56_similarity : forall S o cf cells bp bf bf' plot s f f' h dir sensor sensor' nn nn' beta U U' G G' loss d d' al bx bn g bx' bn' g',
  sim_ok S -> oracle_ok o (Z.to_nat (cf_quad_order cf)) -> (forall c, In c cells -> strictly_convex c) ->
  make_space o cf cells bp bf plot = Ok s -> make_handler s f true = Ok h -> get_dirichlet_input bp bf = Ok dir -> fst dir <> [] ->
  pointwise nn U G -> pointwise nn' U' G' -> equation loss d al bx bn g -> equation loss d' al bx' bn' g' ->
  moved_net S U G U' G' ->
  (forall v, sq_factor S * f' (fst (move S v)) (snd (move S v)) = f (fst v) (snd v)) ->
  (sq_factor S * bx', sq_factor S * bn') = turn S (bx, bn) -> sq_factor S * g' = g -> moved_bf S bf bf' ->
  exists s' h' dir',
    make_space o cf (map (move_cell S) cells) (moved_bp S bp) bf' plot = Ok s' /\ make_handler s' f' true = Ok h' /\
    get_dirichlet_input (moved_bp S bp) bf' = Ok dir' /\
    let m := model_of h dir sensor loss (length cells) in let m' := model_of h' dir' sensor' loss (length cells) in
    (exists L L', train_standard m nn beta (Some d) = Ok L /\ train_standard m' nn' beta (Some d') = Ok L' /\
       l_pde L' = l_pde L /\ l_total L' = l_total L) /\
    (exists L L', train_hard m nn beta (Some d) = Ok L /\ train_hard m' nn' beta (Some d') = Ok L' /\
       l_pde L' = l_pde L /\ l_total L' = l_total L).
Proof.
  intros S o cf cells bp bf bf' plot s f f' h dir sensor sensor' nn nn' beta U U' G G' loss d d' al bx bn g bx' bn' g'
    HS Ho Hc Hs Hh Hd Hne Hn Hn' He He' HU Hf Hb Hg Hbf.
  exact (similar_losses S o cf cells bp bf bf' plot s f f' h dir sensor sensor' nn nn' beta U U' G G' loss d d' al bx bn g bx' bn' g'
    HS Ho Hc Hs Hh Hd Hne Hn Hn' He He' HU Hf Hb Hg Hbf).
Qed.
Print Assumptions C56_similarity.

(* C57: list the cells in any order and the vertices of each cell from any corner, in either
   direction: the mesh is accepted again and all losses are the same. *)
Theorem C57_numbering : forall o cf cells cells' bp bf plot s f h dir sensor nn beta,
  oracle_ok o (Z.to_nat (cf_quad_order cf)) -> same_mesh cells cells' -> (forall c, In c cells -> strictly_convex c) ->
  cf_trafo cf = "bilinear"%string \/ (forall c, In c cells -> parallelogram c) ->
  make_space o cf cells bp bf plot = Ok s -> make_handler s f true = Ok h -> get_dirichlet_input bp bf = Ok dir -> fst dir <> [] ->
  exists s' h', make_space o cf cells' bp bf plot = Ok s' /\ make_handler s' f true = Ok h' /\
  forall U G,
  (forall loss d al bx bn g, pointwise nn U G -> equation loss d al bx bn g ->
    let m := model_of h dir sensor loss (length cells) in let m' := model_of h' dir sensor loss (length cells') in
    (exists L L', train_standard m nn beta (Some d) = Ok L /\ train_standard m' nn beta (Some d) = Ok L' /\
       l_pde L' = l_pde L /\ l_total L' = l_total L) /\
    (exists L L', train_hard m nn beta (Some d) = Ok L /\ train_hard m' nn beta (Some d) = Ok L' /\
       l_pde L' = l_pde L /\ l_total L' = l_total L)) /\
  (forall d ip eps, pointwise nn U G -> has ip "eps" eps ->
    let m := model_of h dir sensor pde_loss_poisson_inverse (length cells) in
    let m' := model_of h' dir sensor pde_loss_poisson_inverse (length cells') in sensors_fit m ->
    exists L L', train_inverse m nn beta d (Some ip) = Ok L /\ train_inverse m' nn beta d (Some ip) = Ok L' /\
       l_pde L' = l_pde L /\ l_total L' = l_total L) /\
  (forall d a bx bn g, pointwise2 nn U a G -> has d "b_x" bx -> has d "b_y" bn -> has d "c" g ->
    let m := model_of h dir sensor pde_loss_cd2d_inverse_domain (length cells) in
    let m' := model_of h' dir sensor pde_loss_cd2d_inverse_domain (length cells') in sensors_fit m ->
    exists L L', train_inverse_domain m nn beta (Some d) = Ok L /\ train_inverse_domain m' nn beta (Some d) = Ok L' /\
       l_pde L' = l_pde L /\ l_total L' = l_total L).
Proof.
  intros o cf cells cells' bp bf plot s f h dir sensor nn beta Ho Hm Hc Hf Hs Hh Hd Hne.
  exact (number_losses o cf cells cells' bp bf plot s f h dir sensor nn beta Ho Hm Hc Hf Hs Hh Hd Hne).
Qed.
Print Assumptions C57_numbering.
(* ... false of the affine map on other cells: started at its second vertex, the kite has a ninth
   of the loss *)
Theorem C57_affine_refuted : exists o s s' h h' dir L L', oracle_ok o 5 /\ convex_ccw kite /\
  make_space o (kite_cf "affine") [kite] bp1 bf1 false = Ok s /\ make_space o (kite_cf "affine") [shifted kite] bp1 bf1 false = Ok s' /\
  make_handler s (fun _ _ => 1) true = Ok h /\ make_handler s' (fun _ _ => 1) true = Ok h' /\ get_dirichlet_input bp1 bf1 = Ok dir /\
  train_hard (model_of h dir dir pde_loss_poisson 1) (ex_net 0 0 0) 1 (Some [("eps"%string, 1)]) = Ok L /\
  train_hard (model_of h' dir dir pde_loss_poisson 1) (ex_net 0 0 0) 1 (Some [("eps"%string, 1)]) = Ok L' /\
  l_pde L = 9 * l_pde L' /\ 0 < l_pde L'.
Proof. exact affine_numbering. Qed.
Print Assumptions C57_affine_refuted.

(* Examples: a square and a kite *)
Definition two : list (cell R) := [unit_square; mkcell (1, 0) (3, -1) (4, 2) (1, 1)].
Definition cd_params : list (string * R) := [("eps", 1); ("b_x", 2); ("b_y", -1); ("c", 3)]%string.
Lemma two_convex : forall c, In c two -> strictly_convex c.
Proof. intros c [<- | [<- | []]]; left; unfold convex_ccw, cross, unit_square; cbn; repeat split; lra. Qed.
Lemma any_space : forall o cells, oracle_ok o 5 -> cells <> [] -> exists s, make_space o (kite_cf "bilinear") cells bp1 bf1 false = Ok s.
Proof.
  intros o cells Ho Hne. apply (space_iff o (kite_cf "bilinear") cells bp1 bf1 false (oracle_lengths _ _ Ho)).
  split; [exact Hne|]. split; [|split; [|discriminate]]. 2:{ intros tag pts [K|[]] _. injection K as <- <-. now left. }
  intros c _. constructor; cbn; try lia; auto 10.
Qed.
Example C54_example : exists o s h dir,
  oracle_ok o 5 /\ make_space o (kite_cf "bilinear") two bp1 bf1 false = Ok s /\ make_handler s (fun x y => x * y) true = Ok h /\
  get_dirichlet_input bp1 bf1 = Ok dir /\ fst dir <> [] /\ pointwise (ex_net 2 3 1) (fun p => 2 * fst p + 3 * snd p + 1) (fun _ => (2, 3)) /\
  equation pde_loss_cd2d cd_params 1 2 (-1) 3 /\ sensors_fit (model_of h dir dir pde_loss_poisson_inverse 2).
Proof.
  destruct (any_oracle_ok 5) as [o Ho]. destruct (any_space o two Ho ltac:(discriminate)) as [s Hs].
  destruct (handler_spec o (kite_cf "bilinear") _ _ _ _ s (oracle_lengths _ _ Ho) Hs (fun x y => x * y)) as (h & Eh & _).
  destruct (get_dirichlet_input bp1 bf1) as [dir|] eqn:Ed; [|discriminate]. exists o, s, h, dir.
  assert (Hne : fst dir <> []) by (cbn in Ed; injection Ed as <-; discriminate).
  refine (conj Ho (conj Hs (conj Eh (conj eq_refl (conj Hne (conj (ex_net_pointwise 2 3 1) (conj _ _))))))).
  - constructor; reflexivity.
  - split; cbn [model_of m_sensor_in m_sensor_act]; [exact Hne | exact (proj1 (dirichlet_input_shape _ _ _ Ed))].
Qed.
(* the two cells in the other order *)
Example C55_example : exists o s s' h h', oracle_ok o 5 /\ make_space o (kite_cf "bilinear") two bp1 bf1 false = Ok s /\
  make_space o (kite_cf "bilinear") (rev two) bp1 bf1 false = Ok s' /\ Permutation two (rev two) /\
  make_handler s (fun x y => x * y) true = Ok h /\ make_handler s' (fun x y => x * y) true = Ok h'.
Proof.
  destruct (any_oracle_ok 5) as [o Ho]. destruct (any_space o two Ho ltac:(discriminate)) as [s Hs].
  destruct (any_space o (rev two) Ho ltac:(discriminate)) as [s' Hs'].
  destruct (handler_spec o (kite_cf "bilinear") _ _ _ _ s (oracle_lengths _ _ Ho) Hs (fun x y => x * y)) as (h & Eh & _).
  destruct (handler_spec o (kite_cf "bilinear") _ _ _ _ s' (oracle_lengths _ _ Ho) Hs' (fun x y => x * y)) as (h' & Eh' & _).
  exists o, s, s', h, h'. exact (conj Ho (conj Hs (conj Hs' (conj (Permutation_rev two) (conj Eh Eh'))))).
Qed.
(* reflection, scaling by 5 and translation *)
Definition S5 : similarity := mksim 3 4 (-1) 5 6.
Example C56_example :
  sim_ok S5 /\ (forall c, In c two -> strictly_convex c) /\ move S5 (1, 2) = (16, 4) /\ sq_factor S5 = 25 /\
  pointwise (ex_net (18 / 25) (-1 / 25) (1 - 84 / 25)) (fun p => 18 / 25 * fst p + -1 / 25 * snd p + (1 - 84 / 25)) (fun _ => (18 / 25, -1 / 25)) /\
  moved_net S5 (fun p => 2 * fst p + 3 * snd p + 1) (fun _ => (2, 3))
    (fun p => 18 / 25 * fst p + -1 / 25 * snd p + (1 - 84 / 25)) (fun _ => (18 / 25, -1 / 25)) /\
  (forall v, sq_factor S5 * (fun X Y => ((3 * (X - 5) + 4 * (Y - 6)) / 25) * ((4 * (X - 5) - 3 * (Y - 6)) / 25) / 25) (fst (move S5 v)) (snd (move S5 v))
     = (fun x y => x * y) (fst v) (snd v)) /\
  equation pde_loss_cd2d [("eps", 1); ("b_x", 2 / 25); ("b_y", 11 / 25); ("c", 3 / 25)]%string 1 (2 / 25) (11 / 25) (3 / 25) /\
  (sq_factor S5 * (2 / 25), sq_factor S5 * (11 / 25)) = turn S5 (2, -1) /\ sq_factor S5 * (3 / 25) = 3 /\
  moved_bf S5 bf1 [(7%Z, fun X Y => (3 * (X - 5) + 4 * (Y - 6)) / 25)].
Proof.
  assert (F : sq_factor S5 = 25) by (unfold sq_factor, S5; cbn; ring). rewrite F.
  refine (conj _ (conj two_convex (conj _ (conj eq_refl (conj (ex_net_pointwise _ _ _) (conj _ (conj _ (conj _ (conj _ (conj _ _)))))))))).
  - split; [right; reflexivity | cbn; lra].
  - unfold move, turn, S5. cbn. f_equal; ring.
  - intros [x y]. unfold move, turn. rewrite F. unfold S5. cbn. split; [field | f_equal; field].
  - intros [x y]. unfold move, turn, S5. cbn. field.
  - constructor; reflexivity.
  - unfold turn, S5. cbn. f_equal; field.
  - field.
  - intros tag b H. unfold bf1 in H. cbn [dget] in *. destruct (Z.eqb tag 7) eqn:E; [|discriminate]. injection H as <-.
    eexists. split; [reflexivity|]. intros [x y]. unfold move, turn, S5. cbn. field.
Qed.
(* the two cells exchanged, one started at the third vertex, the other listed clockwise *)
Example C57_example : same_mesh two [mkcell (4, 2) (1, 1) (1, 0) (3, -1); reversed unit_square] /\
  (forall c, In c two -> strictly_convex c) /\ cf_trafo (kite_cf "bilinear") = "bilinear"%string /\
  exists o s h dir, oracle_ok o 5 /\ make_space o (kite_cf "bilinear") two bp1 bf1 false = Ok s /\
    make_handler s (fun x y => x * y) true = Ok h /\ get_dirichlet_input bp1 bf1 = Ok dir /\ fst dir <> [].
Proof.
  split; [|split; [exact two_convex | split; [reflexivity|]]].
  - exists (rev two). split; [apply Permutation_rev|]. constructor; [|constructor; [|constructor]].
    + exact (sp_shifted _ _ (sp_shifted _ _ (sp_same (mkcell (1, 0) (3, -1) (4, 2) (1, 1))))).
    + exact (sp_reversed _ _ (sp_same unit_square)).
  - destruct C54_example as (o & s & h & dir & H1 & H2 & H3 & H4 & H5 & _). exists o, s, h, dir. auto.
Qed.
