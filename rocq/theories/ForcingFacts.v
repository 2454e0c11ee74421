(* Forcing vectors of a built space, and the effect of a forcing function that writes to
   its arguments. *)
From Coq Require Import String ZArith List Arith Lia Reals Lra.
From Coquelicot Require Import Coquelicot.
From Verif Require Import Num Py PyFacts Jacobi Quadrature Basis Transform Cell Space RCalc PolyFacts ListFacts Spec SpecGeom
  TransformFacts CellFacts2 SpaceFacts TransformFacts2 Heap HeapFacts.
Import ListNotations.
Local Open Scope R_scope.

Section Forcing.
Variables (o : quad_oracle R) (cf : config) (cells : list (cell R)) (bp : bdict R) (bf : bfun R) (plot : bool)
  (s : space R) (ci : nat) (c : cell R).
Hypothesis Ho : lengths_ok o (Z.to_nat (cf_quad_order cf)).
Hypothesis Hs : make_space o cf cells bp bf plot = Ok s.
Hypothesis Hc : nth_error cells ci = Some c.
Let n := Z.to_nat (cf_quad_order cf).
Let k := Z.to_nat (cf_fe_order cf).

Lemma forcing_sum : forall f, exists fam w xi eta mult m,
  family_of (cf_fe_type cf) = Some fam /\ quad2d o (cf_quad_order cf) (cf_quad_type cf) = Ok (w, xi, eta) /\
  get_quadrature_weights s (Z.of_nat ci) = Ok mult /\
  get_forcing_function_values s f (Z.of_nat ci) = Ok m /\ has_shape m (k * k) 1 /\
  forall i j, (i < k)%nat -> (j < k)%nat -> entry m (k * i + j) 0 =
    Sum (fun q => nth q mult 0 * Phi fam i j (nth q xi 0) (nth q eta 0)
        * f (fst (RefMap (cf_trafo cf) c (nth q xi 0) (nth q eta 0))) (snd (RefMap (cf_trafo cf) c (nth q xi 0) (nth q eta 0)))) (n * n).
Proof.
  intros f. destruct (space_cell _ _ _ _ _ _ _ _ _ Hs Hc) as (d & Hd & _ & Ea).
  destruct (make_cell_tables o cf c d Ho Hd) as (fam & w & xi & eta & Tf & Tq & L1 & L2 & L3 & L4 & L5 & S1 & S2 & S3 & S4 & S5 & T).
  fold n k in L1, L2, L3, L4, L5, S1, T.
  exists fam, w, xi, eta, (cd_mult d), (forcing_values d f).
  unfold get_forcing_function_values, get_quadrature_weights. rewrite Ea.
  do 4 (split; [auto|]).
  assert (Ek : cd_nsf d = (k * k)%nat).
  { destruct (make_cell_inv o cf c d Ho Hd) as [_ (fam' & t & w' & xi' & eta' & _ & _ & _ & _ & _ & _ & _ & _ & _ & _ & _ & _ & _ & E & _)].
    exact E. }
  split.
  { split; [unfold forcing_values; now rewrite map_length, seq_length|].
    intros row Hr. unfold forcing_values in Hr. apply in_map_iff in Hr. destruct Hr as (? & <- & _). reflexivity. }
  intros i j Hi Hj. assert (Hr : (k * i + j < k * k)%nat) by nia. unfold entry, forcing_values. rewrite Ek.
  rewrite nth_map_lt with (d' := 0%nat) by now rewrite seq_length. rewrite seq_nth by auto. cbn [nth Nat.add].
  destruct S1 as [SL SR].
  rewrite forcing_entry_sum. 2:{ rewrite L5. apply SR. apply nth_In. lia. }
  rewrite L5. change Sum with rsum. apply rsum_ext. intros q Hq. destruct (T q Hq) as (_ & P & V). rewrite P.
  destruct (V i j Hi Hj) as (V1 & _). unfold entry in V1. rewrite V1. reflexivity.
Qed.

Lemma forcing_vector : forall fv comp, 
  match get_forcing_function_values_vector s fv (Z.of_nat ci) comp with
  | Ok m => exists fam w xi eta mult pts g,
      family_of (cf_fe_type cf) = Some fam /\ quad2d o (cf_quad_order cf) (cf_quad_type cf) = Ok (w, xi, eta) /\
      get_quadrature_weights s (Z.of_nat ci) = Ok mult /\ get_quadrature_actual_coordinates s (Z.of_nat ci) = Ok pts /\
      nth_error (fv (map fst pts) (map snd pts)) comp = Some g /\ has_shape m (k * k) 1 /\
      ((length g = n * n)%nat \/ length g = 1%nat) /\
      forall i j, (i < k)%nat -> (j < k)%nat -> entry m (k * i + j) 0 =
        Sum (fun q => nth q mult 0 * Phi fam i j (nth q xi 0) (nth q eta 0)
              * nth (if Nat.eqb (length g) 1 then 0 else q) g 0) (n * n)
  | Err e => exists pts, get_quadrature_actual_coordinates s (Z.of_nat ci) = Ok pts /\
      match nth_error (fv (map fst pts) (map snd pts)) comp with
      | None => e = IndexError
      | Some g => e = ValueError /\ length g <> (n * n)%nat /\ length g <> 1%nat
      end
  end.
Proof.
  intros fv comp. destruct (space_cell _ _ _ _ _ _ _ _ _ Hs Hc) as (d & Hd & _ & Ea).
  destruct (make_cell_tables o cf c d Ho Hd) as (fam & w & xi & eta & Tf & Tq & L1 & L2 & L3 & L4 & L5 & S1 & S2 & S3 & S4 & S5 & T).
  destruct (make_cell_inv o cf c d Ho Hd) as [Hacc _].
  assert (Hn : (3 <= n)%nat). { destruct (ac_quad _ _ Hacc). unfold n. lia. }
  assert (Hk : (2 <= k)%nat). { destruct (ac_fe _ _ Hacc). unfold k. lia. }
  fold n k in L1, L2, L3, L4, L5, S1, T. destruct S1 as [SL SR].
  unfold get_forcing_function_values_vector, get_quadrature_actual_coordinates, get_quadrature_weights.
  rewrite Ea. cbn [bind]. unfold forcing_values_vector.
  destruct (nth_error _ comp) as [g|] eqn:Eg.
  2:{ exists (cd_actual d). split; [reflexivity|]. rewrite Eg. reflexivity. }
  assert (C : (length g = n * n)%nat \/ length g = 1%nat \/ (length g <> (n * n)%nat /\ length g <> 1%nat)) by lia.
  assert (Hnn : (9 <= n * n)%nat) by nia.
  destruct C as [C|[C|[C1 C2]]].
  - assert (E : mapM (fun row => do p <- bcast_mul row g; Ok [vsum p]) (cd_val d) = Ok (map (fun row => [vsum (vmul row g)]) (cd_val d))).
    { rewrite <- mapM_pure. apply mapM_ext. intros row Hr. unfold bcast_mul. rewrite (SR row Hr), C, Nat.eqb_refl. reflexivity. }
    rewrite E. exists fam, w, xi, eta, (cd_mult d), (cd_actual d), g. do 5 (split; [auto|]).
    split; [split; [now rewrite map_length|]; intros row Hr; apply in_map_iff in Hr; destruct Hr as (? & <- & _); reflexivity|].
    split; [auto|]. intros i j Hi Hj. assert (Hr : (k * i + j < k * k)%nat) by nia. unfold entry.
    rewrite nth_map_lt with (d' := []) by lia. cbn [nth].
    rewrite vector_entry_sum by (rewrite C; apply SR, nth_In; lia). rewrite C. change Sum with rsum. apply rsum_ext.
    intros q Hq. destruct (T q Hq) as (_ & _ & V). destruct (V i j Hi Hj) as (V1 & _). unfold entry in V1. rewrite V1.
    destruct (Nat.eqb_spec (n * n) 1); [lia | reflexivity].
  - destruct g as [|a [|]]; simpl in C; try lia.
    assert (E : mapM (fun row => do p <- bcast_mul row [a]; Ok [vsum p]) (cd_val d) = Ok (map (fun row => [vsum (map (fun x => x * a) row)]) (cd_val d))).
    { rewrite <- mapM_pure. apply mapM_ext. intros row Hr. unfold bcast_mul. rewrite (SR row Hr). cbn [length].
      destruct (Nat.eqb_spec (n * n) 1); [lia|]. destruct row as [|r0 [|]]; reflexivity. }
    rewrite E. exists fam, w, xi, eta, (cd_mult d), (cd_actual d), [a]. do 5 (split; [auto|]).
    split; [split; [now rewrite map_length|]; intros row Hr; apply in_map_iff in Hr; destruct Hr as (? & <- & _); reflexivity|].
    split; [auto|]. intros i j Hi Hj. assert (Hr : (k * i + j < k * k)%nat) by nia. unfold entry.
    rewrite nth_map_lt with (d' := []) by lia. cbn [nth length Nat.eqb].
    rewrite vsum_rsum, map_length. rewrite (SR (nth (k * i + j) (cd_val d) [])) by (apply nth_In; lia).
    change Sum with rsum. apply rsum_ext. intros q Hq.
    rewrite nth_map_lt with (d' := 0) by (rewrite (SR (nth (k * i + j) (cd_val d) [])) by (apply nth_In; lia); auto).
    destruct (T q Hq) as (_ & _ & V). destruct (V i j Hi Hj) as (V1 & _). unfold entry in V1. rewrite V1. reflexivity.
  - assert (E : mapM (fun row => do p <- bcast_mul row g; Ok [vsum p]) (cd_val d) = Err ValueError).
    { destruct (cd_val d) as [|row rest] eqn:Ev; [simpl in SL; nia|]. simpl.
      assert (Lr : length row = (n * n)%nat) by (apply SR; now left).
      assert (B : bcast_mul row g = Err ValueError).
      { unfold bcast_mul. destruct (Nat.eqb_spec (length row) (length g)); [congruence|].
        destruct row as [|r0 [|r1 row]]; simpl in Lr; try lia; destruct g as [|g0 [|g1 g]]; auto; simpl in C2; lia. }
      rewrite B. reflexivity. }
    rewrite E. exists (cd_actual d). split; [reflexivity|]. rewrite Eg. auto.
Qed.
End Forcing.

Lemma forcing_linear : forall (s : space R) f g a b i mf mg, 
  get_forcing_function_values s f i = Ok mf -> get_forcing_function_values s g i = Ok mg ->
  exists m, get_forcing_function_values s (fun x y => a * f x y + b * g x y) i = Ok m /\ length m = length mf /\
  forall r, entry m r 0 = a * entry mf r 0 + b * entry mg r 0.
Proof.
  intros s f g a b i mf mg. unfold get_forcing_function_values. destruct (cell_at (sp_cells s) i) as [d|]; [|discriminate].
  cbn [bind]. intros E1 E2. injection E1 as <-. injection E2 as <-. eexists. split; [reflexivity|].
  split. { unfold forcing_values. now rewrite !map_length. }
  intros r. unfold entry, forcing_values.
  destruct (Nat.lt_ge_cases r (cd_nsf d)) as [Hr|Hr].
  - rewrite !nth_map_lt with (d' := 0%nat) by now rewrite seq_length. cbn [nth].
    unfold forcing_entry. set (l := combine _ _). clearbody l. to_R.
    assert (G : forall (l : list (R * (R * R))) (u v w : R), u = a * v + b * w ->
      fold_left (fun val vq => val + fst vq * (a * f (fst (snd vq)) (snd (snd vq)) + b * g (fst (snd vq)) (snd (snd vq)))) l u =
      a * fold_left (fun val vq => val + fst vq * f (fst (snd vq)) (snd (snd vq))) l v +
      b * fold_left (fun val vq => val + fst vq * g (fst (snd vq)) (snd (snd vq))) l w).
    { induction l0 as [|p l0 IH]; intros u v w E; simpl; auto. apply IH. rewrite E. ring. }
    apply G. ring.
  - rewrite !(nth_overflow (map _ _)) by (rewrite map_length, seq_length; lia). simpl. ring.
Qed.

(* A forcing function that shifts the coordinate array it is given, as "x -= 1" does *)
Definition shifting (xs ys : list R) : list (list R) * (list R * list R) :=
  ([xs; ys], (map (fun x => x - 1) xs, ys)).
Lemma shifting_corrupts : forall (s : space R) f d, nth_error (sp_cells s) 0 = Some d -> cd_actual d <> [] ->
  let st := load s f shifting in
  exists before after, observe st (OGet AtCoord 0) = Ok (APts before) /\
    observe (run st [OForceVec 0 0]) (OGet AtCoord 0) = Ok (APts after) /\ before <> after /\
    after = map (fun p => (fst p - 1, snd p)) before.
Proof.
  intros s f d Hd Hne st.
  assert (L : (0 < length (sp_cells s))%nat) by (apply nth_error_Some; congruence).
  destruct (load_cell s f shifting 0 L) as (d' & N & E & M). assert (d' = d) by congruence; subst d'. fold st in M.
  assert (A : hcell_at st 0 = Ok (0%nat, {| hc_addr := fun a => (8 * 0 + attr_index a)%nat; hc_forcing := (8 * 0 + 7)%nat;
        hc_nsf := cd_nsf d; hc_f := f; hc_fv := shifting |})).
  { unfold st. rewrite load_at. unfold cell_at. destruct (sp_cells s) as [|c0 cs] eqn:Es; [simpl in L; lia|].
    injection Hd as ->. assert (B : (0 >=? Z.of_nat (length (d :: cs)))%Z = false) by (rewrite Z.geb_leb; apply Z.leb_gt; simpl; lia).
    rewrite B. reflexivity. }
  exists (cd_actual d), (map (fun p => (fst p - 1, snd p)) (cd_actual d)).
  split. { unfold observe, step. rewrite A. cbv zeta. cbn [snd hc_addr]. rewrite (M AtCoord). reflexivity. }
  split; [|split; [|reflexivity]].
  2:{ destruct (cd_actual d) as [|[x y] l]; [congruence|]. simpl. intros X. injection X. intros. lra. }
  unfold run. cbn [fold_left]. 
  assert (Cell : exists hc, hcell_at (fst (step st (OForceVec 0 0))) 0 = Ok (0%nat, hc) /\ hc_addr hc AtCoord = 5%nat /\
     hs_mem (fst (step st (OForceVec 0 0))) 5 = APts (map (fun p => (fst p - 1, snd p)) (cd_actual d))).
  { unfold step. rewrite A. cbv zeta. cbn [hc_addr hc_fv]. rewrite (M AtCoord). cbn [cell_arr as_pts]. unfold shifting.
    cbn [nth_error].
    assert (EC : combine (map (fun x => x - 1) (map fst (cd_actual d))) (map snd (cd_actual d)) = map (fun p => (fst p - 1, snd p)) (cd_actual d)).
    { clear. induction (cd_actual d) as [|[x y] l IH]; simpl; auto. now rewrite IH. }
    rewrite EC.
    set (st1 := {| hs_mem := upd (hs_mem st) (8 * 0 + attr_index AtCoord) (APts (map (fun p => (fst p - 1, snd p)) (cd_actual d)));
        hs_next := hs_next st; hs_cells := hs_cells st; hs_user := hs_user st |}).
    assert (A1 : hcell_at st1 0 = hcell_at st 0) by reflexivity.
    destruct (mapM _ _) as [m|e].
    - cbn [fst]. exists {| hc_addr := fun a => (8 * 0 + attr_index a)%nat; hc_forcing := hs_next st; hc_nsf := cd_nsf d; hc_f := f; hc_fv := shifting |}. split.
      + unfold hcell_at, store_forcing, give, st1; cbn [hs_cells].
        assert (Lc : length (hs_cells st) = length (sp_cells s)).
        { unfold st, load; cbn [hs_cells]. rewrite map_length, combine_length, seq_length. lia. }
        destruct (hs_cells st) as [|h hs] eqn:Eh; [simpl in Lc; lia|]. cbn [set_nth length].
        assert (B : (0 >=? Z.of_nat (S (length hs)))%Z = false) by (rewrite Z.geb_leb; apply Z.leb_gt; simpl; lia).
        rewrite B. reflexivity.
      + split; [reflexivity|]. unfold store_forcing, give, st1; cbn [hs_mem hs_next].
        unfold upd. assert (Hnx : hs_next st = (8 * length (sp_cells s))%nat) by reflexivity. rewrite Hnx.
        destruct (Nat.eqb_spec 5 (S (8 * length (sp_cells s)))); [lia|]. destruct (Nat.eqb_spec 5 (8 * length (sp_cells s))); [lia|]. reflexivity.
    - cbn [fst]. eexists. split; [rewrite A1; exact A|]. split; reflexivity. }
  destruct Cell as (hc & C1 & C2 & C3). unfold observe. set (st2 := fst (step st (OForceVec 0 0))) in *.
  unfold step. rewrite C1. cbv zeta. cbn [snd]. rewrite C2, C3. reflexivity.
Qed.
