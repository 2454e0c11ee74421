(* Sensor data: fespace2d.py:643-723. *)
From Coq Require Import String ZArith List Arith Lia Reals Lra.
From Verif Require Import Num Py PyFacts Jacobi Quadrature Basis Transform Cell Space Tensor Data RCalc ListFacts Spec.
Import ListNotations.
Local Open Scope R_scope.

Lemma nminR : forall x y : R, nmin x y = Rmin x y.
Proof. intros. unfold nmin, Rmin. simpl. unfold Rleb. destruct (Rle_dec x y); reflexivity. Qed.
Lemma nmaxR : forall x y : R, nmax x y = Rmax x y.
Proof. intros. unfold nmax, Rmax. simpl. unfold Rleb. destruct (Rle_dec x y); reflexivity. Qed.
Lemma vmin_spec : forall l (m : R), vmin l = Ok m <-> In m l /\ forall x, In x l -> m <= x.
Proof.
  assert (G : forall l a, In (fold_left nmin l a) (a :: l) /\ forall x : R, In x (a :: l) -> fold_left nmin l a <= x).
  { induction l as [|b l IH]; intros a; simpl; [split; auto; intros x [->|[]]; lra|].
    destruct (IH (nmin a b)) as [A B]. rewrite nminR in *. split.
    - destruct A as [A|A]; [|auto]. unfold Rmin in A at 1. destruct (Rle_dec a b); auto.
    - intros x Hx. assert (fold_left nmin l (Rmin a b) <= Rmin a b) by (apply B; now left).
      pose proof (Rmin_l a b). pose proof (Rmin_r a b). destruct Hx as [<-|[<-|Hx]]; [lra|lra|]. apply B; now right. }
  intros [|a l] m; simpl; [split; [discriminate | intros [[] _]]|]. destruct (G l a) as [A B]. split.
  - intros E; injection E as <-. auto.
  - intros [I L]. f_equal. apply Rle_antisym; [now apply B | now apply L].
Qed.
Lemma vmax_spec : forall l (m : R), vmax l = Ok m <-> In m l /\ forall x, In x l -> x <= m.
Proof.
  assert (G : forall l a, In (fold_left nmax l a) (a :: l) /\ forall x : R, In x (a :: l) -> x <= fold_left nmax l a).
  { induction l as [|b l IH]; intros a; simpl; [split; auto; intros x [->|[]]; lra|].
    destruct (IH (nmax a b)) as [A B]. rewrite nmaxR in *. split.
    - destruct A as [A|A]; [|auto]. unfold Rmax in A at 1. destruct (Rle_dec a b); auto.
    - intros x Hx. assert (Rmax a b <= fold_left nmax l (Rmax a b)) by (apply B; now left).
      pose proof (Rmax_l a b). pose proof (Rmax_r a b). destruct Hx as [<-|[<-|Hx]]; [lra|lra|]. apply B; now right. }
  intros [|a l] m; simpl; [split; [discriminate | intros [[] _]]|]. destruct (G l a) as [A B]. split.
  - intros E; injection E as <-. auto.
  - intros [I L]. f_equal. apply Rle_antisym; [now apply L | now apply B].
Qed.

Lemma scale_in : forall a b t, a <= b -> 0 <= t <= 1 -> a <= a + (b - a) * t <= b.
Proof. intros. nra. Qed.

Lemma sensor_inv : forall (pts : list (R * R)) lhs2 exact n P V, get_sensor_data pts lhs2 exact n = Ok (P, V) ->
  exists x0 x1 y0 y1, 
    (In x0 (map fst pts) /\ (forall p, In p pts -> x0 <= fst p)) /\ (In x1 (map fst pts) /\ (forall p, In p pts -> fst p <= x1)) /\
    (In y0 (map snd pts) /\ (forall p, In p pts -> y0 <= snd p)) /\ (In y1 (map snd pts) /\ (forall p, In p pts -> snd p <= y1)) /\
    P = map (fun p => (x0 + (x1 - x0) * fst p, y0 + (y1 - y0) * snd p)) (lhs2 (sensor_count n)) /\
    V = map (fun p => exact (fst p) (snd p)) P.
Proof.
  intros pts lhs2 exact n P V. unfold get_sensor_data.
  destruct (vmin (map fst pts)) as [x0|] eqn:E1; [|discriminate]. destruct (vmax (map fst pts)) as [x1|] eqn:E2; [|discriminate].
  destruct (vmin (map snd pts)) as [y0|] eqn:E3; [|discriminate]. destruct (vmax (map snd pts)) as [y1|] eqn:E4; [|discriminate].
  cbn [bind]. intros H; injection H as <- <-. apply vmin_spec in E1, E3. apply vmax_spec in E2, E4.
  exists x0, x1, y0, y1.
  split; [split; [apply E1|]; intros p Hp; apply E1, in_map, Hp|]. split; [split; [apply E2|]; intros p Hp; apply E2, in_map, Hp|].
  split; [split; [apply E3|]; intros p Hp; apply E3, in_map, Hp|]. split; [split; [apply E4|]; intros p Hp; apply E4, in_map, Hp|].
  split; reflexivity.
Qed.

Lemma sensor_spec : forall (pts : list (R * R)) lhs2 exact n P V,
  (forall m, length (lhs2 m) = m /\ forall p, In p (lhs2 m) -> 0 <= fst p <= 1 /\ 0 <= snd p <= 1) ->
  get_sensor_data pts lhs2 exact n = Ok (P, V) ->
  length P = (n * 9 / 10)%nat /\ length V = length P /\
  (forall i, (i < length P)%nat -> nth i V 0 = exact (fst (nth i P (0, 0))) (snd (nth i P (0, 0)))) /\
  (forall p, In p P -> exists a b c d, In a pts /\ In b pts /\ In c pts /\ In d pts /\
     fst a <= fst p <= fst b /\ snd c <= snd p <= snd d).
Proof.
  intros pts lhs2 exact n P V Hl H. destruct (sensor_inv _ _ _ _ _ _ H) as (x0 & x1 & y0 & y1 & [A1 A2] & [B1 B2] & [C1 C2] & [D1 D2] & EP & EV).
  destruct (Hl (sensor_count n)) as [L1 L2]. split; [rewrite EP, map_length; exact L1|]. split; [now rewrite EV, map_length|].
  split. { intros i Hi. rewrite EV. now rewrite nth_map_lt with (d' := (0, 0)) by auto. }
  intros p Hp. rewrite EP in Hp. apply in_map_iff in Hp. destruct Hp as (u & <- & Hu). destruct (L2 u Hu) as [Ux Uy]. cbn [fst snd].
  apply in_map_iff in A1, B1, C1, D1. destruct A1 as (a & <- & Ia), B1 as (b & <- & Ib), C1 as (c & <- & Ic), D1 as (d & <- & Id).
  exists a, b, c, d. do 4 (split; [auto|]). split; apply scale_in; auto.
Qed.
Lemma sensor_ok_iff : forall (pts : list (R * R)) lhs2 exact n,
  (exists r, get_sensor_data pts lhs2 exact n = Ok r) <-> pts <> [].
Proof.
  intros pts lhs2 exact n. unfold get_sensor_data. destruct pts as [|p pts]; simpl.
  - split; [intros [r H]; discriminate | congruence].
  - split; [discriminate | eexists; reflexivity].
Qed.
Lemma sensor_count_wrong : forall (pts : list (R * R)) lhs2 exact n P V, (1 <= n)%nat ->
  (forall m, length (lhs2 m) = m) -> get_sensor_data pts lhs2 exact n = Ok (P, V) -> (length P < n)%nat.
Proof.
  intros pts lhs2 exact n P V Hn Hl H. destruct (sensor_inv _ _ _ _ _ _ H) as (x0 & x1 & y0 & y1 & _ & _ & _ & _ & -> & _).
  rewrite map_length, Hl. unfold sensor_count. apply Nat.div_lt_upper_bound; lia.
Qed.

Lemma sensor_external_spec : forall (rows : list (R * R * R)) idx n P V,
  (rows <> [] -> length (idx (length rows) n) = n /\ forall i, In i (idx (length rows) n) -> (i < length rows)%nat) ->
  rows <> [] \/ n = 0%nat -> (rows = [] -> idx 0%nat 0%nat = []) ->
  get_sensor_data_external rows idx n = Ok (P, V) ->
  length P = n /\ length V = n /\ forall i, (i < n)%nat -> In (nth i P (0, 0), nth i V 0) rows.
Proof.
  intros rows idx n P V Hi Hc H0 H. unfold get_sensor_data_external in H.
  assert (H' : exists sel, mapM (fun i => match nth_error rows i with Some r => Ok r | None => Err IndexError end) (idx (length rows) n) = Ok sel
     /\ P = map fst sel /\ V = map snd sel).
  { destruct rows, n; try discriminate; (destruct (mapM _ _) as [sel|] eqn:E in H; [|discriminate]); exists sel; cbn [bind] in H; injection H as <- <-; auto. }
  destruct H' as (sel & E & -> & ->). rewrite !map_length.
  assert (L : length sel = n).
  { rewrite (mapM_length _ _ _ E). destruct Hc as [Hc| ->]; [now apply Hi|].
    destruct rows; [simpl; now rewrite H0 | apply Hi; discriminate]. }
  do 2 (split; [auto|]). intros i Hlt.
  rewrite !nth_map_lt with (d' := (0, 0, 0)) by lia. rewrite <- surjective_pairing.
  pose proof (mapM_nth _ _ _ i 0%nat (0, 0, 0) E) as M. rewrite <- (mapM_length _ _ _ E), L in M. specialize (M Hlt). cbv beta in M.
  destruct (nth_error rows _) eqn:N; [|discriminate]. injection M as <-. eapply nth_error_In; eauto.
Qed.
Lemma sensor_external_ok : forall (rows : list (R * R * R)) idx n, 
  (forall i, In i (idx (length rows) n) -> (i < length rows)%nat) -> rows <> [] -> exists r, get_sensor_data_external rows idx n = Ok r.
Proof.
  intros rows idx n Hi Hr. unfold get_sensor_data_external.
  assert (exists sel, mapM (fun i => match nth_error rows i with Some r => Ok r | None => Err IndexError end) (idx (length rows) n) = Ok sel) as [sel E].
  { apply mapM_ok. intros i I. apply Hi in I. apply nth_error_Some in I. destruct (nth_error rows i); [eauto | congruence]. }
  destruct rows; [congruence|]. rewrite E. eexists; destruct n; reflexivity.
Qed.

(* ---------- through the data handler ---------- *)
Lemma handler_sensors : forall (pts : list (R * R)) lhs2 exact (rows : list (R * R * R)) idx n mesh_type,
  let res := handler_sensor_data mesh_type (get_sensor_data pts lhs2 exact n) (get_sensor_data_external rows idx n) in
  (mesh_type = "internal"%string -> pts <> [] ->
    (forall m, length (lhs2 m) = m /\ forall p, In p (lhs2 m) -> 0 <= fst p <= 1 /\ 0 <= snd p <= 1) ->
    exists P M, res = Ok (P, M) /\ length P = (n * 9 / 10)%nat /\ has_shape M (length P) 1 /\
      forall i, (i < length P)%nat -> entry M i 0 = exact (fst (nth i P (0, 0))) (snd (nth i P (0, 0)))) /\
  (mesh_type = "external"%string -> rows <> [] ->
    (length (idx (length rows) n) = n /\ forall i, In i (idx (length rows) n) -> (i < length rows)%nat) ->
    exists P M, res = Ok (P, M) /\ length P = n /\ has_shape M n 1 /\ forall i, (i < n)%nat -> In (nth i P (0, 0), entry M i 0) rows) /\
  (mesh_type <> "internal"%string -> mesh_type <> "external"%string -> res = Err UnboundLocalError).
Proof.
  intros pts lhs2 exact rows idx n mesh_type. cbv zeta.
  assert (C : forall V : list R, has_shape (as_column V) (length V) 1 /\ forall i, (i < length V)%nat -> entry (as_column V) i 0 = nth i V 0).
  { intros V. unfold as_column, entry, has_shape. split.
    - split; [apply map_length|]. intros r Hr. apply in_map_iff in Hr. destruct Hr as (x & <- & _). reflexivity.
    - intros i Hi. rewrite nth_map_lt with (d' := 0) by exact Hi. reflexivity. }
  unfold handler_sensor_data. refine (conj _ (conj _ _)).
  - intros -> Hp Hl. cbn [String.eqb Ascii.eqb Bool.eqb]. destruct (proj2 (sensor_ok_iff pts lhs2 exact n) Hp) as [[P V] E].
    destruct (sensor_spec pts lhs2 exact n P V Hl E) as (L1 & L2 & L3 & _). rewrite E. cbn [bind fst snd].
    exists P, (as_column V). destruct (C V) as [C1 C2]. rewrite L2 in C1, C2. split; [reflexivity|]. split; [exact L1|]. split; [exact C1|].
    intros i Hi. rewrite C2 by exact Hi. now apply L3.
  - intros -> Hr Hi. cbn [String.eqb Ascii.eqb Bool.eqb]. destruct (sensor_external_ok rows idx n (proj2 Hi) Hr) as [[P V] E].
    destruct (sensor_external_spec rows idx n P V (fun _ => Hi) (or_introl Hr) (fun H => False_ind _ (Hr H)) E) as (L1 & L2 & L3). rewrite E. cbn [bind fst snd].
    exists P, (as_column V). destruct (C V) as [C1 C2]. rewrite L2 in C1, C2. split; [reflexivity|]. split; [exact L1|]. split; [exact C1|].
    intros i H. rewrite C2 by exact H. now apply L3.
  - intros N1 N2. destruct (String.eqb_spec mesh_type "internal"); [congruence|]. destruct (String.eqb_spec mesh_type "external"); [congruence|]. reflexivity.
Qed.
