(* Rounding errors inside the network (C86). *)
From Coq Require Import String ZArith List Arith Lia Bool Reals Lra Psatz Permutation.
From Flocq Require Import Core.
From Coquelicot Require Import Coquelicot.
From Verif Require Import Num Py PyFacts Basis Tensor Physics Train Nets PolyFacts ListFacts Spec TensorFacts SpecTrain SpecInit SpecLoop
  NetFacts ProblemFacts InitFacts LoopFacts Rounding SpecRound RoundFacts RoundStep RoundNet SpecRoundNet.
Import ListNotations.
Local Open Scope R_scope.

(* ---------- lists of numbers ---------- *)
Inductive nears (u : R) (k : nat) : list R -> list R -> list R -> Prop :=
| nears_nil : nears u k [] [] []
| nears_cons : forall b x x' B X X', near u k b x x' -> nears u k B X X' -> nears u k (b :: B) (x :: X) (x' :: X').
Lemma nears_length : forall u k B X X', nears u k B X X' -> length B = length X /\ length X' = length X.
Proof. induction 1 as [|b x x' B X X' _ _ [IH1 IH2]]; cbn; auto. Qed.
Lemma nears_nth : forall u k B X X', nears u k B X X' -> forall i, (i < length X)%nat -> near u k (nth i B 0) (nth i X 0) (nth i X' 0).
Proof. induction 1 as [|b x x' B X X' H _ IH]; intros i Hi; cbn in Hi; [lia|]. destruct i; [exact H|]. apply IH. lia. Qed.
Lemma nears_map : forall u k {I} (l : list I) (b x x' : I -> R), (forall i, In i l -> near u k (b i) (x i) (x' i)) -> nears u k (map b l) (map x l) (map x' l).
Proof. intros u k I l b x x' H. induction l as [|i l IH]; cbn; constructor; [apply H; now left | apply IH; intros; apply H; now right]. Qed.
Lemma nears_map2 : forall u k k1 k2 (fb f f' : R -> R -> R), (forall b x x' c y y', near u k1 b x x' -> near u k2 c y y' -> near u k (fb b c) (f x y) (f' x' y')) ->
  forall B X X' C Y Y', nears u k1 B X X' -> nears u k2 C Y Y' -> nears u k (map2 fb B C) (map2 f X Y) (map2 f' X' Y').
Proof. intros u k k1 k2 fb f f' H B X X' C Y Y' H1. revert C Y Y'. induction H1 as [|b x x' B X X' Hx _ IH]; intros C Y Y' H2; destruct H2; cbn; constructor; auto. Qed.

Section Arith.
Variables (a : arith) (u : R) (N : Z) (mt : nat).
Hypothesis Ha : arith_ok a u N mt.
Let Hr : rounding (a_rnd a) u N := ar_rnd _ _ _ _ Ha.
Notation rnd := (a_rnd a).
Notation near := (near u).
Notation nears := (nears u).
Ltac grow := eapply near_mono; [exact Hr | | | apply Rle_refl].
Lemma nears_mono : forall k l B X X', nears k B X X' -> (k <= l)%nat -> nears l B X X'.
Proof. intros k l B X X' H Hk. induction H; constructor; auto. grow; [eassumption | exact Hk]. Qed.
(* one more computation on a computed number *)
Lemma near_step : forall k l b c x x' x'', near k b x x' -> near l c x' x'' -> c <= (1 + u) ^ k * b -> near (k + l) b x x''.
Proof.
  intros k l b c x x' x'' [A B] [_ D] Hc. split; [exact A|]. pose proof (g_ge1 _ _ _ Hr k). pose proof (g_ge1 _ _ _ Hr l). pose proof (Rabs_pos x).
  replace (x'' - x) with ((x'' - x') + (x' - x)) by ring. eapply Rle_trans; [apply Rabs_triang|]. rewrite pow_add.
  apply Rle_trans with (((1 + u) ^ l - 1) * ((1 + u) ^ k * b) + ((1 + u) ^ k - 1) * b); [|right; ring]. apply Rplus_le_compat; [|exact B].
  eapply Rle_trans; [exact D|]. apply Rmult_le_compat_l; lra.
Qed.
Lemma near_size : forall k b x x', near k b x x' -> Rabs x' <= (1 + u) ^ k * b.
Proof. intros k b x x' [A B]. replace x' with (x + (x' - x)) by ring. eapply Rle_trans; [apply Rabs_triang|]. lra. Qed.
Lemma nears_vsum : forall k B X X', nears k B X X' -> near k (vsum B) (vsum X) (vsum X') /\ vsum (map Rabs X') <= (1 + u) ^ k * vsum B.
Proof.
  induction 1 as [|b x x' B X X' Hx HX [[I1 I2] I3]].
  - split; [split; cbn; unfold vsum; cbn; rewrite ?Rminus_0_r, ?Rabs_R0; lra | cbn; unfold vsum; cbn; lra].
  - cbn [map]. rewrite !vsum_cons. pose proof (near_size _ _ _ _ Hx) as Z. destruct Hx as [A C]. split; [split|].
    + eapply Rle_trans; [apply Rabs_triang|]. lra.
    + replace (x' + vsum X' - (x + vsum X)) with ((x' - x) + (vsum X' - vsum X)) by ring. eapply Rle_trans; [apply Rabs_triang|]. lra.
    + lra.
Qed.
Lemma near_asum : forall k B X X', nears k B X X' -> near (k + (length X - 1)) (vsum B) (vsum X) (a_sum a X').
Proof.
  intros k B X X' H. destruct (nears_vsum _ _ _ _ H) as [V S]. destruct (nears_length _ _ _ _ _ H) as [_ L]. destruct X' as [|x' X'].
  - rewrite (ar_nil _ _ _ _ Ha). grow; [exact V | lia].
  - destruct (rs_near _ _ _ Hr _ _ (ar_sum _ _ _ _ Ha (x' :: X') ltac:(discriminate))) as [Z _]. rewrite L in Z. exact (near_step _ _ _ _ _ _ _ V Z S).
Qed.
Lemma nears_same : forall k l, nears k (map Rabs l) l l.
Proof. induction l; cbn; constructor; auto. apply near_same with rnd N; exact Hr. Qed.
Lemma near_dot : forall k B X X' w n, nears k B X X' -> (length X <= n)%nat -> near (k + n) (vsum (map2 Rmult B (map Rabs w))) (vsum (map2 Rmult X w)) (fl_dot a X' w).
Proof.
  intros k B X X' w n H Hn. unfold fl_dot.
  assert (P : nears (S k) (map2 Rmult B (map Rabs w)) (map2 Rmult X w) (map2 (fun v k => rnd (v * k)) X' w)).
  { apply (nears_map2 u (S k) k 0 Rmult Rmult (fun v k => rnd (v * k))); [|exact H | apply nears_same]. intros b x x' c y y' H1 H2. replace (S k) with (S (k + 0)) by lia. now apply (near_mul rnd u N Hr). }
  pose proof (near_asum _ _ _ _ P) as Q. destruct (map2 Rmult X w) as [|z zs] eqn:E.
  - assert (Z : map2 (fun v k => rnd (v * k)) X' w = []) by (inversion P; reflexivity). rewrite Z. rewrite (ar_nil _ _ _ _ Ha). assert (Z2 : map2 Rmult B (map Rabs w) = []) by (inversion P; reflexivity). rewrite Z2.
    unfold vsum. cbn. split; [rewrite Rabs_R0; lra|]. rewrite Rminus_0_r, Rabs_R0. lra.
  - grow; [exact Q|]. rewrite <- E, map2_length. assert (0 < length (map2 Rmult X w))%nat by (rewrite E; cbn; lia). rewrite map2_length in H0. lia.
Qed.
Lemma near_tanh : forall k b x x', near k b x x' -> near (k + mt) b (tanh x) (a_tanh a x').
Proof.
  assert (T0 : forall x, Rabs (tanh x) <= Rabs x). { intros x. pose proof (tanh_nonexpansive x 0) as T. rewrite (ProblemFacts.tanh_0) in T. now rewrite !Rminus_0_r in T. }
  intros k b x x' H. apply (near_step k mt b (Rabs (tanh x')) _ (tanh x')).
  - destruct H as [A B]. split; [eapply Rle_trans; [apply T0 | exact A]|]. eapply Rle_trans; [apply tanh_nonexpansive | exact B].
  - split; [lra | apply (ar_tanh _ _ _ _ Ha)].
  - eapply Rle_trans; [apply T0 | exact (near_size _ _ _ _ H)].
Qed.
Lemma near_act : forall (flag : bool) k b x x', near k b x x' -> near (k + (if flag then mt else 0)) b (fl_act exact_arith flag x) (fl_act a flag x').
Proof. intros [|] k b x x' H; cbn [fl_act]; [now apply near_tanh | now rewrite Nat.add_0_r]. Qed.
Lemma exact_dot : forall x w, fl_dot exact_arith x w = vsum (map2 Rmult x w).
Proof. reflexivity. Qed.
Lemma near_row : forall flag kernel bias k B X X', length X = length kernel -> nears k B X X' ->
  nears (row_rounds mt flag kernel k) (row_size kernel bias B) (fl_row exact_arith flag kernel bias X) (fl_row a flag kernel bias X').
Proof.
  intros flag kernel bias k B X X' L H. unfold row_size, fl_row. apply nears_map. intros j _. unfold row_rounds. apply near_act. rewrite exact_dot.
  rewrite <- (map_map (fun row => nth j row 0) Rabs). replace (k + length kernel + 1)%nat with (S (k + length kernel)) by lia. apply (near_add rnd u N Hr).
  - apply near_dot; [exact H | lia].
  - apply near_same with rnd N; exact Hr.
Qed.
Lemma row_length : forall c flag kernel bias x, length (fl_row c flag kernel bias x) = length bias.
Proof. intros. unfold fl_row. now rewrite map_length, seq_length. Qed.
Lemma near_net : forall ls k B X X', widths_fit ls (length X) = true -> nears k B X X' ->
  nears (value_rounds mt ls k) (net_size ls B) (fl_net exact_arith ls X) (fl_net a ls X').
Proof.
  induction ls as [|[flag [kernel bias]] r IH]; intros k B X X' Hf H; cbn [value_rounds net_size fl_net]; [exact H|].
  cbn [widths_fit] in Hf. apply andb_true_iff in Hf as [L Hf]. apply Nat.eqb_eq in L. apply IH; [now rewrite row_length | now apply near_row].
Qed.
Lemma near_slope : forall k b x x', near k b x x' -> near (S (S (k + k))) (1 + b * b) (1 - x * x) (rnd (1 - rnd (x' * x'))).
Proof.
  intros k b x x' H. replace (1 + b * b) with (Rabs 1 + b * b) by (rewrite Rabs_R1; reflexivity). apply (near_sub rnd u N Hr); [apply near_same with rnd N; exact Hr|]. now apply (near_mul rnd u N Hr).
Qed.
Lemma near_back : forall k0 sb sd sd' ls k B X X', (forall j, near k0 (sb j) (sd j) (sd' j)) -> widths_fit ls (length X) = true -> nears k B X X' ->
  nears (slope_rounds mt ls k + k0) (slope_size sb ls B) (fl_back exact_arith sd ls X) (fl_back a sd' ls X').
Proof.
  intros k0 sb sd sd' ls k B X X' Hs. revert k B X X'. induction ls as [|[flag [kernel bias]] r IH]; intros k B X X' Hf H; cbn [slope_rounds slope_size fl_back].
  - destruct (nears_length _ _ _ _ _ H) as [L1 L2]. rewrite L1, L2. apply nears_map. intros j _. apply Hs.
  - cbn [widths_fit] in Hf. apply andb_true_iff in Hf as [L Hf]. apply Nat.eqb_eq in L. pose proof (near_row flag kernel bias k B X X' L H) as Hy.
    set (ky := row_rounds mt flag kernel k) in *. assert (Hd : nears (slope_rounds mt r ky + k0) (slope_size sb r (row_size kernel bias B)) (fl_back exact_arith sd r (fl_row exact_arith flag kernel bias X)) (fl_back a sd' r (fl_row a flag kernel bias X'))).
    { apply IH; [now rewrite row_length | exact Hy]. }
    apply nears_map. intros row _. rewrite exact_dot.
    assert (Ld : (length (fl_back exact_arith sd r (fl_row exact_arith flag kernel bias X)) = length bias)%nat).
    { destruct r as [|[f2 [k2 b2]] r']; cbn [fl_back]; [now rewrite map_length, seq_length, row_length|]. cbn [widths_fit] in Hf. apply andb_true_iff in Hf as [L2 _]. apply Nat.eqb_eq in L2. now rewrite map_length. }
    destruct flag.
    + replace (slope_rounds mt r ky + (2 * ky + 3) + length bias + k0)%nat with (slope_rounds mt r ky + k0 + (2 * ky + 3) + length bias)%nat by lia. apply near_dot.
      * apply (nears_map2 u _ (slope_rounds mt r ky + k0) ky (fun d v => d * (1 + v * v)) (fun d v => d * (1 - v * v)) (fun d v => rnd (d * rnd (1 - rnd (v * v))))); [|exact Hd | exact Hy].
        intros b x x' c y y' H1 H2. replace (slope_rounds mt r ky + k0 + (2 * ky + 3))%nat with (S (slope_rounds mt r ky + k0 + S (S (ky + ky)))) by lia. apply (near_mul rnd u N Hr); [exact H1|].
        now apply near_slope.
      * rewrite map2_length, Ld, row_length. lia.
    + replace (slope_rounds mt r ky + 0 + length bias + k0)%nat with (slope_rounds mt r ky + k0 + length bias)%nat by lia. apply near_dot; [exact Hd | lia].
Qed.
End Arith.

(* ---------- backwards through the layers is differentiation ---------- *)
Definition pick (sel : option nat) (Y : list R) : R := match sel with None => vsum Y | Some j => nth j Y 0 end.
Definition lin (sd : nat -> R) (Y : list R) : R := rsum (fun j => sd j * nth j Y 0) (length Y).
Lemma pick_lin : forall sel Y, pick sel Y = lin (seed sel) Y.
Proof.
  intros [j|] Y; unfold lin, seed; cbn [pick].
  - destruct (Nat.lt_ge_cases j (length Y)) as [Hj | Hj].
    + rewrite (rsum_single _ (length Y) j Hj); [rewrite Nat.eqb_refl; ring|]. intros i Hi Hn. replace (i =? j)%nat with false by (symmetry; apply Nat.eqb_neq; lia). apply Rmult_0_l.
    + rewrite (rsum_ext _ (fun _ => 0)); [rewrite rsum_0; now apply nth_overflow|]. intros i Hi. replace (i =? j)%nat with false by (symmetry; apply Nat.eqb_neq; lia). apply Rmult_0_l.
  - rewrite vsum_rsum. apply rsum_ext. intros i Hi. ring.
Qed.
Lemma dot_sum : forall x w, vsum (map2 Rmult x w) = rsum (fun j => nth j x 0 * nth j w 0) (length x).
Proof.
  induction x as [|a x IH]; intros w; [reflexivity|]. cbn [length]. rewrite rsum_S_l. cbn [nth]. destruct w as [|b w].
  - cbn [map2 nth]. change (vsum []) with 0. rewrite Rmult_0_r, Rplus_0_l. symmetry. rewrite (rsum_ext _ (fun _ => 0)); [apply rsum_0|]. intros. destruct k; apply Rmult_0_r.
  - cbn [map2]. rewrite vsum_cons. cbn [nth]. now rewrite IH.
Qed.
Lemma row_nth : forall flag kernel bias x j, (j < length bias)%nat -> length x = length kernel ->
  nth j (fl_row exact_arith flag kernel bias x) 0 = fl_act exact_arith flag (rsum (fun i => nth i x 0 * entry kernel i j) (length x) + nth j bias 0).
Proof.
  intros flag kernel bias x j Hj L. unfold fl_row. rewrite nth_seq_map by exact Hj. f_equal. cbn [a_rnd exact_arith]. f_equal. rewrite exact_dot, dot_sum. apply rsum_ext. intros i Hi.
  f_equal. rewrite (nth_map_lt _ _ i _ []) by lia. reflexivity.
Qed.
Lemma back_length : forall c sd ls x, widths_fit ls (length x) = true -> length (fl_back c sd ls x) = length x.
Proof.
  intros c sd [|[f [k b]] r] x H; cbn [fl_back]; [now rewrite map_length, seq_length|]. cbn [widths_fit] in H. apply andb_true_iff in H as [L _]. apply Nat.eqb_eq in L. now rewrite map_length.
Qed.
Definition act_slope (flag : bool) (z : R) : R := if flag then 1 - tanh z * tanh z else 1.
Lemma act_derive : forall flag z, is_derive (fl_act exact_arith flag) z (act_slope flag z).
Proof. intros [|] z; cbn [fl_act act_slope a_tanh exact_arith]; [|exact (is_derive_id z)]. replace (1 - tanh z * tanh z) with (1 - tanh z ^ 2) by ring. apply ProblemFacts.is_derive_tanh. Qed.
Lemma back_derive : forall sd ls n X (v : nat -> R) t0, (forall t, length (X t) = n) -> widths_fit ls n = true ->
  (forall i, (i < n)%nat -> is_derive (fun t => nth i (X t) 0) t0 (v i)) ->
  is_derive (fun t => lin sd (fl_net exact_arith ls (X t))) t0 (rsum (fun i => nth i (fl_back exact_arith sd ls (X t0)) 0 * v i) n).
Proof.
  intros sd. induction ls as [|[flag [kernel bias]] r IH]; intros n X v t0 HL Hf Hd.
  - cbn [fl_net fl_back]. rewrite HL. unfold lin. apply (is_derive_ext (fun t => rsum (fun i => sd i * nth i (X t) 0) n)); [intros t; now rewrite HL|].
    apply (is_derive_rsum (fun i t => sd i * nth i (X t) 0)). intros i Hi. rewrite nth_seq_map by exact Hi. cbn [Nat.add]. apply RCalc.derR_scal, Hd, Hi.
  - cbn [fl_net fl_back]. cbn [widths_fit] in Hf. apply andb_true_iff in Hf as [L Hf]. apply Nat.eqb_eq in L.
    set (Y := fun t => fl_row exact_arith flag kernel bias (X t)). set (z := fun j => rsum (fun i => nth i (X t0) 0 * entry kernel i j) n + nth j bias 0).
    set (w := fun j => act_slope flag (z j) * rsum (fun i => v i * entry kernel i j) n).
    assert (D : is_derive (fun t => lin sd (fl_net exact_arith r (Y t))) t0 (rsum (fun j => nth j (fl_back exact_arith sd r (Y t0)) 0 * w j) (length bias))).
    { apply IH; [intros; apply row_length | exact Hf|]. intros j Hj. unfold Y, w.
      apply (is_derive_ext (fun t => fl_act exact_arith flag (rsum (fun i => nth i (X t) 0 * entry kernel i j) n + nth j bias 0))).
      { intros t. rewrite row_nth by (rewrite ?HL; auto). now rewrite HL. }
      rewrite Rmult_comm. apply (is_derive_comp (fl_act exact_arith flag) (fun t => rsum (fun i => nth i (X t) 0 * entry kernel i j) n + nth j bias 0)); [apply act_derive|].
      replace (rsum (fun i => v i * entry kernel i j) n) with (plus (rsum (fun i => v i * entry kernel i j) n) 0) by apply Rplus_0_r. apply (is_derive_plus (K := R_AbsRing) (V := R_NormedModule)); [|apply RCalc.derR_const].
      apply (is_derive_rsum (fun i t => nth i (X t) 0 * entry kernel i j)). intros i Hi. rewrite Rmult_comm. apply (is_derive_ext (fun t => entry kernel i j * nth i (X t) 0)); [intros; apply Rmult_comm|]. apply RCalc.derR_scal, Hd, Hi. }
    fold (Y t0). set (dy := fl_back exact_arith sd r (Y t0)) in *.
    assert (Ldy : length dy = length bias) by (unfold dy; rewrite back_length; unfold Y; now rewrite row_length).
    set (dz := if flag then map2 (fun d v0 => a_rnd exact_arith (d * a_rnd exact_arith (1 - a_rnd exact_arith (v0 * v0)))) dy (Y t0) else dy).
    assert (Ldz : length dz = length bias). { unfold dz. destruct flag; [|exact Ldy]. rewrite map2_length, Ldy. unfold Y. rewrite row_length. lia. }
    assert (Edz : forall j, (j < length bias)%nat -> nth j dz 0 = nth j dy 0 * act_slope flag (z j)).
    { intros j Hj. unfold dz. destruct flag; cbn [act_slope]; [|ring]. rewrite (map2_nth _ _ _ j 0 0 0) by (unfold Y; rewrite ?row_length, ?Ldy; exact Hj). cbn [a_rnd exact_arith].
      unfold Y. rewrite row_nth by (rewrite ?HL; auto). rewrite HL. reflexivity. }
    replace (rsum (fun i => nth i (map (fun row => fl_dot exact_arith dz row) kernel) 0 * v i) n) with (rsum (fun j => nth j dy 0 * w j) (length bias)); [exact D|].
    rewrite (rsum_ext (fun i => nth i (map (fun row => fl_dot exact_arith dz row) kernel) 0 * v i) (fun i => rsum (fun j => nth j dy 0 * act_slope flag (z j) * entry kernel i j * v i) (length bias))).
    2:{ intros i Hi. rewrite (nth_map_lt _ _ i _ []) by lia. rewrite exact_dot, dot_sum, Ldz, <- rsum_scal_r. apply rsum_ext. intros j Hj. rewrite Edz by exact Hj. unfold entry. ring. }
    rewrite rsum_swap. apply rsum_ext. intros j Hj. unfold w. rewrite <- !rsum_scal. apply rsum_ext. intros i Hi. ring.
Qed.

(* ---------- the two networks ---------- *)
Lemma widths_same : forall ls w, widths_fit ls w = fits_layers ls w.
Proof. induction ls as [|[f [k b]] r IH]; intros w; cbn; [reflexivity | now rewrite IH]. Qed.
Lemma exact_net : forall nt ls x, n_act nt = tanh -> fl_net exact_arith ls x = net_row (act_of nt) ls x.
Proof.
  intros nt ls x Ha. revert x. induction ls as [|[f [k b]] r IH]; intros x; cbn [fl_net net_row]; auto. rewrite IH. f_equal. unfold fl_row, dense_row. apply map_ext. intros j.
  unfold act_of, fl_act. destruct f; [now rewrite Ha | reflexivity].
Qed.
Lemma net_length : forall c ls x, length (fl_net c ls x) = out_width ls (length x).
Proof. intros c. induction ls as [|[f [k b]] r IH]; intros x; cbn [fl_net out_width]; auto. now rewrite IH, row_length. Qed.
Lemma near_seed : forall u sel j, near u 0 (seed sel j) (seed sel j) (seed sel j).
Proof.
  intros u sel j. assert (Z : forall c, c = 1 \/ c = 0 -> near u 0 c c c).
  { intros c Hc. split; [rewrite Rabs_pos_eq; lra|]. replace (c - c) with 0 by ring. rewrite Rabs_R0. cbn. lra. }
  unfold seed. destruct sel as [i|]; [destruct (j =? i)%nat|]; apply Z; auto.
Qed.
Section Both.
Variables (a : arith) (u : R) (N : Z) (mt : nat) (nt : net) (n : nat).
Hypothesis Ha : arith_ok a u N mt.
Hypothesis Ht : n_act nt = tanh.
Hypothesis Hat : n_attention nt = false.
Hypothesis Hc : NetFacts.chain nt n.
Let ls := n_layers nt.
Let F p := net_row (act_of nt) ls [fst p; snd p].
Let F' p := fl_net a ls (cast_point a p).
Lemma both_fit : widths_fit ls 2 = true /\ out_width ls 2 = n.
Proof. unfold ls. rewrite widths_same. exact (chain_fits nt n Hc). Qed.
Lemma both_cast : forall p, nears u 1 [Rabs (fst p); Rabs (snd p)] [fst p; snd p] (cast_point a p).
Proof. intros p. constructor; [apply (near_cast _ _ _ (ar_rnd _ _ _ _ Ha))|]. constructor; [apply (near_cast _ _ _ (ar_rnd _ _ _ _ Ha)) | constructor]. Qed.
Lemma both_out : forall b, nn_out (network_of nt) b = Ok (map F b) /\ nn_out (rounded_network a nt) b = Ok (map F' b).
Proof. intros b. split; [apply (plain_rows nt n Hat Hc)|]. cbn [nn_out rounded_network]. fold ls. now rewrite (proj1 both_fit). Qed.
Lemma both_values : forall p, nears u (value_rounds mt ls 1) (net_size ls [Rabs (fst p); Rabs (snd p)]) (F p) (F' p).
Proof. intros p. unfold F. rewrite <- exact_net by exact Ht. apply (near_net a u N mt Ha); [exact (proj1 both_fit) | apply both_cast]. Qed.
Lemma both_length : forall p, length (F p) = n /\ length (F' p) = n.
Proof. intros p. unfold F, F'. rewrite net_row_width, net_length. split; exact (proj2 both_fit). Qed.
Let G sel p := let g := fl_back exact_arith (seed sel) ls [fst p; snd p] in (nth 0 g 0, nth 1 g 0).
Let G' sel p := let g := fl_back a (seed sel) ls (cast_point a p) in (nth 0 g 0, nth 1 g 0).
Lemma exact_grad : forall sel p, grad (fun p => pick sel (F p)) p = G sel p.
Proof.
  intros sel [x y]. unfold grad, G. cbn [fst snd]. pose proof (proj1 both_fit) as Hf.
  assert (E : forall q, pick sel (F q) = lin (seed sel) (fl_net exact_arith ls [fst q; snd q])) by (intros q; unfold F; rewrite pick_lin; now rewrite <- (exact_net nt) by exact Ht).
  f_equal.
  - apply is_derive_unique. apply (is_derive_ext (fun t => lin (seed sel) (fl_net exact_arith ls [t; y]))); [intros t; symmetry; apply E|].
    replace (nth 0 (fl_back exact_arith (seed sel) ls [x; y]) 0) with (rsum (fun i => nth i (fl_back exact_arith (seed sel) ls [x; y]) 0 * (match i with O => 1 | _ => 0 end)) 2) by (cbn; ring).
    apply (back_derive (seed sel) ls 2 (fun t => [t; y]) (fun i => match i with O => 1 | _ => 0 end) x (fun _ => eq_refl) Hf). intros [|[|i]] Hi; cbn [nth]; [apply RCalc.derR_id | apply RCalc.derR_const | lia].
  - apply is_derive_unique. apply (is_derive_ext (fun t => lin (seed sel) (fl_net exact_arith ls [x; t]))); [intros t; symmetry; apply E|].
    replace (nth 1 (fl_back exact_arith (seed sel) ls [x; y]) 0) with (rsum (fun i => nth i (fl_back exact_arith (seed sel) ls [x; y]) 0 * (match i with O => 0 | _ => 1 end)) 2) by (cbn; ring).
    apply (back_derive (seed sel) ls 2 (fun t => [x; t]) (fun i => match i with O => 0 | _ => 1 end) y (fun _ => eq_refl) Hf). intros [|[|i]] Hi; cbn [nth]; [apply RCalc.derR_const | apply RCalc.derR_id | lia].
Qed.
Lemma both_grad : forall sel b, nn_grad (network_of nt) sel b = map (G sel) b /\ nn_grad (rounded_network a nt) sel b = map (G' sel) b.
Proof.
  intros sel b. split; [|reflexivity]. cbn [nn_grad network_of]. rewrite (tape_rows (call nt) sel F b (fun b0 => proj1 (both_out b0))). apply map_ext. intros p. rewrite <- exact_grad. unfold grad.
  f_equal; apply Derive_ext; intros t; destruct sel; cbn; now rewrite vsum_cons, vsum_nil, Rplus_0_r.
Qed.
Lemma both_slopes : forall sel p, near u (slope_rounds mt ls 1) (fst (gradient_size sel nt p)) (fst (G sel p)) (fst (G' sel p)) /\
  near u (slope_rounds mt ls 1) (snd (gradient_size sel nt p)) (snd (G sel p)) (snd (G' sel p)).
Proof.
  intros sel p. pose proof (near_back a u N mt Ha 0 (seed sel) (seed sel) (seed sel) ls 1 _ [fst p; snd p] _ (near_seed u sel) (proj1 both_fit) (both_cast p)) as B. rewrite Nat.add_0_r in B.
  assert (L : length (fl_back exact_arith (seed sel) ls [fst p; snd p]) = 2%nat) by (rewrite back_length; [reflexivity | exact (proj1 both_fit)]).
  unfold gradient_size, G, G'. cbv zeta. fold ls. cbn [fst snd]. split; apply (nears_nth _ _ _ _ _ B); lia.
Qed.
Lemma both_near : forall j p, (j < n)%nat -> near u (value_rounds mt ls 1) (value_size nt j p) (nth j (F p) 0) (nth j (F' p) 0).
Proof. intros j p Hj. unfold value_size. fold ls. apply (nears_nth _ _ _ _ _ (both_values p)). now rewrite (proj1 (both_length p)). Qed.
(* the statements *)
Lemma net_values : forall p, exists Y Y', nn_out (network_of nt) [p] = Ok [Y] /\ nn_out (rounded_network a nt) [p] = Ok [Y'] /\ length Y = n /\ length Y' = n /\
  forall j, (j < n)%nat -> within u (value_rounds mt (n_layers nt) 1) (value_size nt j p) (nth j Y 0) (nth j Y' 0).
Proof. intros p. exists (F p), (F' p). destruct (both_out [p]) as [E E']. destruct (both_length p) as [L L']. repeat (split; [assumption|]). intros j Hj. exact (proj2 (both_near j p Hj)). Qed.
Lemma net_slopes : forall sel p, exists g g', nn_grad (network_of nt) sel [p] = [g] /\ nn_grad (rounded_network a nt) sel [p] = [g'] /\
  within u (slope_rounds mt (n_layers nt) 1) (fst (gradient_size sel nt p)) (fst g) (fst g') /\ within u (slope_rounds mt (n_layers nt) 1) (snd (gradient_size sel nt p)) (snd g) (snd g').
Proof. intros sel p. exists (G sel p), (G' sel p). destruct (both_grad sel [p]) as [E E']. destruct (both_slopes sel p) as [[_ A] [_ B]]. auto. Qed.
Let kn := net_rounds mt nt.
Let Hr := ar_rnd _ _ _ _ Ha.
Lemma size_near : forall k l b x x', near u k b x x' -> (k <= l)%nat -> near u l (Rabs b) x x'.
Proof. intros k l b x x' H Hk. eapply near_mono; [exact Hr | exact H | exact Hk | apply RRle_abs]. Qed.
Lemma pick_one : n = 1%nat -> pointwise (network_of nt) (fun p => nth 0 (F p) 0) (G None) /\ pointwise (rounded_network a nt) (fun p => nth 0 (F' p) 0) (G' None).
Proof.
  intros Hn. split; intros b; (split; [|apply both_grad]).
  - rewrite (proj1 (both_out b)). f_equal. apply map_ext. intros p. apply one_entry. rewrite <- Hn. apply both_length.
  - rewrite (proj2 (both_out b)). f_equal. apply map_ext. intros p. apply one_entry. rewrite <- Hn. apply both_length.
Qed.
Lemma pick_two : n = 2%nat -> pointwise2 (network_of nt) (fun p => nth 0 (F p) 0) (fun p => nth 1 (F p) 0) (G (Some 0%nat)) /\
  pointwise2 (rounded_network a nt) (fun p => nth 0 (F' p) 0) (fun p => nth 1 (F' p) 0) (G' (Some 0%nat)).
Proof.
  intros Hn. split; intros b; (split; [|apply both_grad]).
  - rewrite (proj1 (both_out b)). f_equal. apply map_ext. intros p. apply two_entries. rewrite <- Hn. apply both_length.
  - rewrite (proj2 (both_out b)). f_equal. apply map_ext. intros p. apply two_entries. rewrite <- Hn. apply both_length.
Qed.
Lemma hyp_values : forall j, (j < n)%nat -> forall p, near u kn (Rabs (value_size nt j p)) (nth j (F p) 0) (nth j (F' p) 0).
Proof. intros j Hj p. eapply size_near; [exact (both_near j p Hj) | unfold kn, net_rounds; fold ls; lia]. Qed.
Lemma hyp_x : forall sel p, near u kn (Rabs (fst (gradient_size sel nt p))) (fst (G sel p)) (fst (G' sel p)).
Proof. intros sel p. eapply size_near; [apply both_slopes | unfold kn, net_rounds; fold ls; lia]. Qed.
Lemma hyp_y : forall sel p, near u kn (Rabs (snd (gradient_size sel nt p))) (snd (G sel p)) (snd (G' sel p)).
Proof. intros sel p. eapply size_near; [apply both_slopes | unfold kn, net_rounds; fold ls; lia]. Qed.
Variables (m : model R) (C T Q : nat) (beta : R).
Hypothesis Hm : model_fits m C T Q.
Hypothesis Hcells : m_cells m = C.
Hypothesis HT : (Z.of_nat T <= N)%Z.
Hypothesis HD : (Z.of_nat (length (m_dir_in m)) <= N)%Z.
Lemma net_standard : forall loss d al bx bn g, n = 1%nat -> m_loss m = loss Num_R -> forward_loss loss d al bx bn g ->
  let sp := size_pde m C T Q (value_size nt 0) (gradient_size None nt) (fun _ => al) bx bn g in let sd := size_data (value_size nt 0) (m_dir_in m) (m_dir_act m) in
  exists p b t p' b' t',
    train_standard m (network_of nt) beta (Some d) = Ok {| l_pde := p; l_dirichlet := [b]; l_sensor := []; l_total := [t] |} /\
    rounded_standard (a_rnd a) m loss (rounded_network a nt) beta d = Ok {| l_pde := p'; l_dirichlet := [b']; l_sensor := []; l_total := [t'] |} /\
    within u (2 * Q + 2 * net_rounds mt nt + T + C + 19) sp p p' /\ within u (length (m_dir_in m) + 2 * net_rounds mt nt + 6) sd b b' /\
    within u (2 * Q + 4 * net_rounds mt nt + T + C + length (m_dir_in m) + 20) (sp + Rabs beta * sd) t t'.
Proof.
  intros loss d al bx bn g Hn Hl Hf sp sd. destruct (pick_one Hn) as [P P'].
  exact (RoundStep.r_standard (a_rnd a) u N Hr m C T Q (network_of nt) (rounded_network a nt) beta kn _ _ _ _ _ _ (hyp_values 0 ltac:(lia)) (hyp_x None) (hyp_y None) Hm Hcells HT loss d al bx bn g Hl Hf P P' HD).
Qed.
Hypothesis Hs : sensors_fit m.
Hypothesis HS : (Z.of_nat (length (m_sensor_in m)) <= N)%Z.
Hypothesis H10 : (10 <= N)%Z.
Lemma net_inverse : forall bp ip eps, n = 1%nat -> m_loss m = pde_loss_poisson_inverse -> has ip "eps" eps ->
  exists L L' t t', train_inverse m (network_of nt) beta bp (Some ip) = Ok L /\ rounded_inverse (a_rnd a) m (@pde_loss_poisson_inverse R) (rounded_network a nt) beta bp ip = Ok L' /\
    l_total L = [t] /\ l_total L' = [t'] /\
    within u (2 * Q + 4 * net_rounds mt nt + T + C + length (m_dir_in m) + length (m_sensor_in m) + 21)
      (size_pde m C T Q (value_size nt 0) (gradient_size None nt) (fun _ => eps) 0 0 0 + Rabs beta * size_data (value_size nt 0) (m_dir_in m) (m_dir_act m) +
       10 * size_data (value_size nt 0) (m_sensor_in m) (m_sensor_act m)) t t'.
Proof.
  intros bp ip eps Hn Hl He. destruct (pick_one Hn) as [P P'].
  exact (RoundStep.r_inverse (a_rnd a) u N Hr m C T Q (network_of nt) (rounded_network a nt) beta kn _ _ _ _ _ _ (hyp_values 0 ltac:(lia)) (hyp_x None) (hyp_y None) Hm Hcells HT Hs HD HS H10 bp ip eps Hl He P P').
Qed.
Lemma net_domain : forall d b_x b_y c, n = 2%nat -> m_loss m = pde_loss_cd2d_inverse_domain -> has d "b_x" b_x -> has d "b_y" b_y -> has d "c" c ->
  exists L L' t t', train_inverse_domain m (network_of nt) beta (Some d) = Ok L /\ rounded_domain (a_rnd a) m (@pde_loss_cd2d_inverse_domain R) (rounded_network a nt) beta d = Ok L' /\
    l_total L = [t] /\ l_total L' = [t'] /\
    within u (2 * Q + 4 * net_rounds mt nt + T + C + length (m_dir_in m) + length (m_sensor_in m) + 21)
      (size_pde m C T Q (value_size nt 0) (gradient_size (Some 0%nat) nt) (value_size nt 1) b_x b_y c + Rabs beta * size_data (value_size nt 0) (m_dir_in m) (m_dir_act m) +
       10 * size_data (value_size nt 0) (m_sensor_in m) (m_sensor_act m)) t t'.
Proof.
  intros d b_x b_y c Hn Hl Hx Hy Hk. destruct (pick_two Hn) as [P P'].
  exact (RoundStep.r_domain (a_rnd a) u N Hr m C T Q (network_of nt) (rounded_network a nt) beta kn _ _ _ _ _ _ (hyp_values 0 ltac:(lia)) (hyp_x (Some 0%nat)) (hyp_y (Some 0%nat)) Hm Hcells HT Hs HD HS H10 d b_x b_y c _ _ _ (hyp_values 1 ltac:(lia)) Hl Hx Hy Hk P P').
Qed.
End Both.

(* ---------- the layers of the scripts, and precisions ---------- *)
Lemma shipped_rounds : forall mt nt, starts Driver.fixed_layers 1 nt ->
  value_rounds mt (n_layers nt) 1 = (97 + 3 * mt)%nat /\ slope_rounds mt (n_layers nt) 1 = (310 + 12 * mt)%nat.
Proof.
  intros mt nt [_ _ _ [L H] _]. destruct (n_layers nt) as [|l1 [|l2 [|l3 [|l4 [|l5 r]]]]]; try discriminate L.
  pose proof (H 0%nat l1 ltac:(cbn; lia)) as H1. pose proof (H 1%nat l1 ltac:(cbn; lia)) as H2. pose proof (H 2%nat l1 ltac:(cbn; lia)) as H3. pose proof (H 3%nat l1 ltac:(cbn; lia)) as H4. clear H. cbn [nth] in *.
  destruct l1 as [f1 [k1 b1]], l2 as [f2 [k2 b2]], l3 as [f3 [k3 b3]], l4 as [f4 [k4 b4]]. cbn [Driver.fixed_layers length nth Nat.add Nat.sub Nat.ltb Nat.leb] in *.
  destruct H1 as (-> & [K1 _] & B1), H2 as (-> & [K2 _] & B2), H3 as (-> & [K3 _] & B3), H4 as (-> & [K4 _] & B4).
  cbn [value_rounds slope_rounds]. unfold row_rounds. rewrite K1, K2, K3, K4, B1, B2, B3, B4. change (Z.to_nat 2) with 2%nat. change (Z.to_nat 30) with 30%nat. change (Z.to_nat 1) with 1%nat. lia.
Qed.
(* summation from the right, one rounding per addition *)
Fixpoint right_sum (rnd : R -> R) (l : list R) : R := match l with [] => 0 | [x] => x | x :: r => rnd (x + right_sum rnd r) end.
Definition ieee (prec : Z) : arith := {| a_rnd := nearest prec; a_sum := right_sum (nearest prec); a_tanh := fun v => nearest prec (tanh v) |}.
Lemma right_sum_ok : forall rnd l, l <> [] -> rounded_sum rnd l (right_sum rnd l).
Proof.
  intros rnd. induction l as [|x l IH]; intros H; [congruence|]. destruct l as [|y l]; [constructor|]. change (right_sum rnd (x :: y :: l)) with (rnd (x + right_sum rnd (y :: l))).
  apply (rs_split rnd (x :: y :: l) [x] (y :: l)); [reflexivity | constructor | apply IH; discriminate].
Qed.
Lemma ieee_ok : forall prec, (1 < prec)%Z -> arith_ok (ieee prec) (bpow radix2 (- prec)) (2 ^ prec) 1.
Proof.
  intros prec Hp. pose proof (nearest_rounding prec Hp) as Hr. constructor; cbn [ieee a_rnd a_sum a_tanh]; auto.
  - assert (0 < 2 ^ prec)%Z by (apply Z.pow_pos_nonneg; lia). lia.
  - intros l. apply right_sum_ok.
  - intros v. eapply Rle_trans; [apply (rd_rel _ _ _ Hr)|]. right. ring.
Qed.
Lemma exact_ok : forall u N, 0 <= u -> (1 <= N)%Z -> arith_ok exact_arith u N 0.
Proof.
  intros u N Hu HN. assert (Hr : rounding (a_rnd exact_arith) u N).
  { constructor; cbn [a_rnd exact_arith]; auto. intros x. replace (x - x) with 0 by ring. rewrite Rabs_R0. apply Rmult_le_pos; [exact Hu | apply Rabs_pos]. }
  constructor; auto; cbn [a_rnd a_sum a_tanh exact_arith].
  - induction l as [|x l IH]; intros H; [congruence|]. destruct l as [|y l]; [rewrite vsum_cons; change (vsum []) with 0; rewrite Rplus_0_r; constructor|].
    rewrite vsum_cons. apply (rs_split (fun x => x) (x :: y :: l) [x] (y :: l) x); [reflexivity | constructor | apply IH; discriminate].
  - intros v. replace (tanh v - tanh v) with 0 by ring. rewrite Rabs_R0. cbn. lra.
Qed.
Lemma backprop : forall dims outs nt, starts dims outs nt -> n_act nt = tanh -> forall sel b,
  nn_out (rounded_network exact_arith nt) b = nn_out (network_of nt) b /\ nn_grad (rounded_network exact_arith nt) sel b = nn_grad (network_of nt) sel b.
Proof.
  intros dims outs nt Hs Ht sel b. pose proof (starts_chain _ _ _ Hs) as Hc. pose proof (exact_ok 0 1 ltac:(lra) ltac:(lia)) as Ha. split.
  - destruct (both_out exact_arith nt _ (st_attention _ _ _ Hs) Hc b) as [E E']. rewrite E, E'. f_equal. apply map_ext. intros p. apply exact_net, Ht.
  - destruct (both_grad exact_arith nt _ Ht (st_attention _ _ _ Hs) Hc sel b) as [E E']. rewrite E, E'. reflexivity.
Qed.
Lemma value_size_nonneg : forall a u N mt nt n j p, arith_ok a u N mt -> n_act nt = tanh -> NetFacts.chain nt n -> (j < n)%nat -> 0 <= value_size nt j p.
Proof. intros a u N mt nt n j p Ha Ht Hc Hj. eapply Rle_trans; [apply Rabs_pos | exact (proj1 (both_near a u N mt nt n Ha Ht Hc j p Hj))]. Qed.
Lemma gradient_size_nonneg : forall a u N mt nt n sel p, arith_ok a u N mt -> NetFacts.chain nt n -> 0 <= fst (gradient_size sel nt p) /\ 0 <= snd (gradient_size sel nt p).
Proof.
  intros a u N mt nt n sel p Ha Hc. destruct (both_slopes a u N mt nt n Ha Hc sel p) as [[A _] [B _]]. split; (eapply Rle_trans; [apply Rabs_pos | eassumption]).
Qed.
Lemma net_precision : forall prec a N mt nt, (1 < prec)%Z -> arith_ok a (bpow radix2 (- prec)) N mt -> starts Driver.fixed_layers 1 nt -> n_act nt = tanh -> (2 * Z.of_nat (310 + 12 * mt) <= 2 ^ prec)%Z ->
  exists U G U' G', pointwise (network_of nt) U G /\ pointwise (rounded_network a nt) U' G' /\ forall p,
    Rabs (U' p - U p) <= 2 * INR (97 + 3 * mt) * bpow radix2 (- prec) * value_size nt 0 p /\
    Rabs (fst (G' p) - fst (G p)) <= 2 * INR (310 + 12 * mt) * bpow radix2 (- prec) * fst (gradient_size None nt p) /\
    Rabs (snd (G' p) - snd (G p)) <= 2 * INR (310 + 12 * mt) * bpow radix2 (- prec) * snd (gradient_size None nt p).
Proof.
  intros prec a N mt nt Hp Ha Hs Ht HK. pose proof (starts_chain _ _ _ Hs) as Hc. change (Z.to_nat 1) with 1%nat in Hc. destruct (shipped_rounds mt nt Hs) as [V S].
  destruct (pick_one a nt 1 Ht (st_attention _ _ _ Hs) Hc eq_refl) as [P P']. do 4 eexists. split; [exact P|]. split; [exact P'|]. intros p.
  pose proof (both_near a _ N mt nt 1 Ha Ht Hc 0 p ltac:(lia)) as [_ A]. destruct (both_slopes a _ N mt nt 1 Ha Hc None p) as [[_ B] [_ D]]. rewrite V in A. rewrite S in B, D.
  destruct (gradient_size_nonneg a _ N mt nt 1 None p Ha Hc) as [Z1 Z2].
  split; [apply (within_nearest prec); [exact Hp | lia | eapply value_size_nonneg; eauto | exact A]|]. split; apply (within_nearest prec); auto.
Qed.
Lemma step_standard : forall a u N mt dims nt m C T Q beta loss d al bx bn g, arith_ok a u N mt -> starts dims 1 nt -> n_act nt = tanh ->
  model_fits m C T Q -> m_cells m = C -> (Z.of_nat T <= N)%Z -> (Z.of_nat (length (m_dir_in m)) <= N)%Z -> m_loss m = loss Num_R -> forward_loss loss d al bx bn g ->
  let sp := size_pde m C T Q (value_size nt 0) (gradient_size None nt) (fun _ => al) bx bn g in let sd := size_data (value_size nt 0) (m_dir_in m) (m_dir_act m) in
  exists p b t p' b' t',
    train_standard m (network_of nt) beta (Some d) = Ok {| l_pde := p; l_dirichlet := [b]; l_sensor := []; l_total := [t] |} /\
    rounded_standard (a_rnd a) m loss (rounded_network a nt) beta d = Ok {| l_pde := p'; l_dirichlet := [b']; l_sensor := []; l_total := [t'] |} /\
    within u (2 * Q + 2 * net_rounds mt nt + T + C + 19) sp p p' /\ within u (length (m_dir_in m) + 2 * net_rounds mt nt + 6) sd b b' /\
    within u (2 * Q + 4 * net_rounds mt nt + T + C + length (m_dir_in m) + 20) (sp + Rabs beta * sd) t t'.
Proof.
  intros a u N mt dims nt m C T Q beta loss d al bx bn g Ha Hs Ht Hm Hc HT HD Hl Hf.
  exact (net_standard a u N mt nt 1 Ha Ht (st_attention _ _ _ Hs) (starts_chain _ _ _ Hs) m C T Q beta Hm Hc HT HD loss d al bx bn g eq_refl Hl Hf).
Qed.
Lemma step_inverse : forall a u N mt dims nt m C T Q beta bp ip eps, arith_ok a u N mt -> starts dims 1 nt -> n_act nt = tanh ->
  model_fits m C T Q -> m_cells m = C -> sensors_fit m -> (Z.of_nat T <= N)%Z -> (Z.of_nat (length (m_dir_in m)) <= N)%Z -> (Z.of_nat (length (m_sensor_in m)) <= N)%Z -> (10 <= N)%Z ->
  m_loss m = pde_loss_poisson_inverse -> has ip "eps" eps ->
  exists L L' t t', train_inverse m (network_of nt) beta bp (Some ip) = Ok L /\ rounded_inverse (a_rnd a) m (@pde_loss_poisson_inverse R) (rounded_network a nt) beta bp ip = Ok L' /\
    l_total L = [t] /\ l_total L' = [t'] /\
    within u (2 * Q + 4 * net_rounds mt nt + T + C + length (m_dir_in m) + length (m_sensor_in m) + 21)
      (size_pde m C T Q (value_size nt 0) (gradient_size None nt) (fun _ => eps) 0 0 0 + Rabs beta * size_data (value_size nt 0) (m_dir_in m) (m_dir_act m) +
       10 * size_data (value_size nt 0) (m_sensor_in m) (m_sensor_act m)) t t'.
Proof.
  intros a u N mt dims nt m C T Q beta bp ip eps Ha Hs Ht Hm Hc Hf HT HD HS H10 Hl He.
  exact (net_inverse a u N mt nt 1 Ha Ht (st_attention _ _ _ Hs) (starts_chain _ _ _ Hs) m C T Q beta Hm Hc HT HD Hf HS H10 bp ip eps eq_refl Hl He).
Qed.
Lemma step_domain : forall a u N mt dims nt m C T Q beta d b_x b_y c, arith_ok a u N mt -> starts dims 2 nt -> n_act nt = tanh ->
  model_fits m C T Q -> m_cells m = C -> sensors_fit m -> (Z.of_nat T <= N)%Z -> (Z.of_nat (length (m_dir_in m)) <= N)%Z -> (Z.of_nat (length (m_sensor_in m)) <= N)%Z -> (10 <= N)%Z ->
  m_loss m = pde_loss_cd2d_inverse_domain -> has d "b_x" b_x -> has d "b_y" b_y -> has d "c" c ->
  exists L L' t t', train_inverse_domain m (network_of nt) beta (Some d) = Ok L /\ rounded_domain (a_rnd a) m (@pde_loss_cd2d_inverse_domain R) (rounded_network a nt) beta d = Ok L' /\
    l_total L = [t] /\ l_total L' = [t'] /\
    within u (2 * Q + 4 * net_rounds mt nt + T + C + length (m_dir_in m) + length (m_sensor_in m) + 21)
      (size_pde m C T Q (value_size nt 0) (gradient_size (Some 0%nat) nt) (value_size nt 1) b_x b_y c + Rabs beta * size_data (value_size nt 0) (m_dir_in m) (m_dir_act m) +
       10 * size_data (value_size nt 0) (m_sensor_in m) (m_sensor_act m)) t t'.
Proof.
  intros a u N mt dims nt m C T Q beta d b_x b_y c Ha Hs Ht Hm Hc Hf HT HD HS H10 Hl Hx Hy Hk.
  exact (net_domain a u N mt nt 2 Ha Ht (st_attention _ _ _ Hs) (starts_chain _ _ _ Hs) m C T Q beta Hm Hc HT HD Hf HS H10 d b_x b_y c eq_refl Hl Hx Hy Hk).
Qed.
Lemma step_precision : forall prec a N mt dims nt m C T Q beta loss d al bx bn g, (1 < prec)%Z -> arith_ok a (bpow radix2 (- prec)) N mt -> starts dims 1 nt -> n_act nt = tanh ->
  model_fits m C T Q -> m_cells m = C -> (Z.of_nat T <= N)%Z -> (Z.of_nat (length (m_dir_in m)) <= N)%Z -> m_loss m = loss Num_R -> forward_loss loss d al bx bn g ->
  let K := (2 * Q + 4 * net_rounds mt nt + T + C + length (m_dir_in m) + 20)%nat in (2 * Z.of_nat K <= 2 ^ prec)%Z ->
  exists L L' t t', train_standard m (network_of nt) beta (Some d) = Ok L /\ rounded_standard (a_rnd a) m loss (rounded_network a nt) beta d = Ok L' /\
    l_total L = [t] /\ l_total L' = [t'] /\
    Rabs (t' - t) <= 2 * INR K * bpow radix2 (- prec) *
      (size_pde m C T Q (value_size nt 0) (gradient_size None nt) (fun _ => al) bx bn g + Rabs beta * size_data (value_size nt 0) (m_dir_in m) (m_dir_act m)).
Proof.
  intros prec a N mt dims nt m C T Q beta loss d al bx bn g Hp Ha Hs Ht Hm Hc HT HD Hl Hf K HK.
  destruct (step_standard a _ N mt dims nt m C T Q beta loss d al bx bn g Ha Hs Ht Hm Hc HT HD Hl Hf) as (p & b & t & p' & b' & t' & E & E' & _ & _ & W).
  do 2 eexists. exists t, t'. split; [exact E|]. split; [exact E'|]. split; [reflexivity|]. split; [reflexivity|]. apply (within_nearest prec); auto.
  apply Rplus_le_le_0_compat; [apply size_pde_nonneg; apply Hm | apply Rmult_le_pos; [apply Rabs_pos | apply size_data_nonneg]].
Qed.
Lemma shipped_net_rounds : forall mt nt, starts Driver.fixed_layers 1 nt -> net_rounds mt nt = (310 + 12 * mt)%nat.
Proof. intros mt nt Hs. destruct (shipped_rounds mt nt Hs) as [A B]. unfold net_rounds. rewrite A, B. lia. Qed.
