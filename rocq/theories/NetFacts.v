(* Facts about networks, their gradients, learning rates and configurations. *)
From Coq Require Import String ZArith List Arith Bool Lia Reals Lra Permutation.
From Coquelicot Require Import Coquelicot.
From Verif Require Import Num Py Basis Tensor Physics Train PolyFacts ListFacts PyFacts Spec TensorFacts SpecTrain Nets.
Import ListNotations.
Local Open Scope R_scope.

(* ---------- layers act row by row ---------- *)
Fixpoint fits_layers (ls : list (bool * (mat R * list R))) (w : nat) : bool :=
  match ls with [] => true | (_, (kernel, bias)) :: r => andb (w =? length kernel)%nat (fits_layers r (length bias)) end.
Fixpoint net_row (f : bool -> R -> R) (ls : list (bool * (mat R * list R))) (x : list R) : list R :=
  match ls with [] => x | (a, (kernel, bias)) :: r => net_row f r (dense_row (f a) kernel bias x) end.
Fixpoint out_width (ls : list (bool * (mat R * list R))) (w : nat) : nat :=
  match ls with [] => w | (_, (_, bias)) :: r => out_width r (length bias) end.
Lemma run_layers_rows : forall f ls w X, run_layers f ls w X = if fits_layers ls w then Ok (map (net_row f ls) X) else Err ValueError.
Proof.
  intros f. induction ls as [|[a [k b]] r IH]; intros w X; cbn [run_layers fits_layers net_row].
  - now rewrite map_id.
  - destruct (w =? length k)%nat; cbn [negb andb]; [|reflexivity]. rewrite IH. destruct (fits_layers r (length b)); auto. now rewrite map_map.
Qed.
Lemma net_row_width : forall f ls x, length (net_row f ls x) = out_width ls (length x).
Proof.
  intros f. induction ls as [|[a [k b]] r IH]; intros x; cbn [net_row out_width]; auto. rewrite IH. unfold dense_row. now rewrite map_length, seq_length.
Qed.
Lemma call_plain : forall nt b, n_attention nt = false -> fits_layers (n_layers nt) 2 = true ->
  call nt b = Ok (map (fun p => net_row (act_of nt) (n_layers nt) [fst p; snd p]) b).
Proof. intros nt b Ha Hf. unfold call. rewrite Ha, run_layers_rows, Hf. unfold rows_of_points. now rewrite map_map. Qed.

(* ---------- gradients of row-wise functions ---------- *)
Lemma upd_split : forall {T} (l : list T) r v, upd l r v = (firstn r l ++ v :: skipn (S r) l)%list.
Proof. reflexivity. Qed.
Lemma Derive_plus_const : forall f c x, Derive (fun t => c + f t) x = Derive f x.
Proof.
  intros f c x. unfold Derive. f_equal. apply Lim_ext. intros h. f_equal. ring.
Qed.
Lemma total_rows : forall sel (F : R * R -> list R) l, total sel (map F l) = vsum (map (fun p => total sel [F p]) l).
Proof.
  intros sel F l. destruct sel; cbn [total map]; rewrite map_map; f_equal; apply map_ext; intros; now rewrite vsum_cons, vsum_nil, Rplus_0_r.
Qed.
Lemma nth_out : forall {T} (l : list T) r d, (r < length l)%nat -> l = (firstn r l ++ nth r l d :: skipn (S r) l)%list.
Proof.
  intros T l. induction l as [|a l IH]; intros r d Hr; [simpl in Hr; lia|]. destruct r; [reflexivity|]. cbn. f_equal. apply IH. simpl in Hr. lia.
Qed.
Lemma tape_rows : forall f sel (F : R * R -> list R) b, (forall b', f b' = Ok (map F b')) ->
  tape_gradient f sel b = map (fun p => (Derive (fun t => total sel [F (t, snd p)]) (fst p), Derive (fun t => total sel [F (fst p, t)]) (snd p))) b.
Proof.
  intros f sel F b Hf. unfold tape_gradient.
  apply (nth_ext _ _ (0, 0) (0, 0)); [now rewrite !map_length, seq_length|]. intros r Hr. rewrite map_length, seq_length in Hr.
  rewrite nth_seq_map by exact Hr. rewrite (nth_map_lt _ _ r _ (0, 0)) by exact Hr. set (p := nth r b (0, 0)).
  assert (E : forall q, total sel (value (f (upd b r q))) =
    (vsum (map (fun p => total sel [F p]) (firstn r b)) + vsum (map (fun p => total sel [F p]) (skipn (S r) b))) + total sel [F q]).
  { intros q. rewrite Hf. cbn [value]. rewrite total_rows, upd_split, map_app. cbn [map]. rewrite vsum_app, vsum_cons. ring. }
  f_equal; (erewrite Derive_ext by (intros t; apply E)); apply Derive_plus_const.
Qed.

(* ---------- differentiability ---------- *)
Definition smooth (f : R -> R) : Prop := forall x, ex_derive f x.
Lemma vsum_derive : forall (l : list (R -> R)) x, (forall f, In f l -> ex_derive f x) -> ex_derive (fun t => vsum (map (fun f => f t) l)) x.
Proof.
  induction l as [|f l IH]; intros x H.
  - apply (ex_derive_ext (fun _ => 0)); [intros; cbn; now rewrite vsum_nil | apply ex_derive_const].
  - apply (ex_derive_ext (fun t => f t + vsum (map (fun f => f t) l))); [intros; cbn [map]; now rewrite vsum_cons|].
    apply (ex_derive_plus (K := R_AbsRing) (V := R_NormedModule)); [apply H; now left | apply IH; intros; apply H; now right].
Qed.
Definition curve_smooth (c : R -> list R) (x : R) : Prop := exists l, (forall t, c t = map (fun f => f t) l) /\ forall f, In f l -> ex_derive f x.
Lemma dense_smooth : forall f kernel bias c x, smooth f -> curve_smooth c x -> curve_smooth (fun t => dense_row f kernel bias (c t)) x.
Proof.
  intros f kernel bias c x Hf (l & E & Hl).
  exists (map (fun j t => f (vsum (map2 nmul (c t) (map (fun row => nth j row 0) kernel)) + nth j bias 0)) (seq 0 (length bias))). split.
  - intros t. unfold dense_row. now rewrite map_map.
  - intros g Hg. apply in_map_iff in Hg. destruct Hg as (j & <- & _).
    apply (ex_derive_comp (K := R_AbsRing) (V := R_NormedModule) f (fun t => vsum (map2 nmul (c t) (map (fun row => nth j row 0) kernel)) + nth j bias 0)); [apply Hf|].
    apply (ex_derive_plus (K := R_AbsRing) (V := R_NormedModule)); [|apply ex_derive_const].
    generalize (map (fun row => nth j row 0) kernel). intros col.
    apply (ex_derive_ext (fun t => vsum (map (fun f => f t) (map2 (fun g a t => g t * a) l col)))).
    { intros t. rewrite E. f_equal. clear. revert col. induction l as [|g l IH]; intros [|a col]; cbn; auto. f_equal. apply IH. }
    apply vsum_derive. intros g Hg.
    assert (K : exists g0 a, In g0 l /\ g = fun t => g0 t * a).
    { clear - Hg. revert col Hg. induction l as [|g0 l IH]; intros [|a col] Hg; cbn in Hg; try destruct Hg as [].
      - now exists g0, a; split; [left|].
      - destruct (IH col H) as (g1 & a1 & Hi & Eg). exists g1, a1. split; [now right | exact Eg]. }
    destruct K as (g0 & a & Hi & ->). apply (ex_derive_mult g0 (fun _ => a)); [now apply Hl | apply ex_derive_const].
Qed.
Lemma net_smooth : forall f ls c x, (forall a, smooth (f a)) -> curve_smooth c x -> curve_smooth (fun t => net_row f ls (c t)) x.
Proof.
  intros f ls. induction ls as [|[a [k b]] r IH]; intros c x Hf Hc; cbn [net_row]; auto. apply IH; auto. now apply dense_smooth.
Qed.
Lemma act_smooth : forall nt, smooth (n_act nt) -> forall a, smooth (act_of nt a).
Proof. intros nt H [|] x; cbn; [apply H | apply ex_derive_id]. Qed.
Lemma curve_nth : forall c x j, curve_smooth c x -> ex_derive (fun t => nth j (c t) 0) x.
Proof.
  intros c x j (l & E & H). destruct (Nat.lt_ge_cases j (length l)) as [Hj | Hj].
  - apply (ex_derive_ext (nth j l (fun _ => 0))); [|apply H; now apply nth_In]. intros t. rewrite E. now rewrite (nth_map_lt _ _ _ _ (fun _ => 0)).
  - apply (ex_derive_ext (fun _ => 0)); [|apply ex_derive_const]. intros t. rewrite E, nth_overflow; auto. now rewrite map_length.
Qed.
Lemma const_curve : forall (p : R * R) x, curve_smooth (fun t => [t; snd p]) x /\ curve_smooth (fun t => [fst p; t]) x.
Proof.
  intros p x. split; [exists [fun t => t; fun _ => snd p] | exists [fun _ => fst p; fun t => t]]; (split; [reflexivity|]); intros f [<- | [<- | []]].
  - exact (ex_derive_id x).
  - exact (ex_derive_const (snd p) x).
  - exact (ex_derive_const (fst p) x).
  - exact (ex_derive_id x).
Qed.

(* ---------- C36 ---------- *)
(* The layers fit: width 2 in, [n] out *)
Definition chain (nt : net) (n : nat) : Prop :=
  exists ws : list nat, let k := length (n_layers nt) in length ws = S k /\ nth 0 ws 0%nat = 2%nat /\ nth k ws 0%nat = n /\
    forall i d, (i < k)%nat -> length (fst (snd (nth i (n_layers nt) d))) = nth i ws 0%nat /\ length (snd (snd (nth i (n_layers nt) d))) = nth (S i) ws 0%nat.
Lemma chain_fits_aux : forall ls (ws : list nat) w, length ws = S (length ls) -> nth 0 ws 0%nat = w ->
  (forall i d, (i < length ls)%nat -> length (fst (snd (nth i ls d))) = nth i ws 0%nat /\ length (snd (snd (nth i ls d))) = nth (S i) ws 0%nat) ->
  fits_layers ls w = true /\ out_width ls w = nth (length ls) ws 0%nat.
Proof.
  induction ls as [|[a [k b]] r IH]; intros ws w L E H; cbn [fits_layers out_width length].
  - auto.
  - destruct ws as [|w0 ws]; [discriminate|]. cbn in E. subst w0. pose proof (H 0%nat (a, (k, b)) ltac:(simpl; lia)) as H0. cbn in H0. destruct H0 as [H1 H2].
    destruct (IH ws (length b)) as [F O]; [simpl in L; lia | now rewrite H2; destruct ws | |].
    { intros i d Hi. apply (H (S i) d). simpl. lia. }
    rewrite H1, Nat.eqb_refl, F. cbn. split; auto.
Qed.
Lemma chain_fits : forall nt n, chain nt n -> fits_layers (n_layers nt) 2 = true /\ out_width (n_layers nt) 2 = n.
Proof. intros nt n (ws & L & E0 & En & H). destruct (chain_fits_aux (n_layers nt) ws 2 L E0 H) as [F O]. split; [exact F | exact (eq_trans O En)]. Qed.

Definition grad (U : R * R -> R) (p : R * R) : R * R := (Derive (fun t => U (t, snd p)) (fst p), Derive (fun t => U (fst p, t)) (snd p)).
Definition partials (U : R * R -> R) : Prop := forall p, ex_derive (fun t => U (t, snd p)) (fst p) /\ ex_derive (fun t => U (fst p, t)) (snd p).

Lemma plain_rows : forall nt n, n_attention nt = false -> chain nt n ->
  let F p := net_row (act_of nt) (n_layers nt) [fst p; snd p] in (forall b, call nt b = Ok (map F b)) /\ forall p, length (F p) = n.
Proof.
  intros nt n Ha Hc F. destruct (chain_fits nt n Hc) as [Hf Ho]. split; [intros b; now apply call_plain|].
  intros p. unfold F. now rewrite net_row_width.
Qed.
Lemma plain_partials : forall nt j, smooth (n_act nt) ->
  partials (fun p => nth j (net_row (act_of nt) (n_layers nt) [fst p; snd p]) 0).
Proof.
  intros nt j Hs p. cbn [fst snd]. split; apply (curve_nth (fun t => net_row _ _ _)); apply net_smooth; try apply act_smooth; auto; apply const_curve.
Qed.
Lemma one_entry : forall (l : list R), length l = 1%nat -> l = [nth 0 l 0].
Proof. intros [|a [|b l]] H; try discriminate H; reflexivity. Qed.
Lemma plain_pointwise : forall nt, n_attention nt = false -> chain nt 1 ->
  exists U, (forall p, nn_out (network_of nt) [p] = Ok [[U p]]) /\ pointwise (network_of nt) U (grad U) /\ (smooth (n_act nt) -> partials U).
Proof.
  intros nt Ha Hc. destruct (plain_rows nt 1 Ha Hc) as [E L]. set (F := fun p : R * R => net_row (act_of nt) (n_layers nt) [fst p; snd p]) in *.
  exists (fun p => nth 0 (F p) 0).
  assert (Eb : forall b, call nt b = Ok (map (fun p => [nth 0 (F p) 0]) b)).
  { intros b. rewrite E. apply (f_equal Ok). apply map_ext. intros p. apply one_entry, L. }
  split; [intros p; cbn; rewrite Eb; reflexivity|]. split.
  - intros b. split; [apply Eb|]. cbn [nn_grad network_of]. rewrite (tape_rows _ _ _ b Eb). apply map_ext. intros p. unfold grad.
    f_equal; apply Derive_ext; intros t; cbn; now rewrite !vsum_cons, !vsum_nil, !Rplus_0_r.
  - intros Hs. apply (plain_partials nt 0 Hs).
Qed.
Lemma two_entries : forall (l : list R), length l = 2%nat -> l = [nth 0 l 0; nth 1 l 0].
Proof. intros [|a [|b [|c l]]] H; try discriminate H; reflexivity. Qed.
Lemma plain_pointwise2 : forall nt, n_attention nt = false -> chain nt 2 ->
  exists U E, (forall p, nn_out (network_of nt) [p] = Ok [[U p; E p]]) /\ pointwise2 (network_of nt) U E (grad U) /\ (smooth (n_act nt) -> partials U /\ partials E).
Proof.
  intros nt Ha Hc. destruct (plain_rows nt 2 Ha Hc) as [E L]. set (F := fun p : R * R => net_row (act_of nt) (n_layers nt) [fst p; snd p]) in *.
  exists (fun p => nth 0 (F p) 0), (fun p => nth 1 (F p) 0).
  assert (Eb : forall b, call nt b = Ok (map (fun p => [nth 0 (F p) 0; nth 1 (F p) 0]) b)).
  { intros b. rewrite E. apply (f_equal Ok). apply map_ext. intros p. apply two_entries, L. }
  split; [intros p; cbn; rewrite Eb; reflexivity|]. split.
  - intros b. split; [apply Eb|]. cbn [nn_grad network_of]. rewrite (tape_rows _ _ _ b Eb). apply map_ext. intros p. unfold grad.
    f_equal; apply Derive_ext; intros t; cbn; now rewrite !vsum_cons, !vsum_nil, !Rplus_0_r.
  - intros Hs. split; [apply (plain_partials nt 0 Hs) | apply (plain_partials nt 1 Hs)].
Qed.
(* any number of outputs: gradient of the sum of the outputs of the row *)
Lemma plain_general : forall nt n, n_attention nt = false -> chain nt n ->
  exists F, (forall p, nn_out (network_of nt) [p] = Ok [F p]) /\ (forall p, length (F p) = n) /\
    forall b, nn_out (network_of nt) b = Ok (map F b) /\ nn_grad (network_of nt) None b = map (grad (fun p => vsum (F p))) b /\
      forall j, nn_grad (network_of nt) (Some j) b = map (grad (fun p => nth j (F p) 0)) b.
Proof.
  intros nt n Ha Hc. destruct (plain_rows nt n Ha Hc) as [E L]. set (F := fun p : R * R => net_row (act_of nt) (n_layers nt) [fst p; snd p]) in *.
  exists F. split; [intros p; cbn; now rewrite E|]. split; [exact L|]. intros b. cbn [nn_out nn_grad network_of]. rewrite E. split; [reflexivity|].
  split; [|intros j]; rewrite (tape_rows _ _ _ b E); apply map_ext; intros p; unfold grad; f_equal; apply Derive_ext; intros t; cbn; now rewrite vsum_cons, vsum_nil, Rplus_0_r.
Qed.

(* ---------- attention mixes rows ---------- *)
Definition att_net : net := {| n_act := fun v => v; n_attention := true; n_layers := [(false, ([[1]; [0]], [0]))] |}.
Definition att0 (s : R) : R := (exp (s * s) * s + exp s) / (exp (s * s) + exp s).
Definition att1 (s : R) : R := (exp s * s + exp 1) / (exp s + exp 1).
Lemma att_chain : chain att_net 1.
Proof. exists [2%nat; 1%nat]. refine (conj eq_refl (conj eq_refl (conj eq_refl _))). intros i d Hi. cbn in Hi. assert (i = 0)%nat as -> by lia. split; reflexivity. Qed.
Lemma att_call : forall s, call att_net [(s, 0); (1, 0)] = Ok [[att0 s]; [att1 s]].
Proof.
  intros s. unfold call. cbn -[exp vsum]. rewrite !vsum_cons, !vsum_nil. cbn -[exp].
  replace (s * s + (0 * 0 + 0)) with (s * s) by ring. replace (s * 1 + (0 * 0 + 0)) with s by ring.
  replace (1 * s + (0 * 0 + 0)) with s by ring. replace (1 * 1 + (0 * 0 + 0)) with 1 by ring.
  pose proof (exp_pos s). pose proof (exp_pos (s * s)). pose proof (exp_pos 1).
  apply (f_equal Ok). unfold att0, att1. f_equal; [f_equal|f_equal; f_equal]; field; lra.
Qed.
Lemma att_alone : forall s, call att_net [(s, 0)] = Ok [[s]].
Proof.
  intros s. unfold call. cbn -[exp vsum]. rewrite !vsum_cons, !vsum_nil. cbn -[exp]. pose proof (exp_pos (s * s + (0 * 0 + 0))).
  apply (f_equal Ok). f_equal. f_equal. field. lra.
Qed.
Lemma att_wrong : n_attention att_net = true /\ chain att_net 1 /\ smooth (n_act att_net) /\
  (forall s, nn_out (network_of att_net) [(s, 0)] = Ok [[s]]) /\
  nn_out (network_of att_net) [(0, 0); (1, 0)] = Ok [[1 / 2]; [exp 1 / (1 + exp 1)]] /\
  exists own other, (forall s, nn_out (network_of att_net) [(s, 0); (1, 0)] = Ok [[own s]; [other s]]) /\ ex_derive own 0 /\
    fst (nth 0 (nn_grad (network_of att_net) None [(0, 0); (1, 0)]) (0, 0)) = Derive own 0 + 1 / (1 + exp 1) ^ 2.
Proof.
  split; [reflexivity|]. split; [exact att_chain|]. split; [intros x; apply ex_derive_id|]. split; [exact att_alone|].
  split; [cbn [nn_out network_of]; rewrite att_call; unfold att0, att1; rewrite Rmult_0_l, exp_0; apply (f_equal Ok); f_equal; [f_equal; field | f_equal; f_equal; field; pose proof (exp_pos 1); lra]|].
  exists att0, att1. split; [exact att_call|].
  assert (P : forall s, 0 < exp s) by (intros; apply exp_pos).
  assert (D0 : ex_derive att0 0). { unfold att0. auto_derive. rewrite Rmult_0_l, exp_0. lra. }
  split; [exact D0|]. cbn [nn_grad network_of].
  change (fst (nth 0 (tape_gradient (call att_net) None [(0, 0); (1, 0)]) (0, 0))) with (Derive (fun t => total None (value (call att_net [(t, 0); (1, 0)]))) 0).
  rewrite (Derive_ext _ (fun t => att0 t + att1 t)).
  2:{ intros t. rewrite att_call. cbn. rewrite !vsum_cons, !vsum_nil. ring. }
  assert (D1 : is_derive att1 0 (1 / (1 + exp 1) ^ 2)).
  { unfold att1. auto_derive; [pose proof (P 0); pose proof (P 1); lra|]. rewrite exp_0. pose proof (P 1). field. lra. }
  rewrite Derive_plus; [|exact D0 | now exists (1 / (1 + exp 1) ^ 2)]. f_equal. now apply is_derive_unique.
Qed.

(* ---------- hard constraints ---------- *)
Lemma hard_default : forall nt b sel, nn_out (hard_network None nt) b = nn_out (network_of nt) b /\ nn_grad (hard_network None nt) sel b = nn_grad (network_of nt) sel b.
Proof.
  intros nt. assert (E : forall b, call_hard None nt b = call nt b) by (intros b; unfold call_hard; destruct (call nt b); reflexivity).
  intros b sel. split; [apply E|]. cbn [nn_grad hard_network network_of]. unfold tape_gradient. apply map_ext. intros r. cbv zeta.
  f_equal; apply Derive_ext; intros t; now rewrite E.
Qed.
Lemma call_rows_length : forall nt b y, call nt b = Ok y -> length y = length b.
Proof.
  intros nt b y. unfold call. rewrite run_layers_rows. destruct (fits_layers (n_layers nt) 2); [|discriminate]. intros E. injection E as <-.
  rewrite map_length. destruct (n_attention nt); unfold attention, rows_of_points; now rewrite !map_length.
Qed.
Lemma hard_boundary : forall (hc : constraint) (g : R * R -> list R) (bd : R * R -> Prop),
  (forall b y r, length y = length b -> (r < length b)%nat -> bd (nth r b (0, 0)) -> nth r (hc b y) [] = g (nth r b (0, 0))) ->
  forall nt b y r, nn_out (hard_network (Some hc) nt) b = Ok y -> (r < length b)%nat -> bd (nth r b (0, 0)) -> nth r y [] = g (nth r b (0, 0)).
Proof.
  intros hc g bd Hc nt b y r. cbn [nn_out hard_network]. unfold call_hard. destruct (call nt b) as [z|] eqn:E; [|discriminate]. cbn [bind].
  intros F. injection F as <-. intros Hr Hb. apply Hc; auto. now apply call_rows_length in E.
Qed.
Lemma hard_pointwise : forall (h : R * R -> R -> R) nt, n_attention nt = false -> chain nt 1 ->
  let hc : constraint := fun b y => map2 (fun p row => map (h p) row) b y in
  exists U, (forall p, nn_out (network_of nt) [p] = Ok [[U p]]) /\
    pointwise (hard_network (Some hc) nt) (fun p => h p (U p)) (grad (fun p => h p (U p))).
Proof.
  intros h nt Ha Hc hc. destruct (plain_pointwise nt Ha Hc) as (U & E1 & P & _). exists U. split; [exact E1|].
  assert (Eb : forall b, call_hard (Some hc) nt b = Ok (map (fun p => [h p (U p)]) b)).
  { intros b. unfold call_hard. destruct (P b) as [Eo _]. cbn [nn_out network_of] in Eo. rewrite Eo. cbn [bind]. apply (f_equal Ok). unfold hc.
    clear. induction b as [|p b IH]; cbn; auto. f_equal. apply IH. }
  intros b. split; [apply Eb|]. cbn [nn_grad hard_network]. rewrite (tape_rows _ _ _ b Eb). apply map_ext. intros p. unfold grad.
  f_equal; apply Derive_ext; intros t; cbn; now rewrite !vsum_cons, !vsum_nil, !Rplus_0_r.
Qed.

(* ---------- learning rate ---------- *)
Lemma Int_part_nat : forall x, 0 <= x -> exists m : nat, Int_part x = Z.of_nat m /\ INR m <= x < INR m + 1.
Proof.
  intros x Hx. destruct (base_Int_part x) as [H1 H2]. exists (Z.to_nat (Int_part x)).
  assert (H0 : (0 <= Int_part x)%Z). { assert (-1 < IZR (Int_part x)) by lra. apply (lt_IZR (-1)) in H. lia. }
  rewrite Z2Nat.id by exact H0. split; [reflexivity|]. rewrite INR_IZR_INZ, Z2Nat.id by exact H0. lra.
Qed.
Definition needs (k : kind) : list string :=
  ["initial_learning_rate"; "use_lr_scheduler"; "decay_steps"; "decay_rate"]%string ++ match k with Hard | Inverse => ["staircase"%string] | _ => [] end.
Lemma lr_keys : forall k d, ((forall n, In n (needs k) -> exists v, dget String.eqb d n = Ok v) -> exists f, learning_rate k d = Ok f) /\
  (forall n, In n (needs k) -> (forall v, dget String.eqb d n <> Ok v) -> learning_rate k d = Err KeyError).
Proof.
  intros k d. assert (E : forall n, (exists v, dget String.eqb d n = Ok v) \/ dget String.eqb d n = Err KeyError).
  { intros n. induction d as [|[n' v'] d IH]; cbn; auto. destruct (String.eqb n n'); eauto. }
  unfold learning_rate. split.
  - intros H.
    destruct (H "initial_learning_rate"%string) as [v1 ->]; [destruct k; cbn; auto|]. destruct (H "use_lr_scheduler"%string) as [v2 ->]; [destruct k; cbn; auto|].
    destruct (H "decay_steps"%string) as [v3 ->]; [destruct k; cbn; auto|]. destruct (H "decay_rate"%string) as [v4 ->]; [destruct k; cbn; auto|].
    cbn [bind]. destruct (reads_staircase k) eqn:Ek; [|cbn; eauto].
    destruct (H "staircase"%string) as [v5 ->]; [destruct k; try discriminate Ek; cbn; auto 6|]. cbn. eauto.
  - intros n Hn Hv. destruct (E n) as [[v Ev] | En]; [exfalso; eapply Hv; eauto|].
    destruct (E "initial_learning_rate"%string) as [[v1 E1] | E1]; rewrite E1; cbn [bind]; [|reflexivity].
    destruct (E "use_lr_scheduler"%string) as [[v2 E2] | E2]; rewrite E2; cbn [bind]; [|reflexivity].
    destruct (E "decay_steps"%string) as [[v3 E3] | E3]; rewrite E3; cbn [bind]; [|reflexivity].
    destruct (E "decay_rate"%string) as [[v4 E4] | E4]; rewrite E4; cbn [bind]; [|reflexivity].
    unfold needs in Hn. apply in_app_iff in Hn. destruct Hn as [Hn | Hn].
    + cbn in Hn. destruct Hn as [<- | [<- | [<- | [<- | []]]]]; congruence.
    + destruct k; cbn in Hn; destruct Hn as [<- | []] || destruct Hn; cbn [reads_staircase]; rewrite En; reflexivity.
Qed.
Section Rate.
Variables (k : kind) (d : lrdict) (lr0 steps rate : R) (use : lrval) (f : nat -> R).
Hypothesis H0 : dget String.eqb d "initial_learning_rate"%string = Ok (LNum lr0).
Hypothesis H1 : dget String.eqb d "use_lr_scheduler"%string = Ok use.
Hypothesis H2 : dget String.eqb d "decay_steps"%string = Ok (LNum steps).
Hypothesis H3 : dget String.eqb d "decay_rate"%string = Ok (LNum rate).
Hypothesis Hf : learning_rate k d = Ok f.
Lemma rate_eq : f = if truthy use then exponential_decay lr0 steps rate else fun _ => lr0.
Proof.
  unfold learning_rate in Hf. rewrite H0, H1, H2, H3 in Hf. cbn [bind] in Hf.
  destruct (if reads_staircase k then dget String.eqb d "staircase"%string else Ok (LNum lr0)); [|discriminate]. cbn [bind lnum] in Hf. now injection Hf as <-.
Qed.
Lemma rate_off : use = LBool false \/ use = LNum 0 -> forall t, f t = lr0.
Proof.
  rewrite rate_eq. intros [-> | ->] t; cbn; auto. destruct (Req_EM_T 0 0); [reflexivity | congruence].
Qed.
Lemma rate_on : use = LBool true -> 0 < steps -> forall t, exists m : nat, INR m <= INR t / steps < INR m + 1 /\ f t = lr0 * rate ^ m.
Proof.
  intros Hu Hs t. rewrite rate_eq, Hu. cbn [truthy]. unfold exponential_decay.
  assert (P : 0 <= INR t / steps) by (apply Rmult_le_pos; [apply pos_INR | left; now apply Rinv_0_lt_compat]).
  destruct (Int_part_nat _ P) as (m & E & B). exists m. split; [exact B|]. rewrite E. now rewrite <- pow_powerRZ.
Qed.
Lemma rate_nat : forall n, use = LBool true -> (1 <= n)%nat -> steps = INR n -> forall t, f t = lr0 * rate ^ (t / n).
Proof.
  intros n Hu Hn Es t. assert (Pn : 0 < INR n) by (apply lt_0_INR; lia).
  destruct (rate_on Hu ltac:(now rewrite Es) t) as (m & [B1 B2] & E). rewrite E. f_equal. f_equal.
  rewrite Es in B1, B2. apply (Rmult_le_compat_r (INR n)) in B1; [|lra]. apply (Rmult_lt_compat_r (INR n)) in B2; [|lra].
  replace (INR t / INR n * INR n) with (INR t) in B1, B2 by (field; lra).
  apply (Nat.div_unique t n m (t - n * m)).
  - rewrite <- mult_INR in B1. apply INR_le in B1. rewrite <- S_INR, <- mult_INR in B2. apply INR_lt in B2. nia.
  - rewrite <- mult_INR in B1. apply INR_le in B1. nia.
Qed.
Lemma rate_decreasing : use = LBool true -> 0 < steps -> 0 <= lr0 -> 0 <= rate <= 1 -> forall s t, (s <= t)%nat -> f t <= f s.
Proof.
  intros Hu Hs Hl Hr s t Hst. destruct (rate_on Hu Hs t) as (m & Bm & ->), (rate_on Hu Hs s) as (m' & Bm' & ->).
  apply Rmult_le_compat_l; auto. assert (Hm : (m' <= m)%nat).
  { assert (INR m' < INR (S m)). { rewrite S_INR. apply le_INR in Hst. apply (Rle_lt_trans _ (INR s / steps)); [lra|].
      apply (Rle_lt_trans _ (INR t / steps)); [|lra]. apply Rmult_le_compat_r; [left; now apply Rinv_0_lt_compat | exact Hst]. }
    apply INR_lt in H. lia. }
  clear - Hm Hr. induction Hm; [lra|]. simpl. assert (0 <= rate ^ m) by (apply pow_le; lra). nra.
Qed.
End Rate.
Lemma staircase_ignored : forall k d d', (forall n, n <> "staircase"%string -> dget String.eqb d n = dget String.eqb d' n) ->
  (exists v, dget String.eqb d "staircase"%string = Ok v) -> (exists v, dget String.eqb d' "staircase"%string = Ok v) -> learning_rate k d = learning_rate k d'.
Proof.
  intros k d d' H [v E] [v' E']. unfold learning_rate. rewrite !H by discriminate. rewrite E, E'.
  destruct (dget String.eqb d' "initial_learning_rate"%string); cbn [bind]; auto. destruct (dget String.eqb d' "use_lr_scheduler"%string); cbn [bind]; auto.
  destruct (dget String.eqb d' "decay_steps"%string); cbn [bind]; auto. destruct (dget String.eqb d' "decay_rate"%string); cbn [bind]; auto.
  destruct (reads_staircase k); reflexivity.
Qed.

(* ---------- architecture ---------- *)
Lemma dense_ok : forall u a, (1 <= u)%Z -> dense u a = Ok (Z.to_nat u, a).
Proof. intros u a H. unfold dense. destruct (Z.leb_spec u 0); [lia | reflexivity]. Qed.
Section Plan.
Variable dims : list Z.
Hypothesis Hlen : (2 <= length dims)%nat.
Hypothesis Hpos : forall u, In u dims -> (1 <= u)%Z.
Let m := length dims.
Let dim i := Z.to_nat (nth i dims 0%Z).
Lemma plan_eq : layer_plan dims = Ok (map (fun i => (dim (i + 1), (i <? m - 2)%nat)) (seq 0 (m - 1))).
Proof.
  unfold layer_plan. fold m.
  rewrite (mapM_ext _ (fun i => Ok (dim (i + 1), true))), mapM_pure.
  2:{ intros i Hi. apply in_seq in Hi. apply dense_ok. apply Hpos. apply nth_In. fold m. lia. }
  cbn [bind]. assert (Hl : last dims 0%Z = nth (m - 1) dims 0%Z).
  { unfold m. clear. induction dims as [|a l IH]; auto. destruct l as [|b l]; auto. change (last (a :: b :: l) 0%Z) with (last (b :: l) 0%Z). rewrite IH. cbn. now rewrite Nat.sub_0_r. }
  rewrite Hl. rewrite dense_ok by (apply Hpos, nth_In; fold m; lia).
  assert (Ne : forall T (x y : T), match dims with [] => x | _ => y end = y).
  { intros. destruct dims; [exfalso; unfold length in Hlen; lia | reflexivity]. }
  rewrite Ne. cbn [bind]. apply (f_equal Ok).
  replace (m - 1)%nat with (m - 2 + 1)%nat at 2 by lia. rewrite seq_app, map_app. cbn [seq map]. f_equal.
  - apply map_ext_in. intros i Hi. apply in_seq in Hi. f_equal. symmetry. apply Nat.ltb_lt. lia.
  - rewrite Nat.add_0_l, Nat.ltb_irrefl. unfold dim. replace (m - 2 + 1)%nat with (m - 1)%nat by lia. reflexivity.
Qed.
Lemma shapes_seq : forall k i n, n = dim i -> kernel_shapes n (map (fun i => (dim (i + 1), (i <? m - 2)%nat)) (seq i k)) = map (fun i => (dim i, dim (i + 1))) (seq i k).
Proof.
  induction k as [|k IH]; intros i n ->; auto. cbn [seq map kernel_shapes]. f_equal. apply IH. now rewrite Nat.add_1_r.
Qed.
Lemma width_ok : input_width dims = Ok (dim 0).
Proof.
  unfold input_width, dim. destruct dims as [|d l] eqn:E; [simpl in Hlen; lia|]. assert (1 <= d)%Z by (apply Hpos; now left).
  destruct (Z.ltb_spec d 0); [lia | reflexivity].
Qed.
Lemma construct_ok : forall k n lr f att, learning_rate k lr = Ok f -> (k = Domain -> att = false) ->
  construct k true (Some n) lr dims att =
  Ok (f, map (fun i => (dim (i + 1), (i <? m - 2)%nat)) (seq 0 (m - 1)), map (fun i => (dim i, dim (i + 1))) (seq 0 (m - 1))).
Proof.
  intros k n lr f att Hf Hk. unfold construct. cbn [negb]. rewrite Hf. cbn [bind]. rewrite plan_eq, width_ok. cbn [bind].
  rewrite (shapes_seq (m - 1) 0 (dim 0) eq_refl).
  destruct k; cbn [bind]; auto. now rewrite (Hk eq_refl).
Qed.
End Plan.
Lemma plan_refused : forall dims u, (2 <= length dims)%nat -> In u (tl dims) -> (u <= 0)%Z -> layer_plan dims = Err ValueError.
Proof.
  intros dims u Hl Hin Hu. unfold layer_plan.
  assert (Hd : forall v a, dense v a = Ok (Z.to_nat v, a) \/ dense v a = Err ValueError) by (intros; unfold dense; destruct (v <=? 0)%Z; auto).
  assert (Hb : dense u false = Err ValueError /\ dense u true = Err ValueError) by (unfold dense; destruct (Z.leb_spec u 0); [auto | lia]).
  assert (M : forall (g : nat -> result (nat * bool)) l, (forall i, (exists v, g i = Ok v) \/ g i = Err ValueError) -> (exists r, mapM g l = Ok r /\ forall i, In i l -> exists v, g i = Ok v) \/ mapM g l = Err ValueError).
  { intros g l Hg. induction l as [|i l IH]; [left; exists []; split; [reflexivity | intros i []]|]. cbn. destruct (Hg i) as [[v E] | E]; rewrite E; cbn; [|auto].
    destruct IH as [(r & E' & A) | E']; rewrite E'; cbn; [left | auto]. eexists; split; [reflexivity|]. intros i' [<- | Hi]; eauto. }
  destruct (M (fun d => dense (nth (d + 1) dims 0%Z) true) (seq 0 (length dims - 2))) as [(r & E & A) | E].
  { intros i. destruct (Hd (nth (i + 1) dims 0%Z) true) as [-> | ->]; eauto. }
  - rewrite E. cbn [bind]. destruct dims as [|d0 l]; [simpl in Hl; lia|]. cbn [tl] in Hin.
    destruct (In_nth l u 0%Z Hin) as (i & Hi & Ei). cbn [length] in A.
    destruct (Nat.eq_dec i (length l - 1)) as [-> | Hne].
    + assert (El : last (d0 :: l) 0%Z = u). { rewrite <- Ei. clear -Hi. revert d0 Hi. induction l as [|b l IH]; intros d0 Hi; [simpl in Hi; lia|].
        change (last (d0 :: b :: l) 0%Z) with (last (b :: l) 0%Z). destruct l as [|c l]; [reflexivity|]. rewrite (IH b ltac:(simpl; lia)). cbn. now rewrite Nat.sub_0_r. }
      rewrite El, (proj1 Hb). reflexivity.
    + exfalso. destruct (A i) as [v Ev]; [apply in_seq; lia|]. rewrite Nat.add_1_r in Ev. cbn [nth] in Ev. rewrite Ei, (proj2 Hb) in Ev. discriminate.
  - now rewrite E.
Qed.
Lemma firstn_snoc : forall {T} (l : list T) i d, (i < length l)%nat -> firstn (S i) l = (firstn i l ++ [nth i l d])%list.
Proof.
  intros T l. induction l as [|a l IH]; intros i d Hi; [simpl in Hi; lia|]. destruct i; [reflexivity|]. cbn [firstn nth app]. f_equal. apply IH. simpl in Hi. lia.
Qed.
Lemma net_row_app : forall f l1 l2 x, net_row f (l1 ++ l2) x = net_row f l2 (net_row f l1 x).
Proof. intros f. induction l1 as [|[a [k b]] r IH]; intros l2 x; cbn; auto. Qed.
Lemma dense_nth : forall f kernel bias x j, (j < length bias)%nat -> length x = length kernel ->
  nth j (dense_row f kernel bias x) 0 = f (Sum (fun k => nth k x 0 * entry kernel k j) (length kernel) + nth j bias 0).
Proof.
  intros f kernel bias x j Hj L. unfold dense_row. rewrite nth_seq_map by exact Hj. f_equal. f_equal.
  rewrite vsum_rsum, map2_length, map_length, L, Nat.min_id. change Sum with rsum. apply rsum_ext. intros k Hk.
  rewrite (map2_nth _ _ _ k 0 0 0) by (rewrite ?map_length; lia). rewrite (nth_map_lt _ _ k _ []) by exact Hk. reflexivity.
Qed.
Definition widths (dims : list Z) (nt : net) : Prop :=
  let m := length dims in length (n_layers nt) = (m - 1)%nat /\
  forall i d, (i < m - 1)%nat -> let '(flag, (kernel, bias)) := nth i (n_layers nt) d in
    flag = (i <? m - 2)%nat /\ has_shape kernel (Z.to_nat (nth i dims 0%Z)) (Z.to_nat (nth (i + 1) dims 0%Z)) /\ length bias = Z.to_nat (nth (i + 1) dims 0%Z).
Section Forward.
Variables (dims : list Z) (nt : net).
Hypothesis Hlen : (2 <= length dims)%nat.
Hypothesis H2 : nth 0 dims 0%Z = 2%Z.
Hypothesis Hw : widths dims nt.
Let m := length dims.
Let dim i := Z.to_nat (nth i dims 0%Z).
Lemma widths_chain : chain nt (dim (m - 1)).
Proof.
  destruct Hw as [L H]. fold m in L, H. exists (map dim (seq 0 m)). cbv zeta. rewrite map_length, seq_length, L. split; [lia|].
  rewrite !nth_seq_map by (fold m in Hlen; lia). split; [change (dim 0 = 2%nat); unfold dim; now rewrite H2|]. split; [reflexivity|]. intros i d Hi. specialize (H i d Hi). destruct (nth i (n_layers nt) d) as [a [k b]]. destruct H as (_ & [Hk _] & Hb).
  rewrite !nth_seq_map by lia. cbn [fst snd]. rewrite Hk, Hb, Nat.add_1_r. auto.
Qed.
Lemma forward : n_attention nt = false -> forall p, exists vals : nat -> list R, vals 0%nat = [fst p; snd p] /\
  (forall i, (i < m)%nat -> length (vals i) = dim i) /\
  (forall i j d, (i < m - 1)%nat -> (j < dim (i + 1))%nat -> let '(_, (kernel, bias)) := nth i (n_layers nt) d in
    let z := Sum (fun k => nth k (vals i) 0 * entry kernel k j) (dim i) + nth j bias 0 in
    nth j (vals (S i)) 0 = if (i <? m - 2)%nat then n_act nt z else z) /\
  nn_out (network_of nt) [p] = Ok [vals (m - 1)%nat].
Proof.
  intros Ha p. destruct Hw as [L H]. fold m in L, H. pose (vals := fun i => net_row (act_of nt) (firstn i (n_layers nt)) [fst p; snd p]).
  assert (V : forall i d, (i < m - 1)%nat -> vals (S i) = let '(a, (k, b)) := nth i (n_layers nt) d in dense_row (act_of nt a) k b (vals i)).
  { intros i d Hi. unfold vals. rewrite (firstn_snoc _ i d) by lia. rewrite net_row_app. destruct (nth i (n_layers nt) d) as [a [k b]]. reflexivity. }
  assert (W : forall i, (i < m)%nat -> length (vals i) = dim i).
  { induction i as [|i IH]; intros Hi; [unfold vals, dim; cbn; now rewrite H2|].
    rewrite (V i (true, ([], []))) by lia. specialize (H i (true, ([], [])) ltac:(lia)). destruct (nth i (n_layers nt) (true, ([], []))) as [a [k b]].
    destruct H as (_ & _ & Hb). unfold dense_row. rewrite map_length, seq_length, Hb, Nat.add_1_r. reflexivity. }
  exists vals. split; [reflexivity|]. split; [exact W|]. split.
  - intros i j d Hi Hj. specialize (V i d Hi). specialize (H i d Hi). destruct (nth i (n_layers nt) d) as [a [k b]]. destruct H as (-> & [Hk _] & Hb).
    cbv zeta. rewrite V, dense_nth; [|unfold dim in Hj; lia | rewrite Hk; apply W; lia]. rewrite Hk. fold (dim i). destruct (i <? m - 2)%nat; reflexivity.
  - destruct (plain_rows nt _ Ha widths_chain) as [E _]. cbn [nn_out network_of]. rewrite E. cbn [map]. unfold vals. rewrite firstn_all2 by lia. reflexivity.
Qed.
End Forward.

(* ---------- configuration ---------- *)
Lemma instantiate_names : forall k kw attrs, instantiate k kw = Ok attrs -> map fst attrs = map fst (signature k).
Proof.
  intros k kw attrs E. unfold instantiate in E. destruct (negb _); [discriminate|]. apply mapM_inv in E.
  induction E as [|[n o] [n' v] l r H F IH]; cbn; auto. f_equal; auto. cbn in H. destruct (dget String.eqb kw n), o; try discriminate H; injection H as <- _; reflexivity.
Qed.
Ltac take_attrs E := repeat match type of E with
  | map fst ?l = _ :: _ => destruct l as [|[? ?] ?]; [discriminate E|]; cbn [map fst] in E; injection E as -> E
  | map fst ?l = [] => destruct l; [clear E | discriminate E] end.
(* given arguments are kept, the others take their defaults *)
Lemma inst_dget : forall kw sg attrs, Forall2 (fun pd b => match dget String.eqb kw (fst pd), snd pd with
      | Ok v, _ => Ok (fst pd, v) | Err _, Some d => Ok (fst pd, d) | Err _, None => Err TypeError end = Ok b) sg attrs ->
  forall n (d : option cfgval), dget String.eqb sg n = Ok d ->
  dget String.eqb attrs n = match dget String.eqb kw n, d with Ok v, _ => Ok v | Err _, Some d => Ok d | Err e, None => dget String.eqb attrs n end.
Proof.
  intros kw sg attrs H. induction H as [|[m e] [m' v] sg attrs E H IH]; intros n d D; [discriminate D|]. cbn [fst snd] in E.
  assert (M : m' = m) by (destruct (dget String.eqb kw m), e; congruence). subst m'. cbn [dget] in D |- *.
  destruct (String.eqb_spec n m) as [->|N].
  - injection D as ->. destruct (dget String.eqb kw m), d; congruence.
  - rewrite (IH n d D) at 1. reflexivity.
Qed.
Lemma dget_names : forall {V} (l : list (string * V)) n, In n (map fst l) <-> exists v, dget String.eqb l n = Ok v.
Proof.
  intros V l n. induction l as [|[m v] l IH]; cbn [map fst In dget]; [split; [intros [] | intros (v & E); discriminate E]|].
  destruct (String.eqb_spec n m) as [->|N]; [split; [intros _; eexists; reflexivity | intros _; left; reflexivity]|]. rewrite <- IH. split; [intros [E|E]; [congruence | exact E] | auto].
Qed.
Lemma arguments : forall k kw attrs, instantiate k kw = Ok attrs ->
  (forall n v, dget String.eqb kw n = Ok v -> dget String.eqb attrs n = Ok v) /\
  (forall n d, In (n, d) [("use_attention", CBool false); ("activation", CStr "tanh"); ("hessian", CBool false)]%string -> ~ In n (map fst kw) -> dget String.eqb attrs n = Ok d).
Proof.
  intros k kw attrs E. unfold instantiate in E. destruct (forallb _ (map fst kw)) eqn:F; [|discriminate E]. cbn [negb] in E. apply mapM_inv in E. pose proof (inst_dget kw _ _ E) as G. split.
  - intros n v Hv. assert (I : In n (map fst kw)) by (apply dget_names; eauto). rewrite forallb_forall in F. specialize (F n I). apply existsb_exists in F. destruct F as (m & Hm & Em).
    apply String.eqb_eq in Em. subst m. apply dget_names in Hm. destruct Hm as [d D]. rewrite (G n d D), Hv. reflexivity.
  - intros n d Hn Hk. assert (S : dget String.eqb (signature k) n = Ok (Some d)) by (destruct Hn as [H|[H|[H|[]]]]; injection H as <- <-; destruct k; reflexivity).
    rewrite (G n _ S). destruct (dget String.eqb kw n) eqn:D; [exfalso; apply Hk, dget_names; eauto | reflexivity].
Qed.
Lemma config_roundtrip : forall k kw attrs, k <> Hard -> instantiate k kw = Ok attrs ->
  exists c, get_config k attrs = Ok c /\ from_config k c = Ok attrs.
Proof.
  intros k kw attrs Hk E. apply instantiate_names in E. destruct k; try congruence; cbn in E; take_attrs E; eexists; (split; [reflexivity|]); reflexivity.
Qed.
Lemma config_hard : forall kw attrs, instantiate Hard kw = Ok attrs ->
  exists c attrs', get_config Hard attrs = Ok c /\ from_config Hard c = Ok attrs' /\
    (forall n, n <> "hard_constraint_function"%string -> dget String.eqb attrs' n = dget String.eqb attrs n) /\
    dget String.eqb attrs' "hard_constraint_function"%string = Ok CNone.
Proof.
  intros kw attrs E. apply instantiate_names in E. cbn in E. take_attrs E. do 2 eexists. split; [reflexivity|]. split; [reflexivity|]. split; [|reflexivity].
  intros n Hn. apply String.eqb_neq in Hn. cbn [dget fst]. rewrite Hn. reflexivity.
Qed.
Lemma config_loses : exists kw attrs c attrs' nt b, instantiate Hard kw = Ok attrs /\ get_config Hard attrs = Ok c /\ from_config Hard c = Ok attrs' /\
  chain nt 1 /\ nn_out (hard_network (the_constraint attrs) nt) b = Ok [[0]] /\ nn_out (hard_network (the_constraint attrs') nt) b = Ok [[1]].
Proof.
  pose (f := (fun b _ => map (fun _ => [0]) b) : constraint).
  exists [("layer_dims", CObj 1); ("learning_rate_dict", CObj 2); ("params_dict", CObj 3); ("loss_function", CObj 4); ("input_tensors_list", CObj 5);
    ("orig_factor_matrices", CObj 6); ("force_function_list", CObj 7); ("tensor_dtype", CObj 8); ("hard_constraint_function", CFun f)]%string.
  do 3 eexists. exists {| n_act := fun v => v; n_attention := false; n_layers := [(false, ([[0]; [0]], [1]))] |}, [(0, 0)].
  split; [reflexivity|]. split; [reflexivity|]. split; [reflexivity|]. split.
  - exists [2%nat; 1%nat]. refine (conj eq_refl (conj eq_refl (conj eq_refl _))). intros i d Hi. cbn in Hi. assert (i = 0)%nat as -> by lia. split; reflexivity.
  - split; [reflexivity|]. cbn. rewrite !vsum_cons, vsum_nil. apply (f_equal Ok). f_equal. f_equal. ring.
Qed.
Lemma weight_count : forall dims, (2 <= length dims)%nat -> (forall u, In u dims -> (1 <= u)%Z) ->
  let m := length dims in let dim i := Z.to_nat (nth i dims 0%Z) in
  forall k n lr att f plan shapes, construct k true (Some n) lr dims att = Ok (f, plan, shapes) ->
  length plan = (m - 1)%nat /\
  fold_right (fun s acc => fst s * snd s + snd s + acc)%nat 0%nat shapes = fold_right (fun i acc => (dim i + 1) * dim (i + 1) + acc)%nat 0%nat (seq 0 (m - 1)).
Proof.
  intros dims Hl Hp m dim k n lr att f plan shapes E.
  assert (Hk : k = Domain -> att = false).
  { intros ->. unfold construct in E. cbn [negb] in E. destruct (learning_rate Domain lr); [|discriminate]. cbn [bind] in E. rewrite (width_ok dims Hl Hp) in E. cbn [bind] in E. destruct att; [discriminate | reflexivity]. }
  destruct (learning_rate k lr) as [f'|x] eqn:Ef; [|unfold construct in E; cbn [negb] in E; rewrite Ef in E; discriminate].
  rewrite (construct_ok dims Hl Hp k n lr f' att Ef Hk) in E. injection E as _ <- <-. rewrite map_length, seq_length. split; [reflexivity|].
  fold m. generalize (seq 0 (m - 1)). intros l. induction l as [|i l IH]; auto. cbn [map fold_right fst snd]. rewrite IH. fold (dim i) (dim (i + 1)%nat). nia.
Qed.
Lemma empty_dims : forall k n lr f att, learning_rate k lr = Ok f -> construct k true (Some n) lr [] att = Err IndexError.
Proof. intros k n lr f att Hf. unfold construct. cbn [negb]. rewrite Hf. destruct k; reflexivity. Qed.
Lemma attention_ok : forall k n lr dims att f, k <> Domain -> learning_rate k lr = Ok f -> (2 <= length dims)%nat -> (forall u, In u dims -> (1 <= u)%Z) ->
  exists r, construct k true (Some n) lr dims att = Ok r.
Proof. intros k n lr dims att f Hk Hf Hl Hp. eexists. apply construct_ok; eauto. congruence. Qed.
Lemma domain_attention : forall n lr dims f, learning_rate Domain lr = Ok f -> (2 <= length dims)%nat -> (forall u, In u dims -> (1 <= u)%Z) ->
  construct Domain true (Some n) lr dims true = Err AttributeError.
Proof. intros n lr dims f Hf Hl Hp. unfold construct. cbn [negb]. rewrite Hf. cbn [bind]. rewrite (width_ok dims Hl Hp). reflexivity. Qed.
