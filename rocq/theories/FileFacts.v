(* write_vtk: geometry_2d.py:449-493. *)
From Coq Require Import String Ascii ZArith List Arith Lia Bool Reals.
From Verif Require Import Num Py Geometry.
Import ListNotations.

Lemma append_nil_r : forall s : string, (s ++ "")%string = s.
Proof. induction s; simpl; congruence. Qed.
Lemma append_assoc : forall a b c : string, (a ++ (b ++ c) = (a ++ b) ++ c)%string.
Proof. induction a; intros; simpl; congruence. Qed.
Lemma catl_app : forall a b, catl (a ++ b) = (catl a ++ catl b)%string.
Proof. induction a; intros b; simpl; auto. now rewrite IHa, append_assoc. Qed.
Lemma lines_cat : forall s, catl (lines s) = s.
Proof.
  induction s as [|c s IH]; simpl; auto. destruct (Ascii.eqb c (ascii_of_nat 10)).
  - simpl. now rewrite IH.
  - destruct (lines s) as [|l ls] eqn:E; simpl in *; rewrite <- IH; reflexivity.
Qed.
(* no line but its last character is a newline, and every line is nonempty *)
Lemma upto_split : forall ls,
  (exists pre l post, ls = pre ++ l :: post /\ (forall x, In x pre -> has_point_data x = false) /\ has_point_data l = true /\
     upto_point_data ls = pre ++ [l]) \/
  ((forall x, In x ls -> has_point_data x = false) /\ upto_point_data ls = ls).
Proof.
  induction ls as [|a ls IH]; simpl; [right; split; [intros x []|auto]|]. destruct (has_point_data a) eqn:E.
  - left. exists [], a, ls. repeat split; auto. intros x [].
  - destruct IH as [(pre & l & post & -> & H1 & H2 & H3) | [H1 H2]].
    + left. exists (a :: pre), l, post. split; [reflexivity|]. split; [intros x [<- | Hx]; auto|]. split; auto. now rewrite H3.
    + right. split; [intros x [<- | Hx]; auto | now rewrite H2].
Qed.
Lemma dget_dset_same : forall {V} (d : list (string * V)) k v, dget String.eqb (dset String.eqb d k v) k = Ok v.
Proof.
  intros V d k v. induction d as [|[k' v'] d IH]; simpl; [now rewrite String.eqb_refl|].
  destruct (String.eqb k k') eqn:E; simpl; rewrite E; auto.
Qed.
Lemma dget_dset_other : forall {V} (d : list (string * V)) k k' v, k' <> k -> dget String.eqb (dset String.eqb d k v) k' = dget String.eqb d k'.
Proof.
  intros V d k k' v H. induction d as [|[q v'] d IH]; simpl.
  - destruct (String.eqb_spec k' k); congruence.
  - destruct (String.eqb k q) eqn:E; simpl.
    + apply String.eqb_eq in E. subst q. destruct (String.eqb_spec k' k); congruence.
    + destruct (String.eqb k' q); auto.
Qed.
Lemma split2 : forall n s, s = (substring 0 n s ++ substring n (String.length s - n) s)%string.
Proof.
  induction n as [|n IH]; intros s.
  - rewrite Nat.sub_0_r. destruct s; simpl; auto. f_equal. induction s; simpl; congruence.
  - destruct s as [|a s]; simpl; auto. f_equal. apply IH.
Qed.
Lemma split3 : forall k n s, s = (substring 0 k s ++ substring k n s ++ substring (k + n) (String.length s - (k + n)) s)%string.
Proof.
  induction k as [|k IH]; intros n s.
  - destruct s as [|a s]; [now destruct n|]. cbn [Nat.add]. change (substring 0 0 (String a s)) with EmptyString. apply split2.
  - destruct s as [|a s]; [reflexivity|]. cbn [substring String.append String.length Nat.add]. rewrite Nat.sub_succ. f_equal. apply IH.
Qed.
Lemma has_point_data_iff : forall l, has_point_data l = true <-> exists a b, l = (a ++ "POINT_DATA" ++ b)%string.
Proof.
  intros l. unfold has_point_data. split.
  - destruct (index 0 "POINT_DATA" l) as [k|] eqn:E; [|discriminate]. intros _.
    apply index_correct1 in E. exists (substring 0 k l), (substring (k + 10) (String.length l - (k + 10)) l).
    rewrite <- E at 1. apply split3.
  - intros (a & b & ->). destruct (index 0 "POINT_DATA" (a ++ "POINT_DATA" ++ b)) eqn:E; auto. exfalso.
    apply (index_correct3 0 (String.length a)) in E; [|discriminate|lia]. apply E.
    clear. induction a as [|c a IH]; cbn [String.append String.length substring]; [|exact IH].
    repeat f_equal. destruct b; reflexivity.
Qed.

Section Write.
Context {A : Type} `{Num A}.
Variables (fmt : A -> string) (g : geom A).
Definition column_text (solution : list (list A)) (names : list string) (i : nat) : string :=
  ("SCALARS " ++ nth i names "" ++ " float" ++ newline ++ "LOOKUP_TABLE default" ++ newline
   ++ catl (map fmt (map (fun row => nth i row n0) solution)) ++ newline)%string.
Lemma vtk_column_eq : forall name col, vtk_column fmt name col =
  ("SCALARS " ++ name ++ " float" ++ newline ++ "LOOKUP_TABLE default" ++ newline ++ catl (map fmt col) ++ newline)%string.
Proof.
  intros name col. unfold vtk_column. rewrite catl_app, catl_app. unfold catl at 1 3. cbn [fold_right].
  rewrite !append_nil_r. now rewrite <- !append_assoc.
Qed.
Lemma write_ok : forall fs solution cols out names content, dget String.eqb fs (template_path g) = Ok content -> cols = length names ->
  exists head fs', write_vtk fmt g fs solution cols out names = (Ok tt, fs') /\
    (forall p, p <> out -> dget String.eqb fs' p = dget String.eqb fs p) /\
    dget String.eqb fs' out = Ok (head ++ catl (map (column_text solution names) (seq 0 cols)))%string /\
    ((exists pre l post, lines content = (pre ++ l :: post)%list /\ (forall x, In x pre -> has_point_data x = false) /\
        has_point_data l = true /\ head = catl (pre ++ [l])%list) \/
     ((forall x, In x (lines content) -> has_point_data x = false) /\ head = content)).
Proof.
  intros fs solution cols out names content Et Hc. unfold write_vtk. rewrite Et, Hc, Nat.eqb_refl. cbn [negb].
  exists (catl (upto_point_data (lines content))). eexists. split; [reflexivity|].
  split; [intros p Hp; now apply dget_dset_other|]. split.
  - rewrite dget_dset_same. f_equal. f_equal. f_equal. apply map_ext. intros i. apply vtk_column_eq.
  - destruct (upto_split (lines content)) as [(pre & l & post & E & H1 & H2 & H3) | [H1 H2]].
    + left. exists pre, l, post. rewrite H3. auto.
    + right. split; auto. now rewrite H2, lines_cat.
Qed.
Lemma write_mismatch : forall fs solution cols out names content, dget String.eqb fs (template_path g) = Ok content -> cols <> length names ->
  write_vtk fmt g fs solution cols out names = (Err ValueError, fs).
Proof. intros. unfold write_vtk. rewrite H0. apply Nat.eqb_neq in H1. now rewrite H1. Qed.
Lemma write_no_template : forall fs solution cols out names e, dget String.eqb fs (template_path g) = Err e ->
  write_vtk fmt g fs solution cols out names = (Err FileNotFoundError, fs).
Proof. intros. unfold write_vtk. now rewrite H0. Qed.
End Write.

(* ---------- the object and its template ---------- *)
Section Cycle.
Context {A : Type} `{Num A}.
Variables (e : numpy A) (lhs1 : nat -> nat -> list A) (lhs2 : nat -> nat -> list (A * A)) (file : string -> result (mesh_file A)) (fmt : A -> string).
Lemma internal_then_write : forall vtk g fs xl yl nx ny num r g' fs', g_method g = "internal"%string -> g_optimized g = false ->
  call_internal e lhs1 vtk g fs xl yl nx ny num = (Ok r, g', fs') ->
  g_limits g' = Some (xl, yl) /\ template_path g' = template_path g /\ dget String.eqb fs' (template_path g) = Ok vtk /\
  (forall p, p <> template_path g -> dget String.eqb fs' p = dget String.eqb fs p).
Proof.
  intros vtk g fs xl yl nx ny num r g' fs' Hm Ho. unfold call_internal. destruct (generate_quad_mesh_internal e lhs1 xl yl nx ny num); [|discriminate].
  rewrite Ho. unfold generate_vtk_for_test. cbn [set_limits g_method g_limits]. rewrite Hm. cbn [String.eqb Ascii.eqb Bool.eqb bind].
  intros E. injection E as <- <- <-. split; [reflexivity|]. split; [reflexivity|].
  change (template_path (set_limits g (xl, yl))) with (template_path g).
  split; [apply dget_dset_same | intros p Hp; now apply dget_dset_other].
Qed.
Lemma optimized_no_file : forall vtk g fs xl yl nx ny num r g' fs', g_optimized g = true ->
  call_internal e lhs1 vtk g fs xl yl nx ny num = (Ok r, g', fs') -> fs' = fs /\ template_path g' = template_path g.
Proof.
  intros vtk g fs xl yl nx ny num r g' fs' Ho. unfold call_internal. destruct (generate_quad_mesh_internal e lhs1 xl yl nx ny num); [|discriminate].
  rewrite Ho. intros E. injection E as <- <- <-. auto.
Qed.
Lemma read_then_write : forall vtk g fs name level method rl r g' fs', g_method g = "external"%string ->
  call_read e lhs2 file vtk g fs name level method rl = (Ok r, g', fs') ->
  template_path g' = template_path g /\ dget String.eqb fs' (template_path g) = Ok vtk /\
  (forall p, p <> template_path g -> dget String.eqb fs' p = dget String.eqb fs p).
Proof.
  intros vtk g fs name level method rl r g' fs' Hm. unfold call_read. destruct (read_mesh e lhs2 file name level method rl); [|discriminate].
  unfold generate_vtk_for_test. cbn [set_file g_method g_file]. rewrite Hm. cbn [String.eqb Ascii.eqb Bool.eqb bind].
  intros E. injection E as <- <- <-. split; [reflexivity|]. change (template_path (set_file g name)) with (template_path g).
  split; [apply dget_dset_same | intros p Hp; now apply dget_dset_other].
Qed.
(* the two ways of making a mesh are tied to the constructor's method *)
Lemma wrong_reader : forall vtk g fs name level method rl, g_method g = "internal"%string -> g_limits g = None ->
  forall r g' fs', call_read e lhs2 file vtk g fs name level method rl <> (Ok r, g', fs').
Proof.
  intros vtk g fs name level method rl Hm Hl r g' fs'. unfold call_read. destruct (read_mesh e lhs2 file name level method rl); [|discriminate].
  unfold generate_vtk_for_test. cbn [set_file g_method g_limits]. rewrite Hm, Hl. discriminate.
Qed.
Lemma wrong_generator : forall vtk g fs xl yl nx ny num, g_method g = "external"%string -> g_file g = None -> g_optimized g = false ->
  forall r g' fs', call_internal e lhs1 vtk g fs xl yl nx ny num <> (Ok r, g', fs').
Proof.
  intros vtk g fs xl yl nx ny num Hm Hl Ho r g' fs'. unfold call_internal. destruct (generate_quad_mesh_internal e lhs1 xl yl nx ny num); [|discriminate].
  rewrite Ho. unfold generate_vtk_for_test. cbn [set_limits g_method g_file]. rewrite Hm, Hl. discriminate.
Qed.
End Cycle.

(* ---------- the row count is not checked ---------- *)
Definition bad_template : string := ("POINT_DATA 3" ++ newline)%string.
Lemma rows_unchecked : forall {A} `{Num A} (fmt : A -> string) (g : geom A) fs out (a : A) k,
  exists fs', write_vtk fmt g ((template_path g, bad_template) :: fs) (repeat [a] k) 1 out ["u"%string] = (Ok tt, fs').
Proof.
  intros A HA fmt g fs out a k. unfold write_vtk. simpl dget. rewrite String.eqb_refl. cbn [length Nat.eqb negb]. eauto.
Qed.
Lemma optimized_write : forall (e : numpy R) lhs1 vtk g fs xl yl nx ny num r g' fs' fmt sol cols out names x,
  g_optimized g = true -> dget String.eqb fs (template_path g) = Err x ->
  call_internal e lhs1 vtk g fs xl yl nx ny num = (Ok r, g', fs') ->
  write_vtk fmt g' fs' sol cols out names = (Err FileNotFoundError, fs).
Proof.
  intros e lhs1 vtk g fs xl yl nx ny num r g' fs' fmt sol cols out names x Ho Hx Hc.
  destruct (optimized_no_file e lhs1 _ _ _ _ _ _ _ _ _ _ _ Ho Hc) as [-> Et]. apply (write_no_template fmt g' fs sol cols out names x). now rewrite Et.
Qed.
Lemma write_content : forall (fmt : R -> string) g fs solution cols out names content,
  dget String.eqb fs (template_path g) = Ok content -> cols = length names ->
  exists head fs', write_vtk fmt g fs solution cols out names = (Ok tt, fs') /\
    (forall p, p <> out -> dget String.eqb fs' p = dget String.eqb fs p) /\
    dget String.eqb fs' out = Ok (head ++ catl (map (fun i =>
      "SCALARS " ++ nth i names "" ++ " float" ++ newline ++ "LOOKUP_TABLE default" ++ newline
      ++ catl (map fmt (map (fun row => nth i row 0%R) solution)) ++ newline) (seq 0 cols)))%string /\
    ((exists pre l post, lines content = (pre ++ l :: post)%list /\
        (forall x, In x pre -> ~ exists a b, x = (a ++ "POINT_DATA" ++ b)%string) /\
        (exists a b, l = (a ++ "POINT_DATA" ++ b)%string) /\ head = catl (pre ++ [l])%list) \/
     ((forall x, In x (lines content) -> ~ exists a b, x = (a ++ "POINT_DATA" ++ b)%string) /\ head = content)).
Proof.
  intros fmt g fs solution cols out names content Et Hc.
  assert (F : forall x, has_point_data x = false -> ~ exists a b, x = (a ++ "POINT_DATA" ++ b)%string).
  { intros x Hx K. apply has_point_data_iff in K. congruence. }
  destruct (write_ok fmt g fs solution cols out names content Et Hc) as (head & fs' & E & P & D & K). exists head, fs'.
  split; [exact E|]. split; [exact P|]. split; [exact D|].
  destruct K as [(pre & l & post & El & H1 & H2 & H3) | [H1 H2]]; [left | right].
  - exists pre, l, post. split; [exact El|]. split; [intros x Hx; apply F; auto|]. split; [now apply has_point_data_iff | exact H3].
  - split; [intros x Hx; apply F; auto | exact H2].
Qed.
Lemma lines_spec : forall s, catl (lines s) = s /\ forall l, In l (lines s) -> l <> ""%string /\
  forall a b, l = (a ++ newline ++ b)%string -> b = ""%string.
Proof.
  intros s. split; [apply lines_cat|]. induction s as [|c s IH]; cbn [lines]; [intros l []|].
  destruct (Ascii.eqb_spec c (ascii_of_nat 10)) as [-> | Hc].
  - intros l [<- | Hl]; [|auto]. split; [discriminate|]. intros a b E. destruct a as [|d a]; cbn in E.
    + now injection E as <-.
    + injection E as _ E. destruct a; discriminate E.
  - assert (G : forall l0, (forall a b, l0 = (a ++ newline ++ b)%string -> b = ""%string) -> forall a b, String c l0 = (a ++ newline ++ b)%string -> b = ""%string).
    { intros l0 H a b E. destruct a as [|d a]; cbn in E.
      - exfalso. apply Hc. exact (f_equal (fun s => match s with String d _ => d | EmptyString => c end) E).
      - injection E as _ E. now apply (H a). }
    destruct (lines s) as [|l0 ls] eqn:E.
    + intros l [<- | []]. split; [discriminate|]. apply G. intros a b E0. destruct a; discriminate E0.
    + intros l [<- | Hl].
      * split; [discriminate|]. apply G. apply IH. now left.
      * apply IH. now right.
Qed.
Lemma make_geometry_iff : forall mesh_type method ntx nty folder opt,
  (exists g : geom R, make_geometry mesh_type method ntx nty folder opt = Ok g) <->
  (method = "internal" \/ method = "external")%string /\ mesh_type = "quadrilateral"%string.
Proof.
  intros mesh_type method ntx nty folder opt. unfold make_geometry.
  destruct (String.eqb_spec method "internal"), (String.eqb_spec method "external"), (String.eqb_spec mesh_type "quadrilateral"); cbn; split;
    try (intros [g E]; discriminate E); try (intros [[H | H] H']; congruence); try (intros _; now split; auto); try (intros _; eexists; reflexivity).
Qed.
