(** Proofs about the state diagram: the order of policies, the text. *)
From Coq Require Import String Ascii List Arith ZArith Bool QArith Lia Permutation Sorting.Sorted.
From Verif Require Import IntervalModel IntervalProofs ManagerModel ManagerSpec ManagerProofs ManagerSafetyProofs GeomModel BoardModel BoardSpec EditModel.
From Verif Require Import InfraModel InfraNumberProofs SceneModel SceneSpec SceneProofs SceneValidProofs SceneOnceProofs PlantumlModel PlantumlSpec PlantumlProofs PlantumlStateProofs.
Import ListNotations.
Local Open Scope nat_scope.
Local Open Scope list_scope.

(** ** The order of the policies *)

Definition whole_of (n : name) : list entity := match n with Whole x => [x] | _ => [] end.
Lemma outline_listed l : forall st ds, outline l st = Some ds -> listed l = flat_map whole_of (names ds).
Proof.
  induction l as [|s r IH]; intros st ds E.
  - cbn in E. destruct st; [|discriminate]. now injection E as <-.
  - destruct s; cbn [outline listed] in *; try discriminate; try exact (IH _ _ E).
    + destruct (outline r (n :: st)) as [es|] eqn:O; [|discriminate]. injection E as <-. cbn. destruct n; cbn; now rewrite (IH _ _ O).
    + destruct (outline r st) as [es|] eqn:O; [|discriminate]. injection E as <-. cbn. now rewrite (IH _ _ O).
    + destruct st; [discriminate|]. exact (IH _ _ E).
Qed.
Lemma listed_app l r : listed (l ++ r) = listed l ++ listed r.
Proof. induction l as [|s l IH]; cbn; [reflexivity|]. destruct s; auto. destruct n; auto. cbn. now rewrite IH. Qed.
Lemma flat_flat {A B C} (f : A -> list B) (g : B -> list C) l : flat_map g (flat_map f l) = flat_map (fun x => flat_map g (f x)) l.
Proof. induction l as [|x r IH]; cbn; [reflexivity|]. now rewrite flat_map_app, IH. Qed.
Lemma flat_none {A B} (f : A -> list B) l : (forall x, In x l -> f x = []) -> flat_map f l = [].
Proof. induction l as [|x r IH]; intros H; cbn; [reflexivity|]. rewrite (H x) by now left. apply IH. intros y I. apply H. now right. Qed.
Lemma flat_ext {A B} (f g : A -> list B) l : (forall x, In x l -> f x = g x) -> flat_map f l = flat_map g l.
Proof. induction l as [|x r IH]; intros H; cbn; [reflexivity|]. rewrite (H x) by now left. f_equal. apply IH. intros y I. apply H. now right. Qed.

Section Sorted.
Context (srt : sort_by) (b : board) (Pm : permutes srt) (So : sorts_by srt).

Definition coord_of (a : Axis3) (i : nat) : list Q := map p_coord (maybe (nth_error (ax_policies (on_axis (b_axes b) a)) i)).
Definition pick (a : Axis3) (x : entity) : list Q := match x with EPolicy c i => if axis_eqb c a then coord_of a i else [] | _ => [] end.
Lemma axis_eqb_same a c : axis_eqb a c = true <-> a = c.
Proof. destruct a, c; cbn; split; intros; congruence. Qed.
Lemma pick_names a w : flat_map (pick a) (flat_map whole_of (what_names b w)) = match w with Thing x => pick a x | _ => [] end.
Proof.
  destruct w; cbn; [reflexivity..|]. assert (E : flat_map whole_of (map (Pin_name x) (pins_of b x)) = []) by (apply flat_none; intros n I; apply in_map_iff in I; destruct I as (q & <- & _); reflexivity).
  rewrite E. apply app_nil_r.
Qed.
Definition pick_what (a : Axis3) (w : what) : list Q := match w with Thing x => pick a x | _ => [] end.
Lemma pick_whats a l : flat_map (pick a) (flat_map whole_of (flat_map (what_names b) l)) = flat_map (pick_what a) l.
Proof. induction l as [|w r IH]; [reflexivity|]. cbn [flat_map]. rewrite !flat_map_app, IH. f_equal. exact (pick_names a w). Qed.
Lemma pick_things a l : flat_map (pick_what a) (map Thing l) = flat_map (pick a) l.
Proof. induction l as [|x r IH]; [reflexivity|]. cbn [map flat_map]. now rewrite IH. Qed.
Lemma pick_other {A} a (f : A -> entity) l : (forall i, pick a (f i) = []) -> flat_map (pick a) (map f l) = [].
Proof. intros H. apply flat_none. intros x I. apply in_map_iff in I. destruct I as (i & <- & _). apply H. Qed.
Lemma pick_axis a c : flat_map (pick a) (axis_things srt b c) = if axis_eqb c a then flat_map (coord_of a) (sorted_policies srt b a) else [].
Proof.
  unfold axis_things. rewrite !flat_map_app, !(pick_other a _ (seq _ _)) by reflexivity. rewrite !app_nil_r.
  destruct (axis_eqb c a) eqn:E; [apply axis_eqb_same in E; subst c|]; [|apply pick_other; intros i; cbn; now rewrite E].
  induction (sorted_policies srt b a) as [|i r IH]; [reflexivity|]. cbn [map flat_map]. rewrite IH. f_equal. cbn. destruct a; reflexivity.
Qed.
Lemma pick_plane a p : flat_map (pick a) (plane_things b p) = [].
Proof.
  unfold plane_things. rewrite flat_map_app, pick_other by reflexivity. rewrite app_nil_r. apply flat_none. intros x I. apply in_flat_map in I. destruct I as (i & _ & I). apply in_polygon_things in I.
  destruct I as (g & _ & [->|(e & -> & _)]); reflexivity.
Qed.
Lemma picked a : flat_map (pick a) (flat_map whole_of (names (all_ds srt b))) = flat_map (coord_of a) (sorted_policies srt b a).
Proof.
  rewrite names_all, pick_whats. unfold whats. rewrite flat_map_app, !flat_flat.
  rewrite (flat_none _ all_planes), (flat_ext _ (fun c => if axis_eqb c a then flat_map (coord_of a) (sorted_policies srt b a) else []) all_axes).
  - destruct a; cbn; rewrite ?app_nil_r; reflexivity.
  - intros c _. cbn [flat_map pick_what app]. rewrite pick_things. apply pick_axis.
  - intros p _. cbn [flat_map pick_what app]. rewrite pick_things. apply pick_plane.
Qed.

Lemma less_weak a : weak_order (less_coord b a) (seq 0 (length (ax_policies (on_axis (b_axes b) a)))).
Proof.
  set (ps := ax_policies (on_axis (b_axes b) a)).
  assert (Rd : forall i, In i (seq 0 (length ps)) -> exists p, nth_error ps i = Some p).
  { intros i I. apply in_seq in I. destruct (nth_error ps i) eqn:E; [eauto|apply nth_error_None in E; lia]. }
  unfold weak_order, less_coord. fold ps. split; [|split].
  - intros x I. destruct (Rd x I) as (p & ->). apply Qltb_ge. apply Qle_refl.
  - intros x y z I J K. destruct (Rd x I) as (p & ->), (Rd y J) as (q & ->), (Rd z K) as (r & ->). rewrite !Qltb_lt. apply Qlt_trans.
  - intros x y z I J K. destruct (Rd x I) as (p & ->), (Rd y J) as (q & ->), (Rd z K) as (r & ->). rewrite !Qltb_ge. intros U V. exact (Qle_trans _ _ _ V U).
Qed.
Lemma sorted_coords a : StronglySorted Qle (flat_map (coord_of a) (sorted_policies srt b a)).
Proof.
  unfold sorted_policies. destruct (So _ (less_coord b a) _ (less_weak a)) as [P Q]. clear P. induction Q as [|i l Q IH F]; [constructor|]. cbn [flat_map].
  unfold coord_of at 1. destruct (nth_error (ax_policies (on_axis (b_axes b) a)) i) as [p|] eqn:E; [|exact IH]. cbn. constructor; [exact IH|].
  apply Forall_forall. intros c I. apply in_flat_map in I. destruct I as (j & J & I). unfold coord_of in I. destruct (nth_error _ j) as [q|] eqn:Ej; [|destruct I]. destruct I as [<-|[]].
  rewrite Forall_forall in F. specialize (F j J). unfold less_coord in F. rewrite Ej, E in F. now apply Qltb_ge in F.
Qed.
(** Each as often as the axis has it. *)
Lemma same_coords a : Permutation (map p_coord (ax_policies (on_axis (b_axes b) a))) (flat_map (coord_of a) (sorted_policies srt b a)).
Proof.
  assert (E : map p_coord (ax_policies (on_axis (b_axes b) a)) = flat_map (coord_of a) (seq 0 (length (ax_policies (on_axis (b_axes b) a))))).
  { unfold coord_of. generalize (ax_policies (on_axis (b_axes b) a)) as l. intros l.
    assert (G : forall pre, map p_coord l = flat_map (fun i => map p_coord (maybe (nth_error (pre ++ l) i))) (seq (length pre) (length l))); [|exact (G [])].
    induction l as [|p r IH]; intros pre; [reflexivity|]. cbn [map length seq flat_map]. rewrite nth_error_app2, Nat.sub_diag by lia. cbn. f_equal.
    specialize (IH (pre ++ [p])). rewrite app_length, <- app_assoc in IH. cbn in IH. now rewrite Nat.add_1_r in IH. }
  rewrite E. unfold sorted_policies. apply Permutation_flat_map. apply Pm.
Qed.
End Sorted.

(** ** Names in the text *)

Local Open Scope string_scope.
Lemma digits_behind fuel : forall n t u, print_digits fuel n t ++ u = print_digits fuel n (t ++ u).
Proof. induction fuel as [|fuel IH]; intros n t u; cbn [print_digits]; [reflexivity|]. destruct (n / 10 =? 0)%Z; [reflexivity|]. apply IH. Qed.
Lemma whole_behind n u : whole_string n ++ u = print_whole (Z.of_nat n) u.
Proof. unfold whole_string, print_whole. apply digits_behind. Qed.
Definition digitless (u : string) : Prop := take_digits u = ([], u).
Lemma whole_take n u : digitless u -> exists l, l <> [] /\ value_of l = Z.of_nat n /\ take_digits (whole_string n ++ u) = (l, u).
Proof.
  intros D. rewrite whole_behind. destruct (print_whole_take (Z.of_nat n) u) as (l & N & V & T); [lia|]. exists l. split; [exact N|split; [exact V|]]. rewrite T, D. cbn. now rewrite app_nil_r.
Qed.
Lemma whole_same n m u v : digitless u -> digitless v -> whole_string n ++ u = whole_string m ++ v -> n = m /\ u = v.
Proof.
  intros Du Dv E. destruct (whole_take n u Du) as (l & _ & V & T), (whole_take m v Dv) as (l' & _ & V' & T'). rewrite E, T' in T. injection T as <- <-. split; [lia|reflexivity].
Qed.
Lemma append_nil s : s ++ "" = s.
Proof. induction s as [|c s IH]; cbn; [reflexivity|now rewrite IH]. Qed.
Lemma append_assoc s t u : (s ++ t) ++ u = s ++ (t ++ u).
Proof. induction s as [|c s IH]; cbn; [reflexivity|now rewrite IH]. Qed.
Lemma whole_some n u : digitless u -> whole_string n ++ u <> u.
Proof. intros D E. destruct (whole_take n u D) as (l & N & _ & T). rewrite E, D in T. now injection T as <-. Qed.
Lemma pin_digitless q : digitless (pin_text q).
Proof. destruct q; reflexivity. Qed.
Lemma pin_same p q : pin_text p = pin_text q -> p = q.
Proof.
  assert (N : digitless "") by reflexivity.
  destruct p as [| |n], q as [| |m]; cbn; intros E; try discriminate E; try reflexivity.
  - injection E as E. destruct (whole_some m "" N). now rewrite append_nil.
  - injection E as E. destruct (whole_some n "" N). now rewrite append_nil.
  - injection E as E. f_equal. apply (whole_same n m "" "" N N). now rewrite !append_nil.
Qed.
Lemma name_same ident m n : name_text ident m = name_text ident n ->
  match m, n with
  | Whole x, Whole y => ident x = ident y
  | Pin_name x p, Pin_name y q => ident x = ident y /\ p = q
  | _, _ => m = n
  end.
Proof.
  assert (N : digitless "") by reflexivity.
  assert (D : forall x u, digitless u -> fst (take_digits (whole_string (ident x) ++ u)) <> []) by (intros x u Du; destruct (whole_take (ident x) u Du) as (l & Nl & _ & T); now rewrite T).
  assert (Pl : forall p x u, digitless u -> plane_string p <> whole_string (ident x) ++ u) by (intros p x u Du E; apply (D x u Du); rewrite <- E; destruct p; reflexivity).
  assert (Ax : forall p x u, digitless u -> axis_string p <> whole_string (ident x) ++ u) by (intros p x u Du E; apply (D x u Du); rewrite <- E; destruct p; reflexivity).
  destruct m as [p|a|x|x p], n as [q|c|y|y q]; cbn [name_text]; intros E.
  - destruct p, q; try discriminate; reflexivity.
  - destruct p, c; discriminate.
  - destruct (Pl p y "" N). now rewrite append_nil.
  - destruct (Pl p y _ (pin_digitless q) E).
  - destruct a, q; discriminate.
  - destruct a, c; try discriminate; reflexivity.
  - destruct (Ax a y "" N). now rewrite append_nil.
  - destruct (Ax a y _ (pin_digitless q) E).
  - destruct (Pl q x "" N). now rewrite append_nil.
  - destruct (Ax c x "" N). now rewrite append_nil.
  - apply (whole_same _ _ "" "" N N). now rewrite !append_nil.
  - destruct (whole_same (ident x) (ident y) "" (pin_text q) N (pin_digitless q)) as [_ F]; [now rewrite append_nil|]. destruct q; discriminate.
  - destruct (Pl q x _ (pin_digitless p) (eq_sym E)).
  - destruct (Ax c x _ (pin_digitless p) (eq_sym E)).
  - destruct (whole_same (ident x) (ident y) (pin_text p) "" (pin_digitless p) N) as [_ F]; [now rewrite append_nil|]. destruct p; discriminate.
  - destruct (whole_same _ _ _ _ (pin_digitless p) (pin_digitless q) E) as [Ei Ep]. split; [exact Ei|now apply pin_same].
Qed.

(** ** Lines *)

(** Neither of the two. *)
Fixpoint tame (s : string) : bool :=
  match s with EmptyString => true | String c r => negb (Ascii.eqb c (ascii_of_nat 10)) && negb (Ascii.eqb c (ascii_of_nat 34)) && tame r end.
Lemma tame_app s t : tame (s ++ t) = tame s && tame t.
Proof. induction s as [|c s IH]; cbn; [reflexivity|]. rewrite IH. now rewrite andb_assoc. Qed.
Lemma digit_tame d : (0 <= d < 10)%Z -> Ascii.eqb (digit_char d) (ascii_of_nat 10) = false /\ Ascii.eqb (digit_char d) (ascii_of_nat 34) = false.
Proof.
  intros H. pose proof (digit_of_char d H) as D. split; [destruct (Ascii.eqb_spec (digit_char d) (ascii_of_nat 10))|destruct (Ascii.eqb_spec (digit_char d) (ascii_of_nat 34))]; try reflexivity; rewrite e in D; discriminate D.
Qed.
Lemma digits_tame fuel : forall n t, tame t = true -> tame (print_digits fuel n t) = true.
Proof.
  induction fuel as [|fuel IH]; intros n t F; cbn [print_digits]; (assert (D : (0 <= n mod 10 < 10)%Z) by (apply Z.mod_pos_bound; lia)); destruct (digit_tame _ D) as [D1 D2].
  - cbn [tame]. now rewrite D1, D2, F.
  - destruct (n / 10 =? 0)%Z; [|apply IH]; cbn [tame]; now rewrite D1, D2, F.
Qed.
Lemma padded_tame k : forall n t, tame t = true -> tame (print_padded k n t) = true.
Proof.
  induction k as [|k IH]; intros n t F; cbn [print_padded]; [assumption|]. assert (D : (0 <= n mod 10 < 10)%Z) by (apply Z.mod_pos_bound; lia). destruct (digit_tame _ D) as [D1 D2].
  apply IH. cbn [tame]. now rewrite D1, D2, F.
Qed.
Lemma whole_tame n : tame (whole_string n) = true.
Proof. unfold whole_string, print_whole. now apply digits_tame. Qed.
Lemma number_tame x : tame (to_string x) = true.
Proof.
  unfold to_string. assert (F : forall n, tame (print_whole (n / 1000000) (String "." (print_padded 6 (n mod 1000000) ""))) = true).
  { intros n. unfold print_whole. apply digits_tame. cbn [tame]. now rewrite padded_tame. }
  cbn zeta. destruct (Qltb x 0); [cbn [tame]|]; rewrite F; reflexivity.
Qed.

Lemma chars_app s t : chars (s ++ t) = (chars s ++ chars t)%list.
Proof. induction s as [|c s IH]; cbn; [reflexivity|now rewrite IH]. Qed.
Lemma tame_one_line s : tame s = true -> one_line s.
Proof.
  unfold one_line. induction s as [|c s IH]; cbn; [intros _ []|]. rewrite !andb_true_iff, !negb_true_iff. intros [[N _] T] [->|I]; [now rewrite Ascii.eqb_refl in N|exact (IH T I)].
Qed.
Lemma one_line_app s t : one_line s -> one_line t -> one_line (s ++ t).
Proof. unfold one_line. rewrite chars_app, in_app_iff. tauto. Qed.
Lemma lines_more s u : one_line s -> forall acc, lines_loop (s ++ String newline u) acc = (rev acc ++ chars s)%list :: lines_loop u [].
Proof.
  unfold one_line, newline. induction s as [|c s IH]; intros O acc; cbn [append lines_loop chars].
  - rewrite Ascii.eqb_refl. now rewrite app_nil_r.
  - cbn in O. destruct (Ascii.eqb_spec c (ascii_of_nat 10)) as [->|N]; [destruct O; now left|]. rewrite IH by tauto. cbn [rev]. now rewrite <- app_assoc.
Qed.
Lemma text_lines ident l : (forall s, In s l -> one_line (stmt_text ident s)) -> lines_of_text (text ident l) = map (fun s => chars (stmt_text ident s)) l.
Proof.
  unfold lines_of_text. induction l as [|s r IH]; intros O; [reflexivity|]. cbn [text map]. rewrite lines_more by (apply O; now left). f_equal. apply IH. intros t I. apply O. now right.
Qed.

Lemma until_found s t : unquoted s -> until_quote (chars s ++ ascii_of_nat 34 :: t)%list = Some (chars s, t).
Proof.
  unfold unquoted. induction s as [|c s IH]; intros U; cbn [chars app until_quote]; [now rewrite Ascii.eqb_refl|].
  cbn in U. destruct (Ascii.eqb_spec c (ascii_of_nat 34)) as [->|N]; [destruct U; now left|]. rewrite IH by tauto. reflexivity.
Qed.
Lemma label_read ident label n colour : unquoted label -> quoted (chars (stmt_text ident (Open label n colour))) = Some (chars label).
Proof.
  intros U. cbn [stmt_text]. rewrite !chars_app. unfold quoted. change (chars quote ++ chars label ++ chars quote ++ chars " as " ++ chars (name_text ident n) ++ chars colour ++ chars " {")%list
    with (ascii_of_nat 34 :: chars label ++ ascii_of_nat 34 :: chars " as " ++ chars (name_text ident n) ++ chars colour ++ chars " {")%list.
  rewrite until_found by (unfold unquoted; cbn; intuition discriminate). cbn [fst snd]. now rewrite until_found.
Qed.

Section Lines.
Context (ident : entity -> nat) (named : nat -> string) (srt : sort_by) (b : board) (k : links).
Context (O : forall i, i < List.length (b_polygons b) -> one_line (named i)).

Definition good_stmt (s : stmt) : Prop :=
  match s with
  | Open label _ colour => one_line label /\ tame colour = true
  | Field _ t => tame t = true
  | Arrow _ style _ rest => tame style = true /\ tame rest = true
  | _ => True
  end.
Lemma name_tame n : tame (name_text ident n) = true.
Proof.
  destruct n as [p|a|x|x q]; cbn; [destruct p; reflexivity|destruct a; reflexivity|apply whole_tame|]. rewrite tame_app, whole_tame. destruct q; cbn; try reflexivity. apply whole_tame.
Qed.
Lemma good_line s : good_stmt s -> one_line (stmt_text ident s).
Proof.
  destruct s as [| |label n colour|x q|x t|from style to rest|]; cbn [good_stmt stmt_text]; intros G.
  - now apply tame_one_line.
  - now apply tame_one_line.
  - destruct G as [G T]. assert (Q : one_line quote) by (unfold one_line; cbn; intuition discriminate).
    repeat apply one_line_app; auto; try (apply tame_one_line; first [reflexivity|exact T|apply name_tame]).
  - assert (Q : one_line quote) by (unfold one_line; cbn; intuition discriminate).
    repeat (apply one_line_app; [first [exact Q|apply tame_one_line; first [reflexivity|apply name_tame]]|]). apply tame_one_line. destruct q; reflexivity.
  - apply tame_one_line. rewrite !tame_app, G, name_tame. reflexivity.
  - destruct G as [A B]. apply tame_one_line. rewrite !tame_app, A, B, !name_tame. reflexivity.
  - now apply tame_one_line.
Qed.

Ltac words := rewrite ?tame_app; cbn [tame andb negb]; rewrite ?whole_tame, ?number_tame; try reflexivity.
Lemma edge_good i l : edge_lines b i = Done l -> Forall good_stmt l.
Proof.
  intros H. apply bind_done in H. destruct H as (e & _ & H). injection H as <-. repeat constructor; cbn [good_stmt].
  - now apply tame_one_line.
  - destruct (e_to_mesh e); [destruct (e_conflicts e)|]; reflexivity.
  - destruct (e_normal e); reflexivity.
  - destruct (e_to_mesh e); reflexivity.
Qed.
Lemma concat_good {A} (f : A -> run (list stmt)) l r : (forall x y, In x l -> f x = Done y -> Forall good_stmt y) -> collect f l = Done r -> Forall good_stmt (List.concat r).
Proof.
  intros G C. apply collect_each in C. induction C as [|x y l r E C IH]; [constructor|]. cbn. apply Forall_app. split; [exact (G x y (or_introl eq_refl) E)|]. apply IH. intros u v I. apply G. now right.
Qed.
Lemma polygon_good i l : polygon_lines named b i = Done l -> Forall good_stmt l.
Proof.
  intros H. unfold polygon_lines in H. apply bind_done in H. destruct H as (g & R & H). cbn zeta in H. apply bind_done in H. destruct H as (es & C & H). injection H as <-.
  constructor; [|constructor; [exact Logic.I|constructor]].
  - split; [|reflexivity]. apply (one_line_app "Polygon "); [now apply tame_one_line|]. apply O. apply read_some in R. now apply nth_lt in R.
  - cbn. destruct (detect_rotation _); reflexivity.
  - cbn [app]. apply Forall_app. split; [|repeat constructor]. apply (concat_good _ _ _ (fun x y _ => edge_good x y) C).
Qed.
Lemma colinear_good a i l : colinear_lines b a i = Done l -> Forall good_stmt l.
Proof.
  intros H. unfold colinear_lines in H. apply bind_done in H. destruct H as (c & _ & H). cbn zeta in H. apply bind_done in H. destruct H as (es & C & H). apply bind_done in H. destruct H as (so & So & H). injection H as <-.
  constructor; [split; [now apply tame_one_line|reflexivity]|]. constructor; [exact Logic.I|]. constructor; [exact Logic.I|]. cbn [app]. rewrite !Forall_app. split; [|split; [|repeat constructor]].
  - revert C. apply concat_good. intros j y _ E. apply bind_done in E. destruct E as (e & _ & E). injection E as <-. repeat constructor. cbn [good_stmt]. destruct (e_normal e), (e_to_mesh e); reflexivity.
  - destruct (ce_policy c) as [j|]; [|injection So as <-; constructor]. apply bind_done in So. destruct So as (p & _ & So). injection So as <-. repeat constructor; cbn [good_stmt]; [destruct (p_policy p)|destruct (p_normal p)]; reflexivity.
Qed.
Lemma in_polygon_good p i l : in_polygon_lines b p i = Done l -> Forall good_stmt l.
Proof.
  intros H. unfold in_polygon_lines in H. apply bind_done in H. destruct H as (c & _ & H). apply bind_done in H. destruct H as (e & _ & H). cbn zeta in H. injection H as <-.
  constructor; [split; [now apply tame_one_line|destruct (e_to_mesh e); reflexivity]|]. constructor; [exact Logic.I|]. constructor; [split; reflexivity|]. constructor; [split; [destruct (e_to_mesh e)|]; reflexivity|].
  cbn [app]. rewrite Forall_app. split; [|repeat constructor]. apply Forall_forall. intros s I. apply in_flat_map in I. destruct I as ((o & m) & _ & I). cbn [fst snd app In] in I. destruct I as [<-|[<-|I]]; [exact Logic.I|split; reflexivity|].
  apply in_map_iff in I. destruct I as (j & <- & _). split; reflexivity.
Qed.
Lemma close_good a i l : close_lines b a i = Done l -> Forall good_stmt l.
Proof.
  intros H. unfold close_lines in H. apply bind_done in H. destruct H as (c & _ & H). cbn zeta in H. injection H as <-. constructor; [split; [now apply tame_one_line|reflexivity]|]. constructor; [exact Logic.I|]. constructor; [exact Logic.I|].
  constructor; [split; reflexivity|]. constructor; [split; reflexivity|]. cbn [app]. rewrite Forall_app. split; [|repeat constructor]. apply Forall_forall. intros s I. apply in_map_iff in I. destruct I as (j & <- & _). split; reflexivity.
Qed.
Lemma policy_good a i l : policy_lines b k a i = Done l -> Forall good_stmt l.
Proof.
  intros H. unfold policy_lines in H. apply bind_done in H. destruct H as (p & _ & H). cbn zeta in H. injection H as <-. constructor; [split; [now apply tame_one_line|destruct (p_enabled p); reflexivity]|]. constructor; [exact Logic.I|]. constructor; [exact Logic.I|].
  constructor; [cbn; destruct (p_normal p); reflexivity|]. constructor; [cbn; destruct (p_enabled p); reflexivity|]. constructor; [cbn; destruct (p_policy p); reflexivity|]. constructor; [cbn [good_stmt]; words|].
  cbn [app]. rewrite Forall_app. split; [|repeat constructor]. destruct (lk_origins k a i) as [|[] [|]]; repeat constructor.
Qed.
Lemma interval_good a i l : interval_lines b a i = Done l -> Forall good_stmt l.
Proof.
  intros H. unfold interval_lines in H. apply bind_done in H. destruct H as (s & _ & H). cbn zeta in H. injection H as <-. constructor; [split; [now apply tame_one_line|reflexivity]|]. do 3 (constructor; [exact Logic.I|]).
  do 5 (constructor; [cbn [good_stmt]; words|]). do 2 (constructor; [split; reflexivity|]). repeat constructor.
Qed.
Lemma meshline_good a i l : meshline_lines b k a i = Done l -> Forall good_stmt l.
Proof.
  intros H. unfold meshline_lines in H. apply bind_done in H. destruct H as (c & _ & H). cbn zeta in H. injection H as <-. constructor; [split; [now apply tame_one_line|reflexivity]|]. constructor; [cbn [good_stmt]; words|].
  cbn [app]. rewrite !Forall_app. split; [|split; [|repeat constructor]]; apply Forall_forall; intros s I; apply in_map_iff in I; destruct I as (j & <- & _); split; reflexivity.
Qed.
Lemma document_good doc : plantuml named srt b k = Done doc -> Forall good_stmt doc.
Proof.
  intros H. unfold plantuml in H. apply bind_done in H. destruct H as (ps & P & H). apply bind_done in H. destruct H as (xs & X & H). injection H as <-. constructor; [exact Logic.I|]. cbn [app]. rewrite !Forall_app. split; [|split; [|repeat constructor]].
  - revert P. apply concat_good. intros p y _ E. unfold plane_lines in E. apply bind_done in E. destruct E as (gs & G & E). apply bind_done in E. destruct E as (cs & C & E). injection E as <-.
    constructor; [split; [apply tame_one_line; destruct p; reflexivity|reflexivity]|]. cbn [app]. rewrite !Forall_app. split; [|split; [|repeat constructor]].
    + exact (concat_good _ _ _ (fun x y _ => polygon_good x y) G).
    + exact (concat_good _ _ _ (fun x y _ => in_polygon_good p x y) C).
  - revert X. apply concat_good. intros a y _ E. unfold axis_lines in E. cbn zeta in E. apply bind_done in E. destruct E as (gs & G & E). apply bind_done in E. destruct E as (is & Iv & E). apply bind_done in E. destruct E as (ms & M & E).
    apply bind_done in E. destruct E as (cs & C & E). apply bind_done in E. destruct E as (ts & T & E). injection E as <-.
    constructor; [split; [apply tame_one_line; destruct a; reflexivity|reflexivity]|]. cbn [app]. rewrite !Forall_app. split; [|split; [|split; [|split; [|split; [|repeat constructor]]]]].
    + exact (concat_good _ _ _ (fun x y _ => policy_good a x y) G).
    + exact (concat_good _ _ _ (fun x y _ => interval_good a x y) Iv).
    + exact (concat_good _ _ _ (fun x y _ => meshline_good a x y) M).
    + exact (concat_good _ _ _ (fun x y _ => colinear_good a x y) C).
    + exact (concat_good _ _ _ (fun x y _ => close_good a x y) T).
Qed.
Lemma document_lines doc : plantuml named srt b k = Done doc -> lines_of_text (text ident doc) = map (fun s => chars (stmt_text ident s)) doc.
Proof. intros H. apply text_lines. intros s I. apply good_line. exact (proj1 (Forall_forall _ _) (document_good _ H) s I). Qed.
End Lines.
