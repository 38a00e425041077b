(** The document that is written, and what is read of it. *)
From Coq Require Import List Arith Bool QArith Qabs ZArith String Lia Lqa DecimalString DecimalNat.
From Verif Require Import IntervalModel IntervalProofs ManagerModel GeomModel GeomSpec GeomProofs.
From Verif Require Import BoardModel BoardSpec InfraModel InfraSpec InfraNumberProofs InfraProofs InfraFileProofs.
Import ListNotations.
Open Scope Q_scope.

(** ** Changing one child *)

Lemma named_app x l l' : named x (l ++ l') = named x l ++ named x l'.
Proof. apply filter_app. Qed.
Lemma named_cons x n l : named x (n :: l) = if String.eqb (name_of n) x then n :: named x l else named x l.
Proof. reflexivity. Qed.
Lemma named_hit x n l : name_of n = x -> named x (n :: l) = n :: named x l.
Proof. intros <-. rewrite named_cons. now rewrite String.eqb_refl. Qed.
Lemma named_miss x n l : name_of n <> x -> named x (n :: l) = named x l.
Proof. intros N. rewrite named_cons. apply String.eqb_neq in N. now rewrite N. Qed.

Lemma change_first_spec x f l :
  match change_first x f l with
  | Some r => exists l1 n l2, l = l1 ++ n :: l2 /\ name_of n = x /\ named x l1 = [] /\ r = l1 ++ f n :: l2
  | None => named x l = []
  end.
Proof.
  induction l as [|n l IH]; cbn [change_first]; [reflexivity|]. unfold is_named.
  destruct (String.eqb_spec (name_of n) x) as [E|E]; [now exists [], n, l|].
  destruct (change_first x f l) as [r|]; cbn [option_map].
  - destruct IH as (l1 & m & l2 & -> & M & N & ->). exists (n :: l1), m, l2. repeat split; try assumption. now rewrite named_miss.
  - now rewrite named_miss.
Qed.

Definition keeps_name (f : xml -> xml) : Prop := forall n, name_of (f n) = name_of n.

Lemma append_spec x f l :
  (exists l1 n l2, l = l1 ++ n :: l2 /\ name_of n = x /\ named x l1 = [] /\ find_or_append x f l = l1 ++ f n :: l2)
  \/ named x l = [] /\ find_or_append x f l = l ++ [f (Node x [] "" [])].
Proof.
  unfold find_or_append. pose proof (change_first_spec x f l) as C. destruct (change_first x f l); [left|right; now split].
  destruct C as (l1 & n & l2 & E & N & M & ->). exists l1, n, l2. now repeat split.
Qed.
Lemma prepend_spec x f l :
  (exists l1 n l2, l = l1 ++ n :: l2 /\ name_of n = x /\ named x l1 = [] /\ find_or_prepend x f l = l1 ++ f n :: l2)
  \/ named x l = [] /\ find_or_prepend x f l = f (Node x [] "" []) :: l.
Proof.
  unfold find_or_prepend. pose proof (change_first_spec x f l) as C. destruct (change_first x f l); [left|right; now split].
  destruct C as (l1 & n & l2 & E & N & M & ->). exists l1, n, l2. now repeat split.
Qed.

Lemma append_other x y f l : keeps_name f -> x <> y -> named y (find_or_append x f l) = named y l.
Proof.
  intros K N. destruct (append_spec x f l) as [(l1 & n & l2 & -> & E & _ & ->)|(_ & ->)]; rewrite !named_app.
  - rewrite !named_miss; [reflexivity|congruence|rewrite K; congruence].
  - rewrite (named_miss y (f _)); [apply app_nil_r|rewrite K; exact N].
Qed.
Lemma prepend_other x y f l : keeps_name f -> x <> y -> named y (find_or_prepend x f l) = named y l.
Proof.
  intros K N. destruct (prepend_spec x f l) as [(l1 & n & l2 & -> & E & _ & ->)|(_ & ->)]; rewrite ?named_app.
  - rewrite !named_miss; [reflexivity|congruence|rewrite K; congruence].
  - now rewrite named_miss by (rewrite K; exact N).
Qed.
Lemma append_same x f l n : keeps_name f -> hd_error (named x l) = Some n ->
  exists r, named x l = n :: r /\ named x (find_or_append x f l) = f n :: r.
Proof.
  intros K H. destruct (append_spec x f l) as [(l1 & m & l2 & -> & E & N & ->)|(N & _)].
  - rewrite named_app, N in H |- *. rewrite named_app, N. cbn [app] in *. rewrite named_hit in H |- * by assumption. injection H as ->.
    rewrite named_hit by (now rewrite K). now exists (named x l2).
  - rewrite N in H. discriminate.
Qed.
Lemma append_hd x f l : keeps_name f -> hd_error (named x (find_or_append x f l)) = Some (f (match hd_error (named x l) with Some n => n | None => Node x [] "" [] end)).
Proof.
  intros K. destruct (append_spec x f l) as [(l1 & m & l2 & -> & E & N & ->)|(N & ->)].
  - rewrite !named_app, N. cbn [app]. now rewrite !named_hit by (rewrite ?K; assumption).
  - rewrite named_app, N. cbn [app]. now rewrite named_hit by now rewrite K.
Qed.
Lemma prepend_hd x f l : keeps_name f -> hd_error (named x (find_or_prepend x f l)) = Some (f (match hd_error (named x l) with Some n => n | None => Node x [] "" [] end)).
Proof.
  intros K. destruct (prepend_spec x f l) as [(l1 & m & l2 & -> & E & N & ->)|(N & ->)].
  - rewrite !named_app, N. cbn [app]. now rewrite !named_hit by (rewrite ?K; assumption).
  - rewrite N. now rewrite named_hit by now rewrite K.
Qed.

Lemma remove_other x y l : x <> y -> named y (remove_first x l) = named y l.
Proof.
  intros N. induction l as [|n l IH]; cbn [remove_first]; [reflexivity|]. unfold is_named.
  destruct (String.eqb_spec (name_of n) x) as [E|E]; [now rewrite named_miss by congruence|]. now rewrite !named_cons, IH.
Qed.

Lemma on_children_name f : keeps_name (on_children f). Proof. now intros []. Qed.
Lemma write_grid_name sp axes : keeps_name (write_grid sp axes). Proof. now intros []. Qed.

(** ** The grid *)

Lemma grid_named sp axes csx : child "RectilinearGrid" (write_grid sp axes csx) =
  let grid := match hd_error (named "RectilinearGrid" (children_of csx)) with Some n => n | None => Node "RectilinearGrid" [] "" [] end in
  Node (name_of grid) (attributes_of grid) "" (grid_children sp axes).
Proof.
  unfold child, write_grid, on_children. cbn [children_of].
  rewrite append_hd; [reflexivity|now intros n].
Qed.
Lemma grid_other sp axes csx x : x <> "RectilinearGrid"%string -> child x (write_grid sp axes csx) = child x csx.
Proof. intros N. unfold child, write_grid, on_children. cbn [children_of]. rewrite append_other; [reflexivity|now intros n|congruence]. Qed.

Lemma grid_texts sp axes csx ax : exists vs,
  map from_chars (axis_texts (child "RectilinearGrid" (write_grid sp axes csx)) ax) = map Some vs
  /\ Forall2 (fun x v => v == written x) (to_write sp axes ax) vs.
Proof.
  rewrite grid_named. cbv zeta. unfold axis_texts, child_value, child. cbn [children_of]. unfold to_write, grid_children.
  assert (Nil : exists vs, map from_chars (split "") = map Some vs /\ Forall2 (fun x v => v == written x) [] vs) by (exists []; split; [reflexivity|constructor]).
  assert (One : forall l, exists vs, map from_chars (split (join (map to_string l))) = map Some vs /\ Forall2 (fun x v => v == written x) l vs).
  { intros l. rewrite split_join.
    2: { intros t I. apply in_map_iff in I as (x & <- & _). split; [apply to_string_free|apply to_string_filled]. }
    induction l as [|x l (vs & E & F)]; [exists []; split; [reflexivity|constructor]|].
    destruct (from_chars_to_string x) as (v & Ev & W). exists (v :: vs). cbn [map]. rewrite Ev, E. split; [reflexivity|now constructor]. }
  destruct ax; cbn [with_axis lines_name]; destruct (with_axis_x sp), (with_axis_y sp), (with_axis_z sp); first [exact Nil|apply One].
Qed.

(** ** The document *)

Lemma select_two x y doc : select [x; y] doc = named y (flat_map children_of (named x doc)). Proof. reflexivity. Qed.
Lemma select_three x y z doc : select [x; y; z] doc = named z (flat_map children_of (named y (flat_map children_of (named x doc)))). Proof. reflexivity. Qed.

Lemma select_third x y z doc : select [x; y; z] doc = named z (flat_map children_of (select [x; y] doc)). Proof. reflexivity. Qed.

Lemma path_of_tops doc doc' : named "openEMS" doc' = named "openEMS" doc -> named "ContinuousStructure" doc' = named "ContinuousStructure" doc ->
  (forall csx, structure doc' csx <-> structure doc csx) /\ properties_of doc' = properties_of doc.
Proof.
  intros O C. split.
  - intros csx. unfold structure. rewrite !select_two, O. change (select ["ContinuousStructure"]%string doc') with (named "ContinuousStructure" doc').
    change (select ["ContinuousStructure"]%string doc) with (named "ContinuousStructure" doc). rewrite C. reflexivity.
  - unfold properties_of, path_of. rewrite !select_two, O.
    destruct (named "ContinuousStructure" (flat_map children_of (named "openEMS" doc))) as [|n l].
    + cbn [app]. rewrite !select_two, C. reflexivity.
    + cbn [app]. rewrite !select_three, O. reflexivity.
Qed.

Definition place_lines (sp : serializer_params) (axes : space axis) (doc : list xml) : list xml :=
  match select ["ContinuousStructure"]%string doc with
  | _ :: _ => find_or_append "ContinuousStructure" (write_grid sp axes) doc
  | [] => find_or_append "openEMS" (on_children (find_or_append "ContinuousStructure" (write_grid sp axes))) doc
  end.

Lemma serialize_tops show show_uint sp d axes doc x : x <> "OpenEMSH"%string ->
  named x (serialize show show_uint sp d axes doc) = named x (place_lines sp axes doc).
Proof.
  intros N. unfold serialize. fold (place_lines sp axes doc). destruct (with_oemsh_params sp).
  - apply prepend_other; [apply on_children_name|congruence].
  - apply remove_other. congruence.
Qed.

Lemma properties_grid sp axes csx : named "Properties" (children_of (write_grid sp axes csx)) = named "Properties" (children_of csx).
Proof. unfold write_grid, on_children. cbn [children_of]. apply append_other; [now intros n|discriminate]. Qed.

Lemma place_structure sp axes doc csx : one_place doc csx ->
  structure doc csx /\ structure (place_lines sp axes doc) (write_grid sp axes csx) /\ properties_of (place_lines sp axes doc) = properties_of doc.
Proof.
  intros [(N & o & O & C)|(N & C)].
  - set (f := on_children (find_or_append "ContinuousStructure" (write_grid sp axes))).
    assert (E : place_lines sp axes doc = find_or_append "openEMS" f doc).
    { unfold place_lines. change (select ["ContinuousStructure"]%string doc) with (named "ContinuousStructure" doc). now rewrite N. }
    destruct (append_same "openEMS" f doc o (on_children_name _) O) as (r & Er & Er').
    destruct (append_same "ContinuousStructure" (write_grid sp axes) (children_of o) csx (write_grid_name _ _) C) as (k & Ek & Ek').
    rewrite E. set (doc' := find_or_append "openEMS" f doc) in *.
    assert (S : select ["openEMS"; "ContinuousStructure"]%string doc = csx :: k ++ named "ContinuousStructure" (flat_map children_of r)).
    { rewrite select_two, Er. cbn [flat_map]. now rewrite named_app, Ek. }
    assert (S' : select ["openEMS"; "ContinuousStructure"]%string doc' = write_grid sp axes csx :: k ++ named "ContinuousStructure" (flat_map children_of r)).
    { rewrite select_two, Er'. cbn [flat_map]. rewrite named_app. unfold f at 1. cbn [on_children children_of]. now rewrite Ek'. }
    split; [left; now rewrite S|]. split; [left; now rewrite S'|].
    unfold properties_of, path_of. rewrite S, S'. cbn [app]. rewrite !select_third, S, S'. cbn [flat_map].
    rewrite !named_app. now rewrite properties_grid.
  - assert (E : place_lines sp axes doc = find_or_append "ContinuousStructure" (write_grid sp axes) doc).
    { unfold place_lines. change (select ["ContinuousStructure"]%string doc) with (named "ContinuousStructure" doc). destruct (named "ContinuousStructure" doc); [discriminate|reflexivity]. }
    destruct (append_same "ContinuousStructure" (write_grid sp axes) doc csx (write_grid_name _ _) C) as (k & Ek & Ek').
    rewrite E. set (doc' := find_or_append "ContinuousStructure" (write_grid sp axes) doc) in *.
    assert (S' : select ["openEMS"; "ContinuousStructure"]%string doc' = []).
    { rewrite <- N, !select_two. unfold doc'. rewrite append_other; [reflexivity|apply write_grid_name|discriminate]. }
    split; [right; split; assumption|]. split.
    + right. split; [assumption|]. change (select ["ContinuousStructure"]%string doc') with (named "ContinuousStructure" doc'). now rewrite Ek'.
    + unfold properties_of, path_of. rewrite N, S'. cbn [app]. rewrite !select_two, Ek, Ek'. cbn [flat_map]. rewrite !named_app. now rewrite properties_grid.
Qed.

Lemma serialize_structure show show_uint sp d axes doc csx : one_place doc csx ->
  structure doc csx /\ structure (serialize show show_uint sp d axes doc) (write_grid sp axes csx)
  /\ properties_of (serialize show show_uint sp d axes doc) = properties_of doc.
Proof.
  intros P. destruct (place_structure sp axes doc csx P) as (A & B & C).
  destruct (path_of_tops (place_lines sp axes doc) (serialize show show_uint sp d axes doc)) as [S Q];
    [apply serialize_tops; discriminate..|]. split; [assumption|]. split; [now apply S|congruence].
Qed.

(** ** Reading what was written *)

Lemma reads_exist unit texts vs : map from_chars texts = map Some vs -> reads unit texts (map (fun v => inject_Z (Z.of_nat unit) * v) vs).
Proof.
  revert vs. induction texts as [|t l IH]; intros [|v vs] E; try discriminate; [constructor|]. injection E as Et E. constructor; [eauto|now apply IH].
Qed.
Lemma reads_unique unit texts xs ys : reads unit texts xs -> reads unit texts ys -> xs = ys.
Proof.
  intros X. revert ys. induction X as [|t x l xs (v & E & ->) X IH]; intros ys Y; inversion Y as [|? y ? ys' (w & E' & ->) Y']; subst; [reflexivity|].
  f_equal; [congruence|now apply IH].
Qed.

Lemma parse_written uint_max size_max circle yz zx xy show show_uint sp d axes doc csx s :
  one_place doc csx -> attribute "DeltaUnit" csx = None ->
  parse uint_max size_max circle (mk_parser_params yz zx xy false false) doc = Done (Some s) ->
  exists s', parse uint_max size_max circle (mk_parser_params yz zx xy false true) (serialize show show_uint sp d axes doc) = Done (Some s')
    /\ bd_board s' = bd_board s
    /\ forall ax, exists ws, on_axis (bd_fixed s') ax = ws ++ on_axis (bd_fixed s) ax /\ Forall2 (fun x w => w == written x) (to_write sp axes ax) ws.
Proof.
  intros P U E. destruct (serialize_structure show show_uint sp d axes doc csx P) as (S & S' & Pr).
  set (doc' := serialize show show_uint sp d axes doc) in *. clearbody doc'.
  destruct (parse_unfold uint_max size_max circle (mk_parser_params yz zx xy false false) doc csx S) as (_ & E1). rewrite E in E1. clear E.
  destruct (parse_unfold uint_max size_max circle (mk_parser_params yz zx xy false true) doc' _ S') as (_ & E2). rewrite E2. clear E2.
  cbn [read_oemsh_params] in *. rewrite Pr.
  rewrite (grid_other sp axes csx "BackgroundMaterial") by discriminate.
  destruct (parse_grid uint_max (mk_parser_params yz zx xy false false) csx new_builder) as [s2|] eqn:G; [|discriminate].
  assert (G' : exists s2', parse_grid uint_max (mk_parser_params yz zx xy false true) (write_grid sp axes csx) new_builder = Some s2').
  { unfold parse_grid in G |- *. cbn [keep_old_mesh] in *.
    assert (A : as_uint uint_max "CoordSystem" 0 (write_grid sp axes csx) = as_uint uint_max "CoordSystem" 0 csx) by reflexivity.
    rewrite A. destruct (Nat.eqb _ 0); [|discriminate]. cbv zeta.
    match goal with |- exists s2', ?a = Some s2' => destruct a as [s2'|] eqn:K; [eauto|] end. exfalso.
    apply parse_axes_fails in K as (ax & t & I & F). destruct (grid_texts sp axes csx ax) as (vs & M & _).
    apply (in_map from_chars) in I. rewrite M, F in I. apply in_map_iff in I as (v & V & _). discriminate. }
  destruct G' as (s2' & G'). rewrite G'.
  apply parse_grid_some in G as (B & _ & l & L). apply parse_grid_some in G' as (B' & _ & l' & L').
  rewrite (before_primitives s2) in E1 by (rewrite B; reflexivity). rewrite (before_primitives s2') by (rewrite B'; reflexivity).
  rewrite natural_properties in E1 |- *.
  rewrite (same_planes uint_max size_max circle (mk_parser_params yz zx xy false true) (mk_parser_params yz zx xy false false)) by reflexivity.
  destruct (parse_properties uint_max size_max circle _ (properties_of doc) new_builder) as [s0| |]; try discriminate.
  cbn in E1. injection E1 as ->. eexists. split; [reflexivity|]. split; [reflexivity|]. intros ax.
  destruct (grid_texts sp axes csx ax) as (vs & M & W).
  destruct (L' ax) as [L1 L2]. cbn [keep_old_mesh] in L2.
  assert (Un : as_uint uint_max "DeltaUnit" 1 (write_grid sp axes csx) = 1%nat) by (unfold as_uint; change (attribute "DeltaUnit" (write_grid sp axes csx)) with (attribute "DeltaUnit" csx); now rewrite U).
  rewrite Un in L2. pose proof (reads_unique _ _ _ _ L2 (reads_exist 1 _ _ M)) as R.
  exists (l' ax). split.
  - destruct (L ax) as [K1 K2]. cbn [keep_old_mesh] in K2. rewrite K2 in K1. destruct ax; cbn; cbn in K1, L1; now rewrite K1, L1.
  - rewrite R. clear -W. induction W as [|x v l vs H W IH]; constructor; [|assumption]. rewrite H. change (inject_Z (Z.of_nat 1)) with 1. ring.
Qed.

(** ** Parameters *)

Lemma parse_grid_has uint_max pp csx s s' : parse_grid uint_max pp csx s = Some s' ->
  (has_grid_already (bd_params s') = true <-> exists ax, axis_texts (child "RectilinearGrid" csx) ax <> []).
Proof.
  assert (K : forall t, negb (String.eqb t "") = true <-> split t <> []).
  { intros t. destruct t as [|c r]; [now split|]. cbn [String.eqb negb]. unfold split. split; [intros _|reflexivity].
    assert (L : forall r p, split_loop r p <> []); [|apply L]. clear. induction r as [|c r IH]; intros p; cbn; [discriminate|]. destruct (Ascii.eqb c _); [discriminate|apply IH]. }
  assert (H : existsb (fun x => negb (String.eqb (child_value x (child "RectilinearGrid" csx)) "")) ["XLines"; "YLines"; "ZLines"]%string = true
    <-> exists ax, axis_texts (child "RectilinearGrid" csx) ax <> []).
  { rewrite existsb_exists. split.
    - intros (x & [<-|[<-|[<-|[]]]] & E); apply K in E; [now exists AX|now exists AY|now exists AZ].
    - intros (ax & E). apply K in E. exists (lines_name ax). split; [|exact E]. destruct ax; cbn; auto. }
  unfold parse_grid. destruct (Nat.eqb _ 0); [|discriminate]. destruct (keep_old_mesh pp).
  - intros E. apply parse_axes_adds in E as (_ & P & _). now rewrite P.
  - intros E. injection E as <-. exact H.
Qed.

Lemma parse_params uint_max size_max circle pp doc s : (forall c r, circle c r <> []) -> parse uint_max size_max circle pp doc = Done (Some s) ->
  params_of (bd_params s) =
    (if read_oemsh_params pp
     then let g := child "GlobalParams" (or_null (hd_error (select ["OpenEMSH"]%string doc))) in
          mk_params (as_double "ProximityLimit" 1 g) (as_double "Smoothness" 2 g) (as_uint uint_max "lmin" 2 g) (as_double "dmax" (5 # 2) g)
     else mk_params 1 2 2 (5 # 2))
  /\ diag_params_of (bd_params s) = mk_diag_params (1 # 5) 20 /\ diagonal_lmin (bd_params s) = 2%nat /\ input_fixed (bd_params s) = []
  /\ forall csx, structure doc csx -> (has_grid_already (bd_params s) = true <-> exists ax, axis_texts (child "RectilinearGrid" csx) ax <> []).
Proof.
  intros C E. destruct (structure_dec doc) as [(csx & S)|N]; [|rewrite (no_structure _ _ _ _ _ N) in E; discriminate].
  destruct (parse_unfold uint_max size_max circle pp doc csx S) as (H & U). rewrite U in E. clear U.
  destruct (if read_oemsh_params pp then parse_oemsh _ _ _ else _) as [s1|] eqn:E1; [|discriminate].
  destruct (parse_grid uint_max pp csx s1) as [s2|] eqn:E2; [|discriminate]. pose proof (parse_grid_has _ _ _ _ _ E2) as Hg.
  apply parse_grid_some in E2 as (_ & (P2 & D2 & L2 & I2) & _).
  destruct (properties_outcome uint_max size_max circle pp (properties_of doc) C (set_background (parse_property (child "BackgroundMaterial" csx)) s2))
    as [K|(s' & gs & lines & K & D & F)]; rewrite K in E; [discriminate|]. cbn in E. injection E as <-.
  destruct D as (P3 & _). rewrite P3. cbn [set_background bd_params]. rewrite P2, D2, L2, I2.
  assert (Hc : forall c, structure doc c -> has_grid_already (bd_params s2) = true <-> exists ax, axis_texts (child "RectilinearGrid" c) ax <> [])
    by (intros c Sc; now rewrite <- (structure_unique _ _ _ S Sc)).
  destruct (read_oemsh_params pp).
  - unfold parse_oemsh in E1. apply parse_axes_adds in E1 as (_ & P1 & _). rewrite P1. now do 4 (split; [reflexivity|]).
  - injection E1 as <-. now do 4 (split; [reflexivity|]).
Qed.

(** ** Options of the command line *)

Lemma settles_cons {A} (says : setting -> option A) x l before now :
  settles says l (match says x with Some a => a | None => before end) now -> settles says (x :: l) before now.
Proof.
  intros [(l1 & y & l2 & -> & H)|(-> & N)]; [left; now exists (x :: l1), y, l2|]. destruct (says x) eqn:E.
  - left. now exists [], x, l.
  - right. split; [reflexivity|]. intros y [<-|I]; [assumption|now apply N].
Qed.
Lemma override_settles {A} (field : domain_params -> A) (says : setting -> option A) :
  (forall d x, field (apply_setting d x) = match says x with Some a => a | None => field d end) ->
  forall l d, settles says l (field d) (field (override_from_cli l d)).
Proof.
  intros H l. induction l as [|x l IH]; intros d; [right; split; [reflexivity|intros y []]|].
  apply settles_cons. rewrite <- H. apply IH.
Qed.
Lemma override_has l : forall d, has_grid_already (override_from_cli l d) = has_grid_already d.
Proof. induction l as [|x l IH]; intros d; [reflexivity|]. cbn. unfold override_from_cli in IH. rewrite IH. now destruct d, x. Qed.

Lemma add_all l : forall s, let s' := fold_left (fun s x => add_fixed (fst x) (snd x) s) l s in
  bd_board s' = bd_board s /\ bd_params s' = bd_params s /\ forall ax, on_axis (bd_fixed s') ax = on_axis (bd_fixed s) ax ++ lines_on ax l.
Proof.
  induction l as [|[a x] l IH]; intros s; cbv zeta; [split; [reflexivity|split; [reflexivity|intros ax; now rewrite app_nil_r]]|].
  cbn [fold_left fst snd]. destruct (IH (add_fixed a x s)) as (B & P & F). split; [exact B|]. split; [exact P|].
  intros ax. rewrite F. cbn [lines_on flat_map fst snd]. unfold add_fixed. cbn [bd_fixed]. fold (lines_on ax l).
  destruct a, ax; cbn; now rewrite <- ?app_assoc.
Qed.

(** ** What writing leaves as it is *)

Lemma append_map {A : Type} (h : xml -> A) (p : xml -> bool) x f l n :
  hd_error (named x l) = Some n -> h (f n) = h n -> p (f n) = p n ->
  map h (filter p (find_or_append x f l)) = map h (filter p l).
Proof.
  intros N H1 H2. destruct (append_spec x f l) as [(l1 & m & l2 & -> & E & K & ->)|(K & _)]; [|rewrite K in N; discriminate].
  rewrite named_app, K in N. cbn [app] in N. rewrite named_hit in N by assumption. injection N as ->.
  rewrite !filter_app, !map_app. f_equal. cbn [filter]. rewrite H2. destruct (p n); cbn [map]; now rewrite ?H1.
Qed.
Lemma filter_true {A : Type} (l : list A) : filter (fun _ => true) l = l.
Proof. induction l as [|x l IH]; cbn; congruence. Qed.
Lemma append_map_all {A : Type} (h : xml -> A) x f l n :
  hd_error (named x l) = Some n -> h (f n) = h n -> map h (find_or_append x f l) = map h l.
Proof.
  intros N H. pose proof (append_map h (fun _ => true) x f l n N H eq_refl) as K. now rewrite !filter_true in K.
Qed.
Lemma hd_named x l n : hd_error (named x l) = Some n -> name_of n = x.
Proof. intros H. destruct (named x l) as [|m r] eqn:E; [discriminate|]. injection H as ->. apply (named_in x n l). rewrite E. now left. Qed.

Lemma write_grid_frame sp axes csx grid : name_of csx = "ContinuousStructure"%string -> hd_error (named "RectilinearGrid" (children_of csx)) = Some grid ->
  without_grid (write_grid sp axes csx) = without_grid csx.
Proof.
  intros N G. unfold without_grid, is_named. rewrite write_grid_name, N, String.eqb_refl. pose proof (hd_named _ _ _ G) as E.
  f_equal; [exact N|]. unfold write_grid, on_children. cbn [children_of]. apply (append_map_all _ _ _ _ grid G).
  unfold without_lines, is_named. cbn [name_of attributes_of]. now rewrite E.
Qed.

Lemma serialize_frame show show_uint sp d axes doc csx grid : one_place doc csx ->
  hd_error (named "RectilinearGrid" (children_of csx)) = Some grid ->
  without_mesh (serialize show show_uint sp d axes doc) = without_mesh doc.
Proof.
  intros P G.
  assert (E : without_mesh (serialize show show_uint sp d axes doc) = without_mesh (place_lines sp axes doc)).
  { unfold without_mesh. f_equal. unfold serialize. fold (place_lines sp axes doc). generalize (place_lines sp axes doc) as l. intros l.
    destruct (with_oemsh_params sp).
    - destruct (prepend_spec "OpenEMSH" (on_children (find_or_append "GlobalParams" (global_node show show_uint d))) l) as [(l1 & n & l2 & -> & E & _ & ->)|(_ & ->)];
      rewrite ?filter_app; cbn [filter]; unfold is_named; rewrite on_children_name.
      + now rewrite E.
      + reflexivity.
    - induction l as [|n l IH]; cbn [remove_first]; [reflexivity|]. destruct (is_named "OpenEMSH" n) eqn:K; cbn [filter]; rewrite K; cbn [negb]; [reflexivity|].
      now rewrite IH. }
  rewrite E. unfold without_mesh. destruct P as [(N & o & O & C)|(N & C)].
  - unfold place_lines. change (select ["ContinuousStructure"]%string doc) with (named "ContinuousStructure" doc). rewrite N.
    pose proof (hd_named _ _ _ O) as No. pose proof (hd_named _ _ _ C) as Nc.
    apply (append_map _ _ _ _ _ o O); unfold is_named; rewrite on_children_name, No; [|reflexivity].
    cbn [on_children attributes_of text_of children_of name_of]. change (("openEMS" =? "openEMS")%string) with true. cbv iota. f_equal. apply (append_map_all _ _ _ _ csx C).
    now apply (write_grid_frame sp axes csx grid).
  - unfold place_lines. change (select ["ContinuousStructure"]%string doc) with (named "ContinuousStructure" doc).
    pose proof (hd_named _ _ _ C) as Nc.
    destruct (named "ContinuousStructure" doc) as [|x r] eqn:K; [discriminate|]. rewrite <- K in C.
    apply (append_map _ _ _ _ _ csx C); unfold is_named; rewrite write_grid_name, Nc; [|reflexivity].
    change (("ContinuousStructure" =? "openEMS")%string) with false. cbv iota. now apply (write_grid_frame sp axes csx grid).
Qed.

(** The parameters as they are written and read. *)
Lemma serialize_global show show_uint sp d axes doc : with_oemsh_params sp = true ->
  let n := or_null (hd_error (select ["OpenEMSH"]%string doc)) in
  let n' := or_null (hd_error (select ["OpenEMSH"]%string (serialize show show_uint sp d axes doc))) in
  attributes_of (child "GlobalParams" n') = [("ProximityLimit", show (proximity_limit d)); ("Smoothness", show (smoothness d));
    ("dmax", show (dmax d)); ("lmin", show_uint (lmin d))]%string
  /\ child "FixedMeshlines" n' = child "FixedMeshlines" n.
Proof.
  intros W n n'. unfold n', n, serialize. fold (place_lines sp axes doc). rewrite W.
  change (select ["OpenEMSH"]%string ?l) with (named "OpenEMSH" l).
  rewrite prepend_hd by apply on_children_name.
  assert (P : named "OpenEMSH" (place_lines sp axes doc) = named "OpenEMSH" doc).
  { unfold place_lines. clear n n'. destruct (select ["ContinuousStructure"]%string doc); apply append_other; try discriminate; [apply on_children_name|apply write_grid_name]. }
  rewrite P. set (o := match hd_error (named "OpenEMSH" doc) with Some n => n | None => _ end). cbn [or_null].
  assert (O : child "FixedMeshlines" o = child "FixedMeshlines" (or_null (hd_error (named "OpenEMSH" doc)))).
  { unfold o. now destruct (hd_error (named "OpenEMSH" doc)). }
  rewrite <- O. clearbody o. unfold child, on_children. cbn [children_of].
  assert (K : keeps_name (global_node show show_uint d)) by now intros x.
  rewrite append_hd by assumption. split; [reflexivity|]. now rewrite append_other by (try assumption; discriminate).
Qed.

Lemma serialize_params_frame show show_uint sp d axes doc o g : with_oemsh_params sp = true ->
  hd_error (named "OpenEMSH" doc) = Some o -> hd_error (named "GlobalParams" (children_of o)) = Some g ->
  without_params (serialize show show_uint sp d axes doc) = without_params doc.
Proof.
  intros W O G. unfold serialize. fold (place_lines sp axes doc). rewrite W.
  assert (P : named "OpenEMSH" (place_lines sp axes doc) = named "OpenEMSH" doc).
  { unfold place_lines. destruct (select ["ContinuousStructure"]%string doc); apply append_other; try discriminate; [apply on_children_name|apply write_grid_name]. }
  unfold without_params. rewrite <- P in O |- *. clear P. set (l := place_lines sp axes doc) in *. clearbody l.
  destruct (prepend_spec "OpenEMSH" (on_children (find_or_append "GlobalParams" (global_node show show_uint d))) l)
    as [(l1 & n & l2 & -> & E & K & ->)|(K & _)]; [|rewrite K in O; discriminate].
  rewrite named_app, K in O. rewrite !named_app, K. cbn [app] in *.
  rewrite named_hit in O |- * by assumption. injection O as ->. rewrite (named_hit _ o) by assumption. cbn [map]. f_equal.
  cbn [on_children name_of attributes_of text_of children_of]. f_equal. apply (append_map_all _ _ _ _ g G).
  pose proof (hd_named _ _ _ G) as N. unfold without_values, is_named. cbn [global_node name_of]. now rewrite N.
Qed.

Lemma serialize_other show show_uint sp d axes doc : named "ContinuousStructure" doc <> [] ->
  named "openEMS" (serialize show show_uint sp d axes doc) = named "openEMS" doc.
Proof.
  intros N. rewrite serialize_tops by discriminate. unfold place_lines. change (select ["ContinuousStructure"]%string doc) with (named "ContinuousStructure" doc).
  destruct (named "ContinuousStructure" doc) eqn:E; [contradiction|]. apply append_other; [apply write_grid_name|discriminate].
Qed.

Lemma remove_only x l n : named x l = [n] -> named x (remove_first x l) = [].
Proof.
  induction l as [|m l IH]; [discriminate|]. intros H. cbn [remove_first]. change (named x (m :: l)) with (if is_named x m then m :: named x l else named x l) in H.
  destruct (is_named x m) eqn:E; [congruence|]. change (named x (m :: remove_first x l)) with (if is_named x m then m :: named x (remove_first x l) else named x (remove_first x l)).
  rewrite E. now apply IH.
Qed.

Lemma parse_other uint_max size_max circle pp show show_uint sp d axes doc : read_oemsh_params pp = false ->
  select ["openEMS"; "ContinuousStructure"]%string doc <> [] -> named "ContinuousStructure" doc <> [] ->
  parse uint_max size_max circle pp (serialize show show_uint sp d axes doc) = parse uint_max size_max circle pp doc.
Proof.
  intros R A B. pose proof (serialize_other show show_uint sp d axes doc B) as O. set (doc' := serialize show show_uint sp d axes doc) in *. clearbody doc'.
  destruct (select ["openEMS"; "ContinuousStructure"]%string doc) as [|csx r] eqn:E; [contradiction|].
  assert (E' : select ["openEMS"; "ContinuousStructure"]%string doc' = csx :: r) by (rewrite <- E, !select_two; now rewrite O).
  assert (S : structure doc csx) by (left; now rewrite E). assert (S' : structure doc' csx) by (left; now rewrite E').
  destruct (parse_unfold uint_max size_max circle pp doc csx S) as (_ & ->). destruct (parse_unfold uint_max size_max circle pp doc' csx S') as (_ & ->).
  rewrite R. replace (properties_of doc') with (properties_of doc); [reflexivity|]. unfold properties_of, path_of. rewrite E, E'.
  cbn [app]. rewrite !select_third. now rewrite E, E'.
Qed.
