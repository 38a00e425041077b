(** The words used to state the properties of the policies, intervals and lines of
    an axis.  No proofs in this file. *)
From Coq Require Import List Arith QArith Qabs Sorting.Sorted Sorting.Permutation.
From Verif Require Import IntervalModel IntervalSpec ManagerModel.
Import ListNotations.
Open Scope Q_scope.

(** What is expected of std::sort. *)
Definition sorts (srt : sorter) : Prop :=
  forall A (key : A -> Q) l, Permutation l (srt A key l) /\ StronglySorted (fun x y => key x <= key y) (srt A key l).

(** A computation ends with [r]: with enough fuel, and any more, it gives [r]. *)
Definition finishes {A : Type} (f : nat -> run A) (r : A) : Prop :=
  exists n, forall m, (n <= m)%nat -> f m = Done r.

(** A computation never ends. *)
Definition loops {A : Type} (f : nat -> run A) : Prop := forall n, f n = Running.

(** The policy at address [i] is [p]. *)
Definition policy_at (ax : axis) (i : nat) (p : mlp) : Prop := nth_error (ax_policies ax) i = Some p.

(** The policy at address [i] is [p], and it is enabled. *)
Definition enabled_at (ax : axis) (i : nat) (p : mlp) : Prop := policy_at ax i p /\ p_enabled p = true.

Definition enabled_count (ax : axis) : nat := length (filter p_enabled (ax_policies ax)).

(** THIRDS goes with a direction, the others with none. *)
Definition consistent (p : mlp) : Prop := p_policy p = THIRDS <-> p_normal p <> NNONE.

Definition all_consistent (ax : axis) : Prop := Forall consistent (ax_policies ax).

Definition gap (p q : mlp) : Q := Qabs (p_coord p - p_coord q).

(** Some conflict of the axis is about the policy at address [i]. *)
Definition conflicting (ax : axis) (i : nat) : Prop :=
  exists c, In c (ax_conflicts ax) /\ (tc_a c = i \/ tc_b c = i).

(** No enabled policy is in a conflict, and conflicts are about existing policies:
    so it is as long as nobody enables a policy that a conflict has disabled. *)
Definition settled (ax : axis) : Prop :=
  (forall i p, enabled_at ax i p -> ~ conflicting ax i) /\
  (forall i, conflicting ax i -> exists p, policy_at ax i p).

(** Following the solutions of the conflicts, [i] is replaced by [j]. *)
Inductive replaced_by (ax : axis) : nat -> nat -> Prop :=
| replaced_refl i : replaced_by ax i i
| replaced_step i c k j :
    In c (ax_conflicts ax) -> tc_a c = i \/ tc_b c = i -> tc_solution c = Some k ->
    replaced_by ax k j -> replaced_by ax i j.

(** [l] lists the addresses of the enabled policies, each once, by coordinate. *)
Definition in_order (ax : axis) (l : list nat) : Prop :=
  NoDup l /\ (forall i, In i l <-> exists p, enabled_at ax i p) /\
  forall j k i i' p p', (j < k)%nat -> nth_error l j = Some i -> nth_error l k = Some i' ->
    policy_at ax i p -> policy_at ax i' p' -> p_coord p <= p_coord p'.

(** Same policy, but for [d]. *)
Definition same_but_d (p q : mlp) : Prop :=
  p_coord p = p_coord q /\ p_policy p = p_policy q /\ p_normal p = p_normal q /\ p_enabled p = p_enabled q.

(** No two enabled policies at the same place. *)
Definition distinct (ax : axis) : Prop :=
  forall i j p q, i <> j -> enabled_at ax i p -> enabled_at ax j q -> ~ p_coord p == p_coord q.

(** An axis between detect_intervals and mesh: [l] is the order of its enabled
    policies, the intervals join consecutive ones, they can be meshed, and there is no
    line yet. *)
Record meshable (ax : axis) (l : list nat) : Prop :=
  { me_order : in_order ax l;
    me_distinct : distinct ax;
    me_tiles : map (fun s => (sg_before s, sg_after s)) (ax_segments ax) = combine l (tl l);
    me_ready : forall s b a, In s (ax_segments ax) ->
      policy_at ax (sg_before s) b -> policy_at ax (sg_after s) a -> ready b a (sg_iv s);
    me_lines : ax_lines ax = [] }.

(** The lines of an axis with the policies [l], given the lines of its intervals. *)
Fixpoint laid_out (l : list mlp) (cells : list (list Q)) : list Q :=
  match l with
  | [] => []
  | p :: r =>
      (if is_oneline (p_policy p) then [p_coord p] else []) ++
      match cells with [] => [] | c :: cs => c ++ laid_out r cs end
  end.

(** The axes that can be reached, whatever the order and the parameters of the
    requests: policies and fixed lines are added, too close policies are merged,
    intervals are detected, zones are applied, the user edits policies and intervals,
    the axis is meshed. *)
Inductive reached (srt : sorter) : axis -> Prop :=
| reached_start : reached srt (mk_axis [] [] [] [])
| reached_add g ax policy normal coord enabled :
    reached srt ax -> reached srt (fst (add_meshline_policy g ax policy normal coord enabled))
| reached_fixed g ax coords : reached srt ax -> reached srt (add_fixed_policies g ax coords)
| reached_close n g ax ax' :
    reached srt ax -> detect_and_solve_too_close n g srt ax = Done ax' -> reached srt ax'
| reached_intervals g ax ax' : reached srt ax -> detect_intervals g srt ax = Done ax' -> reached srt ax'
| reached_zones zs ax : reached srt ax -> reached srt (apply_zones zs ax)
| reached_edit ax i policy normal enabled d ax' :
    reached srt ax -> edit_policy ax i policy normal enabled d = Done ax' -> reached srt ax'
| reached_edit_interval ax i dmax lb sb la sa ax' :
    reached srt ax -> edit_interval ax i dmax lb sb la sa = Done ax' -> reached srt ax'
| reached_mesh n ax ax' : reached srt ax -> mesh_axis n srt ax = Done ax' -> reached srt ax'.

(** [x] is between [a] and [b], in any order. *)
Definition between (a b x : Q) : Prop := (a <= x /\ x <= b) \/ (b <= x /\ x <= a).

(** There is a ONELINE policy within the equality tolerance of [x]. *)
Definition has_oneline_near (ax : axis) (x : Q) : Prop :=
  exists p, In p (ax_policies ax) /\ p_policy p = ONELINE /\ p_normal p = NNONE /\
    Qabs (p_coord p - x) < 1 # 100000000.

(** [x] and [y] are two lines with no line between them. *)
Definition next_line (lines : list Q) (x y : Q) : Prop :=
  In x lines /\ In y lines /\ x < y /\ forall z, In z lines -> z <= x \/ y <= z.

(** [lines] are good lines for the axis: strictly increasing, on a ONELINE
    policy or strictly between enabled policies, one on each enabled ONELINE policy and one in the middle of each
    interval, and never farther apart than the largest [dmax]; those of an interval are not farther apart than its
    [dmax], nor is there a larger gap next to its ends. *)
Record meshed (ax : axis) (lines : list Q) : Prop :=
  { md_increasing : increasing lines;
    md_inside : forall x, In x lines ->
      (exists i p, enabled_at ax i p /\ p_policy p = ONELINE /\ x = p_coord p) \/
      (exists i p j q, enabled_at ax i p /\ enabled_at ax j q /\ p_coord p < x < p_coord q);
    md_oneline : forall i p, enabled_at ax i p -> p_policy p = ONELINE -> In (p_coord p) lines;
    md_middle : forall s b a, In s (ax_segments ax) -> policy_at ax (sg_before s) b -> policy_at ax (sg_after s) a ->
      exists m, In m lines /\ m == (p_coord b + p_coord a) / 2;
    md_within : all_consistent ax -> forall D, (forall s, In s (ax_segments ax) -> iv_dmax (sg_iv s) <= D) -> within D lines;
    md_local : forall s b a x y, In s (ax_segments ax) -> policy_at ax (sg_before s) b -> policy_at ax (sg_after s) a ->
      next_line lines x y -> p_coord b <= x -> y <= p_coord a -> y - x <= iv_dmax (sg_iv s);
    md_reach : forall s b a, In s (ax_segments ax) -> policy_at ax (sg_before s) b -> policy_at ax (sg_after s) a ->
      (exists x, In x lines /\ p_coord b <= x <= p_coord b + iv_dmax (sg_iv s)) /\
      (exists y, In y lines /\ p_coord a - iv_dmax (sg_iv s) <= y <= p_coord a) }.

(** Two enabled policies with none between them. *)
Definition neighbours (ax : axis) (p q : mlp) : Prop :=
  exists i j, enabled_at ax i p /\ enabled_at ax j q /\ p_coord p < p_coord q /\
    forall k r, enabled_at ax k r -> p_coord r <= p_coord p \/ p_coord q <= p_coord r.

(** From [a] to [b] no gap between lines is larger than [D], nor are the lines next to
    [a] and [b] farther than [D] from them. *)
Definition fine (D : Q) (lines : list Q) (a b : Q) : Prop :=
  (forall x y, next_line lines x y -> a <= x -> y <= b -> y - x <= D) /\
  (exists x, In x lines /\ a <= x <= a + D) /\ (exists y, In y lines /\ b - D <= y <= b).

(** A conflict that has been solved: the policy [k] that replaces [a] and [b] is newer
    than both, lies between them, is ONELINE as soon as one of them is, is THIRDS in
    some direction iff both are in that direction, and is HALFS otherwise; [a] and [b]
    are disabled. *)
Definition well_solved (ax : axis) (c : too_close) : Prop :=
  exists k pa pb pk, tc_solution c = Some k /\ tc_a c <> tc_b c /\
    (tc_a c < k)%nat /\ (tc_b c < k)%nat /\
    policy_at ax (tc_a c) pa /\ policy_at ax (tc_b c) pb /\ policy_at ax k pk /\
    p_enabled pa = false /\ p_enabled pb = false /\
    between (p_coord pa) (p_coord pb) (p_coord pk) /\
    (p_policy pk = ONELINE <-> p_policy pa = ONELINE \/ p_policy pb = ONELINE) /\
    (forall n, p_policy pk = THIRDS /\ p_normal pk = n <->
       p_policy pa = THIRDS /\ p_normal pa = n /\ p_policy pb = THIRDS /\ p_normal pb = n).

(** Every pointer held by an interval or a conflict leads to a policy. *)
Definition pointers_valid (ax : axis) : Prop :=
  (forall s, In s (ax_segments ax) -> (exists b, policy_at ax (sg_before s) b) /\ (exists a, policy_at ax (sg_after s) a)) /\
  (forall c, In c (ax_conflicts ax) -> (exists a, policy_at ax (tc_a c) a) /\ (exists b, policy_at ax (tc_b c) b) /\
     forall k, tc_solution c = Some k -> exists p, policy_at ax k p).

(** No pointer to nothing was followed. *)
Definition safe {A : Type} (m : run A) : Prop := m <> Dangling.
