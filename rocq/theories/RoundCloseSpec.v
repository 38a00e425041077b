(** The words used to state what rounding does to the merging of too close policies.
    No proofs in this file. *)
From Coq Require Import List ZArith QArith Qabs.
From Verif Require Import IntervalModel ManagerModel ManagerSpec RoundSpec.
Open Scope Q_scope.

(** The coordinates of the policies are doubles. *)
Definition on_doubles (ax : axis) : Prop := forall i p, policy_at ax i p -> is_double (p_coord p).

(** What is asked of an axis before its too close policies are merged: as for [tame],
    but policies may be as close as one wants, the limit on their distance being large
    enough. *)
Record crowded (M lo D : Q) (g : params) (zs : list zone) (ax : axis) : Prop :=
  { cr_rounding : 64 * rounding (4 * M) <= lo;
    cr_low : 2 ^ (-990) <= lo;
    cr_high : M <= 1048576;
    cr_D : D <= M;
    cr_dmax : is_double (g_dmax g) /\ 2 * lo <= g_dmax g <= D;
    cr_zones : List.Forall (fun z => is_double (z_dmax z) /\ lo <= z_dmax z <= D) zs;
    cr_smoothness : 1 <= g_smoothness g <= 2;
    cr_limit : is_double (g_proximity_limit g) /\ 2 ^ (Z.of_nat (g_lmin g) + 7) * lo <= g_proximity_limit g;
    cr_policies : forall i p, enabled_at ax i p ->
      is_double (p_coord p) /\ - M <= p_coord p <= M /\ is_double (p_d p) /\ lo <= p_d p /\ consistent p;
    cr_settled : settled ax }.

(** The solution of a conflict is on the only ONELINE policy of the two, if one is, and
    in their middle up to two roundings otherwise.  Its [d] is half of the largest cell
    wanted, rounded. *)
Definition well_placed (half : Q) (ax : axis) (c : too_close) : Prop :=
  exists k pa pb pk, tc_solution c = Some k /\ policy_at ax (tc_a c) pa /\ policy_at ax (tc_b c) pb /\ policy_at ax k pk /\
    p_d pk = half /\
    (p_policy pa = ONELINE -> p_policy pb <> ONELINE -> p_coord pk = p_coord pa) /\
    (p_policy pb = ONELINE -> p_policy pa <> ONELINE -> p_coord pk = p_coord pb) /\
    ((p_policy pa = ONELINE <-> p_policy pb = ONELINE) ->
      Qabs (p_coord pk - (p_coord pa + p_coord pb) / 2) <= 2 * rounding (Qabs (p_coord pa + p_coord pb))).
