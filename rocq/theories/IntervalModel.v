(** Model of src/domain/mesh/interval.cpp, and of the fields of MeshlinePolicy
    it reads and writes (src/domain/mesh/meshline_policy.hpp 62-63, 80-89).

    Simplifications, for the whole file:
    - [double] and [Coord] are exact rationals; rounding, infinities and NaN are
      not modelled.  [Coord]'s [<], [>], [<=] are exact in the code too
      (geometrics/coord.cpp 38-55).
    - a loop is given fuel; [None] means "still running when the fuel ran out",
      and is never used for anything else.
    - [size_t] is [nat].
    - states are kept as plain values: each write below goes to a timepoint that
      the same object has never been written at, so it is always the current
      one afterwards (see PropertiesHist.v, C02).
    - the pointer of a Side to its policy is replaced by an extra argument; the
      two closures [d_init_] are the functions [d_init_before], [d_init_after]. *)
From Coq Require Import List Arith Bool QArith Qabs.
Import ListNotations.
Open Scope Q_scope.

(** [a < b] on doubles, as a boolean. *)
Definition Qltb (a b : Q) : bool := negb (Qle_bool b a).

(** std::min: the second argument if it is smaller, else the first. *)
Definition qmin (a b : Q) : Q := if Qltb b a then b else a.

(** global.hpp 40. *)
Definition equality_tolerance : Q := 1 # 100000000.

(** mesh/meshline_policy.hpp 48-54. *)
Inductive Policy := ONELINE | HALFS | THIRDS.

(** mesh/meshline_policy.hpp 56-60. *)
Inductive MNormal := NNONE | NMIN | NMAX.

(** mesh/meshline_policy.hpp 63 and 80-89: the constant [coord] and the mutable
    state without [origins], [meshlines] and [conflicts], which no computation
    here reads. *)
Record mlp := mk_mlp
  { p_coord : Q; p_policy : Policy; p_normal : MNormal; p_enabled : bool; p_d : Q }.

(** Writing the member [d] of the state of a policy. *)
Definition set_d (p : mlp) (d : Q) : mlp :=
  mk_mlp (p_coord p) (p_policy p) (p_normal p) (p_enabled p) d.

Definition is_oneline (x : Policy) : bool := match x with ONELINE => true | _ => false end.

(** global.hpp 19-31: the members read by the meshing. *)
Record params := mk_params
  { g_proximity_limit : Q; g_smoothness : Q; g_lmin : nat; g_dmax : Q }.

(** mesh/interval.hpp 48-58. *)
Record side := mk_side { sd_lmin : nat; sd_smoothness : Q; sd_ls : list Q }.

(** mesh/interval.hpp 60-61, 86-91. *)
Record interval := mk_interval
  { iv_h : Q; iv_m : Q; iv_dmax : Q; iv_before : side; iv_after : side }.

(** mesh/interval.cpp 21-32: only the effect on the policy. *)
Definition clamp_d (h : Q) (p : mlp) : mlp := if Qltb h (p_d p) then set_d p h else p.

(** geometrics/coord.cpp 83-85 and mesh/interval.cpp 40-42. *)
Definition coord_distance (a b : Q) : Q := Qabs.Qabs (a - b).
Definition calc_h (a b : Q) : Q := coord_distance a b / 2.

(** geometrics/coord.cpp 78-80. *)
Definition coord_mid (a b : Q) : Q := (a + b) / 2.

(** mesh/interval.cpp 48-64. *)
Definition d_init_before (p : mlp) (d : Q) : Q :=
  match p_policy p with
  | ONELINE => 0
  | HALFS => d / 2
  | THIRDS =>
      match p_normal p with
      | NMAX => (2 # 3) * d
      | NMIN => (1 # 3) * d
      | NNONE => d
      end
  end.

(** mesh/interval.cpp 65-81. *)
Definition d_init_after (p : mlp) (d : Q) : Q :=
  match p_policy p with
  | ONELINE => 0
  | HALFS => d / 2
  | THIRDS =>
      match p_normal p with
      | NMAX => (1 # 3) * d
      | NMIN => (2 # 3) * d
      | NNONE => d
      end
  end.

(** mesh/interval.cpp 45-87: the interval and its two policies afterwards. *)
Definition make_interval (g : params) (before after : mlp) : mlp * mlp * interval :=
  let h := calc_h (p_coord before) (p_coord after) in
  let sd := mk_side (g_lmin g) (g_smoothness g) [] in
  (clamp_d h before, clamp_d h after,
   mk_interval h (coord_mid (p_coord before) (p_coord after)) (g_dmax g) sd sd).

(** mesh/interval.cpp 137-154: one turn of the loop, lines 142-148. *)
Definition next_space (smoothness dmax current_d : Q) : Q :=
  if Qltb current_d dmax then
    let d := current_d * smoothness in if Qltb dmax d then dmax else d
  else current_d.

Fixpoint find_ls_loop (fuel : nat) (smoothness dmax s current_d current_s : Q) : option (list Q) :=
  match fuel with
  | O => None
  | S fuel =>
      if Qltb current_s s then
        let d := next_space smoothness dmax current_d in
        match find_ls_loop fuel smoothness dmax s d (current_s + d) with
        | Some ls => Some ((current_s + d) :: ls)
        | None => None
        end
      else Some []
  end.

Definition find_ls (fuel : nat) (d smoothness dmax s : Q) : option (list Q) :=
  find_ls_loop fuel smoothness dmax s (qmin d dmax) 0.

(** mesh/interval.cpp 179-183: the loop, on the list from [ls[i-2]] on. *)
Fixpoint spaces_valid (smoothness dmax : Q) (a b : Q) (ls : list Q) : bool :=
  match ls with
  | [] => true
  | c :: r =>
      if Qltb (smoothness * (b - a) + equality_tolerance) (c - b)
         || Qltb (dmax + equality_tolerance) (c - b)
      then false
      else spaces_valid smoothness dmax b c r
  end.

(** mesh/interval.cpp 163-186. *)
Definition is_ls_valid (ls : list Q) (d smoothness dmax : Q) (lmin : nat) : bool :=
  if Qltb dmax d || (length ls <? lmin)%nat || (match ls with [] => true | _ => false end)
  then false
  else
    match ls with
    | [] => false
    | a :: r =>
        if Qltb (smoothness * d + equality_tolerance) a || Qltb (dmax + equality_tolerance) a
        then false
        else
          match r with
          | [] => true
          | b :: r' =>
              if Qltb (smoothness * a + equality_tolerance) (b - a)
                 || Qltb (dmax + equality_tolerance) (b - a)
              then false
              else spaces_valid smoothness dmax a b r'
          end
    end.

(** mesh/interval.cpp 189-204. *)
Definition find_dmax_side (sd : side) (dmax : Q) : Q :=
  match rev (sd_ls sd) with
  | [] => dmax
  | [x] => qmin dmax (sd_smoothness sd * x)
  | x :: y :: _ => qmin dmax (sd_smoothness sd * (x - y))
  end.

(** mesh/interval.cpp 209-211. *)
Definition find_dmax (a b : side) (dmax : Q) : Q := qmin (find_dmax_side a dmax) (find_dmax_side b dmax).

(** mesh/interval.cpp 220-222, with s of 90-97; [d_init] is the closure of the side. *)
Definition update_ls (fuel : nat) (d_init : mlp -> Q -> Q) (h dmax : Q) (p : mlp) (sd : side) : option side :=
  match find_ls fuel (p_d p) (sd_smoothness sd) dmax (h - d_init p (p_d p)) with
  | Some ls => Some (mk_side (sd_lmin sd) (sd_smoothness sd) ls)
  | None => None
  end.

(** mesh/interval.cpp 225-243.  The default [iter_limit] is 2^64-1 and both callers
    use it: the limit is not modelled, nor the returned flag. *)
Fixpoint adjust_d_loop (fuel : nat) (d_init : mlp -> Q -> Q) (h dmax : Q) (p : mlp) (sd : side)
    (current_d : Q) (current_ls : list Q) : option Q :=
  match fuel with
  | O => None
  | S fuel' =>
      if is_ls_valid current_ls current_d (sd_smoothness sd) dmax (sd_lmin sd) then Some current_d
      else
        let d := current_d - current_d / 1000 in
        match find_ls fuel d (sd_smoothness sd) dmax (h - d_init p d) with
        | Some ls => adjust_d_loop fuel' d_init h dmax p sd d ls
        | None => None
        end
  end.

Definition adjust_d (fuel : nat) (d_init : mlp -> Q -> Q) (h dmax : Q) (p : mlp) (sd : side) : option Q :=
  adjust_d_loop fuel d_init h dmax p sd (qmin (p_d p) dmax) (sd_ls sd).

(** mesh/interval.cpp 300-360.  [iter_limit] as above.  [nlines] is the number of
    lines of the side, 304.  The comparison with 1 on line 335 is exact. *)
Fixpoint adjust_smoothness_loop (fuel : nat) (d_init : mlp -> Q -> Q) (h dmax : Q) (p : mlp)
    (nlines : nat) (current : Q) : option Q :=
  match fuel with
  | O => None
  | S fuel' =>
      let next := current - current / 10000 in
      let next := if Qltb next 1 then 1 else next in
      match find_ls fuel (p_d p) next dmax (h - d_init p (p_d p)) with
      | None => None
      | Some ls =>
          if (nlines <? length ls)%nat then Some current
          else if Qeq_bool next 1 then Some next
          else adjust_smoothness_loop fuel' d_init h dmax p nlines next
      end
  end.

Definition adjust_smoothness (fuel : nat) (d_init : mlp -> Q -> Q) (h dmax : Q) (p : mlp) (sd : side) : option Q :=
  adjust_smoothness_loop fuel d_init h dmax p (length (sd_ls sd)) (sd_smoothness sd).

Definition set_smoothness (sd : side) (x : Q) : side := mk_side (sd_lmin sd) x (sd_ls sd).

Notation "'let?' x := m 'in' f" := (match m with Some x => f | None => None end)
  (at level 200, x name, m at level 100, f at level 200).

(** mesh/interval.cpp 363-383.  The state is stored at the end only, so every
    [get_current_state().dmax] meanwhile is the one before the call. *)
Definition auto_solve_d (fuel : nat) (b a : mlp) (iv : interval) : option (mlp * mlp * interval) :=
  let h := iv_h iv in
  let dmax := iv_dmax iv in
  let? before := update_ls fuel d_init_before h dmax b (iv_before iv) in
  let? after := update_ls fuel d_init_after h dmax a (iv_after iv) in
  let new_dmax := find_dmax before after dmax in
  let? before := update_ls fuel d_init_before h dmax b before in
  let? after := update_ls fuel d_init_after h dmax a after in
  let? d_b := adjust_d fuel d_init_before h dmax b before in
  let b := set_d b d_b in
  let? before := update_ls fuel d_init_before h dmax b before in
  let? d_a := adjust_d fuel d_init_after h dmax a after in
  let a := set_d a d_a in
  let? after := update_ls fuel d_init_after h dmax a after in
  Some (b, a, mk_interval h (iv_m iv) new_dmax before after).

(** mesh/interval.cpp 386-396. *)
Definition auto_solve_smoothness (fuel : nat) (b a : mlp) (iv : interval) : option interval :=
  let h := iv_h iv in
  let dmax := iv_dmax iv in
  let? before := update_ls fuel d_init_before h dmax b (iv_before iv) in
  let? after := update_ls fuel d_init_after h dmax a (iv_after iv) in
  let? s_b := adjust_smoothness fuel d_init_before h dmax b before in
  let? s_a := adjust_smoothness fuel d_init_after h dmax a after in
  let? before := update_ls fuel d_init_before h dmax b (set_smoothness before s_b) in
  let? after := update_ls fuel d_init_after h dmax a (set_smoothness after s_a) in
  Some (mk_interval h (iv_m iv) dmax before after).

(** mesh/interval.cpp 399-434: the coordinates of the lines, in the order of the
    vector.  The interval and policy each line remembers are left out. *)
Definition mesh_interval (b a : mlp) (iv : interval) : list Q :=
  let db := d_init_before b (p_d b) in
  let da := d_init_after a (p_d a) in
  (if is_oneline (p_policy b) then [] else [p_coord b + db])
  ++ map (fun x => p_coord b + db + x) (removelast (sd_ls (iv_before iv)))
  ++ [iv_m iv]
  ++ rev (map (fun x => p_coord a - da - x) (removelast (sd_ls (iv_after iv))))
  ++ (if is_oneline (p_policy a) then [] else [p_coord a - da]).
