(** The arithmetic of doubles, and the meshing of an axis in that arithmetic:
    src/domain/mesh/interval.cpp and the parts of
    src/domain/meshline_policy_manager.cpp that call it.

    IntervalModel.v takes doubles for exact rationals.  Here each operation of the
    code is followed by a rounding [rnd]; with the identity the functions are those of
    IntervalModel.v and ManagerModel.v (PropertiesRound.v, C65_exact), with [double] below they are the
    code on a machine whose doubles are those of IEEE 754 and whose operations are
    rounded to nearest, ties to even, one by one (no fused operations, no wider
    registers).

    Simplifications: no overflow, infinities nor NaN; [size_t] is [nat]; fuel as in
    IntervalModel.v. *)
From Coq Require Import List Arith Bool ZArith QArith Qabs.
From Verif Require Import IntervalModel ManagerModel InfraModel.
Import ListNotations.
Open Scope Q_scope.

(** ** Doubles *)

(** The power of two just below a positive number. *)
Definition log2 (x : Q) : Z :=
  let k := (Z.log2 (Qnum x) - Z.log2 (Zpos (Qden x)))%Z in
  if Qle_bool (2 ^ k) x then k else (k - 1)%Z.
(** The last bit of a double of the size of [x]: 53 bits, down to 2^-1074. *)
Definition last_bit (x : Q) : Z := Z.max (log2 x - 52) (-1074).
(** The double nearest to [x]. *)
Definition double (x : Q) : Q :=
  let a := Qabs x in
  if Qle_bool a 0 then 0
  else let e := last_bit a in
       let r := inject_Z (round_even (a / 2 ^ e)) * 2 ^ e in
       if Qltb x 0 then - r else r.

(** ** mesh/interval.cpp *)

Section Rounded.
Variable rnd : Q -> Q.

(** geometrics/coord.cpp 78-85 and mesh/interval.cpp 40-42. *)
Definition r_h (a b : Q) : Q := rnd (Qabs (rnd (a - b)) / 2).
Definition r_mid (a b : Q) : Q := rnd (rnd (a + b) / 2).

(** mesh/interval.cpp 48-64; the constants [1.0/3.0] and [2.0/3.0] are rounded too. *)
Definition r_d_init_before (p : mlp) (d : Q) : Q :=
  match p_policy p with
  | ONELINE => 0
  | HALFS => rnd (d / 2)
  | THIRDS =>
      match p_normal p with
      | NMAX => rnd (rnd (2 # 3) * d)
      | NMIN => rnd (rnd (1 # 3) * d)
      | NNONE => d
      end
  end.
(** mesh/interval.cpp 65-81. *)
Definition r_d_init_after (p : mlp) (d : Q) : Q :=
  match p_policy p with
  | ONELINE => 0
  | HALFS => rnd (d / 2)
  | THIRDS =>
      match p_normal p with
      | NMAX => rnd (rnd (1 # 3) * d)
      | NMIN => rnd (rnd (2 # 3) * d)
      | NNONE => d
      end
  end.

(** mesh/interval.cpp 45-87. *)
Definition r_make_interval (g : params) (before after : mlp) : mlp * mlp * interval :=
  let h := r_h (p_coord before) (p_coord after) in
  let sd := mk_side (g_lmin g) (g_smoothness g) [] in
  (clamp_d h before, clamp_d h after,
   mk_interval h (r_mid (p_coord before) (p_coord after)) (g_dmax g) sd sd).

(** mesh/interval.cpp 137-154. *)
Definition r_next_space (smoothness dmax current_d : Q) : Q :=
  if Qltb current_d dmax then
    let d := rnd (current_d * smoothness) in if Qltb dmax d then dmax else d
  else current_d.
Fixpoint r_find_ls_loop (fuel : nat) (smoothness dmax s current_d current_s : Q) : option (list Q) :=
  match fuel with
  | O => None
  | S fuel =>
      if Qltb current_s s then
        let d := r_next_space smoothness dmax current_d in
        let x := rnd (current_s + d) in
        match r_find_ls_loop fuel smoothness dmax s d x with
        | Some ls => Some (x :: ls)
        | None => None
        end
      else Some []
  end.
Definition r_find_ls (fuel : nat) (d smoothness dmax s : Q) : option (list Q) :=
  r_find_ls_loop fuel smoothness dmax s (qmin d dmax) 0.

(** mesh/interval.cpp 163-186; global.hpp 40 is the double next to 1e-8. *)
Definition r_tolerance : Q := rnd equality_tolerance.
Fixpoint r_spaces_valid (smoothness dmax : Q) (a b : Q) (ls : list Q) : bool :=
  match ls with
  | [] => true
  | c :: r =>
      if Qltb (rnd (rnd (smoothness * rnd (b - a)) + r_tolerance)) (rnd (c - b))
         || Qltb (rnd (dmax + r_tolerance)) (rnd (c - b))
      then false
      else r_spaces_valid smoothness dmax b c r
  end.
Definition r_is_ls_valid (ls : list Q) (d smoothness dmax : Q) (lmin : nat) : bool :=
  if Qltb dmax d || (length ls <? lmin)%nat || (match ls with [] => true | _ => false end)
  then false
  else
    match ls with
    | [] => false
    | a :: r =>
        if Qltb (rnd (rnd (smoothness * d) + r_tolerance)) a || Qltb (rnd (dmax + r_tolerance)) a
        then false
        else
          match r with
          | [] => true
          | b :: r' =>
              if Qltb (rnd (rnd (smoothness * a) + r_tolerance)) (rnd (b - a))
                 || Qltb (rnd (dmax + r_tolerance)) (rnd (b - a))
              then false
              else r_spaces_valid smoothness dmax a b r'
          end
    end.

(** mesh/interval.cpp 189-211. *)
Definition r_find_dmax_side (sd : side) (dmax : Q) : Q :=
  match rev (sd_ls sd) with
  | [] => dmax
  | [x] => qmin dmax (rnd (sd_smoothness sd * x))
  | x :: y :: _ => qmin dmax (rnd (sd_smoothness sd * rnd (x - y)))
  end.
Definition r_find_dmax (a b : side) (dmax : Q) : Q := qmin (r_find_dmax_side a dmax) (r_find_dmax_side b dmax).

(** mesh/interval.cpp 220-222, with 90-97. *)
Definition r_update_ls (fuel : nat) (d_init : mlp -> Q -> Q) (h dmax : Q) (p : mlp) (sd : side) : option side :=
  match r_find_ls fuel (p_d p) (sd_smoothness sd) dmax (rnd (h - d_init p (p_d p))) with
  | Some ls => Some (mk_side (sd_lmin sd) (sd_smoothness sd) ls)
  | None => None
  end.

(** mesh/interval.cpp 225-243. *)
Fixpoint r_adjust_d_loop (fuel : nat) (d_init : mlp -> Q -> Q) (h dmax : Q) (p : mlp) (sd : side)
    (current_d : Q) (current_ls : list Q) : option Q :=
  match fuel with
  | O => None
  | S fuel' =>
      if r_is_ls_valid current_ls current_d (sd_smoothness sd) dmax (sd_lmin sd) then Some current_d
      else
        let d := rnd (current_d - rnd (current_d / 1000)) in
        match r_find_ls fuel d (sd_smoothness sd) dmax (rnd (h - d_init p d)) with
        | Some ls => r_adjust_d_loop fuel' d_init h dmax p sd d ls
        | None => None
        end
  end.
Definition r_adjust_d (fuel : nat) (d_init : mlp -> Q -> Q) (h dmax : Q) (p : mlp) (sd : side) : option Q :=
  r_adjust_d_loop fuel d_init h dmax p sd (qmin (p_d p) dmax) (sd_ls sd).

(** mesh/interval.cpp 300-360. *)
Fixpoint r_adjust_smoothness_loop (fuel : nat) (d_init : mlp -> Q -> Q) (h dmax : Q) (p : mlp)
    (nlines : nat) (current : Q) : option Q :=
  match fuel with
  | O => None
  | S fuel' =>
      let next := rnd (current - rnd (current / 10000)) in
      let next := if Qltb next 1 then 1 else next in
      match r_find_ls fuel (p_d p) next dmax (rnd (h - d_init p (p_d p))) with
      | None => None
      | Some ls =>
          if (nlines <? length ls)%nat then Some current
          else if Qeq_bool next 1 then Some next
          else r_adjust_smoothness_loop fuel' d_init h dmax p nlines next
      end
  end.
Definition r_adjust_smoothness (fuel : nat) (d_init : mlp -> Q -> Q) (h dmax : Q) (p : mlp) (sd : side) : option Q :=
  r_adjust_smoothness_loop fuel d_init h dmax p (length (sd_ls sd)) (sd_smoothness sd).

(** mesh/interval.cpp 363-383. *)
Definition r_auto_solve_d (fuel : nat) (b a : mlp) (iv : interval) : option (mlp * mlp * interval) :=
  let h := iv_h iv in
  let dmax := iv_dmax iv in
  let? before := r_update_ls fuel r_d_init_before h dmax b (iv_before iv) in
  let? after := r_update_ls fuel r_d_init_after h dmax a (iv_after iv) in
  let new_dmax := r_find_dmax before after dmax in
  let? before := r_update_ls fuel r_d_init_before h dmax b before in
  let? after := r_update_ls fuel r_d_init_after h dmax a after in
  let? d_b := r_adjust_d fuel r_d_init_before h dmax b before in
  let b := set_d b d_b in
  let? before := r_update_ls fuel r_d_init_before h dmax b before in
  let? d_a := r_adjust_d fuel r_d_init_after h dmax a after in
  let a := set_d a d_a in
  let? after := r_update_ls fuel r_d_init_after h dmax a after in
  Some (b, a, mk_interval h (iv_m iv) new_dmax before after).

(** mesh/interval.cpp 386-396. *)
Definition r_auto_solve_smoothness (fuel : nat) (b a : mlp) (iv : interval) : option interval :=
  let h := iv_h iv in
  let dmax := iv_dmax iv in
  let? before := r_update_ls fuel r_d_init_before h dmax b (iv_before iv) in
  let? after := r_update_ls fuel r_d_init_after h dmax a (iv_after iv) in
  let? s_b := r_adjust_smoothness fuel r_d_init_before h dmax b before in
  let? s_a := r_adjust_smoothness fuel r_d_init_after h dmax a after in
  let? before := r_update_ls fuel r_d_init_before h dmax b (set_smoothness before s_b) in
  let? after := r_update_ls fuel r_d_init_after h dmax a (set_smoothness after s_a) in
  Some (mk_interval h (iv_m iv) dmax before after).

(** mesh/interval.cpp 399-434. *)
Definition r_mesh_interval (b a : mlp) (iv : interval) : list Q :=
  let db := r_d_init_before b (p_d b) in
  let da := r_d_init_after a (p_d a) in
  (if is_oneline (p_policy b) then [] else [rnd (p_coord b + db)])
  ++ map (fun x => rnd (rnd (p_coord b + db) + x)) (removelast (sd_ls (iv_before iv)))
  ++ [iv_m iv]
  ++ rev (map (fun x => rnd (rnd (p_coord a - da) - x)) (removelast (sd_ls (iv_after iv))))
  ++ (if is_oneline (p_policy a) then [] else [rnd (p_coord a - da)]).

(** ** meshline_policy_manager.cpp *)

(** meshline_policy_manager.cpp 130-161, as in ManagerModel.v. *)
Definition r_new_segment (g : params) (ax : axis) (b a : nat) : run axis :=
  let! pb := read (ax_policies ax) b in
  let! pa := read (ax_policies ax) a in
  let '(pb, pa, iv) := r_make_interval g pb pa in
  let! ps := write (ax_policies ax) b pb in
  let! ps := write ps a pa in
  Done (set_segments (set_policies ax ps) (ax_segments ax ++ [mk_segment b a iv])).
Fixpoint r_detect_intervals_loop (g : params) (ax : axis) (l : list nat) : run axis :=
  match l with
  | b :: ((a :: _) as r) =>
      let! ax := r_new_segment g ax b a in
      r_detect_intervals_loop g ax r
  | _ => Done ax
  end.
Definition r_detect_intervals (g : params) (srt : sorter) (ax : axis) : run axis :=
  r_detect_intervals_loop g ax (map fst (dimension srt ax)).

(** meshline_policy_manager.cpp 191-242, as in ManagerModel.v. *)
Definition r_auto_solve_d_at (fuel : nat) (ax : axis) (i : nat) : run axis :=
  let! s := read (ax_segments ax) i in
  let! b := read (ax_policies ax) (sg_before s) in
  let! a := read (ax_policies ax) (sg_after s) in
  let! (b, a, iv) := lift (r_auto_solve_d fuel b a (sg_iv s)) in
  let! ps := write (ax_policies ax) (sg_before s) b in
  let! ps := write ps (sg_after s) a in
  let! ss := write (ax_segments ax) i (mk_segment (sg_before s) (sg_after s) iv) in
  Done (set_segments (set_policies ax ps) ss).
Definition r_auto_solve_smoothness_at (fuel : nat) (ax : axis) (i : nat) : run axis :=
  let! s := read (ax_segments ax) i in
  let! b := read (ax_policies ax) (sg_before s) in
  let! a := read (ax_policies ax) (sg_after s) in
  let! iv := lift (r_auto_solve_smoothness fuel b a (sg_iv s)) in
  let! ss := write (ax_segments ax) i (mk_segment (sg_before s) (sg_after s) iv) in
  Done (set_segments ax ss).
Definition r_mesh_segment (ax : axis) (i : nat) : run (list Q) :=
  let! s := read (ax_segments ax) i in
  let! b := read (ax_policies ax) (sg_before s) in
  let! a := read (ax_policies ax) (sg_after s) in
  Done (r_mesh_interval b a (sg_iv s)).
Fixpoint r_first_pass (fuel : nat) (ax : axis) (order : list nat) : run axis :=
  match order with
  | [] => Done ax
  | i :: r => let! ax := r_auto_solve_d_at fuel ax i in r_first_pass fuel ax r
  end.
Fixpoint r_second_pass (fuel : nat) (ax : axis) (order : list nat) : run (axis * list (list Q)) :=
  match order with
  | [] => Done (ax, [])
  | i :: r =>
      let! ax := r_auto_solve_d_at fuel ax i in
      let! ax := r_auto_solve_smoothness_at fuel ax i in
      let! lines := r_mesh_segment ax i in
      let! (ax, rest) := r_second_pass fuel ax r in
      Done (ax, lines :: rest)
  end.
Definition r_mesh_axis (fuel : nat) (srt : sorter) (ax : axis) : run axis :=
  let order := visiting_order srt ax in
  let! ax := r_first_pass fuel ax order in
  let! (ax, lines) := r_second_pass fuel ax order in
  let all := ax_lines ax ++ concat lines ++ flat_map mesh_policy (ax_policies ax) in
  Done (set_lines ax (srt _ (fun x => x) all)).
End Rounded.
