(** Model of the layout of the graph view: the items of a container, src/ui/qt/utils/nodegraph/
    container.cpp 62-163, the containers of the scene, src/ui/qt/processing_view/processing_scene.cpp
    90-113, and the moves of a node, src/ui/qt/utils/nodegraph/node.cpp 57-67.  No proofs in this file.

    Simplifications, for the whole file: an item is the column it is given (get_column) and the size
    of its bounding rectangle; a visible container only (63); numbers are exact. *)
From Coq Require Import List Bool Arith QArith.
From Verif Require Import IntervalModel GeomModel.
Import ListNotations.
Open Scope Q_scope.

Record item := mkItem { i_column : nat; i_w : Q; i_h : Q }.
(** container.cpp 66-73, the members that are set while sizes are worked out (w, h and n_items). *)
Record col := mkCol { k_w : Q; k_h : Q; k_n : nat }.

(** A std::map from numbers: in the order of the keys. *)
Fixpoint find {X} (k : nat) (m : list (nat * X)) : option X :=
  match m with [] => None | (j, x) :: r => if Nat.eqb j k then Some x else find k r end.
Fixpoint put {X} (k : nat) (x : X) (m : list (nat * X)) : list (nat * X) :=
  match m with
  | [] => [(k, x)]
  | (j, y) :: r => if Nat.eqb j k then (k, x) :: r else if Nat.ltb k j then (k, x) :: m else (j, y) :: put k x r
  end.

(** container.cpp 81-91 for one item: the columns, and item_y of the item. *)
Definition size_one (mh : Q) (m : list (nat * col)) (i : item) : list (nat * col) * Q :=
  let c := match find (i_column i) m with Some c => c | None => mkCol 0 mh 0 end in
  (put (i_column i) (mkCol (qmax (k_w c) (i_w i)) (k_h c + (i_h i + mh)) (S (k_n c))) m, k_h c).
(** container.cpp 75-91. *)
Fixpoint sizes (mh : Q) (m : list (nat * col)) (l : list item) : list (nat * col) * list Q :=
  match l with
  | [] => (m, [])
  | i :: r => let (m, y) := size_one mh m i in let (m, ys) := sizes mh m r in (m, y :: ys)
  end.
(** container.cpp 94-103: the member x of the columns, the first being at [x]. *)
Fixpoint lefts (mw x : Q) (m : list (nat * col)) : list (nat * Q) :=
  match m with [] => [] | (k, c) :: r => (k, x) :: lefts mw (x + k_w c + mw) r end.
(** container.cpp 106-108. *)
Fixpoint width_from (mw x : Q) (m : list (nat * col)) : Q :=
  match m with [] => 0 | [(_, c)] => x + k_w c + mw | (_, c) :: r => width_from mw (x + k_w c + mw) r end.
(** container.cpp 109-111. *)
Definition height (m : list (nat * col)) : Q := fold_left (fun h kc => qmax h (k_h (snd kc))) m 0.

(** container.hpp 22. *)
Inductive Spacement := PACKED_UP | PACKED_DOWN | UNPACKED_MAX | UNPACKED_REGULAR.
(** container.cpp 137 and 149. *)
Definition summed (mh : Q) (c : col) : Q := k_h c - (inject_Z (Z.of_nat (k_n c)) + 1) * mh.
(** container.cpp 138 and 150; no number if divided by zero. *)
Definition gap (s : Spacement) (mh h : Q) (c : col) : option Q :=
  match s with
  | UNPACKED_MAX => if Nat.eqb (k_n c) 1 then None else Some ((h - summed mh c - 2 * mh) / (inject_Z (Z.of_nat (k_n c)) - 1))
  | UNPACKED_REGULAR => Some ((h - summed mh c) / (inject_Z (Z.of_nat (k_n c)) + 1))
  | PACKED_UP | PACKED_DOWN => Some mh
  end.
(** container.cpp 139 and 151. *)
Definition start (s : Spacement) (mh h : Q) (c : col) : option Q :=
  match s with UNPACKED_REGULAR => gap s mh h c | _ => Some mh end.
(** A sum, no number if one of both is none. *)
Definition plus (a b : option Q) : option Q := match a, b with Some x, Some y => Some (x + y) | _, _ => None end.

(** Where an item is put: nowhere if its column is not there or a coordinate is no number. *)
Definition at_xy (x y : option Q) : option (Q * Q) := match x, y with Some x, Some y => Some (x, y) | _, _ => None end.
(** container.cpp 122-124, with a shift of nought, and 130-133 with the shift of 127-129. *)
Fixpoint put_at (xs : list (nat * Q)) (shift : nat -> option Q) (l : list item) (ys : list Q) : list (option (Q * Q)) :=
  match l, ys with
  | i :: l, y :: ys => at_xy (find (i_column i) xs) (plus (Some y) (shift (i_column i))) :: put_at xs shift l ys
  | _, _ => []
  end.
(** container.cpp 141-145 and 153-157: [tops] are the members h of the columns, reset. *)
Fixpoint put_under (xs : list (nat * Q)) (gaps tops : nat -> option Q) (l : list item) : list (option (Q * Q)) :=
  match l with
  | [] => []
  | i :: l =>
      let k := i_column i in
      at_xy (find k xs) (tops k)
      :: put_under xs gaps (fun j => if Nat.eqb j k then plus (tops j) (plus (Some (i_h i)) (gaps j)) else tops j) l
  end.

Record fitted := mkFitted { f_w : Q; f_h : Q; f_at : list (option (Q * Q)) }.
(** container.cpp 75-161: the size of the nested zone, and where the items are put in it. *)
Definition fit (s : Spacement) (mw mh : Q) (l : list item) : fitted :=
  let (m, ys) := sizes mh [] l in
  let xs := lefts mw mw m in
  let h := height m in
  let of_column (f : col -> option Q) (k : nat) := match find k m with Some c => f c | None => None end in
  mkFitted (width_from mw mw m) h
    (match s with
     | PACKED_UP => put_at xs (of_column (fun _ => Some 0)) l ys
     | PACKED_DOWN => put_at xs (of_column (fun c => Some (h - k_h c))) l ys
     | UNPACKED_MAX | UNPACKED_REGULAR => put_under xs (of_column (gap s mh h)) (of_column (start s mh h)) l
     end).

(** ** Scenes *)

(** A plane or an axis: isVisible(), and the size of its bounding rectangle. *)
Record box_of := mkBox { b_shown : bool; b_w : Q; b_h : Q }.
(** processing_scene.cpp 96-102 and 107-112: where those that are visible are put, from [y] on. *)
Fixpoint stack (x y : Q) (l : list box_of) : list (option (Q * Q)) :=
  match l with
  | [] => []
  | b :: r => if b_shown b then Some (x, y) :: stack x (y + (b_h b + 100)) r else None :: stack x y r
  end.
(** processing_scene.cpp 95 and 99. *)
Definition widest (l : list box_of) : Q := fold_left (fun n b => if b_shown b then qmax n (b_w b) else n) l 0.
(** processing_scene.cpp 90-113. *)
Definition fit_scene (planes axes : list box_of) : list (option (Q * Q)) * list (option (Q * Q)) :=
  (stack 0 0 planes, stack (widest planes + 1000) 0 axes).

(** ** Moves *)

(** QRectF, by its sides, and QRectF::contains: a rectangle without width or height has no point,
    and one whose sides are swapped is put straight. *)
Record rect := mkRect { r_left : Q; r_top : Q; r_right : Q; r_bottom : Q }.
Definition side_contains (a b x : Q) : bool :=
  let lo := if Qltb b a then b else a in
  let hi := if Qltb b a then a else b in
  negb (Qeq_bool a b) && Qle_bool lo x && Qle_bool x hi.
Definition contains (r : rect) (p : Q * Q) : bool :=
  side_contains (r_left r) (r_right r) (fst p) && side_contains (r_top r) (r_bottom r) (snd p).
(** node.cpp 58-67: where a node of size [w], [h] goes when it is sent to [p] in a parent whose
    bounding rectangle is [r]. *)
Definition moved (r : rect) (w h : Q) (p : Q * Q) : Q * Q :=
  let r := mkRect (r_left r) (r_top r) (r_right r - w) (r_bottom r - h) in
  if contains r p then p
  else (qmin (r_right r) (qmax (fst p) (r_left r)), qmin (r_bottom r) (qmax (snd p) (r_top r))).
