(** What the properties of DelegateModel.v are about. *)
From Coq Require Import List Bool QArith.
From Verif Require Import IntervalModel ManagerModel DelegateModel.
Import ListNotations.

Definition policy_in (t : table) (c : column) : Policy := c_value (in_column (t_policy t) c).
Definition normal_in (t : table) (c : column) : MNormal := c_value (in_column (t_normal t) c).

(** Only policies THIRDS look to a side, and they do. *)
Definition coherent (p : Policy) (n : MNormal) : Prop := p = THIRDS <-> n <> NNONE.

(** What the user does, as opposed to what is painted. *)
Definition by_user (e : event) : Prop := match e with Paint_policy _ | Paint_normal _ => False | _ => True end.

(** The cells of the new values are up to date on the screen, and were painted after those of the
    old values: as the whole table being painted leaves it. *)
Definition up_to_date (t : table) : Prop :=
  t_at_policy t = Some New /\ t_at_normal t = Some New
  /\ c_text (in_new (t_policy t)) = Some (policy_in t New) /\ c_text (in_new (t_normal t)) = Some (normal_in t New).
Definition paint_all : list event := [Paint_policy Old; Paint_policy New; Paint_normal Old; Paint_normal New].

(** Anything happens. *)
Definition happens (l : list event) (t : table) : table := fold_left (fun t e => happen e t) l t.

(** Anything is painted, but the user acts only on what is up to date. *)
Inductive used (t : table) : list event -> table -> Prop :=
  | used_none : used t [] t
  | used_more l t' e : used t l t' -> (by_user e -> up_to_date t') -> used t (l ++ [e]) (happen e t').

(** The normal that goes with a policy: the one there is, if it can be. *)
Definition adapted (p : Policy) (n : MNormal) : MNormal :=
  match p with THIRDS => match n with NNONE => NMIN | _ => n end | _ => NNONE end.
