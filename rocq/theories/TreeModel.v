(** Model of the downward traversals of src/utils/tree_node.cpp on a tree with
    ordered children.  No proofs in this file.
    Simplified: a node is its address and its list of children; [_parent] and
    [id] (an increasing counter, never read by the library) are left out. *)
From Coq Require Import List Arith Bool.
From Verif Require Import HistModel.
Import ListNotations.

(** tree_node.hpp 22-27 *)
Inductive tree := Node (a : nat) (children : list tree).

Definition addr (t : tree) : nat := match t with Node a _ => a end.
Definition children (t : tree) : list tree := match t with Node _ cs => cs end.

(** tree_node.cpp 92-102 with include_itself = true *)
Fixpoint cluster_self (t : tree) : list nat :=
  match t with Node a cs => a :: flat_map cluster_self cs end.

(** tree_node.cpp 92-102 *)
Definition tcluster (include_itself : bool) (t : tree) : list nat :=
  if include_itself then cluster_self t else flat_map cluster_self (children t).

(** tree_node.cpp 65-78 with include_itself = true *)
Fixpoint leafs_self (t : tree) : list nat :=
  match t with
  | Node a [] => [a]
  | Node a cs => flat_map leafs_self cs
  end.

(** tree_node.cpp 65-78 *)
Definition leafs (include_itself : bool) (t : tree) : list nat :=
  match t with
  | Node a [] => if include_itself then [a] else []
  | Node a cs => flat_map leafs_self cs
  end.

(** tree_node.cpp 81-88 *)
Fixpoint terase (nodes : list nat) (t : tree) : tree :=
  match t with
  | Node a cs => Node a (flat_map (fun c => if mem (addr c) nodes then [] else [terase nodes c]) cs)
  end.

(** tree_node.cpp 141-143 *)
Definition is_leaf (t : tree) : bool := match children t with [] => true | _ => false end.

(** * Specification: nodes as positions (child indices from the root). *)
Fixpoint at_pos (t : tree) (p : list nat) : option tree :=
  match p with
  | [] => Some t
  | i :: q => match nth_error (children t) i with
              | Some c => at_pos c q
              | None => None
              end
  end.

(** Two positions never hold the same address. *)
Definition distinct_nodes (t : tree) : Prop :=
  forall p q x y, at_pos t p = Some x -> at_pos t q = Some y -> addr x = addr y -> p = q.

(** [h] holds exactly the nodes of [t], each with its parent. *)
Definition represents (h : heap) (t : tree) : Prop :=
  forall x q, In (x, q) h <->
    (x = addr t /\ q = null) \/
    exists p i u v, at_pos t p = Some u /\ addr u = q /\ at_pos t (p ++ [i]) = Some v /\ addr v = x.
