(** Vocabulary for statements about the construction of the space tree. *)
From Coq Require Import List Arith Permutation.
From Verif Require Import Prelude Order Coord M_TreeQuery S_SpaceTree M_KDTree.
Import ListNotations.

(** [a'] holds in positions s..e-1 the values of [a] in another order, and agrees
    with [a] elsewhere. *)
Definition rearranged (s e : nat) (a a' : nat -> nat) : Prop :=
  (forall k, k < s \/ e <= k -> a' k = a k) /\
  Permutation (map a' (seq s (e - s))) (map a (seq s (e - s))).

Section Order_.
  Context {C : Coord}.
  Variables (data : nat -> nat -> C) (axis : nat).

  (** Samples are ordered by their value on the axis, then by their number. *)
  Definition precedes (i j : nat) : Prop :=
    wlt (data i axis) (data j axis) = true \/
    (wle (data i axis) (data j axis) = true /\ i <= j).

  (** The positions left..nth-1 precede the positions nth..right-1. *)
  Definition split_at (left nth right : nat) (a : nat -> nat) : Prop :=
    forall i j, left <= i < nth -> nth <= j < right -> precedes (a i) (a j).
End Order_.

(** The box of each node contains the samples stored below it. *)
Definition boxes_contain {C : Coord} (data : nat -> nat -> C) (n_features : nat) (t : space_tree)
    (lower upper : nat -> nat -> C) : Prop :=
  forall node k j, node < t_nodes t -> t_start t node <= k < t_end t node -> j < n_features ->
    wle (lower node j) (data (t_idx t k) j) = true /\ wle (data (t_idx t k) j) (upper node j) = true.

(** An inner node is cut in the middle of its samples along one axis. *)
Definition median_splits {C : Coord} (data : nat -> nat -> C) (n_features : nat) (t : space_tree) : Prop :=
  forall node, node < t_nodes t -> t_leaf t node = false ->
    t_end t (2 * node + 1) = t_start t node + (t_end t node - t_start t node) / 2 /\
    exists axis, axis < n_features /\
      split_at data axis (t_start t node) (t_end t (2 * node + 1)) (t_end t node) (t_idx t).

(** No leaf holds more than [c] samples. *)
Definition leaves_hold_at_most (c : nat) (t : space_tree) : Prop :=
  forall node, node < t_nodes t -> t_leaf t node = true -> t_end t node - t_start t node <= c.

(** Every sample is stored below exactly one leaf. *)
Definition each_sample_in_one_leaf (n : nat) (t : space_tree) : Prop :=
  forall q, q < n -> exists! leaf, leaf < t_nodes t /\ t_leaf t leaf = true /\ below t leaf q.
