(** Specification of the tree of clusters across layers. *)
From Coq Require Import List Arith Bool ZArith.
From Verif Require Import Prelude S_Layers M_LayerTree.
Import ListNotations.
Local Open Scope nat_scope.

(** Labels are -1 or run from 0 up without gaps. *)
Definition gap_free (layer : list Z) : Prop :=
  forall l, In l layer -> (-1 <= l)%Z /\ forall k, (0 <= k <= l)%Z -> In k layer.

Section Tree.
  Variable labels : list (list Z).
  Definition label_of (layer x : nat) : Z := nth x (nth layer labels []) (-1)%Z.

  (** Cluster [c] of a layer. *)
  Definition cluster_in (layer : nat) (c : Z) : Prop := layer < length labels /\ (0 <= c)%Z /\ In c (nth layer labels []).

  (** A sample in both clusters. *)
  Definition overlap (layer : nat) (c : Z) (layer' : nat) (c' : Z) : Prop := exists x, label_of layer x = c /\ label_of layer' x = c'.

  (** What the parent of cluster [c] of layer [i] must be: the first label of the
      nearest higher layer in which a sample of [c] is in a cluster; the root, named
      by the number of layers, if there is none. *)
  Definition right_parent (r : tree_row) : Prop :=
    let i := t_child_layer r in let c := t_child r in
    (t_parent_layer r < length labels /\ i < t_parent_layer r /\ cluster_in (t_parent_layer r) (t_parent r) /\
       overlap (t_parent_layer r) (t_parent r) i c /\
       (forall j p, i < j < t_parent_layer r -> (0 <= p)%Z -> ~ overlap j p i c) /\
       (forall p, (0 <= p < t_parent r)%Z -> ~ overlap (t_parent_layer r) p i c)) \/
    (t_parent_layer r = length labels /\ t_parent r = 0%Z /\
       forall j p, i < j < length labels -> (0 <= p)%Z -> ~ overlap j p i c).

  (** Every cluster of every layer is a child exactly once. *)
  Definition right_tree (rows : list tree_row) : Prop :=
    NoDup (map (fun r => (t_child_layer r, t_child r)) rows) /\
    (forall i c, cluster_in i c <-> In (i, c) (map (fun r => (t_child_layer r, t_child r)) rows)) /\
    forall r, In r rows -> right_parent r.
End Tree.

(** The dictionary holds exactly these rows, grouped by parent. *)
Definition right_dictionary (rows : list tree_row) (d : list (cluster_name * list cluster_name)) : Prop :=
  NoDup (map fst d) /\
  (forall p cs, In (p, cs) d ->
     cs <> [] /\ cs = map (fun r => (t_child_layer r, t_child r)) (filter (fun r => name_eqb p (t_parent_layer r, t_parent r)) rows)) /\
  forall r, In r rows -> In (t_parent_layer r, t_parent r) (map fst d).

(** If the layer of the parent has fewer clusters than that of the child, the
    parent contains the child. *)
Definition nested_rows (labels : list (list Z)) (rows : list tree_row) : Prop :=
  forall r, In r rows -> t_parent_layer r < length labels ->
  (forall k k', label_count (nth (t_child_layer r) labels []) k -> label_count (nth (t_parent_layer r) labels []) k' -> (k' < k)%Z) ->
  forall x, label_of labels (t_child_layer r) x = t_child r -> label_of labels (t_parent_layer r) x = t_parent r.
