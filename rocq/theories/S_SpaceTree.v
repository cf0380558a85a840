(** Vocabulary for statements about space trees and nearest neighbours. *)
From Coq Require Import List Arith Permutation.
From Verif Require Import Prelude Order M_TreeQuery.
Import ListNotations.

(** Sample [q] is stored below node [node]. *)
Definition below (t : space_tree) (node q : nat) : Prop :=
  exists k, t_start t node <= k < t_end t node /\ t_idx t k = q.

(** A well formed tree over [n] samples: the root holds positions 0..n-1, an
    inner node's positions are those of its children one after the other, no
    node is empty, and the positions hold every sample once. *)
Record tree_shape (t : space_tree) (n : nat) : Prop := {
  ts_nodes : 0 < t_nodes t;
  ts_root : t_start t 0 = 0 /\ t_end t 0 = n;
  ts_nonempty : forall node, node < t_nodes t -> t_start t node < t_end t node;
  ts_within : forall node, node < t_nodes t -> t_end t node <= n;
  ts_split : forall node, node < t_nodes t -> t_leaf t node = false ->
    2 * node + 2 < t_nodes t /\
    t_start t (2 * node + 1) = t_start t node /\
    t_end t (2 * node + 1) = t_start t (2 * node + 2) /\
    t_end t (2 * node + 2) = t_end t node;
  ts_samples : Permutation (map (t_idx t) (seq 0 n)) (seq 0 n)
}.

(** [lb p node] never exceeds the distance from [p] to a sample below [node]. *)
Definition lower_bounds {W : WOrd} (t : space_tree) (rd lb : nat -> nat -> W) : Prop :=
  forall p node q, node < t_nodes t -> below t node q -> wle (lb p node) (rd p q) = true.

(** [row] lists the [k] samples nearest to a query at distances [rd], nearest
    first, followed by [k - n] empty places when there are fewer than [k]
    samples.  Distances are reported through [out]. *)
Definition nearest {W : WOrd} (out : W -> W) (rd : nat -> W) (n k : nat)
    (row : list (W * option nat)) : Prop :=
  exists near far,
    row = map (fun q => (out (rd q), Some q)) near ++ repeat (out winf, None) (k - n) /\
    length near = min k n /\
    Permutation (near ++ far) (seq 0 n) /\
    sorted_by (fun q => out (rd q)) near /\
    forall q r, In q near -> In r far -> wle (rd q) (rd r) = true.
