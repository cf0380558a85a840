(** HDBSCAN on a float32 matrix, in machine numbers. *)
From Coq Require Import List Arith Bool ZArith.
From Flocq Require Import Core.Core IEEE754.BinarySingleNaN.
From Verif Require Import Prelude Order Size Coord Graph M_Kruskal M_TreeQuery M_Boruvka M_KDTree M_Linkage M_Condense M_Select M_Labels
  M_Pipeline M_Float P_FloatOrd P_FloatLaws.
Import ListNotations.

(** numba_kdtree.py:539-590: Coordinates in float32. *)
Definition SingleCoord : Coord := FloatCoord 24 128 pos24 lt24.

(** cluster_trees.py:193-203. Lambdas and strengths.  Lambdas are never negative, so [isfinite] is "not
    infinity". *)
Definition FloatLam : LamArith Double :=
  {| la_zero := dzero : Double; la_one := done : Double; la_div := float_strength; la_finite := fun x => negb (dle dinf x) |}.

(** Epsilon and persistence act only when positive (hdbscan.py:528, 559). *)
Definition float_settings (mcs : nat) (method : selection_method) (allow_single : bool) (epsilon persistence : double) : settings Double NatSize :=
  {| min_cluster_size := mcs;
     cluster_selection_method := method;
     max_cluster_size := None;
     allow_single_cluster := allow_single;
     cluster_selection_epsilon := if dle epsilon dzero then None else Some (float_lt_eps epsilon, ddiv done epsilon);
     cluster_selection_persistence := if dle persistence dzero then None else Some (float_persists persistence) |}.

(** hdbscan.py:497-574. *)
Definition float_clusters (garbage : nat -> Double) (by_parent : list (crow Double NatSize) -> list (crow Double NatSize))
    (st : settings Double NatSize) (mst : list (edge Double)) :=
  clusters_from_spanning_tree (float_lambda : Double -> Double) FloatLam (float_scores : Arith Double NatSize) garbage by_parent st mst.

(** boruvka.py:646: the weights are float32 numbers in a float64 array. *)
Definition tree_root (x : Single) : Double := f_root 53 1024 pos53 lt53 (widened x).
(** boruvka.py:647: a float32 array. *)
Definition core_root (x : Single) : Single := f_root 24 128 pos24 lt24 x.

(** numba_kdtree.py:474-524 and boruvka.py:552-647 on a float32 matrix. *)
Definition float_boruvka (data : nat -> nat -> Single) (n_features n leaf_size : nat) (mode : query_mode) (min_samples : nat)
    : res (list (edge Double) * list (list (option nat)) * list Single) :=
  let* t := build_kdtree (C := SingleCoord) data n_features n leaf_size in
  let* r := parallel_boruvka (W := Single) (tree_of t) n (sample_rdist (C := SingleCoord) data n_features)
              (node_bound (C := SingleCoord) data n_features (snd t)) (f_zero 24 128) (fun x => x) mode min_samples in
  let '(edges, nbrs, core) := r in
  Ok (map (fun e => (esrc e, edst e, tree_root (ewt e))) edges, nbrs, map core_root core).

(** hdbscan.py:367-574: the spanning tree of the data and the clusters it gives. *)
Definition float_hdbscan (data : nat -> nat -> Single) (n_features n leaf_size : nat) (mode : query_mode) (min_samples : nat)
    (garbage : nat -> Double) (by_parent : list (crow Double NatSize) -> list (crow Double NatSize)) (st : settings Double NatSize) :=
  let* r := float_boruvka data n_features n leaf_size mode min_samples in
  let '(mst, _, _) := r in float_clusters garbage by_parent st mst.
