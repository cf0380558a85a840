(** Model of the hierarchies a detector reports:
    fast_hdbscan/sub_clusters.py:395-400, 574-612. *)
From Coq Require Import List Arith Bool ZArith.
From Verif Require Import Prelude Order Graph Size Num M_Precomputed M_Linkage M_Condense M_Select M_Labels M_Pipeline M_Layers M_LayerTree M_SubClusters M_LensGraph M_Detector.
Import ListNotations.
Local Open Scope nat_scope.

Section Trees.
  Context {W V : WOrd}.
  Variables (lambda : W -> V) (garbage : nat -> V) (st : settings V NatSize).

  (** sub_clusters.py:400, 599-612: linkage_trees_; [None] for a cluster in several
      parts.  The code keeps the tree that clusters_from_spanning_tree built
      (hdbscan.py:521-524); here it is built again from the same sorted edges. *)
  Definition linkage_trees (d : detected W V) : res (list (option (list (lrow W NatSize)))) :=
    map_res (fun part => if sr_tree part then let* L := mst_to_linkage_tree (sr_mst part) in Ok (Some L) else Ok None) (d_parts d).

  (** sub_clusters.py:396-399, 574-597: condensed_trees_; the trees are those of
      hdbscan.py:526-532, built again. *)
  Definition condensed_trees (d : detected W V) : res (list (option (list (crow V NatSize)))) :=
    map_res (fun part => if sr_tree part then
                           let* L := mst_to_linkage_tree (sr_mst part) in
                           let* T := condensed_tree_of lambda garbage st (fun _ => 1) L in
                           Ok (match T with [] => None | _ => Some T end)
                         else Ok None) (d_parts d).
End Trees.
