(** Model of the lens of BranchDetector (branches.py:5-10), in exact arithmetic,
    and of fitting HDBSCAN and then BranchDetector to points. *)
From Coq Require Import List Arith Bool ZArith QArith Qcanon.
From Verif Require Import Prelude Order Graph Size Num M_Kruskal M_KruskalEntry S_Kruskal M_Linkage M_Condense M_Select M_Labels M_Pipeline M_Estimator M_SubClusters
  M_LensGraph M_Detector.
Import ListNotations.
Local Open Scope nat_scope.

(** branches.py:5-10. The coordinates of a sample. *)
Definition point := list Qc.

(** branches.py:5-10: [np.sum]. *)
Definition qsum (l : list Qc) : Qc := fold_right Qcplus 0%Qc l.

Section Centrality.
  Context {W V : WOrd}.
  (** The number of columns; the length and the inverse length of a vector, as
      functions of its squared length ([inverse_root 0] is infinite); a strength as
      a number. *)
  Variables (dim : nat) (root inverse_root : Qc -> W) (as_q : V -> Qc).

  (** branches.py:5-10: Difference of rows. *)
  Definition minus (a b : point) : point := map (fun j => nth j a 0 - nth j b 0)%Qc (seq 0 dim).
  (** branches.py:5-10: Squared length. *)
  Definition square (v : point) : Qc := qsum (map (fun j => nth j v 0 * nth j v 0)%Qc (seq 0 dim)).

  (** branches.py:5-10. [np.average(rows, weights=weights, axis=0)]: raises if the weights sum to
      zero. *)
  Definition average_of (rows : list point) (weights : list Qc) : res point :=
    let total := qsum weights in
    if Qc_eq_bool total 0 then Err ZeroDivisionError else
    Ok (map (fun j => qsum (map (fun rw : point * Qc => nth j (fst rw) 0 * snd rw) (combine rows weights)) / total)%Qc (seq 0 dim)).

  (** branches.py:5-10 *)
  Definition compute_centrality (data : list point) (probabilities : list V) (points : list nat) : res (list W) :=
    let* cluster_data := gather data points in
    let* strengths := gather probabilities points in
    let* centroid := average_of cluster_data (map as_q strengths) in
    Ok (map (fun r => inverse_root (square (minus r centroid))) cluster_data).

  (** branches.py:5-10. The lens callback; a failure ends the run (see [centralities]). *)
  Definition centrality_lens (data : list point) (probabilities : list V) (points : list nat) : list W :=
    match compute_centrality data probabilities points with Ok v => v | Err _ => [] end.

  (** numba_kdtree.py:539-563. Euclidean distances. *)
  Definition euclidean (rows : list point) (i j : nat) : W :=
    match nth_error rows i, nth_error rows j with
    | Some a, Some b => root (square (minus a b))
    | _, _ => winf                      (* not read *)
    end.

  (** hdbscan.py:480-494 with algorithm="kruskal": spanning tree, neighbours, core
      distances. *)
  Definition points_mst (zero : W) (min_samples : nat) (rows : list point) : res (list (edge W) * list (list nat) * list W) :=
    kruskal_mst_brute zero (euclidean rows) (length rows) min_samples CLNone.

  (** sub_clusters.py:64-95 with this lens: the centralities of every cluster, as
      far as computing them may fail. *)
  Fixpoint centralities (data : list point) (probabilities : list V) (clusters : list (list nat)) : res unit :=
    match clusters with
    | [] => Ok tt
    | points :: clusters' =>
        let* _ := compute_centrality data probabilities points in
        centralities data probabilities clusters'
    end.
End Centrality.

(** HDBSCAN(...).fit(X), then BranchDetector(...).fit: the spanning tree and the
    neighbours are those of the finite rows.  Computing the centralities is checked
    at the end; so if a run fails for two reasons, the error may be the other one. *)
Section Run.
  Context {W V : WOrd}.
  (** Whether a row has no missing values. *)
  Variable complete : point -> bool.
  Variables (dim : nat) (root inverse_root : Qc -> W) (as_q : V -> Qc) (wzero : W) (min_samples : nat).
  Variables (lam : W -> V) (LA : LamArith V) (garbage : nat -> V) (A : Arith V NatSize) (by_parent : list (crow V NatSize) -> list (crow V NatSize))
    (st : settings V NatSize) (set_list : list nat -> list nat).
  Variables (round : W -> W) (sort_row : list (nat * W) -> list (nat * W)) (average : V -> V -> V) (one : V) (no_lens : W)
    (cluster_of : list (edge W) -> res (list Z * list V))
    (propagate : joined V W * list (list nat * sub_result W V) -> res ((nat -> Z) * (nat -> Z))).

  (** hdbscan.py:686-822: [fit] on points. *)
  Definition hdbscan_points (X : list point) : res (fitted W V NatSize) :=
    fit (la_zero LA) complete set_list
      (fast_hdbscan lam LA garbage (fun rows => let* r := points_mst dim root wzero min_samples rows in Ok (fst (fst r))) A by_parent st) X.

  (** branches.py:112-126: [fit] of the branch detector on points. *)
  Definition branches_of_points (propagate_labels label_sides_as_branches : bool) (X : list point) : res (detected W V) :=
    let* r := hdbscan_points X in
    let* m := points_mst dim root wzero min_samples (filter complete X) in
    let* d := detect round sort_row average (la_zero LA) one no_lens cluster_of propagate propagate_labels X (f_condensed r) (f_labels r) (f_probabilities r)
                (map (map Some) (snd (fst m))) (f_mst r) (LensCallback (centrality_lens dim inverse_root as_q)) in
    let* _ := centralities dim inverse_root as_q X (f_probabilities r) (d_points d) in
    branch_fit (la_zero LA) label_sides_as_branches d.
End Run.
