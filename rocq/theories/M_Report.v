(** Model of the graphs and trees a detector reports: core_graph.py:19-94 with the
    distances that M_LensGraph leaves out, core_graph.py:249-274 and
    sub_clusters.py:544-626. *)
From Coq Require Import List Arith Bool ZArith.
From Verif Require Import Prelude Order Graph Size Num M_Precomputed M_Linkage M_Condense M_Select M_Estimator M_Layers M_LayerTree M_SubClusters
  M_LensGraph M_Detector.
Import ListNotations.
Local Open Scope nat_scope.

(** core_graph.py:249-274. [a[order]] *)
Definition take {A} (d : A) (order : list nat) (a : list A) : list A := map (fun i => nth i a d) order.

Section Report.
  Context {W : WOrd}.
  (** Conversion to float32; [np.argsort] of a row (not stable). *)
  Variables (round : W -> W) (argsort_row : list W -> list nat).

  (** core_graph.py:28-38: the children of one point, each with its weight and its
      distance. *)
  Definition knn_children_full (lens core : nat -> W) (point : nat) (neighbors : list (option nat)) : list (nat * (W * W)) :=
    fold_left (fun children c => match c with
                                 | None => children
                                 | Some child => dict_set children child (wmax (lens point) (lens child), wmax (core point) (core child))
                                 end) neighbors [].

  (** core_graph.py:41-47 *)
  Definition add_mst_edge_full (lens : nat -> W) (graph : nat -> list (nat * (W * W))) (e : edge W) : nat -> list (nat * (W * W)) :=
    let parent := esrc e in let child := edst e in
    match dict_get (graph parent) child with
    | Ok _ => graph
    | Err _ => upd graph parent (dict_set (graph parent) child (wmax (lens parent) (lens child), ewt e))
    end.

  (** core_graph.py:19-49 [knn_mst_union] *)
  Definition knn_mst_union_full (neighbors : list (list (option nat))) (core : nat -> W) (mst : list (edge W)) (lens : nat -> W)
    : nat -> list (nat * (W * W)) :=
    fold_left (add_mst_edge_full lens) mst (fun point => knn_children_full lens core point (nth point neighbors [])).

  (** core_graph.py:10 *)
  Record core_graph := { g_weights : list W; g_distances : list W; g_indices : list nat; g_indptr : list nat }.
  (** sub_clusters.py:544-572: The arrays that the report uses as a matrix. *)
  Definition without_distances (g : core_graph) : csr W := {| c_data := g_weights g; c_indices := g_indices g; c_indptr := g_indptr g |}.

  (** core_graph.py:52-74 [flatten_to_csr] *)
  Definition flatten_full (n : nat) (graph : nat -> list (nat * (W * W))) : core_graph :=
    let all := flat_map graph (seq 0 n) in
    {| g_weights := map (fun c => round (fst (snd c))) all; g_distances := map (fun c => round (snd (snd c))) all; g_indices := map fst all;
       g_indptr := 0 :: cumsum 0 (map (fun i => length (graph i)) (seq 0 n)) |}.

  (** core_graph.py:77-94 [sort_by_lens] *)
  Definition sort_full (g : core_graph) : core_graph :=
    let start i := nth i (g_indptr g) 0 in
    let row_order i := argsort_row (slice (start i) (start (S i)) (g_weights g)) in
    let rows {A} (d : A) (a : list A) :=
      flat_map (fun i => take d (row_order i) (slice (start i) (start (S i)) a)) (seq 0 (length (g_indptr g) - 1)) in
    {| g_weights := rows winf (g_weights g); g_distances := rows winf (g_distances g); g_indices := rows 0 (g_indices g);
       g_indptr := g_indptr g |}.

  (** core_graph.py:211-218 *)
  Definition lens_graph_full (neighbors : list (list (option nat))) (core : nat -> W) (mst : list (edge W)) (lens : nat -> W) : core_graph :=
    sort_full (flatten_full (length neighbors) (knn_mst_union_full neighbors core mst lens)).

  (** core_graph.py:268-274 [core_graph_to_edge_list]: rows (parent, child, weight,
      distance).  [core_graph_to_rec_array] (249-265) has the same columns. *)
  Definition core_graph_to_edge_list (g : core_graph) : list (nat * nat * W * W) :=
    let parents := flat_map (fun i => repeat i (nth (S i) (g_indptr g) 0 - nth i (g_indptr g) 0)) (seq 0 (length (g_indptr g) - 1)) in
    combine (combine (combine parents (g_indices g)) (g_weights g)) (g_distances g).

  (** sub_clusters.py:30-61: the graph of one cluster. *)
  Definition cluster_graph (labels : list Z) (neighbors : list (list (option nat))) (core : list W) (mst : list (edge W))
      (lens_callback : nat -> list W) (cluster : nat) : core_graph :=
    let points := members labels (Z.of_nat cluster) in
    lens_graph_full (map (fun x => map (neighbor_in (length labels) points) (nth x neighbors [])) points)
      (fun i => nth (nth i points 0) core winf) (flat_map (edge_in labels (Z.of_nat cluster) points) mst)
      (fun i => nth i (lens_callback cluster) winf).

  (** sub_clusters.py:364-393: the graphs of all clusters. *)
  Definition row_graphs (labels : list Z) (neighbors : list (list (option nat))) (core : list W) (mst : list (edge W)) (lens : list nat -> list W)
    : res (list core_graph) :=
    let* k := num_clusters labels in
    Ok (map (cluster_graph labels neighbors core mst (fun k => lens (members labels (Z.of_nat k)))) (seq 0 k)).

  (** sub_clusters.py:334-393: the graphs a detector stores; [neighbors], [core] and
      [mst] are those of the finite rows. *)
  Definition stored_graphs {V : WOrd} {Sz : SOrd} {Row} (zero : V) (no_lens : W) (data : list Row) (tree : list (crow V Sz)) (labels : list Z)
      (probabilities : list V) (neighbors : list (list (option nat))) (core : list W) (mst : list (edge W)) (lens : lens_input W V Row)
    : res (list core_graph) :=
    let num_points := length data in
    let last_outlier := searchsorted (map c_lam tree) zero in
    if last_outlier =? 0 then
      let* lens := lens_of no_lens lens num_points None data probabilities in
      row_graphs labels neighbors core mst lens
    else
      let finite_index := all_but num_points (map c_child (firstn last_outlier tree)) in
      let* data := gather data finite_index in
      let* labels := gather labels finite_index in
      let* probabilities := gather probabilities finite_index in
      let* lens := lens_of no_lens lens num_points (Some finite_index) data probabilities in
      row_graphs labels neighbors core mst lens.

  (** sub_clusters.py:544-572: approximation_graph_, one list of edges for every
      cluster, whose ends are rows of the data. *)
  Definition approximation_graph (graphs : list core_graph) (cluster_points : list (list nat)) : list (list (nat * nat * W * W)) :=
    map (fun gp => map (fun e => let '(i, j, w, d) := e in (nth i (snd gp) 0, nth j (snd gp) 0, w, d)) (core_graph_to_edge_list (fst gp)))
      (combine graphs cluster_points).

  (** sub_clusters.py:614-626: spanning_trees_; [MinimumSpanningTree(tree,
      raw_data)] draws an edge between two rows of the data. *)
  Definition spanning_trees {V : WOrd} (d : detected W V) : list (list (edge W)) := map sr_mst (d_parts d).
End Report.
Arguments core_graph W : clear implicits.
