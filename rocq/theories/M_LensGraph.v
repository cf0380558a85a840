(** Model of the lens graph of a cluster and of find_sub_clusters:
    fast_hdbscan/core_graph.py:19-106, 211-246 and fast_hdbscan/sub_clusters.py:16-95, 245-455. *)
From Coq Require Import List Arith Bool ZArith.
From Verif Require Import Prelude Order Graph Size Num M_DisjointSet M_Precomputed M_Linkage M_Condense M_Select M_CoreGraph
  M_Pipeline M_Estimator M_Layers M_LayerTree M_SubClusters.
Import ListNotations.
Local Open Scope nat_scope.

Section Lens.
  Context {W : WOrd}.
  (** Conversion to float32; [np.argsort] applied to a row (not stable). *)
  Variables (round : W -> W) (sort_row : list (nat * W) -> list (nat * W)).

  (** core_graph.py:28-38: the children of one point.  The stored mutual
      reachability distances are left out: they are only reported (M_Report). *)
  Definition knn_children (lens : nat -> W) (point : nat) (neighbors : list (option nat)) : list (nat * W) :=
    fold_left (fun children c => match c with
                                 | None => children
                                 | Some child => dict_set children child (wmax (lens point) (lens child))
                                 end) neighbors [].

  (** core_graph.py:41-47 *)
  Definition add_mst_edge (lens : nat -> W) (graph : nat -> list (nat * W)) (e : edge W) : nat -> list (nat * W) :=
    let parent := esrc e in let child := edst e in
    match dict_get (graph parent) child with
    | Ok _ => graph
    | Err _ => upd graph parent (dict_set (graph parent) child (wmax (lens parent) (lens child)))
    end.

  (** core_graph.py:19-49 [knn_mst_union]; point [i] of the list of neighbours. *)
  Definition knn_mst_union (neighbors : list (list (option nat))) (mst : list (edge W)) (lens : nat -> W) : nat -> list (nat * W) :=
    fold_left (add_mst_edge lens) mst (fun point => knn_children lens point (nth point neighbors [])).

  (** core_graph.py:52-74 [flatten_to_csr] *)
  Definition flatten_to_csr (n : nat) (graph : nat -> list (nat * W)) : csr W :=
    let all := flat_map graph (seq 0 n) in
    {| c_data := map (fun cw => round (snd cw)) all; c_indices := map fst all;
       c_indptr := 0 :: cumsum 0 (map (fun i => length (graph i)) (seq 0 n)) |}.

  (** core_graph.py:77-94 [sort_by_lens] *)
  Definition sort_by_lens (g : csr W) : csr W :=
    let rows := flat_map (fun i => sort_row (csr_row g i)) (seq 0 (csr_n g)) in
    {| c_data := map snd rows; c_indices := map fst rows; c_indptr := c_indptr g |}.

  (** core_graph.py:211-218 [core_graph_spanning_tree]: the graph. *)
  Definition lens_graph (neighbors : list (list (option nat))) (mst : list (edge W)) (lens : nat -> W) : csr W :=
    sort_by_lens (flatten_to_csr (length neighbors) (knn_mst_union neighbors mst lens)).

  (** core_graph.py:232-233: labels become 0, 1, ... *)
  Fixpoint relabel (i : nat) (unique labels : list nat) : list nat :=
    match unique with
    | [] => labels
    | label :: unique' => relabel (S i) unique' (map (fun l => if l =? label then i else l) labels)
    end.

  (** sub_clusters.py:16-61. What is reported of one cluster: labels, probabilities, whether there is a
      linkage tree, the graph, the spanning tree. *)
  Record sub_result (V : Type) := { sr_labels : list Z; sr_probs : list V; sr_tree : bool; sr_graph : csr W; sr_mst : list (edge W) }.
  Arguments sr_labels {V}. Arguments sr_probs {V}. Arguments sr_tree {V}. Arguments sr_graph {V}. Arguments sr_mst {V}.

  (** core_graph.py:221-246 [core_graph_clusters]; [cluster] is
      clusters_from_spanning_tree with the caller's settings, whose sorted tree
      is the one reported (hdbscan.py:511-519). *)
  Definition core_graph_clusters {V : WOrd} (one : V) (cluster : list (edge W) -> res (list Z * list V))
      (neighbors : list (list (option nat))) (mst : list (edge W)) (lens : nat -> W) : res (sub_result V) :=
    let graph := lens_graph neighbors mst lens in
    let* r := boruvka_mst graph in
    let '(num_components, component_labels, lensed_mst) := r in
    if 1 <? num_components then
      Ok {| sr_labels := map Z.of_nat (relabel 0 (unique component_labels) component_labels);
            sr_probs := repeat one (length component_labels); sr_tree := false; sr_graph := graph; sr_mst := lensed_mst |}
    else
      let* ls := cluster lensed_mst in
      Ok {| sr_labels := fst ls; sr_probs := snd ls; sr_tree := 0 <? length lensed_mst; sr_graph := graph; sr_mst := sort_mst lensed_mst |}.

  (** sub_clusters.py:31: the samples of a cluster and the place of a sample
      in it.  [-1] (no neighbour) is [None]. *)
  Definition members (labels : list Z) (cluster : Z) : list nat :=
    filter (fun x => (nth x labels (-1) =? cluster)%Z) (seq 0 (length labels)).
  (** sub_clusters.py:16-61: The position of sample [x] in [points]. *)
  Fixpoint place_in (points : list nat) (x : nat) : option nat :=
    match points with
    | [] => None
    | p :: points' => if p =? x then Some 0 else option_map S (place_in points' x)
    end.

  (** sub_clusters.py:35: [in_cluster_ids[neighbors]]; a missing neighbour is
      stored as -1, and index -1 reads the last cell. *)
  Definition neighbor_in (N : nat) (points : list nat) (neighbor : option nat) : option nat :=
    match neighbor with Some y => place_in points y | None => place_in points (N - 1) end.

  (** sub_clusters.py:37-40 *)
  Definition edge_in (labels : list Z) (cluster : Z) (points : list nat) (e : edge W) : list (edge W) :=
    if (nth (esrc e) labels (-1) =? cluster)%Z && (nth (edst e) labels (-1) =? cluster)%Z then
      match place_in points (esrc e), place_in points (edst e) with
      | Some p, Some c => [(p, c, ewt e)]
      | _, _ => []
      end
    else [].

  (** sub_clusters.py:16-61; the lens values of the samples of a cluster are an
      arbitrary function of the cluster. *)
  Definition sub_clusters_in_cluster {V : WOrd} (one : V) (cluster_of : list (edge W) -> res (list Z * list V)) (labels : list Z)
      (neighbors : list (list (option nat))) (mst : list (edge W)) (lens_callback : nat -> list W) (cluster : nat) : res (sub_result V) :=
    let points := members labels (Z.of_nat cluster) in
    let neighbors := map (fun x => map (neighbor_in (length labels) points) (nth x neighbors [])) points in
    let mst := flat_map (edge_in labels (Z.of_nat cluster) points) mst in
    core_graph_clusters one cluster_of neighbors mst (fun i => nth i (lens_callback cluster) winf).

  (** sub_clusters.py:365: [np.max(cluster_labels) + 1] clusters. *)
  Definition num_clusters (labels : list Z) : res nat :=
    if forallb (fun l => (l =? -1)%Z) labels then Err ValueError
    else let* top := zmax labels in Ok (Z.to_nat (top + 1)).

  (** sub_clusters.py:64-95 *)
  Definition sub_clusters_per_cluster {V : WOrd} (one : V) (cluster_of : list (edge W) -> res (list Z * list V)) (labels : list Z)
      (neighbors : list (list (option nat))) (mst : list (edge W)) (lens_callback : nat -> list W) : res (list (sub_result V)) :=
    let* k := num_clusters labels in
    map_res (sub_clusters_in_cluster one cluster_of labels neighbors mst lens_callback) (seq 0 k).

  (** sub_clusters.py:98-128 on these results. *)
  Definition piece_of {V : WOrd} (labels : list Z) (lens_callback : nat -> list W) (kr : nat * sub_result V) : piece V W :=
    {| pc_points := members labels (Z.of_nat (fst kr)); pc_labels := sr_labels (snd kr); pc_probs := sr_probs (snd kr);
       pc_lens := lens_callback (fst kr) |}.

  (** sub_clusters.py:364-410, on finite data: the joined results, then the samples
      of each cluster with what was found in it. *)
  Definition find_sub_clusters {V : WOrd} (average : V -> V -> V) (zero one : V) (no_lens : W)
      (cluster_of : list (edge W) -> res (list Z * list V)) (labels : list Z) (probabilities : nat -> V)
      (neighbors : list (list (option nat))) (mst : list (edge W)) (lens_callback : nat -> list W)
    : res (joined V W * list (list nat * sub_result V)) :=
    let* rs := sub_clusters_per_cluster one cluster_of labels neighbors mst lens_callback in
    let krs := combine (seq 0 (length rs)) rs in
    let* s := update_labels average zero no_lens probabilities (map (piece_of labels lens_callback) krs) in
    Ok (s, map (fun kr => (members labels (Z.of_nat (fst kr)), snd kr)) krs).

  (** sub_clusters.py:412-416, 170-185: with propagate_labels=True. *)
  Definition propagated {V N : WOrd} (inv : W -> res N) (nadd : N -> N -> N) (nzero : N) (fuel : nat)
      (found : joined V W * list (list nat * sub_result V)) : res ((nat -> Z) * (nat -> Z)) :=
    propagate_sub_cluster_labels inv nadd nzero fuel (j_labels (fst found)) (j_sub (fst found))
      (map (fun c => (fst c, sr_graph (snd c))) (snd found)).

  (** branches.py:112-122: BranchDetector.fit after find_sub_clusters. *)
  Definition branches {V : WOrd} (label_sides_as_branches : bool) (cluster_probabilities : nat -> V)
      (found : joined V W * list (list nat * sub_result V)) : res ((nat -> Z) * (nat -> V)) :=
    apply_branch_threshold label_sides_as_branches (map (fun c => (fst c, sr_tree (snd c))) (snd found)) (j_sub (fst found))
      cluster_probabilities (j_labels (fst found)) (j_probs (fst found)).

  (** branches.py:37-69 [find_branch_sub_clusters]: [apply_branch_threshold] has
      six parameters without a default and is called with five. *)
  Definition find_branch_sub_clusters {V : WOrd} (found : res (joined V W * list (list nat * sub_result V)))
    : res (joined V W * list (list nat * sub_result V)) :=
    let* _ := found in Err TypeError.
End Lens.
Arguments sub_result W V : clear implicits.
Arguments sr_labels {W V}. Arguments sr_probs {W V}. Arguments sr_tree {W V}. Arguments sr_graph {W V}. Arguments sr_mst {W V}.
