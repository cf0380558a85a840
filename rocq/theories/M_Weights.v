(** Model of the sample-weighted variants in fast_hdbscan/boruvka.py and
    fast_hdbscan/kruskal.py. *)
From Coq Require Import List Arith Bool ZArith QArith Qcanon Qround.
From Verif Require Import Prelude Order Size Graph M_DisjointSet M_Kruskal M_Precomputed M_KruskalEntry M_Linkage M_TreeQuery M_Boruvka.
Import ListNotations.
Local Open Scope nat_scope.

Section Core.
  Context {W : WOrd} {Sz : SOrd}.

  (** boruvka.py:528-539. [sample_weights[neighbors[i, j]]]; the index -1 is the last sample. *)
  Definition neighbor_weight (ws : list Sz) (o : option nat) : Sz :=
    match o with Some j => nth j ws szero | None => last ws szero end.

  (** boruvka.py:531-537: the [while] loop, over the rest of the row; [d] is
      [distances[i, j - 1]]. *)
  Fixpoint weighted_scan (ws : list Sz) (min_samples total : Sz) (d : W) (row : list (W * option nat)) : W :=
    match row with
    | [] => d
    | (d', o) :: row' =>
        if slt total min_samples then weighted_scan ws min_samples (sadd total (neighbor_weight ws o)) d' row'
        else d
    end.

  (** boruvka.py:527-539 [sample_weight_core_distance]; the [prange] iterations
      write disjoint cells.  Column -1 is the last one. *)
  Definition sample_weight_core_distance (ws : list Sz) (min_samples : Sz) (rows : list (list (W * option nat))) : list W :=
    map (fun row => weighted_scan ws min_samples szero (fst (last row (winf, None))) row) rows.
End Core.

(** [int(2 * min_samples / mean(sample_weights))], boruvka.py:564-569 and
    kruskal.py:982-983, in exact arithmetic. *)
Definition expected_neighbors (min_samples : nat) (ws : list Qc) : res nat :=
  let sum := @ssum QcSize ws in
  if Qc_eq_bool sum 0 then Err ZeroDivisionError
  else Ok (Z.to_nat (Qfloor (this (Q2Qc (Z.of_nat (2 * min_samples) # 1) / (sum / Q2Qc (Z.of_nat (length ws) # 1)))%Qc))).

(** boruvka.py:528-539: [min_samples] as a number. *)
Definition as_weight (n : nat) : Qc := Q2Qc (Z.of_nat n # 1).

Section Entry.
  Context {W : WOrd}.

  (** kruskal.py:980-994 and 1012-1034: [_kruskal_mst_knn] with sample weights.
      [query k] is the answer of [parallel_tree_query(..., k)] (distances). *)
  Definition kruskal_mst_knn_weighted (query : nat -> list (list (W * option nat))) (min_samples knn_k : nat)
      (ws : list Qc) (cl : cl_params) : res (list (edge W) * list (list (option nat)) * list W) :=
    let* k_for_core := expected_neighbors min_samples ws in
    let rows := query (Nat.max knn_k k_for_core + 1) in
    let n := length rows in
    let core := sample_weight_core_distance (Sz := QcSize) ws (as_weight min_samples) rows in
    let knn := map (fun row => map (fun x => (snd x, fst x)) (skipn 1 row)) rows in
    let neighbors := map (fun row => map snd (skipn 1 row)) rows in
    let edges := filter (fun e => negb (esrc e =? edst e) && wfinite (ewt e)) (knn_edges knn core) in
    let* (mst, pred) := run_kruskal_core n edges (argsort edges) cl in
    let* mst := finish_mst n mst pred in
    Ok (mst, neighbors, core).

  (** boruvka.py:552-647 [parallel_boruvka] with sample weights (lines 564-578).
      The query answers with distances, [root] of what the tree works with; the
      code nevertheless goes on as if they were squared.  A query for no
      neighbours at all would read and write outside of its arrays; the model
      stops with [IndexError]. *)
  Variables (t : space_tree) (n : nat) (rd lb : nat -> nat -> W).
  (** boruvka.py:552-647: The branch with sample weights. *)
  Definition parallel_boruvka_weighted (root : W -> W) (mode : query_mode) (min_samples : nat) (ws : list Qc)
    : res (list (edge W) * list (list (option nat)) * list W) :=
    let* k := expected_neighbors min_samples ws in
    let* rows := if k =? 0 then Err IndexError else parallel_tree_query t rd lb root n k in
    let core := sample_weight_core_distance (Sz := QcSize) ws (as_weight min_samples) rows in
    let core_of i := nth i core winf in
    let* (d, initial_edges) := initialize_from_knn core_of (ds_rank_create n) rows in
    let* dnp := update_component_vectors t n d (fun _ => None) in
    let '(d, node_components, point_components) := dnp in
    let* edges := rounds t n rd lb n mode 0 core_of d node_components point_components
                    (length (nodup Nat.eq_dec point_components)) initial_edges in
    Ok (map (fun e => (esrc e, edst e, root (ewt e))) edges,
        map (fun row => map snd (tl row)) rows,
        map root core).
End Entry.
