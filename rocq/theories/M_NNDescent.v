(** Model of fast_hdbscan/nndescent.py: spanning trees over the approximate
    neighbour graph of another package. *)
From Coq Require Import List Arith Bool.
From Verif Require Import Prelude Order Graph M_Kruskal M_Precomputed M_KruskalEntry M_Linkage.
Import ListNotations.

Section NNDescent.
  Context {W : WOrd}.

  (** nndescent.py:179-255. [a[:, j]] of an array given row by row. *)
  Definition column {A} (j : nat) (rows : list (list A)) : res (list A) :=
    map_res (fun row => match nth_error row j with Some x => Ok x | None => Err IndexError end) rows.

  (** nndescent.py:41-88 [build_knn_graph].  [graph k] stands for the
      [neighbor_graph] of [NNDescent(data, n_neighbors=k, ...)]: for each sample a
      row of (neighbour index or -1, distance).  The package is not modelled. *)
  Definition build_knn_graph (graph : nat -> list (list (option nat * W))) (n_neighbors : nat)
    : list (list (option nat * W)) :=
    map (skipn 1) (graph (n_neighbors + 1)).

  (** nndescent.py:258-294 [_kruskal_mst_from_knn]; returns the forest, the number
      of components and their labels. *)
  Definition kruskal_mst_from_knn (knn : list (list (option nat * W))) (core : list W) (n : nat)
    : res (list (edge W) * nat * list nat) :=
    let edges := filter (fun e => negb (esrc e =? edst e) && wfinite (ewt e)) (knn_edges knn core) in
    let* (mst, pred) := kruskal_core n edges (argsort edges) in
    let* labels := get_component_labels n pred in
    Ok (mst, length (unique labels), labels).

  (** nndescent.py:228-241 [compute_mst_from_knn_graph].  [n = data.shape[0]]; the
      neighbour graph may have another number of rows only if the package is wrong. *)
  Definition knn_columns (min_samples : nat) (knn_k : option nat) : nat :=
    Nat.max (match knn_k with None => Nat.max (3 * min_samples) 15 | Some k => k end) min_samples.

  (** nndescent.py:179-255 *)
  Definition compute_mst_from_knn_graph (zero : W) (graph : nat -> list (list (option nat * W)))
      (n min_samples : nat) (knn_k : option nat)
    : res (list (edge W) * list (list (option nat)) * list W) :=
    let k := knn_columns min_samples knn_k in
    let knn := build_knn_graph graph k in
    let* core := if min_samples <=? 1 then Ok (repeat zero n)
                 else if min_samples <=? k then
                   let* c := column (min_samples - 1) knn in Ok (map snd c)
                 else Ok (repeat winf n) in
    let neighbors := map (fun row => map fst (firstn (if 0 <? min_samples then min_samples else 1) row)) knn in
    let* r := kruskal_mst_from_knn knn core n in
    let '(mst, n_components, labels) := r in
    let* mst := if 1 <? n_components then bridge_forest_with_inf mst labels else Ok mst in
    Ok (mst, neighbors, core).
End NNDescent.
