(** Model of the two helpers of fast_hdbscan/nndescent.py that turn a neighbour
    table into a sparse graph and try to make it connected.  Nothing else in the
    package calls them. *)
From Coq Require Import List Arith Bool.
From Verif Require Import Prelude Order Graph M_Kruskal M_Precomputed.
Import ListNotations.

Section KnnSparse.
  Context {W : WOrd}.

  (** nndescent.py:163-172: the arrays [rows], [cols] and [data] after the filter
      [cols >= 0], as triples.  [k = knn_indices.shape[1]]. *)
  Definition knn_coo (knn : list (list (option nat * W))) (k n : nat) : list (edge W) :=
    flat_map (fun rc : nat * (option nat * W) =>
                match rc with
                | (i, (Some j, d)) => [(i, j, d)]
                | (_, (None, _)) => []
                end)
             (combine (flat_map (fun i => repeat i k) (seq 0 n)) (concat knn)).

  (** nndescent.py:148-176 [_knn_graph_to_sparse].  The boolean mask of another
      length than [rows] is an [IndexError]; a column beyond the shape is a
      [ValueError] of [coo_matrix]. *)
  Definition knn_graph_to_sparse (knn : list (list (option nat * W))) (k n : nat) : res (csr W) :=
    if negb (n * k =? length (concat knn)) then Err IndexError
    else
      let coo := knn_coo knn k n in
      if forallb (fun e => edst e <? n) coo then Ok (symmetrize_min coo n)
      else Err ValueError.

  (** nndescent.py:122, 136: [connected_components(adj)] of scipy, whose default is
      weak connection.  Its labels are computed by merging along one edge after the
      other; only their number is used. *)
  Definition merge_along (label : nat -> nat) (e : edge W) : nat -> nat :=
    fun x => if label x =? label (edst e) then label (esrc e) else label x.

  (** nndescent.py:122, 136: the number of components. *)
  Definition n_components (n : nat) (adj : list (edge W)) : nat :=
    length (unique (map (fold_left merge_along adj (fun x => x)) (seq 0 n))).

  (** nndescent.py:95-145 [try_connect_knn_graph].  [adj] is the answer of
      pynndescent's [adjacency_matrix_representation] (its stored entries), and
      [connect adj] what [prepare()] and [connect_graph(adj, ...)] leave in [adj],
      or the exception they raise.  The return value of [connect_graph] is not
      used by the code. *)
  Definition try_connect_knn_graph (n : nat) (adj : list (edge W)) (connect : list (edge W) -> res (list (edge W)))
    : bool * option (list (edge W)) :=
    if n_components n adj <=? 1 then (true, Some adj)
    else match connect adj with
         | Ok adj => if n_components n adj <=? 1 then (true, Some adj) else (false, Some adj)
         | Err _ => (false, None)
         end.
End KnnSparse.
