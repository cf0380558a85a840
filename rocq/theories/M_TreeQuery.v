(** Model of the nearest neighbour queries of fast_hdbscan/numba_kdtree.py. *)
From Coq Require Import List Arith Bool.
From Verif Require Import Prelude Order M_Linkage.
Import ListNotations.

(** numba_kdtree.py:478-521. The arrays of a [NumbaKDTree] that describe its shape: [idx_array],
    [idx_start], [idx_end], [is_leaf]; [t_nodes] is their number of nodes.  The
    boxes and the data enter queries only through the two distances below. *)
Record space_tree := {
  t_nodes : nat;
  t_idx : nat -> nat;
  t_start : nat -> nat;
  t_end : nat -> nat;
  t_leaf : nat -> bool
}.

(** numba_kdtree.py:705-762. [tree.idx_array[idx_start:idx_end]] of a node. *)
Definition node_samples (t : space_tree) (node : nat) : list nat :=
  map (t_idx t) (seq (t_start t node) (t_end t node - t_start t node)).

Section Heaps.
  Context {W : WOrd}.

  (** numba_kdtree.py:593-635. One row of the arrays [heap_p] and [heap_i]; index [-1] is [None]. *)
  Definition heap := nat -> W * option nat.
  (** numba_kdtree.py:593-635: [priorities[i]]. *)
  Definition prio (h : heap) (i : nat) : W := fst (h i).

  (** numba_kdtree.py:604-633: the descent of [simple_heap_push], on fuel. *)
  Fixpoint push_loop (fuel size : nat) (h : heap) (x : W * option nat) (i : nat) : res heap :=
    let ic1 := 2 * i + 1 in
    let ic2 := ic1 + 1 in
    let stop := Ok (upd h i x) in
    let go i_swap :=
      match fuel with
      | 0 => Err OutOfFuel
      | S fuel' => push_loop fuel' size (upd h i (h i_swap)) x i_swap
      end in
    if size <=? ic1 then stop
    else if size <=? ic2 then
           if wlt (fst x) (prio h ic1) then go ic1 else stop
    else if wle (prio h ic2) (prio h ic1) then
           if wlt (fst x) (prio h ic1) then go ic1 else stop
    else if wlt (fst x) (prio h ic2) then go ic2 else stop.

  (** numba_kdtree.py:593-635 [simple_heap_push] for arrays of length [size].
      The counters are 16 bit integers there, which is exact up to size 32767. *)
  Definition simple_heap_push (size : nat) (h : heap) (p : W) (n : nat) : res heap :=
    if wle (prio h 0) p then Ok h
    else push_loop size size (upd h 0 (p, Some n)) (p, Some n) 0.

  (** numba_kdtree.py:647-677: Two entries of both arrays change places. *)
  Definition swap_entries (h : heap) (i j : nat) : heap := upd (upd h i (h j)) j (h i).

  (** numba_kdtree.py:647-664 [siftdown] on the first [size] entries. *)
  Fixpoint siftdown (fuel size : nat) (h : heap) (elt : nat) : res heap :=
    let left := 2 * elt + 1 in
    let right := left + 1 in
    if left <? size then
      let swap := if wlt (prio h elt) (prio h left) then left else elt in
      let swap := if (right <? size) && wlt (prio h swap) (prio h right) then right else swap in
      if swap =? elt then Ok h
      else match fuel with
           | 0 => Err OutOfFuel
           | S fuel' => siftdown fuel' size (swap_entries h elt swap) swap
           end
    else Ok h.

  (** numba_kdtree.py:668-675: the loop of [deheap_sort] over one row;
      [j] counts down to 1. *)
  Fixpoint deheap_loop (j : nat) (h : heap) : res heap :=
    match j with
    | 0 => Ok h
    | S j' =>
        let* h := siftdown j j (swap_entries h 0 j) 0 in
        deheap_loop j' h
    end.
  (** numba_kdtree.py:667-677: [deheap_sort] for one row. *)
  Definition deheap_row (k : nat) (h : heap) : res heap := deheap_loop (k - 1) h.

  (** ** Queries *)
  Variable t : space_tree.
  Variable size : nat.
  (** [rdist(point, tree.data[idx])] and
      [point_to_node_lower_bound_rdist(tree.node_bounds[0, node],
      tree.node_bounds[1, node], point)] for the query point. *)
  Variable rd : nat -> W.
  Variable lb : nat -> W.

  (** numba_kdtree.py:727-731: the loop over the samples of a leaf. *)
  Fixpoint leaf_loop (samples : list nat) (h : heap) : res heap :=
    match samples with
    | [] => Ok h
    | idx :: samples' =>
        let d := rd idx in
        let* h := if wlt d (prio h 0) then simple_heap_push size h d idx else Ok h in
        leaf_loop samples' h
    end.

  (** numba_kdtree.py:705-762 [tree_query_recursion]. *)
  Fixpoint tree_query (fuel node : nat) (dist_lower_bound : W) (h : heap) : res heap :=
    if wlt (prio h 0) dist_lower_bound then Ok h
    else if t_leaf t node then leaf_loop (node_samples t node) h
    else match fuel with
         | 0 => Err OutOfFuel
         | S fuel' =>
             let left := 2 * node + 1 in
             let right := left + 1 in
             if wle (lb left) (lb right) then
               let* h := tree_query fuel' left (lb left) h in
               tree_query fuel' right (lb right) h
             else
               let* h := tree_query fuel' right (lb right) h in
               tree_query fuel' left (lb left) h
         end.

  (** numba_kdtree.py:667-677, 780-792: one iteration of the parallel loop of
      [parallel_tree_query] and of [deheap_sort].  Iterations touch different rows,
      so they do not interact.  [out] is the square root, or the identity for
      [output_rdist=True]. *)
  Definition query_row (out : W -> W) : res (list (W * option nat)) :=
    let* h := tree_query (t_nodes t) 0 (lb 0) (fun _ => (winf, None)) in
    let* h := deheap_row size (fun i => (out (prio h i), snd (h i))) in
    Ok (map h (seq 0 size)).
End Heaps.
Arguments heap W : clear implicits.

(** numba_kdtree.py:774-792 [parallel_tree_query] for [m] queries; [rd i j] and
    [lb i node] as above for query [i]. *)
Definition parallel_tree_query {W : WOrd} (t : space_tree) (rd lb : nat -> nat -> W)
    (out : W -> W) (m k : nat) : res (list (list (W * option nat))) :=
  map_res (fun i => query_row t k (rd i) (lb i) out) (seq 0 m).
