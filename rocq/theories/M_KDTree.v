(** Model of the construction of the space tree (fast_hdbscan/numba_kdtree.py). *)
From Coq Require Import List Arith Bool.
From Verif Require Import Prelude Order Coord M_TreeQuery.
Import ListNotations.

(** numba_kdtree.py:192-394. [a[i], a[j] = a[j], a[i]]. *)
Definition swap (a : nat -> nat) (i j : nat) : nat -> nat := upd (upd a i (a j)) j (a i).

Section KDTree.
  Context {C : Coord}.
  (** [data[i, j]] after the conversion to float32, and [data.shape[1]]. *)
  Variable data : nat -> nat -> C.
  Variable n_features : nat.

  (** ** Ordering the samples of a node *)
  Section Axis.
    Variable axis : nat.

    (** numba_kdtree.py:164-179 [_compare_indices]: -1, 0, 1 are [Lt], [Eq], [Gt]. *)
    Definition compare_indices (idx1 idx2 : nat) : comparison :=
      let val1 := data idx1 axis in
      let val2 := data idx2 axis in
      if wlt val1 val2 then Lt
      else if wlt val2 val1 then Gt
      else if idx1 <? idx2 then Lt
      else if idx2 <? idx1 then Gt
      else Eq.
    (** numba_kdtree.py:164-179: [_compare_indices(...) < 0]. *)
    Definition before (idx1 idx2 : nat) : bool :=
      match compare_indices idx1 idx2 with Lt => true | _ => false end.
    (** numba_kdtree.py:164-179: [_compare_indices(...) > 0]. *)
    Definition after (idx1 idx2 : nat) : bool :=
      match compare_indices idx1 idx2 with Gt => true | _ => false end.

    (** numba_kdtree.py:195-201: [j1] is [j + 1], the place of the key. *)
    Fixpoint insert_loop (left key_idx : nat) (a : nat -> nat) (j1 : nat) : nat -> nat :=
      match j1 with
      | 0 => upd a 0 key_idx
      | S j =>
          if (left <=? j) && after (a j) key_idx
          then insert_loop left key_idx (upd a j1 (a j)) j
          else upd a j1 key_idx
      end.

    (** numba_kdtree.py:192-201 [_insertion_sort_indices]. *)
    Definition insertion_sort (a : nat -> nat) (left right : nat) : nat -> nat :=
      fold_left (fun a i => insert_loop left (a i) a i) (seq (left + 1) (right - (left + 1))) a.

    (** numba_kdtree.py:214-245 [_sift_down_indices], on fuel. *)
    Fixpoint sift_down (fuel : nat) (a : nat -> nat) (offset root end_ : nat) : res (nat -> nat) :=
      if root * 2 + 1 <? end_ then
        match fuel with
        | 0 => Err OutOfFuel
        | S fuel' =>
            let child := root * 2 + 1 in
            let swap_ := if before (a (offset + root)) (a (offset + child)) then child else root in
            let swap_ := if (child + 1 <? end_) && before (a (offset + swap_)) (a (offset + child + 1))
                         then child + 1 else swap_ in
            if swap_ =? root then Ok a
            else sift_down fuel' (swap a (offset + root) (offset + swap_)) offset swap_ end_
        end
      else Ok a.

    (** numba_kdtree.py:192-278. A [for] loop whose body can fail. *)
    Fixpoint for_each {A} (f : A -> nat -> res A) (l : list nat) (a : A) : res A :=
      match l with
      | [] => Ok a
      | i :: l' => let* a := f a i in for_each f l' a
      end.

    (** numba_kdtree.py:256-266 [_heapsort_indices]. *)
    Definition heapsort (a : nat -> nat) (left right : nat) : res (nat -> nat) :=
      let size := right - left in
      let* a := for_each (fun a i => sift_down size a left i size) (rev (seq 0 (size / 2))) a in
      for_each (fun a i => sift_down size (swap a left (left + i)) left 0 i) (rev (seq 1 (size - 1))) a.

    (** numba_kdtree.py:280-299 [_median_of_three_pivot]. *)
    Definition median_of_three (a : nat -> nat) (left right : nat) : (nat -> nat) * nat :=
      let mid := (left + right - 1) / 2 in
      let idx_left := a left in
      let idx_mid := a mid in
      let idx_right := a (right - 1) in
      let '(a, idx_left, idx_mid) :=
        if after idx_left idx_mid then (swap a left mid, idx_mid, idx_left) else (a, idx_left, idx_mid) in
      if after idx_mid idx_right then
        let a := swap a mid (right - 1) in
        let idx_mid := idx_right in
        (if after idx_left idx_mid then swap a left mid else a, mid)
      else (a, mid).

    (** numba_kdtree.py:327-331: [while i <= j and a[i] < pivot: i += 1]; [j1] is
        [j + 1], [len] bounds the number of steps. *)
    Fixpoint scan_right (len : nat) (a : nat -> nat) (pivot i j1 : nat) : nat :=
      match len with
      | 0 => i
      | S len' => if (i <? j1) && before (a i) pivot then scan_right len' a pivot (i + 1) j1 else i
      end.
    (** numba_kdtree.py:334-338: [while i <= j and a[j] >= pivot: j -= 1]. *)
    Fixpoint scan_left (a : nat -> nat) (pivot i j1 : nat) : nat :=
      match j1 with
      | 0 => 0
      | S j => if (i <=? j) && negb (before (a j) pivot) then scan_left a pivot i j else j1
      end.
    (** numba_kdtree.py:325-346: the [while True] loop, on fuel. *)
    Fixpoint partition_loop (fuel : nat) (a : nat -> nat) (pivot i j1 : nat) : res ((nat -> nat) * nat) :=
      let i := scan_right (j1 - i) a pivot i j1 in
      let j1 := scan_left a pivot i j1 in
      if j1 <=? i + 1 then Ok (a, i)
      else
        match fuel with
        | 0 => Err OutOfFuel
        | S fuel' => partition_loop fuel' (swap a i (j1 - 1)) pivot (i + 1) (j1 - 1)
        end.
    (** numba_kdtree.py:313-350 [_partition_indices]. *)
    Definition partition_indices (a : nat -> nat) (left right pivot_idx : nat) : res ((nat -> nat) * nat) :=
      let a := swap a pivot_idx (right - 1) in
      let pivot_original_idx := a (right - 1) in
      let* (a, i) := partition_loop (right - left) a pivot_original_idx left (right - 1) in
      Ok (swap a i (right - 1), i).

    (** numba_kdtree.py:361-386 [_introselect_impl]; each turn of the loop uses up
        one unit of [depth_limit]. *)
    Fixpoint introselect_impl (depth_limit : nat) (a : nat -> nat) (left right nth : nat) : res (nat -> nat) :=
      if 16 <? right - left then
        match depth_limit with
        | 0 => heapsort a left right
        | S depth_limit' =>
            let (a, pivot_idx) := median_of_three a left right in
            let* (a, pivot_pos) := partition_indices a left right pivot_idx in
            if nth <? pivot_pos then introselect_impl depth_limit' a left pivot_pos nth
            else if pivot_pos <? nth then introselect_impl depth_limit' a (pivot_pos + 1) right nth
            else Ok a
        end
      else Ok (insertion_sort a left right).

    (** numba_kdtree.py:397-407 [_introselect].  [int(np.log2(size))] is the
        integer logarithm. *)
    Definition introselect (a : nat -> nat) (left right nth : nat) : res (nat -> nat) :=
      let size := right - left in
      if size <=? 16 then Ok (insertion_sort a left right)
      else introselect_impl (2 * Nat.log2 size) a left right nth.
  End Axis.

  (** ** Nodes *)

  (** numba_kdtree.py:478-521. The arrays under construction; [b_lower] and [b_upper] are
      [node_bounds[0]] and [node_bounds[1]].  The radius of a node is never read
      by a query and is left out. *)
  Record build := {
    b_idx : nat -> nat;
    b_start : nat -> nat;
    b_end : nat -> nat;
    b_leaf : nat -> bool;
    b_lower : nat -> nat -> C;
    b_upper : nat -> nat -> C
  }.

  (** numba_kdtree.py:79-115 [_init_node]. *)
  Definition init_node (b : build) (node idx_start idx_end : nat) : build :=
    let rows := map (b_idx b) (seq idx_start (idx_end - idx_start)) in
    {| b_idx := b_idx b;
       b_start := upd (b_start b) node idx_start;
       b_end := upd (b_end b) node idx_end;
       b_leaf := b_leaf b;
       b_lower := upd (b_lower b) node
                    (fun j => fold_left (fun lower i => wmin lower (data i j)) rows winf);
       b_upper := upd (b_upper b) node
                    (fun j => fold_left (fun upper i => wmax upper (data i j)) rows cneginf) |}.

  (** numba_kdtree.py:414-475: The tree with other [idx_array]. *)
  Definition set_idx (b : build) (a : nat -> nat) : build :=
    {| b_idx := a; b_start := b_start b; b_end := b_end b; b_leaf := b_leaf b;
       b_lower := b_lower b; b_upper := b_upper b |}.
  (** numba_kdtree.py:414-475: [is_leaf[node] = leaf]. *)
  Definition set_leaf (b : build) (node : nat) (leaf : bool) : build :=
    {| b_idx := b_idx b; b_start := b_start b; b_end := b_end b; b_leaf := upd (b_leaf b) node leaf;
       b_lower := b_lower b; b_upper := b_upper b |}.

  (** numba_kdtree.py:133-152 [_find_node_split_dim]. *)
  Definition find_node_split_dim (a : nat -> nat) (idx_start idx_end : nat) : nat :=
    snd (fold_left
      (fun (best : C * nat) j =>
         let first := data (a idx_start) j in
         let rows := map a (seq (idx_start + 1) (idx_end - (idx_start + 1))) in
         let max_val := fold_left (fun m i => wmax m (data i j)) rows first in
         let min_val := fold_left (fun m i => wmin m (data i j)) rows first in
         let spread := csub max_val min_val in
         if wlt (fst best) spread then (spread, j) else best)
      (seq 0 n_features) (czero, 0)).

  (** numba_kdtree.py:414-472 [_recursive_build_tree], on fuel. *)
  Fixpoint recursive_build (fuel n_nodes : nat) (b : build) (idx_start idx_end node : nat) : res build :=
    let n_points := idx_end - idx_start in
    let n_mid := n_points / 2 in
    let b := init_node b node idx_start idx_end in
    if n_nodes <=? 2 * node + 1 then Ok (set_leaf b node true)
    else if idx_end - idx_start <? 2 then Ok (set_leaf b node true)
    else
      match fuel with
      | 0 => Err OutOfFuel
      | S fuel' =>
          let b := set_leaf b node false in
          let axis := find_node_split_dim (b_idx b) idx_start idx_end in
          let* a := introselect axis (b_idx b) idx_start idx_end (idx_start + n_mid) in
          let* b := recursive_build fuel' n_nodes (set_idx b a) idx_start (idx_start + n_mid) (2 * node + 1) in
          recursive_build fuel' n_nodes b (idx_start + n_mid) idx_end (2 * node + 2)
      end.

  (** numba_kdtree.py:478-521 [build_kdtree].  The number of levels,
      [int(log2(max(1, (n_samples - 1) / leaf_size)) + 1)], is computed without
      rounding. *)
  Definition tree_levels (n_samples leaf_size : nat) : nat :=
    Nat.log2 (max 1 ((n_samples - 1) / leaf_size)) + 1.
  (** numba_kdtree.py:478-521 *)
  Definition build_kdtree (n_samples leaf_size : nat) : res (nat * build) :=
    if leaf_size <? 1 then Err ValueError
    else
      let n_nodes := 2 ^ tree_levels n_samples leaf_size - 1 in
      let* b := recursive_build n_nodes n_nodes
                  {| b_idx := fun i => i; b_start := fun _ => 0; b_end := fun _ => 0; b_leaf := fun _ => false;
                     b_lower := fun _ _ => czero; b_upper := fun _ _ => czero |} 0 n_samples 0 in
      Ok (n_nodes, b).

  (** numba_kdtree.py:478-521. The tree as queries see it. *)
  Definition tree_of (nb : nat * build) : space_tree :=
    {| t_nodes := fst nb; t_idx := b_idx (snd nb); t_start := b_start (snd nb); t_end := b_end (snd nb);
       t_leaf := b_leaf (snd nb) |}.

  (** ** Distances *)

  (** numba_kdtree.py:539-546 [rdist]. *)
  Definition rdist (x y : nat -> C) : C :=
    fold_left (fun result i => let diff := csub (x i) (y i) in cadd result (cmul diff diff))
      (seq 0 n_features) czero.

  (** numba_kdtree.py:566-575 [point_to_node_lower_bound_rdist]; its first
      argument, there called [upper], is always the lower corner of the box. *)
  Definition point_to_node_lower_bound (lower upper pt : nat -> C) : C :=
    fold_left (fun result i =>
        let d_lo := if wlt (pt i) (lower i) then csub (lower i) (pt i) else czero in
        let d_hi := if wlt (upper i) (pt i) then csub (pt i) (upper i) else czero in
        let d := cadd d_lo d_hi in
        cadd result (cmul d d))
      (seq 0 n_features) czero.

  (** numba_kdtree.py:539-546: [rdist] of two samples. *)
  Definition sample_rdist (i j : nat) : C := rdist (data i) (data j).
  (** numba_kdtree.py:566-575: [point_to_node_lower_bound_rdist] of a sample and a node. *)
  Definition node_bound (b : build) (p node : nat) : C :=
    point_to_node_lower_bound (b_lower b node) (b_upper b node) (data p).
End KDTree.
