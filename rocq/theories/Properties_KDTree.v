(** C19, and C15, C18 and C20 on the trees that the code builds. *)
From Coq Require Import List Arith Bool ZArith Lia Permutation.
From Verif Require Import Prelude Order Coord Graph M_Kruskal M_KruskalEntry M_TreeQuery M_Boruvka M_KDTree
  S_Kruskal S_Precomputed S_CoreGraph S_SpaceTree S_Boruvka S_KDTree P_Introselect P_KDTree P_KDTreeRun.
Import ListNotations.

(** C19.  Splitting a node reorders the samples of that node only, and puts the
    samples before the cut in front of those after it along the chosen axis. *)
Theorem C19_selection_splits :
  forall (C : Coord) (data : nat -> nat -> C) axis a left right nth,
  left <= nth < right ->
  exists a', introselect data axis a left right nth = Ok a' /\
    rearranged left right a a' /\ split_at data axis left nth right a'.
Proof. exact @introselect_ok. Qed.
Print Assumptions C19_selection_splits.

(** C19.  For every data matrix and leaf size the construction terminates with a
    well formed tree whose boxes contain the samples below them, whose inner nodes
    are cut in the middle, and whose leaves hold at most twice the leaf size. *)
Theorem C19_space_tree_well_formed :
  forall (C : Coord) (data : nat -> nat -> C) n_features,
  (forall i j, cnum (data i j)) ->
  forall n leaf_size, 0 < n -> 0 < leaf_size ->
  exists N b, build_kdtree data n_features n leaf_size = Ok (N, b) /\
    tree_shape (tree_of (N, b)) n /\
    boxes_contain data n_features (tree_of (N, b)) (b_lower b) (b_upper b) /\
    (forall node j, node < N -> cnum (b_lower b node j) /\ cnum (b_upper b node j)) /\
    (0 < n_features -> median_splits data n_features (tree_of (N, b))) /\
    leaves_hold_at_most (2 * leaf_size) (tree_of (N, b)).
Proof. exact @build_kdtree_ok. Qed.
Print Assumptions C19_space_tree_well_formed.

(** C19.  Nothing but a leaf size below one is refused. *)
Theorem C19_refuses_exactly_leaf_size_zero :
  forall (C : Coord) (data : nat -> nat -> C) n_features,
  (forall i j, cnum (data i j)) ->
  forall n leaf_size, 0 < n -> (build_kdtree data n_features n leaf_size = Err ValueError <-> leaf_size < 1) /\
    ((exists t, build_kdtree data n_features n leaf_size = Ok t) <-> 1 <= leaf_size).
Proof. exact @build_kdtree_accepts. Qed.
Print Assumptions C19_refuses_exactly_leaf_size_zero.

(** C19.  The leaves hold every sample exactly once. *)
Theorem C19_each_sample_in_one_leaf :
  forall (C : Coord) (data : nat -> nat -> C) n_features,
  (forall i j, cnum (data i j)) ->
  forall n leaf_size N b, 0 < n -> 0 < leaf_size ->
  build_kdtree data n_features n leaf_size = Ok (N, b) ->
  each_sample_in_one_leaf n (tree_of (N, b)).
Proof. exact @build_kdtree_leaves. Qed.
Print Assumptions C19_each_sample_in_one_leaf.

(** C19.  The bound from a sample to a box never exceeds the squared distance to a
    sample below the node, also with rounding arithmetic. *)
Theorem C19_lower_bounds_valid :
  forall (C : Coord) (data : nat -> nat -> C) n_features,
  (forall i j, cnum (data i j)) ->
  forall n leaf_size N b, 0 < n -> 0 < leaf_size ->
  build_kdtree data n_features n leaf_size = Ok (N, b) ->
  tree_shape (tree_of (N, b)) n /\
  lower_bounds (tree_of (N, b)) (sample_rdist data n_features) (node_bound data n_features b).
Proof. exact @build_lower_bounds. Qed.
Print Assumptions C19_lower_bounds_valid.

(** C20.  From the data matrix to the reported rows: the tree is built and every
    sample is given its k nearest samples, nearest first. *)
Theorem C20_nearest_neighbours_of_data :
  forall (C : Coord) (data : nat -> nat -> C) n_features n leaf_size,
  (forall i j, cnum (data i j)) -> 0 < n -> 0 < leaf_size ->
  forall k out, 0 < k ->
  (forall i q, i < n -> q < n -> wfinite (sample_rdist data n_features i q) = true) ->
  (forall x y : C, wle x y = true -> wle (out x) (out y) = true) ->
  (forall x : C, wfinite x = true -> wlt (out x) (out winf) = true) ->
  exists N b rows,
    build_kdtree data n_features n leaf_size = Ok (N, b) /\
    parallel_tree_query (tree_of (N, b)) (sample_rdist data n_features) (node_bound data n_features b) out n k = Ok rows /\
    Forall2 (fun i row => nearest out (sample_rdist data n_features i) n k row) (seq 0 n) rows.
Proof. exact @built_query. Qed.
Print Assumptions C20_nearest_neighbours_of_data.

(** C15, C18.  From the data matrix to the spanning tree: under every schedule the
    result is a minimum spanning tree for mutual reachability, and agrees with
    Kruskal's algorithm on all pairs. *)
Theorem C18_boruvka_of_data :
  forall (C : Coord) (data : nat -> nat -> C) n_features n leaf_size,
  (forall i j, cnum (data i j)) -> 0 < n -> 0 < leaf_size ->
  forall root mode min_samples,
  (forall i j, i < n -> j < n -> wfinite (sample_rdist data n_features i j) = true) ->
  (forall x y : C, wle x y = true -> wle (root x) (root y) = true) ->
  2 <= n -> min_samples < n -> threads_available mode ->
  equiv (root czero) czero ->
  let D i j := root (sample_rdist data n_features i j) in
  exists N b T nbrs core T2 nbrs2 core2,
    build_kdtree data n_features n leaf_size = Ok (N, b) /\
    parallel_boruvka (tree_of (N, b)) n (sample_rdist data n_features) (node_bound data n_features b)
      czero root mode min_samples = Ok (T, nbrs, core) /\
    core_distances n D (root czero) min_samples core /\
    spanning_tree n T /\
    (let w := mutual (fun i => nth i core winf) D in
     min_spanning_forest (complete_graph n w) (map (at_weight w) T) /\
     (forall e, In e T -> equiv (ewt e) (w (esrc e) (edst e)))) /\
    kruskal_mst_brute czero D n min_samples CLNone = Ok (T2, nbrs2, core2) /\
    Forall2 equiv core core2 /\
    same_components_at_every_threshold T T2 /\
    same_weights (sorted_weights T) (sorted_weights T2).
Proof. exact @built_boruvka. Qed.
Print Assumptions C18_boruvka_of_data.

(** ** Examples *)

Definition grid (rows : list (list Z)) (i j : nat) : ZCoord := ZFin (nth j (nth i rows []) 0%Z).

Example C19_example_numbers : forall rows i j, cnum (grid rows i j).
Proof. intros rows i j. now exists (nth j (nth i rows []) 0%Z). Qed.

(** Twenty values on one axis: long enough for the partitioning loop. *)
Definition scattered : list (list Z) :=
  map (fun x => [x]) [13; 2; 7; 19; 4; 4; 11; 0; 17; 5; 8; 1; 16; 3; 12; 9; 4; 18; 6; 10]%Z.
Example C19_example_selection :
  (let* a := introselect (grid scattered) 0 (fun i => i) 0 20 10 in Ok (map a (seq 0 20))) =
  Ok [7; 11; 1; 13; 4; 5; 16; 9; 18; 2; 10; 15; 19; 0; 14; 8; 6; 17; 3; 12].
Proof. vm_compute. reflexivity. Qed.

Definition plane : list (list Z) := [[9; 1]; [0; 0]; [4; 6]; [1; 0]; [7; 2]; [4; 6]; [5; 9]]%Z.
Example C19_example_tree :
  (let* (N, b) := build_kdtree (grid plane) 2 7 1 in
   Ok (N, map (b_idx b) (seq 0 7), combine (map (b_start b) (seq 0 7)) (map (b_end b) (seq 0 7)),
       map (b_leaf b) (seq 0 7), map (fun j => (b_lower b 2 j, b_upper b 2 j)) [0; 1])) =
  Ok (7, [1; 3; 2; 0; 4; 5; 6], [(0, 7); (0, 3); (3, 7); (0, 1); (1, 3); (3, 5); (5, 7)],
      [false; false; false; true; true; true; true], [(ZFin 4, ZFin 9); (ZFin 1, ZFin 9)]%Z).
Proof. vm_compute. reflexivity. Qed.

Example C20_example_finite : forall rows f i j, wfinite (sample_rdist (grid rows) f i j) = true.
Proof.
  intros rows f i j. unfold sample_rdist, rdist. cbv zeta.
  assert (G : forall l x, exists y,
    fold_left (fun r k => cadd r (cmul (csub (grid rows i k) (grid rows j k)) (csub (grid rows i k) (grid rows j k))))
      l (ZFin x : ZCoord) = ZFin y).
  { induction l as [|k l IH]; intros x; [now exists x|]. cbn [fold_left]. apply IH. }
  destruct (G (seq 0 f) 0%Z) as (y & E). change (czero : ZCoord) with (ZFin 0 : ZCoord). now rewrite E.
Qed.

Definition round_robin (n k : nat) : list nat := concat (repeat (seq 0 n) k).
Example C18_example_of_data :
  (let* (N, b) := build_kdtree (grid plane) 2 7 1 in
   let* (T, nbrs, core) :=
     parallel_boruvka (tree_of (N, b)) 7 (sample_rdist (grid plane) 2) (node_bound (grid plane) 2 b)
       (ZFin 0%Z : ZCoord) (fun w => w) (Plain (fun _ => round_robin 7 40)) 1 in
   Ok (T, nbrs)) =
  Ok ([(0, 4, ZFin 5%Z); (1, 3, ZFin 1%Z); (2, 5, ZFin 0%Z); (6, 5, ZFin 10%Z); (4, 5, ZFin 25%Z); (3, 4, ZFin 40%Z)],
      [[Some 4]; [Some 3]; [Some 5]; [Some 1]; [Some 0]; [Some 5]; [Some 5]]).
Proof. vm_compute. reflexivity. Qed.
