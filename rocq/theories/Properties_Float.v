(** C64: what holds in machine arithmetic. *)
From Coq Require Import List Arith Bool ZArith.
From Flocq Require Import Core.Core IEEE754.BinarySingleNaN.
From Verif Require Import Prelude Order Size Coord Graph M_Kruskal M_TreeQuery M_Boruvka M_KDTree M_Linkage M_Condense M_Select M_Labels S_SpaceTree
  S_Boruvka M_Pipeline S_Pipeline M_Float P_FloatOrd P_FloatLaws M_FloatRun P_FloatRun P_FloatEx.
Import ListNotations.

(** C64.  The squared distances of a finite float32 matrix are computed without NaN,
    whatever overflows or underflows: [raw_rdist] is the machine's loop. *)
Theorem C64_machine_distances :
  forall (data : nat -> nat -> Single) n_features i j,
  (forall i j, f_finite 24 128 (data i j) = true) ->
  proj1_sig (sample_rdist (C := SingleCoord) data n_features i j : single) =
  raw_rdist 24 128 pos24 lt24 n_features (fun f => proj1_sig (data i f)) (fun f => proj1_sig (data j f)).
Proof. exact machine_distance. Qed.
Print Assumptions C64_machine_distances.

(** C64.  On a finite float32 matrix whose squared distances do not overflow, the
    space tree finds the exact nearest neighbours at the computed distances:
    rounding of the bounds excludes none of them. *)
Theorem C64_machine_neighbours :
  forall (data : nat -> nat -> Single) n_features n leaf_size k,
  (forall i j, f_finite 24 128 (data i j) = true) -> 0 < n -> 0 < leaf_size -> 0 < k ->
  (forall i j, i < n -> j < n -> wfinite (sample_rdist (C := SingleCoord) data n_features i j) = true) ->
  exists N b rows,
    build_kdtree (C := SingleCoord) data n_features n leaf_size = Ok (N, b) /\
    parallel_tree_query (tree_of (N, b)) (sample_rdist (C := SingleCoord) data n_features)
      (node_bound (C := SingleCoord) data n_features b) core_root n k = Ok rows /\
    Forall2 (fun i row => nearest core_root (sample_rdist (C := SingleCoord) data n_features i) n k row) (seq 0 n) rows.
Proof. exact float_neighbours. Qed.
Print Assumptions C64_machine_neighbours.

(** C64.  Under the same conditions, the reported tree is a minimum spanning tree of
    the computed mutual reachability distances, [core2] being the computed squared
    core distances. *)
Theorem C64_machine_tree :
  forall (data : nat -> nat -> Single) n_features n leaf_size,
  (forall i j, f_finite 24 128 (data i j) = true) -> 0 < leaf_size ->
  (forall i j, i < n -> j < n -> wfinite (sample_rdist (C := SingleCoord) data n_features i j) = true) ->
  forall mode min_samples, 2 <= n -> min_samples < n -> threads_available mode ->
  exists T nbrs core2,
    float_boruvka data n_features n leaf_size mode min_samples = Ok (T, nbrs, map core_root core2) /\
    core_distances n (sample_rdist (C := SingleCoord) data n_features : nat -> nat -> Single) (f_zero 24 128) min_samples core2 /\
    spanning_tree n T /\
    (let w i j := tree_root (mutual (fun i => nth i core2 winf) (sample_rdist (C := SingleCoord) data n_features : nat -> nat -> Single) i j) in
     min_spanning_forest (complete_graph n w) (map (at_weight w) T) /\
     (forall e, In e T -> equiv (ewt e) (w (esrc e) (edst e)))) /\
    (forall e, In e T -> wlt (la_zero FloatLam) (float_lambda (ewt e)) = true).
Proof. exact float_tree. Qed.
Print Assumptions C64_machine_tree.

(** C64.  And the run from the matrix to the labels ends with a clustering: labels
    from -1, strengths between 0 and 1, clusters of at least [mcs] samples, numbered
    without gaps; for every schedule, every epsilon and every persistence. *)
Theorem C64_machine_clusters :
  forall (data : nat -> nat -> Single) n_features n leaf_size,
  (forall i j, f_finite 24 128 (data i j) = true) -> 0 < leaf_size ->
  (forall i j, i < n -> j < n -> wfinite (sample_rdist (C := SingleCoord) data n_features i j) = true) ->
  forall mode min_samples garbage by_parent mcs method allow_single (epsilon persistence : double),
  2 <= n -> min_samples < n -> threads_available mode -> sorts_by_parent by_parent -> 2 <= mcs ->
  let st := float_settings mcs method allow_single epsilon persistence in
  let r := float_hdbscan data n_features n leaf_size mode min_samples garbage by_parent st in
  completes FloatLam st n (fun _ => 1) r /\
  forall ls ps T, r = Ok (ls, ps, T) -> root_ok st -> large_clusters (Sz := NatSize) n (fun _ => 1) mcs ls /\ numbered n ls.
Proof. exact float_run. Qed.
Print Assumptions C64_machine_clusters.

(** C64, any spanning tree with float64 weights (other metrics and back ends). *)
Theorem C64_machine_settings :
  forall by_parent mcs method allow_single (epsilon persistence : double),
  sorts_by_parent by_parent -> 2 <= mcs ->
  setting_ok (float_lambda : Double -> Double) FloatLam (float_scores : Arith Double NatSize) by_parent
    (float_settings mcs method allow_single epsilon persistence).
Proof. exact float_ok. Qed.
Print Assumptions C64_machine_settings.

(** ** Examples *)
Definition two_groups : list (list (Z * Z)) :=
  map (fun p => [(fst p, -2); (snd p, -2)])%Z [(0, 0); (1, 0); (0, 1); (40, 40); (41, 40); (40, 41); (200, 0)]%Z.

Example C64_example_finite : forall i j, f_finite 24 128 (float_matrix two_groups i j) = true.
Proof.
  apply float_matrix_finite. intros r Hr me Hm.
  assert (K : forallb (fun r => forallb (fun me => f_finite 24 128 (at_exp (fst me) (snd me))) r) two_groups = true) by (vm_compute; reflexivity).
  rewrite forallb_forall in K. specialize (K r Hr). rewrite forallb_forall in K. auto.
Qed.
Example C64_example_no_overflow : forall i j, i < 7 -> j < 7 -> wfinite (sample_rdist (C := SingleCoord) (float_matrix two_groups) 2 i j) = true.
Proof.
  intros i j Hi Hj.
  assert (K : forallb (fun i => forallb (fun j => wfinite (sample_rdist (C := SingleCoord) (float_matrix two_groups) 2 i j)) (seq 0 7)) (seq 0 7) = true) by (vm_compute; reflexivity).
  rewrite forallb_forall in K. specialize (K i ltac:(apply in_seq; auto with arith)). rewrite forallb_forall in K. apply K. apply in_seq. auto with arith.
Qed.
Example C64_example_labels :
  (let* r := float_hdbscan (float_matrix two_groups) 2 7 2 (one_schedule 7) 2 (fun _ => dzero) (nsort c_parent)
               (float_settings 3 Eom false dzero dzero) in
   let '(ls, ps, _) := r in Ok (ls, map (fun p : double => B2SF (proj1_sig p)) ps)) =
  Ok ([1; 1; 1; 0; 0; 0; -1]%Z,
      repeat (SpecFloat.S754_finite false 4503599627370496 (-52)) 6 ++ [SpecFloat.S754_zero false]).
Proof. vm_compute. reflexivity. Qed.

(** ** Not true of the code *)

(** Squared distances overflow from 2^64 on, although the samples are finite: no
    neighbour is found, and the code goes on with index -1. *)
Theorem C64_overflow_refuted :
  ~ (forall (data : nat -> nat -> Single) n_features n leaf_size mode min_samples,
     (forall i j, f_finite 24 128 (data i j) = true) -> 0 < leaf_size -> 2 <= n -> min_samples < n -> threads_available mode ->
     exists r, float_boruvka data n_features n leaf_size mode min_samples = Ok r).
Proof. exact overflow_fails. Qed.
Print Assumptions C64_overflow_refuted.

(** Different samples can be at computed distance zero. *)
Theorem C64_underflow_refuted :
  ~ (forall (data : nat -> nat -> Single) i j,
     (forall i j, f_finite 24 128 (data i j) = true) ->
     wlt (data i 0) (data j 0) = true -> wlt (f_zero 24 128 : Single) (sample_rdist (C := SingleCoord) data 1 i j : Single) = true).
Proof. exact underflow_happens. Qed.
Print Assumptions C64_underflow_refuted.

(** Core distances are rounded to float32, the weights of the tree to float64: a
    link can be shorter than the reported core distance of its end. *)
Theorem C64_core_distance_refuted :
  ~ (forall (data : nat -> nat -> Single) n_features n leaf_size mode min_samples T nbrs core,
     (forall i j, f_finite 24 128 (data i j) = true) -> threads_available mode ->
     float_boruvka data n_features n leaf_size mode min_samples = Ok (T, nbrs, core) ->
     forall e, In e T -> wle (widened (nth (esrc e) core (f_zero 24 128 : Single)) : Double) (ewt e) = true).
Proof. exact core_above_link. Qed.
Print Assumptions C64_core_distance_refuted.
