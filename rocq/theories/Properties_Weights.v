(** Theorems about sample weights in core distances and spanning trees (C51). *)
From Coq Require Import List Arith Lia Bool ZArith QArith Qcanon.
From Verif Require Import Prelude Order Size Num Graph M_Kruskal M_Precomputed M_KruskalEntry M_TreeQuery M_Boruvka M_Weights M_NNDescent
  S_Kruskal S_Precomputed S_SpaceTree S_Boruvka S_NNDescent S_Weights M_Condense M_Select M_Labels M_Pipeline S_Condense S_Pipeline P_EpsilonTop P_UniqueEx P_PipelineEx
  P_WeightsTop P_WeightsRuns.
Import ListNotations.
Local Open Scope nat_scope.

(** C51.  algorithm='kruskal' with weights: the core distance of a sample is the
    least distance within which samples of weight [min_samples] lie, if the listed
    neighbours weigh that much; the tree is a constrained minimum spanning forest of
    the mutual reachability graph of the listed neighbours, completed by infinite
    edges. *)
Theorem C51_weighted_kruskal :
  forall (W : WOrd) t n (rd lb : nat -> nat -> W) root min_samples k weights knn_k X groups,
  tree_search t n rd lb root -> length weights = n -> (forall w, In w weights -> (0 <= w)%Qc) -> 0 < n -> 0 < min_samples ->
  expected_neighbors min_samples weights = Ok k -> valid_constraints n X groups ->
  exists cl E T nbrs core, resolve_cl_params n X true groups = Ok cl /\
    kruskal_mst_knn_weighted (tree_rows t rd lb root n) min_samples knn_k weights cl = Ok (T, nbrs, core) /\ length core = n /\
    (enough_listed (Sz := QcSize) n (Nat.max knn_k k + 1) weights (as_weight min_samples) ->
     forall i, i < n -> weighted_core (Sz := QcSize) n weights (fun q => root (rd i q)) (as_weight min_samples) (nth i core winf)) /\
    (forall i, i < n -> exists row, nearest root (rd i) n (Nat.max knn_k k + 1) row /\ nth i nbrs [] = map snd (skipn 1 row)) /\
    (forall i j w, In (i, j, w) E <-> i < n /\ i <> j /\ In (Some j) (nth i nbrs []) /\ wfinite w = true /\
       w = mrd3 (nth i core winf) (nth j core winf) (root (rd i j))) /\
    bridged_result n (user_constraints (option_map sp_entries X) groups) E T.
Proof. exact @c51_kruskal. Qed.
Print Assumptions C51_weighted_kruskal.

(** C51.  When the listed neighbours always weigh enough: no sample weighs less than
    half the average, and all samples together weigh at least [min_samples]. *)
Theorem C51_half_the_mean_is_enough :
  forall n (weights : list Qc) min_samples k knn_k, length weights = n -> expected_neighbors min_samples weights = Ok k ->
  (forall w, In w weights -> 0 <= w /\ @ssum QcSize weights <= as_weight (2 * n) * w)%Qc ->
  (as_weight min_samples <= @ssum QcSize weights)%Qc -> 0 < n ->
  enough_listed (Sz := QcSize) n (Nat.max knn_k k + 1) weights (as_weight min_samples).
Proof. exact @half_mean_listed. Qed.
Print Assumptions C51_half_the_mean_is_enough.

(** C51.  Whole-number weights stand for that many copies of a sample: the core
    distance is the [m]-th smallest distance when each sample is listed so often. *)
Theorem C51_weights_are_copies :
  forall (W : WOrd), (forall a b : W, wle a b = true -> wle b a = true -> a = b) ->
  forall n (counts : list nat) (d : nat -> W) m r,
  weighted_core (Sz := QcSize) n (map as_weight counts) d (as_weight m) r <-> kth_smallest m (with_copies n counts d) r.
Proof. exact @copies_core. Qed.
Print Assumptions C51_weights_are_copies.

(** C51.  Weights of one: the [min_samples]-th smallest distance, the sample itself
    counted. *)
Theorem C51_unit_weights :
  forall (W : WOrd), (forall a b : W, wle a b = true -> wle b a = true -> a = b) ->
  forall t n (rd lb : nat -> nat -> W) root min_samples knn_k, tree_search t n rd lb root -> 1 <= min_samples <= n ->
  exists T nbrs core, kruskal_mst_knn_weighted (tree_rows t rd lb root n) min_samples knn_k (repeat 1%Qc n) CLNone = Ok (T, nbrs, core) /\ length core = n /\
    forall i, i < n -> kth_smallest min_samples (map (fun q => root (rd i q)) (seq 0 n)) (nth i core winf).
Proof. exact @c51_units. Qed.
Print Assumptions C51_unit_weights.

(** C51.  algorithm='boruvka' with weights: for every schedule and number of threads
    the run ends with a spanning tree, the core distances are as above, and every
    reported value is the square root of one of two expressions: a core distance or
    distance (first step), or the greatest of two core distances and a squared
    distance (later rounds). *)
Theorem C51_weighted_boruvka :
  forall (W : WOrd) t n (rd lb : nat -> nat -> W) root min_samples k weights mode,
  tree_search t n rd lb root -> length weights = n -> (forall w, In w weights -> (0 <= w)%Qc) -> 0 < min_samples ->
  expected_neighbors min_samples weights = Ok k -> 1 <= k -> (k <= n \/ (as_weight min_samples <= @ssum QcSize weights)%Qc) -> threads_available mode ->
  exists T nbrs core, parallel_boruvka_weighted t n rd lb root mode min_samples weights = Ok (T, nbrs, map root core) /\ length core = n /\
    (enough_listed (Sz := QcSize) n k weights (as_weight min_samples) ->
     forall i, i < n -> weighted_core (Sz := QcSize) n weights (fun q => root (rd i q)) (as_weight min_samples) (nth i core winf)) /\
    spanning_tree n T /\
    (forall e, In e T -> let c i := nth i core winf in
       (wle (c (edst e)) (c (esrc e)) = true /\ ewt e = root (wmax (c (esrc e)) (root (rd (esrc e) (edst e))))) \/
       ewt e = root (mutual c rd (esrc e) (edst e))).
Proof. exact @c51_boruvka. Qed.
Print Assumptions C51_weighted_boruvka.

(** C51.  Complete runs with weights: both algorithms give labels and strengths for
    every sample, and samples that must not share a cluster do not. *)
Theorem C51_weighted_clusters :
  forall garbage by_parent mcs m allow_single epsilon persistence t n (rd lb : nat -> nat -> QInf) root min_samples k weights,
  sorts_by_parent by_parent -> (1 < mcs)%Qc -> 2 <= n -> (persistence <= 0)%Qc -> tree_search t n rd lb root ->
  length weights = n -> (forall w, In w weights -> 0 <= w /\ w < mcs)%Qc -> 0 < min_samples -> expected_neighbors min_samples weights = Ok k ->
  (forall knn_k X groups, valid_constraints n X groups -> exists cl M nbrs core ls ps T, resolve_cl_params n X true groups = Ok cl /\
     kruskal_mst_knn_weighted (tree_rows t rd lb root n) min_samples knn_k weights cl = Ok (M, nbrs, core) /\
     exact_clusters_weighted garbage by_parent (exact_settings (Sz := QcSize) mcs m allow_single epsilon persistence) M weights = Ok (ls, ps, T) /\
     clustering (V := QInf) (Some 0%Qc) (Some 1%Qc) n ls ps /\
     forall x y, x < n -> y < n -> user_constraints (option_map sp_entries X) groups x y -> nth x ls 0%Z = nth y ls 0%Z -> nth x ls 0%Z = (-1)%Z) /\
  (1 <= k -> (k <= n \/ (as_weight min_samples <= @ssum QcSize weights)%Qc) -> forall mode, threads_available mode ->
   exists M nbrs core ls ps T, parallel_boruvka_weighted t n rd lb root mode min_samples weights = Ok (M, nbrs, core) /\
     exact_clusters_weighted garbage by_parent (exact_settings (Sz := QcSize) mcs m allow_single epsilon persistence) M weights = Ok (ls, ps, T) /\
     clustering (V := QInf) (Some 0%Qc) (Some 1%Qc) n ls ps).
Proof. exact @c51_clusters. Qed.
Print Assumptions C51_weighted_clusters.

(** C51.  algorithm='boruvka' with weights of more than [2 * min_samples] on average
    never works: no neighbours are asked for, and the search reads and writes outside
    of its empty arrays (an [IndexError] in the model). *)
Theorem C51_heavy_weights_fail :
  forall (W : WOrd) t n (rd lb : nat -> nat -> W) root min_samples weights mode,
  (as_weight (2 * min_samples) * as_weight (length weights) < @ssum QcSize weights)%Qc ->
  parallel_boruvka_weighted t n rd lb root mode min_samples weights = Err IndexError.
Proof. exact @c51_heavy. Qed.
Print Assumptions C51_heavy_weights_fail.

(** C51.  Defects.  algorithm='boruvka' reports two samples as closer than they are,
    because the first step works with distances and the end takes a square root. *)
Theorem C51_units_refuted : exists t n (rd lb : nat -> nat -> NInf) root mode min_samples T nbrs core e,
  tree_search t n rd lb root /\ threads_available mode /\ 1 <= 2 * min_samples <= n /\
  parallel_boruvka_weighted t n rd lb root mode min_samples (repeat 1%Qc n) = Ok (T, nbrs, core) /\
  In e T /\ wlt (ewt e) (root (rd (esrc e) (edst e))) = true.
Proof. exact units_refuted. Qed.
Print Assumptions C51_units_refuted.

(** The order in which samples join changes with it: [x], [y] join before [u], [v]
    with one algorithm and after them with the other, on the same samples with the
    same weights and all neighbours. *)
Theorem C51_order_refuted : exists t n (rd lb : nat -> nat -> NInf) root mode min_samples T nbrs core T2 nbrs2 core2 a b x y u v,
  tree_search t n rd lb root /\ threads_available mode /\ 1 <= 2 * min_samples <= n /\
  parallel_boruvka_weighted t n rd lb root mode min_samples (repeat 1%Qc n) = Ok (T, nbrs, core) /\
  kruskal_mst_knn_weighted (tree_rows t rd lb root n) min_samples (n - 1) (repeat 1%Qc n) CLNone = Ok (T2, nbrs2, core2) /\
  connected (passing (fun w => wle w a) T) x y /\ ~ connected (passing (fun w => wle w a) T) u v /\
  connected (passing (fun w => wle w b) T2) u v /\ ~ connected (passing (fun w => wle w b) T2) x y.
Proof. exact order_refuted. Qed.
Print Assumptions C51_order_refuted.

(** With many light samples the listed neighbours do not weigh enough, although all
    samples do; the core distance is then too small, without any warning. *)
Theorem C51_light_neighbours_refuted : exists t n (rd lb : nat -> nat -> NInf) root min_samples knn_k weights T nbrs core i,
  tree_search t n rd lb root /\ length weights = n /\ (forall w, In w weights -> (0 < w)%Qc) /\
  sle (s := QcSize) (as_weight min_samples) (@ssum QcSize weights) = true /\
  kruskal_mst_knn_weighted (tree_rows t rd lb root n) min_samples knn_k weights CLNone = Ok (T, nbrs, core) /\ i < n /\
  @slt QcSize (weight_where (Sz := QcSize) n weights (fun q => root (rd i q)) (fun x => wle x (nth i core winf))) (as_weight min_samples) = true.
Proof. exact light_refuted. Qed.
Print Assumptions C51_light_neighbours_refuted.

(** Weights of one differ from no weights: without weights the sample itself is not
    counted. *)
Theorem C51_unit_weights_refuted : exists t n (rd lb : nat -> nat -> NInf) root min_samples knn_k T nbrs core T2 nbrs2 core2 i,
  tree_search t n rd lb root /\ min_samples < n /\ i < n /\
  kruskal_mst_knn_weighted (tree_rows t rd lb root n) min_samples knn_k (repeat 1%Qc n) CLNone = Ok (T, nbrs, core) /\
  kruskal_mst_knn (Some 0 : NInf) (tree_table t rd lb root n) min_samples knn_k CLNone = Ok (T2, nbrs2, core2) /\
  wlt (nth i core winf) (nth i core2 winf) = true.
Proof. exact ones_refuted. Qed.
Print Assumptions C51_unit_weights_refuted.

(** ** Examples *)
Definition example_weights : list Qc := [1; Q2Qc (3 # 2); 1; 1; Q2Qc (1 # 2); 1]%Qc.
Example C51_example_search : tree_search (W := NInf) (flat_tree 6) 6 (squares [0; 9; 100; 101; 105; 106]) (fun _ _ => Some 0) nroot.
Proof. apply (squares_search [0; 9; 100; 101; 105; 106]). discriminate. Qed.
Example C51_example_neighbours : expected_neighbors 2 example_weights = Ok 4 /\ expected_neighbors 2 [0; 0]%Qc = Err ZeroDivisionError.
Proof. vm_compute. auto. Qed.
Example C51_example_enough : enough_listed (Sz := QcSize) 6 (Nat.max 3 4 + 1) example_weights (as_weight 2).
Proof.
  apply C51_half_the_mean_is_enough; [reflexivity|vm_compute; reflexivity| |vm_compute; discriminate|lia].
  intros w H. cbn [example_weights] in H. repeat (destruct H as [<-|H]; [split; vm_compute; discriminate|]). destruct H.
Qed.
Example C51_example_kruskal : line_kruskal [0; 9; 100; 101; 105; 106] 2 3 example_weights =
  Ok ([(2, 3, Some 1); (3, 4, Some 4); (3, 5, Some 5); (0, 1, Some 9); (1, 2, Some 91)],
      [[Some 1; Some 2; Some 3; Some 4]; [Some 0; Some 2; Some 3; Some 4]; [Some 3; Some 4; Some 5; Some 1];
       [Some 2; Some 4; Some 5; Some 1]; [Some 5; Some 3; Some 2; Some 1]; [Some 4; Some 3; Some 2; Some 1]],
      [Some 9; Some 9; Some 1; Some 1; Some 4; Some 5]).
Proof. vm_compute. reflexivity. Qed.
Example C51_example_boruvka : exists T nbrs core, line_boruvka [0; 9; 100; 101; 105; 106] 2 example_weights = Ok (T, nbrs, core) /\ length T = 5 /\ length core = 6.
Proof. do 3 eexists. split; [vm_compute; reflexivity|]. split; reflexivity. Qed.

(** Three samples of weight one and min_samples=2: four neighbours are asked for, of
    which three exist. *)
Example C51_example_few_samples :
  expected_neighbors 2 (repeat 1%Qc 3) = Ok 4 /\
  exists T core, line_boruvka [0; 1; 9] 2 (repeat 1%Qc 3) = Ok (T, [[Some 1; Some 2; None]; [Some 0; Some 2; None]; [Some 1; Some 0; None]], core) /\
    map (fun e => (esrc e, edst e)) T = [(0, 1); (2, 1)].
Proof. split; [vm_compute; reflexivity|]. do 2 eexists. split; vm_compute; reflexivity. Qed.

(** Weights of ten each and min_samples=2; algorithm='kruskal' copes. *)
Example C51_example_heavy :
  (as_weight (2 * 2) * as_weight 3 < @ssum QcSize (repeat (as_weight 10) 3))%Qc /\
  line_boruvka [0; 1; 9] 2 (repeat (as_weight 10) 3) = Err IndexError /\
  exists r, line_kruskal [0; 1; 9] 2 2 (repeat (as_weight 10) 3) = Ok r.
Proof. split; [reflexivity|]. split; [vm_compute; reflexivity|]. eexists. vm_compute. reflexivity. Qed.
