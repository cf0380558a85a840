(** C57-C59: PLSCAN from distances to labels. *)
From Coq Require Import List Arith Bool ZArith QArith Qcanon.
From Verif Require Import Prelude Order Graph Size Num S_Kruskal S_Precomputed M_Kruskal M_KruskalEntry M_Linkage S_Linkage M_Condense S_Condense
  M_Select S_Select M_Labels S_Labels P_LabelsEx M_Pipeline M_Layers S_Layers P_LayersEx M_LayerTree S_LayerTree S_Equi M_Dispatch S_Dispatch M_Plscan S_Plscan P_Plscan P_PlscanTop.
Import ListNotations.
Local Open Scope nat_scope.

(** C57.  For every finite matrix of distances of at least two samples, every
    neighbour count below the number of samples and every minimum size of at least
    two, PLSCAN ends.  The tree it uses is a minimum spanning tree of the mutual
    reachability distances.  Distances are then expressed in the unit of the core
    distances.  The first layer holds the leaf clusters for the minimum size; the
    other layers come from the hierarchy of the same linkage tree; the clusters of
    all layers form a tree; and the labels reported are those of a layer of the
    highest persistence. *)
Theorem C57_from_distances_to_labels :
  forall (V P : WOrd) (D : Type) (search_lam lam : QInf -> V) (LA : LamArith V) (death_of : V -> D) (dzero : D) (garbage : nat -> nat) (garbage_lambda : nat -> D)
         (pzero : P) (accumulate : P -> nat -> nat -> D -> P) (argsort : list P -> list nat) (argsort_counts argsort_labels : list Z -> list nat)
         (sort_edges : list (edge QInf) -> list (edge QInf)) (Dist : nat -> nat -> QInf) (n ms base_m : nat) (threshold : Q) (max_layers : nat),
  (forall x y : QInf, wle x y = true -> wle (lam y) (lam x) = true) -> (forall x, wle (la_zero LA) (lam x) = true) -> LamLaws LA ->
  argsorts argsort -> argsorts_Z argsort_counts -> argsorts_Z argsort_labels -> sorts_edges (W := QInf) sort_edges ->
  (forall x : Qc, wle (lam (Some x)) (la_zero LA) = false) ->
  (forall i j, i < n -> j < n -> Dist i j <> None) -> ms < n -> 2 <= n -> 2 <= base_m ->
  exists M nbrs core f L T S b base ys rows d y,
    kruskal_mst_brute (Some 0%Qc : QInf) Dist n ms CLNone = Ok (M, nbrs, core) /\
    spanning_tree n M /\ min_spanning_forest (brute_edges (Some 0%Qc : QInf) Dist n ms) M /\ core = map (brute_core (Some 0%Qc : QInf) Dist n ms) (seq 0 n) /\
    unit_of core f /\ linkage_tree_of (W := QInf) n M L /\
    plscan_fit search_lam lam LA death_of dzero garbage garbage_lambda pzero accumulate argsort argsort_counts argsort_labels sort_edges
      n base_m None threshold max_layers M core = Ok (ys, d, y) /\
    tree_of (fun w : QInf => lam (f w)) n L base_m T /\ (forall c, In c S <-> leaf_cluster n T c) /\
    right_layer LA n T S (y_labels base) (y_strengths base) /\ y_persistence base = pzero /\
    (cluster_rows n T <> [] -> right_barcode n T death_of dzero base_m b) /\
    layer_stack LA pzero accumulate n T b threshold base_m max_layers base ys /\
    right_tree (map y_labels ys) rows /\ right_dictionary rows d /\ nested_rows (map y_labels ys) rows /\
    In y ys /\ forall y', In y' ys -> wle (y_persistence y') (y_persistence y) = true.
Proof. exact @plscan_brute. Qed.
Print Assumptions C57_from_distances_to_labels.

(** C57.  With cannot-link pairs the layers are still those of the linkage tree of
    the constrained spanning tree. *)
Theorem C57_layers_with_constraints :
  forall (V P : WOrd) (D : Type) (search_lam lam : QInf -> V) (LA : LamArith V) (death_of : V -> D) (dzero : D) (garbage : nat -> nat) (garbage_lambda : nat -> D)
         (pzero : P) (accumulate : P -> nat -> nat -> D -> P) (argsort : list P -> list nat) (argsort_counts : list Z -> list nat)
         (sort_edges : list (edge QInf) -> list (edge QInf)) (Dist : nat -> nat -> QInf) (n ms : nat) (X : option sparse) (base_m : nat) (threshold : Q) (max_layers : nat),
  (forall x y : QInf, wle x y = true -> wle (lam y) (lam x) = true) -> (forall x, wle (la_zero LA) (lam x) = true) -> LamLaws LA ->
  argsorts argsort -> argsorts_Z argsort_counts -> sorts_edges (W := QInf) sort_edges ->
  valid_constraints n X None -> 2 <= n -> 2 <= base_m ->
  exists cl M nbrs core f L T S b base ys,
    resolve_cl_params n X true None = Ok cl /\ kruskal_mst_brute (Some 0%Qc : QInf) Dist n ms cl = Ok (M, nbrs, core) /\
    bridged_result n (user_constraints (option_map sp_entries X) None) (brute_edges (Some 0%Qc : QInf) Dist n ms) M /\
    unit_of core f /\ linkage_tree_of (W := QInf) n M L /\
    build_cluster_layers search_lam lam LA death_of dzero garbage garbage_lambda pzero accumulate argsort argsort_counts sort_edges
      n base_m None threshold max_layers M core = Ok ys /\
    tree_of (fun w : QInf => lam (f w)) n L base_m T /\ (forall c, In c S <-> leaf_cluster n T c) /\
    right_layer LA n T S (y_labels base) (y_strengths base) /\ y_persistence base = pzero /\
    (cluster_rows n T <> [] -> right_barcode n T death_of dzero base_m b) /\
    layer_stack LA pzero accumulate n T b threshold base_m max_layers base ys.
Proof. exact @plscan_brute_constraints. Qed.
Print Assumptions C57_layers_with_constraints.

(** C57.  For a requested number of clusters and at least four samples, on any
    spanning tree with finite distances. *)
Theorem C57_for_a_number_of_clusters :
  forall (V P : WOrd) (D : Type) (search_lam lam : QInf -> V) (LA : LamArith V) (death_of : V -> D) (dzero : D) (garbage : nat -> nat) (garbage_lambda : nat -> D)
         (pzero : P) (accumulate : P -> nat -> nat -> D -> P) (argsort : list P -> list nat) (argsort_counts argsort_labels : list Z -> list nat)
         (sort_edges : list (edge QInf) -> list (edge QInf)),
  (forall x y : QInf, wle x y = true -> wle (lam y) (lam x) = true) -> (forall x, wle (la_zero LA) (lam x) = true) -> LamLaws LA ->
  argsorts argsort -> argsorts_Z argsort_counts -> argsorts_Z argsort_labels -> sorts_edges (W := QInf) sort_edges ->
  forall (n : nat) (M : list (edge QInf)) (core : list QInf), spanning_tree n M ->
  (forall x : Qc, wle (lam (Some x)) (la_zero LA) = false) -> (forall e, In e M -> ewt e <> None) ->
  (forall x y : QInf, wle x y = true -> wle (search_lam y) (search_lam x) = true) -> (forall x, wle (la_zero LA) (search_lam x) = true) ->
  (forall x : Qc, wle (search_lam (Some x)) (la_zero LA) = false) ->
  forall (base_m k : nat) (threshold : Q) (max_layers : nat), 4 <= n ->
  exists f L j T0 S m T b base ys rows d y, unit_of core f /\ linkage_tree_of (W := QInf) n M L /\
    plscan_fit search_lam lam LA death_of dzero garbage garbage_lambda pzero accumulate argsort argsort_counts argsort_labels sort_edges
      n base_m (Some k) threshold max_layers M core = Ok (ys, d, y) /\
    best (fun w : QInf => search_lam (f w)) n L k j /\ tree_of (fun w : QInf => search_lam (f w)) n L j T0 /\ (forall c, In c S <-> leaf_cluster n T0 c) /\
    right_layer LA n T0 S (y_labels base) (y_strengths base) /\ y_persistence base = pzero /\
    2 <= m /\ smallest_cluster (y_labels base) m /\ tree_of (fun w : QInf => lam (f w)) n L m T /\
    (cluster_rows n T <> [] -> right_barcode n T death_of dzero m b) /\
    layer_stack LA pzero accumulate n T b threshold m max_layers base ys /\
    right_tree (map y_labels ys) rows /\ right_dictionary rows d /\
    In y ys /\ forall y', In y' ys -> wle (y_persistence y') (y_persistence y) = true.
Proof. exact @plscan_number. Qed.
Print Assumptions C57_for_a_number_of_clusters.

(** A minimum size of 1 is accepted, but the run then leaves most samples out and
    numbers clusters that no sample has.  With 2 no sample is noise. *)
Theorem C57_size_one_refuted :
  (exists p, plscan_dispatch size_one = Ok p) /\
  (exists r, line_run apart 13 2 2 None = Ok r /\ ~ In (-1)%Z (y_labels (snd r))) /\
  exists r, line_run apart 13 2 1 None = Ok r /\ countp (fun l => (l =? -1)%Z) (y_labels (snd r)) = 10 /\ ~ gap_free (nth 0 (map y_labels (fst (fst r))) []).
Proof. exact size_one_wrong. Qed.
Print Assumptions C57_size_one_refuted.

(** A single sample ends in an error, whatever the settings. *)
Theorem C57_single_sample_refuted :
  forall (V P : WOrd) (D : Type) (search_lam lam : QInf -> V) (LA : LamArith V) (death_of : V -> D) (dzero : D) (garbage : nat -> nat) (garbage_lambda : nat -> D)
         (pzero : P) (accumulate : P -> nat -> nat -> D -> P) (argsort : list P -> list nat) (argsort_counts argsort_labels : list Z -> list nat)
         (sort_edges : list (edge QInf) -> list (edge QInf)) (base_m : nat) (threshold : Q) (max_layers : nat) (core : list QInf),
  sorts_edges (W := QInf) sort_edges ->
  plscan_fit search_lam lam LA death_of dzero garbage garbage_lambda pzero accumulate argsort argsort_counts argsort_labels sort_edges
    1 base_m None threshold max_layers [] core = Err ValueError.
Proof. exact @single_sample. Qed.
Print Assumptions C57_single_sample_refuted.

(** C58.  PLSCAN does not depend on the unit of the distances: if two samples have
    different finite core distances, multiplying all distances by a positive number
    changes nothing in the result. *)
Theorem C58_units_do_not_matter :
  forall (V P : WOrd) (D : Type) (search_lam lam : QInf -> V) (LA : LamArith V) (death_of : V -> D) (dzero : D) (garbage : nat -> nat) (garbage_lambda : nat -> D)
         (pzero : P) (accumulate : P -> nat -> nat -> D -> P) (argsort : list P -> list nat) (argsort_counts argsort_labels : list Z -> list nat)
         (sort_edges : list (edge QInf) -> list (edge QInf)) (c : Qc) (Dist : nat -> nat -> QInf) (n ms : nat) (X : option sparse)
         (base_m : nat) (base_n : option nat) (threshold : Q) (max_layers i j : nat) (a b : Qc),
  (0 < c)%Qc -> 0 < n -> valid_constraints n X None ->
  i < n -> j < n -> brute_core (Some 0%Qc : QInf) Dist n ms i = Some a -> brute_core (Some 0%Qc : QInf) Dist n ms j = Some b -> a <> b ->
  exists cl M M' nbrs core core', resolve_cl_params n X true None = Ok cl /\
    kruskal_mst_brute (Some 0%Qc : QInf) Dist n ms cl = Ok (M, nbrs, core) /\
    kruskal_mst_brute (Some 0%Qc : QInf) (fun i j => scale c (Dist i j)) n ms cl = Ok (M', nbrs, core') /\
    plscan_fit search_lam lam LA death_of dzero garbage garbage_lambda pzero accumulate argsort argsort_counts argsort_labels sort_edges
      n base_m base_n threshold max_layers M' core' =
    plscan_fit search_lam lam LA death_of dzero garbage garbage_lambda pzero accumulate argsort argsort_counts argsort_labels sort_edges
      n base_m base_n threshold max_layers M core.
Proof. exact @plscan_brute_units. Qed.
Print Assumptions C58_units_do_not_matter.

(** C58.  The same for any spanning tree and core distances, whatever made them. *)
Theorem C58_units_of_a_tree :
  forall (V P : WOrd) (D : Type) (search_lam lam : QInf -> V) (LA : LamArith V) (death_of : V -> D) (dzero : D) (garbage : nat -> nat) (garbage_lambda : nat -> D)
         (pzero : P) (accumulate : P -> nat -> nat -> D -> P) (argsort : list P -> list nat) (argsort_counts argsort_labels : list Z -> list nat)
         (sort_edges : list (edge QInf) -> list (edge QInf)) (c : Qc),
  (0 < c)%Qc -> forall (core : list QInf) (M : list (edge QInf)) n base_m base_n threshold max_layers x y,
  In (Some x) core -> In (Some y) core -> x <> y ->
  plscan_fit search_lam lam LA death_of dzero garbage garbage_lambda pzero accumulate argsort argsort_counts argsort_labels sort_edges
    n base_m base_n threshold max_layers (map (map_edge (scale c)) M) (map (scale c) core) =
  plscan_fit search_lam lam LA death_of dzero garbage garbage_lambda pzero accumulate argsort argsort_counts argsort_labels sort_edges
    n base_m base_n threshold max_layers M core.
Proof. exact @plscan_units. Qed.
Print Assumptions C58_units_of_a_tree.

(** C58.  The unit: the least core distance becomes 0 and their mean 1. *)
Theorem C58_unit :
  forall (core : list QInf) (M : list (edge QInf)), exists f, unit_of core f /\ normalised_edges core M = map (map_edge f) M.
Proof. exact (fun core M => ex_intro _ (normal core) (conj (normal_unit core) (normalised_is core M))). Qed.
Print Assumptions C58_unit.

(** C59.  PLSCAN accepts exactly the documented parameters: positive integers; a
    square sparse graph of finite numbers that are not negative for a precomputed
    metric and dense data otherwise; and the combinations that the spanning tree
    accepts. *)
Theorem C59_accepted_exactly :
  forall a, (exists p, plscan_dispatch a = Ok p) <-> plscan_values_ok a /\ combination_ok (spanning_tree_arguments a).
Proof. exact plscan_accepts. Qed.
Print Assumptions C59_accepted_exactly.

Theorem C59_precomputed_graphs : forall X, validate_precomputed_sparse_graph X = Ok tt <-> good_graph X.
Proof. exact graph_ok. Qed.
Print Assumptions C59_precomputed_graphs.

(** ** Non-vacuity *)
(** Thirteen samples on a line, at distances 1 and 2 within three groups. *)
Example C57_example_line :
  match line_run apart 13 2 2 None with Ok r => Some (reported r) | Err _ => None end =
  Some ([[2; 2; 2; 1; 1; 1; 1; 0; 0; 0; 0; 0; 0]; [0; 0; 0; 0; 0; 0; 0; 1; 1; 1; 1; 1; 1]]%Z,
        [((1, 0%Z), [(0, 2%Z); (0, 1%Z)]); ((1, 1%Z), [(0, 0%Z)]); ((2, 0%Z), [(1, 0%Z); (1, 1%Z)])],
        [0; 0; 0; 0; 0; 0; 0; 1; 1; 1; 1; 1; 1]%Z).
Proof. vm_compute. reflexivity. Qed.
Example C57_example_number :
  match line_run apart 13 2 2 (Some 3) with Ok r => Some (reported r) | Err _ => None end =
  Some ([[2; 2; 2; 1; 1; 1; 1; 0; 0; 0; 0; 0; 0]]%Z, [((1, 0%Z), [(0, 0%Z); (0, 1%Z); (0, 2%Z)])], [2; 2; 2; 1; 1; 1; 1; 0; 0; 0; 0; 0; 0]%Z).
Proof. vm_compute. reflexivity. Qed.
(** The hypotheses hold of the densities and sortings used there. *)
Example C57_example_hypotheses :
  (forall x y : QInf, wle x y = true -> wle (hdbscan_lambda_value y) (hdbscan_lambda_value x) = true) /\ (forall x, wle (la_zero ExactLam) (hdbscan_lambda_value x) = true) /\
  LamLaws ExactLam /\ argsorts (@sort_indices QInf) /\ argsorts_Z sort_indices_Z /\ sorts_edges (W := QInf) (sort_mst (W := QInf)) /\
  (forall x : Qc, wle (hdbscan_lambda_value (Some x)) (la_zero ExactLam) = false) /\ forall i j, i < 13 -> j < 13 -> apart i j <> None.
Proof.
  split; [exact hdbscan_lambda_antitone|]. split; [exact hdbscan_lambda_nonneg|]. split; [exact exact_lam_laws|]. split; [apply sort_indices_ok|]. split; [exact sort_indices_Z_ok|].
  split; [exact sort_mst_sorts|]. split; [exact lambda_dense|]. discriminate.
Qed.
(** A thousand times the distances: the same layers, strengths and persistence. *)
Definition shown (r : res (list (layer QInf QInf) * list (cluster_name * list cluster_name) * layer QInf QInf)) :=
  match r with
  | Ok r => map (fun y : layer QInf QInf => (y_labels y, map (option_map this) (y_strengths y), option_map this (y_persistence y))) (fst (fst r))
  | Err _ => []
  end.
Example C58_example_scaled :
  shown (line_run (fun i j => scale (Q2Qc (inject_Z 1000)) (apart i j)) 13 2 2 None) = shown (line_run apart 13 2 2 None) /\ shown (line_run apart 13 2 2 None) <> [].
Proof. vm_compute. split; [reflexivity|discriminate]. Qed.
Example C58_example_core : map (option_map this) (map (brute_core (Some 0%Qc : QInf) apart 13 2) (seq 0 13)) =
  [Some 3; Some 2; Some 3; Some 3; Some 2; Some 2; Some 3; Some 3; Some 2; Some 2; Some 2; Some 2; Some 3]%Q.
Proof. vm_compute. reflexivity. Qed.
(** Core distances 2 and 4: the distances 2, 3 and 5 become 0, 1 and 3. *)
Example C58_example_unit :
  map (fun e => option_map this (ewt e)) (normalised_edges [yq 2; None; yq 4] [(0, 1, yq 2); (1, 2, yq 3); (2, 3, yq 5); (3, 4, None)]) = [Some 0; Some 1; Some 3; None]%Q /\
  map (fun e => option_map this (ewt e)) (normalised_edges [yq 2; None; yq 2] [(0, 1, yq 2); (1, 2, yq 3)]) = [Some 2; Some 3]%Q.
Proof. vm_compute. split; reflexivity. Qed.
Example C59_example_accepted :
  plscan_dispatch size_one = Ok (KruskalPairs CLNone) /\
  plscan_dispatch {| p_rows := 2; p_features := 2; p_matrix := Sparse 2 2 [Finite 1%Qc; Finite 0%Qc]; p_metric := Precomputed; p_algorithm := Boruvka; p_weights := false; p_min_samples := PyInt 1;
    p_max_layers := PyInt 10; p_base_min_cluster_size := PyInt 5; p_base_n_clusters := PyInt 3; p_knn_k := None; p_cannot_link := None; p_validate := true; p_pynndescent := false |} = Ok PrecomputedBoruvka /\
  validate_precomputed_sparse_graph (Sparse 2 2 [Finite 1%Qc; Infinite]) = Err ValueError /\
  validate_precomputed_sparse_graph (Sparse 2 2 [Finite (- (1))%Qc]) = Err ValueError /\
  validate_precomputed_sparse_graph (Sparse 2 3 []) = Err ValueError /\ validate_precomputed_sparse_graph Dense = Err ValueError.
Proof. vm_compute. repeat split; reflexivity. Qed.
