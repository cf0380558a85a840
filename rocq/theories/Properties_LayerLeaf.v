(** C78: every layer of PLSCAN is an HDBSCAN clustering. *)
From Coq Require Import List Arith Lia Bool ZArith Permutation QArith Qcanon.
From Verif Require Import Prelude Order Graph Size Num S_Kruskal M_Kruskal M_KruskalEntry M_Linkage M_Condense S_Condense M_Select M_Labels S_Labels P_LabelsEx P_LayersEx
  M_Pipeline S_Pipeline P_PipelineEx M_Estimator P_EstimatorEx M_Layers S_Layers M_LayerTree S_LayerTree M_Plscan S_Plscan S_Unique S_LayerLeaf P_PlscanTop P_LayerLeafTop
  P_EpsilonTop Properties_SpaceTree Properties_Dbscan Properties_Level.
Import ListNotations.
Local Open Scope nat_scope.

(** For all rows: PLSCAN runs, and each of its layers, the reported one among them,
    has the clusters and the noise that HDBSCAN finds with 'leaf' and some
    min_cluster_size.  The exception is data whose hierarchy never splits: then
    there is one layer, and HDBSCAN reports noise.  Either no two edges of the
    spanning tree have one length, or both programs sort them alike. *)
Theorem C78_layers_of_rows :
  forall (V V' P : WOrd) (D Row : Type) (search_lam lam : QInf -> V) (LA : LamArith V) (death_of : V -> D) (dzero : D) (garbage : nat -> nat) (garbage_lambda : nat -> D)
    (pzero : P) (accumulate : P -> nat -> nat -> D -> P) (argsort : list P -> list nat) (argsort_counts argsort_labels : list Z -> list nat)
    (sort_edges : list (edge QInf) -> list (edge QInf)),
  (forall x y : QInf, wle x y = true -> wle (lam y) (lam x) = true) -> (forall x, wle (la_zero LA) (lam x) = true) -> LamLaws LA ->
  argsorts argsort -> argsorts_Z argsort_counts -> argsorts_Z argsort_labels -> sorts_edges (W := QInf) sort_edges ->
  (forall x : Qc, wle (lam (Some x)) (la_zero LA) = false) ->
  forall (dist : Row -> Row -> QInf) (min_samples : nat) (X : list Row) (finite : Row -> bool) (set_list : list nat -> list nat),
  forallb finite X = true -> (forall a b, In a X -> In b X -> dist a b <> None) -> 2 <= length X -> min_samples < length X ->
  forall (lam' : QInf -> V') (LA' : LamArith V') (A : Arith V' NatSize) (garbage' : nat -> V') (by_parent : list (crow V' NatSize) -> list (crow V' NatSize)),
  (forall x : Qc, wlt (la_zero LA') (lam' (Some x)) = true) ->
  forall M nbrs core, kruskal_mst_brute (Some 0%Qc : QInf) (rows_distance (Some 0%Qc : QInf) dist X) (length X) min_samples CLNone = Ok (M, nbrs, core) ->
  distinct_weights (W := QInf) M \/ sort_edges (normalised_edges core M) = normalised_edges core (sort_mst M) ->
  forall base_m threshold max_layers, 2 <= base_m ->
  exists ys d y,
    plscan_fit search_lam lam LA death_of dzero garbage garbage_lambda pzero accumulate argsort argsort_counts argsort_labels sort_edges
      (length X) base_m None threshold max_layers M core = Ok (ys, d, y) /\ In y ys /\
    forall y', In y' ys -> exists k, base_m <= k /\ forall st, setting_ok lam' LA' A by_parent st ->
      min_cluster_size st = k -> cluster_selection_method st = Leaf -> cluster_selection_epsilon st = None -> cluster_selection_persistence st = None ->
      exists r, fit (la_zero LA') finite set_list (fast_hdbscan lam' LA' garbage' (pairs_mst (Some 0%Qc : QInf) dist min_samples) A by_parent st) X = Ok r /\
      (same_partition (length X) (y_labels y') (f_labels r) \/ (ys = [y'] /\ f_labels r = repeat (-1)%Z (length X))).
Proof. intros *. intros H1 H2 H3 H4 H5 H6 H7 H8 *. intros K1 K2 K3 K4 *. intros K5 *. intros K6 K7 *. eapply rows_leaf; eauto. Qed.
Print Assumptions C78_layers_of_rows.

(** For any spanning tree. *)
Theorem C78_layers_are_leaf_clusterings :
  forall (V V' P : WOrd) (D : Type) (search_lam lam : QInf -> V) (LA : LamArith V) (death_of : V -> D) (dzero : D) (garbage : nat -> nat) (garbage_lambda : nat -> D)
    (pzero : P) (accumulate : P -> nat -> nat -> D -> P) (argsort : list P -> list nat) (argsort_counts argsort_labels : list Z -> list nat)
    (sort_edges : list (edge QInf) -> list (edge QInf)),
  (forall x y : QInf, wle x y = true -> wle (lam y) (lam x) = true) -> (forall x, wle (la_zero LA) (lam x) = true) -> LamLaws LA ->
  argsorts argsort -> argsorts_Z argsort_counts -> sorts_edges (W := QInf) sort_edges ->
  forall (n : nat) (M : list (edge QInf)) (core : list QInf), spanning_tree n M ->
  (forall x : Qc, wle (lam (Some x)) (la_zero LA) = false) -> (forall e, In e M -> ewt e <> None) ->
  distinct_weights (W := QInf) M \/ sort_edges (normalised_edges core M) = normalised_edges core (sort_mst M) -> 2 <= n ->
  forall (lam' : QInf -> V') (LA' : LamArith V') (A : Arith V' NatSize) (garbage' : nat -> V') (by_parent : list (crow V' NatSize) -> list (crow V' NatSize)),
  (forall e, In e M -> wlt (la_zero LA') (lam' (ewt e)) = true) ->
  forall base_m threshold max_layers ys d y, 2 <= base_m ->
  plscan_fit search_lam lam LA death_of dzero garbage garbage_lambda pzero accumulate argsort argsort_counts argsort_labels sort_edges n base_m None threshold max_layers M core = Ok (ys, d, y) ->
  forall y', In y' ys -> exists k, base_m <= k /\ forall st ls ps T, setting_ok lam' LA' A by_parent st ->
    min_cluster_size st = k -> cluster_selection_method st = Leaf -> cluster_selection_epsilon st = None -> cluster_selection_persistence st = None ->
    clusters_from_spanning_tree lam' LA' A garbage' by_parent st M = Ok (ls, ps, T) ->
    same_partition n (y_labels y') ls \/ (ys = [y'] /\ ls = repeat (-1)%Z n).
Proof. exact @plscan_leaf. Qed.
Print Assumptions C78_layers_are_leaf_clusterings.

(** With a number of clusters instead of a min_cluster_size for the base layer. *)
Theorem C78_layers_for_a_number_of_clusters :
  forall (V V' P : WOrd) (D : Type) (search_lam lam : QInf -> V) (LA : LamArith V) (death_of : V -> D) (dzero : D) (garbage : nat -> nat) (garbage_lambda : nat -> D)
    (pzero : P) (accumulate : P -> nat -> nat -> D -> P) (argsort : list P -> list nat) (argsort_counts argsort_labels : list Z -> list nat)
    (sort_edges : list (edge QInf) -> list (edge QInf)),
  (forall x y : QInf, wle x y = true -> wle (lam y) (lam x) = true) -> (forall x, wle (la_zero LA) (lam x) = true) -> LamLaws LA ->
  argsorts argsort -> argsorts_Z argsort_counts -> argsorts_Z argsort_labels -> sorts_edges (W := QInf) sort_edges ->
  forall (n : nat) (M : list (edge QInf)) (core : list QInf), spanning_tree n M ->
  (forall x : Qc, wle (lam (Some x)) (la_zero LA) = false) -> (forall e, In e M -> ewt e <> None) ->
  distinct_weights (W := QInf) M \/ sort_edges (normalised_edges core M) = normalised_edges core (sort_mst M) -> 2 <= n ->
  forall (lam' : QInf -> V') (LA' : LamArith V') (A : Arith V' NatSize) (garbage' : nat -> V') (by_parent : list (crow V' NatSize) -> list (crow V' NatSize)),
  (forall e, In e M -> wlt (la_zero LA') (lam' (ewt e)) = true) ->
  (forall x y : QInf, wle x y = true -> wle (search_lam y) (search_lam x) = true) -> (forall x, wle (la_zero LA) (search_lam x) = true) ->
  (forall x : Qc, wle (search_lam (Some x)) (la_zero LA) = false) ->
  forall base_m approx threshold max_layers ys d y, 4 <= n ->
  plscan_fit search_lam lam LA death_of dzero garbage garbage_lambda pzero accumulate argsort argsort_counts argsort_labels sort_edges n base_m (Some approx) threshold max_layers M core = Ok (ys, d, y) ->
  forall y', In y' ys -> exists k, 2 <= k /\ forall st ls ps T, setting_ok lam' LA' A by_parent st ->
    min_cluster_size st = k -> cluster_selection_method st = Leaf -> cluster_selection_epsilon st = None -> cluster_selection_persistence st = None ->
    clusters_from_spanning_tree lam' LA' A garbage' by_parent st M = Ok (ls, ps, T) ->
    same_partition n (y_labels y') ls \/ ls = repeat (-1)%Z n.
Proof. exact @plscan_number_leaf. Qed.
Print Assumptions C78_layers_for_a_number_of_clusters.

(** If PLSCAN sorted the edges as HDBSCAN does, ties would not matter. *)
Theorem C78_sorting_alike : forall core (M : list (edge QInf)), sort_mst (normalised_edges core M) = normalised_edges core (sort_mst M).
Proof. exact own_sort. Qed.
Print Assumptions C78_sorting_alike.

(** ** Examples *)
Definition line_rows : list (option Z) := map Some places.
Definition rows_run (X : list (option Z)) := line_run (rows_distance (Some 0%Qc : QInf) line_dist X) (length X) 2 2 None.
(** Two layers: 'leaf' with min_cluster_size 2 and with min_cluster_size 5. *)
Example C78_example : exists p r r', rows_run line_rows = Ok p /\ level_line 2 Leaf false 0 2 line_rows = Ok r /\ level_line 5 Leaf false 0 2 line_rows = Ok r' /\
  map y_labels (fst (fst p)) = [[2; 2; 2; 1; 1; 1; 1; 0; 0; 0; 0; 0; 0]; [0; 0; 0; 0; 0; 0; 0; 1; 1; 1; 1; 1; 1]]%Z /\
  f_labels r = [2; 2; 2; 1; 1; 1; 1; 0; 0; 0; 0; 0; 0]%Z /\ f_labels r' = [0; 0; 0; 0; 0; 0; 0; 1; 1; 1; 1; 1; 1]%Z.
Proof.
  do 3 eexists. split; [vm_compute; reflexivity|]. split; [vm_compute; reflexivity|]. split; [vm_compute; reflexivity|]. repeat split; vm_compute; reflexivity.
Qed.
(** The hypotheses of C78_layers_of_rows hold there; those on densities and sortings
    of PLSCAN are in C57_example_hypotheses. *)
Example C78_example_hypotheses :
  forallb present line_rows = true /\ (forall a b, In a line_rows -> In b line_rows -> line_dist a b <> None) /\ 2 <= length line_rows /\
  (forall x : Qc, wlt (W := QInf) (la_zero ExactLam) (hdbscan_lambda_value (Some x)) = true) /\
  (exists M nbrs core, kruskal_mst_brute (Some 0%Qc : QInf) (rows_distance (Some 0%Qc : QInf) line_dist line_rows) (length line_rows) 2 CLNone = Ok (M, nbrs, core) /\
     sort_mst (normalised_edges core M) = normalised_edges core (sort_mst M)) /\
  (forall k, 2 <= k -> let st := exact_settings (Sz := NatSize) k Leaf false 0%Qc 0%Qc in
     setting_ok hdbscan_lambda_value ExactLam (ExactArith NatSize nat_as_q) by_parent_of st /\ min_cluster_size st = k /\ cluster_selection_method st = Leaf /\
     cluster_selection_epsilon st = None /\ cluster_selection_persistence st = None).
Proof.
  split; [reflexivity|]. split.
  { intros a b Ha Hb. apply in_map_iff in Ha as (x & <- & _). apply in_map_iff in Hb as (y & <- & _). discriminate. }
  split; [cbn; lia|]. split; [intro x; unfold wlt; now rewrite lambda_dense|]. split.
  { do 3 eexists. split; [vm_compute; reflexivity|apply own_sort]. }
  intros k Hk. split; [apply exact_ok; [exact ex_sorts|now apply nat_mcs]|]. repeat split.
Qed.

(** ** Findings *)

(** Data whose hierarchy never splits: PLSCAN reports one cluster, HDBSCAN noise. *)
Theorem C78_no_split_refuted :
  exists p r, rows_run (map Some [0; 1; 3]%Z) = Ok p /\ level_line 2 Leaf false 0 2 (map Some [0; 1; 3]%Z) = Ok r /\
    y_labels (snd p) = [0; 0; 0]%Z /\ f_labels r = [-1; -1; -1]%Z.
Proof. do 2 eexists. split; [vm_compute; reflexivity|]. split; vm_compute; repeat split; reflexivity. Qed.
Print Assumptions C78_no_split_refuted.

(** HDBSCAN sorts edges of one length by their samples, PLSCAN does not.  For four
    equally spaced samples PLSCAN can report two clusters where HDBSCAN reports none,
    whatever its min_cluster_size. *)
Theorem C78_ties_refuted :
  let by_length := isort (W := QInf) (A := edge QInf) ewt in
  sorts_edges (W := QInf) by_length /\ spanning_tree 4 unit_steps /\
  exists ys d y, plscan_fit (P := QInf) hdbscan_lambda_value hdbscan_lambda_value ExactLam y_death 0%Qc (fun _ => 7) (fun _ => 0%Qc) (yq 0) y_add
      sort_indices sort_indices_Z sort_indices_Z by_length 4 2 None (1 # 5) 10 unit_steps [] = Ok (ys, d, y) /\
    y_labels y = [1; 1; 0; 0]%Z /\
    forall k ls ps T, 2 <= k ->
      clusters_from_spanning_tree (W := QInf) hdbscan_lambda_value ExactLam (ExactArith NatSize nat_as_q) (fun _ => None) by_parent_of
        (exact_settings (Sz := NatSize) k Leaf false 0%Qc 0%Qc) unit_steps = Ok (ls, ps, T) ->
      ~ same_partition 4 (y_labels y) ls /\ forall x, x < 4 -> nth x ls 0%Z = (-1)%Z.
Proof.
  cbv zeta. split; [intro l; split; [symmetry; apply isort_perm|apply isort_sorted]|]. split; [exact unit_steps_tree|].
  do 3 eexists. split; [vm_compute; reflexivity|]. split; [vm_compute; reflexivity|].
  intros k ls ps T Hk E. pose proof (unit_steps_noise k ls ps T Hk E) as HN. split; auto. intros [H _].
  specialize (proj2 (H 0 ltac:(lia)) (HN 0 ltac:(lia))). discriminate.
Qed.
Print Assumptions C78_ties_refuted.
