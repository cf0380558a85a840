(** C60: the graphs and trees a detector reports. *)
From Coq Require Import List Arith Bool ZArith Permutation QArith Qcanon.
From Verif Require Import Prelude Order Graph Size Num S_Kruskal M_Kruskal M_KruskalEntry S_Precomputed M_Precomputed M_Linkage S_Linkage M_Condense S_Condense
  M_Select M_Labels M_Pipeline S_Pipeline M_Estimator S_Estimator M_SubClusters M_LensGraph M_Detector S_Detector M_Report S_Report
  P_EpsilonTop P_PipelineEx P_EstimatorEx P_SubEx P_Detector P_DetectorTop P_DetectorEx P_ReportTop P_ReportEx.
Import ListNotations.
Local Open Scope nat_scope.

(** C60.  On data without missing values, a detector that ends has stored a graph
    for every cluster, the one it clustered.  approximation_graph_ lists for every
    cluster, once each, the links between its samples: their neighbours in the
    cluster and the edges of the spanning tree inside it, named by rows of the
    data, with the greater of their lens values and the distance that goes with
    the link. *)
Theorem C60_reported_graph :
  forall (W V : WOrd) (Sz : SOrd) (Row : Type) (round : W -> W) (argsort : list W -> list nat) (average : V -> V -> V) (zero one : V) (no_lens : W)
         (cluster_of : list (edge W) -> res (list Z * list V))
         (propagate : joined V W * list (list nat * sub_result W V) -> res ((nat -> Z) * (nat -> Z))),
  argsorts argsort ->
  forall (flag : bool) (data : list Row) (T : list (crow V Sz)) (labels : list Z) (probs : list V) (neighbors : list (list (option nat)))
         (core : list W) (mst : list (edge W)) (lens : lens_input W V Row) (d : detected W V),
  (forall r, In r T -> wlt zero (c_lam r) = true) ->
  length labels = length data -> (forall x, x < length labels -> ~ In None (nth x neighbors [])) -> single_edges mst ->
  detect round (sort_with argsort) average zero one no_lens cluster_of propagate flag data T labels probs neighbors mst lens = Ok d ->
  exists gs, stored_graphs round argsort zero no_lens data T labels probs neighbors core mst lens = Ok gs /\
    map without_distances gs = map sr_graph (d_parts d) /\ length gs = length (d_points d) /\
    (forall g pts, In (g, pts) (combine gs (d_points d)) -> forall e, In e (core_graph_to_edge_list g) ->
       fst (fst (fst e)) < length pts /\ snd (fst (fst e)) < length pts) /\
    forall k, k < length gs -> reported_links round neighbors core mst labels (d_lens d) k (nth k (approximation_graph gs (d_points d)) []).
Proof. exact @detector_report. Qed.
Print Assumptions C60_reported_graph.

(** C60.  After fitting data with missing values, the links reported are those of
    the finite rows, named by their rows in the data given. *)
Theorem C60_missing_rows :
  forall (W V : WOrd) (Row : Type) (lam : W -> V) (LA : LamArith V) (garbage : nat -> V) (mst_of : list Row -> res (list (edge W)))
         (finite : Row -> bool) (set_list : list nat -> list nat) (X : list Row),
  (forall l, Permutation (set_list l) l) -> forallb finite X = false -> 3 <= length (filter finite X) ->
  forall (round : W -> W) (argsort : list W -> list nat) (average : V -> V -> V) (one : V) (no_lens : W)
         (cluster_of : list (edge W) -> res (list Z * list V))
         (propagate : joined V W * list (list nat * sub_result W V) -> res ((nat -> Z) * (nat -> Z)))
         (A : Arith V NatSize) (by_parent : list (crow V NatSize) -> list (crow V NatSize)) (st : settings V NatSize)
         (M : list (edge W)) (r0 r : fitted W V NatSize) (pos : nat -> nat),
  argsorts argsort -> setting_ok lam LA A by_parent st -> mst_of (filter finite X) = Ok M -> spanning_tree (length (filter finite X)) M ->
  (forall e, In e M -> wlt (la_zero LA) (lam (ewt e)) = true) ->
  let run := fast_hdbscan lam LA garbage mst_of A by_parent st in
  run (filter finite X) = Ok r0 -> fit (la_zero LA) finite set_list run X = Ok r -> places finite X pos ->
  forall (neighbors : list (list (option nat))) (core : list W) (lens lens0 : lens_input W V Row) (flag : bool) (d0 : detected W V),
  picked_lens (length X) (length (filter finite X)) pos lens lens0 ->
  (forall x, x < length (filter finite X) -> ~ In None (nth x neighbors [])) ->
  let detect := detect (Sz := NatSize) round (sort_with argsort) average (la_zero LA) one no_lens cluster_of propagate in
  detect flag (filter finite X) (f_condensed r0) (f_labels r0) (f_probabilities r0) neighbors (f_mst r0) lens0 = Ok d0 ->
  exists d gs, detect flag X (f_condensed r) (f_labels r) (f_probabilities r) neighbors (f_mst r) lens = Ok d /\
    stored_graphs round argsort (la_zero LA) no_lens X (f_condensed r) (f_labels r) (f_probabilities r) neighbors core (f_mst r) lens = Ok gs /\
    length gs = length (d_points d) /\
    forall k, k < length gs -> exists R, reported_links round neighbors core (f_mst r0) (f_labels r0) (d_lens d0) k R /\
      nth k (approximation_graph gs (d_points d)) [] = map (rename pos) R.
Proof. exact @report_after_fit. Qed.
Print Assumptions C60_missing_rows.

(** C60.  The distance that goes with a link is the mutual reachability distance
    whenever neighbours lie within the core distance. *)
Theorem C60_distances :
  forall (W : WOrd) (D : nat -> nat -> W) (neighbors : list (list (option nat))) (core : list W) (mst : list (edge W)),
  (forall x y, In (Some y) (nth x neighbors []) -> wle (D x y) (nth x core winf) = true) ->
  (forall x y d, In (x, y, d) mst -> greatest_of_three (nth x core winf) (nth y core winf) (D x y) d) ->
  forall x y d, link_distance neighbors core mst x y d -> greatest_of_three (nth x core winf) (nth y core winf) (D x y) d.
Proof. exact @link_mutual. Qed.
Print Assumptions C60_distances.

(** C60.  So it is for the neighbours, core distances and spanning tree of exact
    Kruskal, for every min_samples of at least two. *)
Theorem C60_distances_after_kruskal :
  forall (W : WOrd) (D : nat -> nat -> W) (zero : W) (n ms : nat) (mst : list (edge W)) (nbrs : list (list nat)) (core : list W),
  1 < ms -> ms < n -> kruskal_mst_brute zero D n ms CLNone = Ok (mst, nbrs, core) ->
  single_edges mst /\
  forall x y d, link_distance (map (map Some) nbrs) core mst x y d -> greatest_of_three (nth x core winf) (nth y core winf) (D x y) d.
Proof. exact @brute_distances. Qed.
Print Assumptions C60_distances_after_kruskal.

(** C60.  For min_samples of one, all neighbours are reported at distance zero. *)
Theorem C60_single_sample :
  forall (W : WOrd) (D : nat -> nat -> W) (zero : W) (n ms : nat) (mst : list (edge W)) (nbrs : list (list nat)) (core : list W),
  ms <= 1 -> kruskal_mst_brute zero D n ms CLNone = Ok (mst, nbrs, core) ->
  forall x y d, x < n -> y < n -> In (Some y) (nth x (map (map Some) nbrs) []) -> link_distance (map (map Some) nbrs) core mst x y d -> d = zero.
Proof. exact @brute_zero. Qed.
Print Assumptions C60_single_sample.

(** Samples 4 and 5 lie at distance two; the link from 5 to 4 is reported at zero,
    the one from 4 to 5 at two. *)
Theorem C60_min_samples_one_refuted :
  nth_error six_X 4 = Some (Some 21%Z) /\ nth_error six_X 5 = Some (Some 23%Z) /\
  exists d gs w w', graph_run 1 2 2 six_X (LensValues (repeat (q 1) 6)) = Ok (d, gs) /\
    In (5, 4, w, q 0) (nth 0 (approximation_graph gs (d_points d)) []) /\ In (4, 5, w', q 2) (nth 0 (approximation_graph gs (d_points d)) []).
Proof. exact (conj eq_refl (conj eq_refl (zero_found _ six_graph))). Qed.
Print Assumptions C60_min_samples_one_refuted.

(** spanning_trees_ pairs trees with the data, but their ends are places in a
    cluster: the first cluster holds rows 7, 9 and 10, and its tree joins 0 to 1. *)
Theorem C60_spanning_trees_refuted :
  exists d gs e, graph_run 2 3 2 some_X (LensValues some_lens) = Ok (d, gs) /\ d_points d = [[7; 9; 10]; [0; 1; 3; 4; 5; 6]] /\
    In e (nth 0 (spanning_trees d) []) /\ esrc e = 0 /\ edst e = 1.
Proof. exact (tree_found _ some_graph). Qed.
Print Assumptions C60_spanning_trees_refuted.

(** Rows 2 and 8 are missing. *)
Example C60_example :
  option_map (fun s => map (map (fun e => let '(i, j, w, d) := e in (i, j, option_map (fun f => Z.to_nat (fst f)) w, option_map (fun f => Z.to_nat (fst f)) d))) (snd (fst s)))
    (seen_graph (graph_run 2 3 2 some_X (LensValues some_lens))) =
  Some [[(7, 9, Some 1, Some 2); (7, 10, Some 1, Some 2); (9, 7, Some 1, Some 2); (9, 10, Some 1, Some 2); (10, 9, Some 1, Some 2); (10, 7, Some 1, Some 2)];
        [(0, 1, Some 1, Some 2); (0, 3, Some 1, Some 2); (1, 0, Some 1, Some 2); (1, 3, Some 1, Some 1); (3, 1, Some 1, Some 1); (3, 4, Some 6, Some 1);
         (4, 3, Some 6, Some 1); (4, 5, Some 6, Some 1); (4, 6, Some 6, Some 2); (5, 6, Some 2, Some 2); (5, 4, Some 6, Some 1);
         (6, 5, Some 2, Some 2); (6, 4, Some 6, Some 2)]].
Proof. vm_compute. reflexivity. Qed.
Example C60_example_argsort : argsorts exact_argsort.
Proof. exact exact_argsorts. Qed.
Example C60_example_missing : forallb present some_X = false /\ length (filter present some_X) = 9.
Proof. vm_compute. auto. Qed.
