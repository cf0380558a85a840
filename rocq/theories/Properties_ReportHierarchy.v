(** C89: the hierarchies a detector reports. *)
From Coq Require Import List Arith Bool ZArith Permutation QArith Qcanon.
From Verif Require Import Prelude Order Graph Size Num S_Kruskal M_Kruskal M_Precomputed M_Linkage S_Linkage M_Condense S_Condense M_Select M_Labels M_Pipeline S_Pipeline
  M_CoreGraph S_CoreGraph S_LayerTree M_SubClusters S_SubClusters M_LensGraph M_Detector S_Detector M_Report M_ReportTrees M_Estimator S_Estimator
  P_PipelineEx P_SubTop P_SubEx P_ReportHierarchy P_ReportHierarchyMissing Properties_DetectorRows P_CentralityEx Properties_Centrality.
Import ListNotations.
Local Open Scope nat_scope.

(** C89.  On data without missing values, a detector that ends reports one linkage
    tree and one condensed tree for every cluster, in the order of the clusters.
    Where the links inside a cluster join all of it, the linkage tree is the
    dendrogram of the spanning tree reported for that cluster, and the condensed
    tree is well formed for the samples of that cluster and the minimum cluster size;
    where they do not, both are None.  Labels may be propagated or not. *)
Theorem C89_reported_hierarchies :
  forall (W V : WOrd) (Row : Type) (round : W -> W) (sort_row : list (nat * W) -> list (nat * W)) (average : V -> V -> V) (no_lens : W)
         (propagate : joined V W * list (list nat * sub_result W V) -> res ((nat -> Z) * (nat -> Z))),
  (forall l, Permutation (sort_row l) l /\ sorted_by (fun cw : nat * W => snd cw) (sort_row l)) ->
  forall (lam : W -> V) (LA : LamArith V) (A : Arith V NatSize) (garbage : nat -> V) (by_parent : list (crow V NatSize) -> list (crow V NatSize)) (st : settings V NatSize),
  setting_ok lam LA A by_parent st ->
  forall (Sz : SOrd) (flag : bool) (data : list Row) (T : list (crow V Sz)) (labels : list Z) (probs : list V) (neighbors : list (list (option nat)))
         (mst : list (edge W)) (lens : lens_input W V Row) (value : list nat -> list W) (K : nat) (d : detected W V),
  (forall r, In r T -> wlt (la_zero LA) (c_lam r) = true) -> lens_of no_lens lens (length data) None data probs = Ok value ->
  sub_input labels neighbors mst (fun k => value (members labels (Z.of_nat k))) K ->
  detect round sort_row average (la_zero LA) (la_one LA) no_lens (cluster_tree lam LA A garbage by_parent st) propagate flag data T labels probs neighbors mst lens = Ok d ->
  exists Ls Ts, linkage_trees d = Ok Ls /\ condensed_trees lam garbage st d = Ok Ts /\ length Ls = K /\ length Ts = K /\
  forall k, k < K -> let pts := nth k (d_points d) [] in let n := length pts in cluster_points labels k pts /\
    exists E, lens_edges round neighbors mst pts (value pts) E /\ spanning_forest E (nth k (spanning_trees d) []) /\
      (~ (forall i j, i < n -> j < n -> connected E i j) -> nth_error Ls k = Some None /\ nth_error Ts k = Some None) /\
      ((forall i j, i < n -> j < n -> connected E i j) -> exists L C, nth_error Ls k = Some (Some L) /\ nth_error Ts k = Some (Some C) /\
         linkage_of (Sz := NatSize) n (fun _ => 1) (nth k (spanning_trees d) []) L /\
         condensed (Sz := NatSize) n (fun _ => 1) (min_cluster_size st) C /\ splits_once n C).
Proof. exact @detector_hierarchies. Qed.
Print Assumptions C89_reported_hierarchies.

(** C89.  After fitting data with missing values, the trees reported are those of the
    finite rows; the samples of the clusters are named by their rows in the data given. *)
Theorem C89_missing_rows :
  forall (W V : WOrd) (Row : Type) (lam : W -> V) (LA : LamArith V) (garbage : nat -> V) (mst_of : list Row -> res (list (edge W)))
         (finite : Row -> bool) (set_list : list nat -> list nat) (X : list Row),
  (forall l, Permutation (set_list l) l) -> forallb finite X = false -> 3 <= length (filter finite X) ->
  forall (round : W -> W) (sort_row : list (nat * W) -> list (nat * W)) (average : V -> V -> V) (one : V) (no_lens : W)
         (cluster_of : list (edge W) -> res (list Z * list V))
         (propagate : joined V W * list (list nat * sub_result W V) -> res ((nat -> Z) * (nat -> Z)))
         (A : Arith V NatSize) (by_parent : list (crow V NatSize) -> list (crow V NatSize)) (st sub : settings V NatSize)
         (M : list (edge W)) (r0 r : fitted W V NatSize) (pos : nat -> nat),
  setting_ok lam LA A by_parent st -> mst_of (filter finite X) = Ok M -> spanning_tree (length (filter finite X)) M ->
  (forall e, In e M -> wlt (la_zero LA) (lam (ewt e)) = true) ->
  let run := fast_hdbscan lam LA garbage mst_of A by_parent st in
  run (filter finite X) = Ok r0 -> fit (la_zero LA) finite set_list run X = Ok r -> places finite X pos ->
  forall (neighbors : list (list (option nat))) (lens lens0 : lens_input W V Row) (flag : bool) (d0 : detected W V),
  picked_lens (length X) (length (filter finite X)) pos lens lens0 ->
  let detect := detect (Sz := NatSize) round sort_row average (la_zero LA) one no_lens cluster_of propagate in
  detect flag (filter finite X) (f_condensed r0) (f_labels r0) (f_probabilities r0) neighbors (f_mst r0) lens0 = Ok d0 ->
  exists d, detect flag X (f_condensed r) (f_labels r) (f_probabilities r) neighbors (f_mst r) lens = Ok d /\
    d_points d = map (map pos) (d_points d0) /\ spanning_trees d = spanning_trees d0 /\ linkage_trees d = linkage_trees d0 /\
    condensed_trees lam garbage sub d = condensed_trees lam garbage sub d0.
Proof. exact @hierarchies_missing. Qed.
Print Assumptions C89_missing_rows.

(** C89.  A branch detector changes labels and strengths only. *)
Theorem C89_branch_detector :
  forall (W V : WOrd) (lam : W -> V) (garbage : nat -> V) (sub : settings V NatSize) (zero : V) (sides : bool) (d b : detected W V),
  branch_fit zero sides d = Ok b ->
  d_points b = d_points d /\ spanning_trees b = spanning_trees d /\ linkage_trees b = linkage_trees d /\ condensed_trees lam garbage sub b = condensed_trees lam garbage sub d.
Proof. exact @hierarchies_branches. Qed.
Print Assumptions C89_branch_detector.

(** The detector in C72_example, whose hypotheses are shown there
    (C72_example_hypotheses): a cluster of eight samples, and one of four samples in
    two parts, which has no hierarchy. *)
Example C89_example_linkage : (let* d := row_run in let* Ls := linkage_trees d in
    Ok (map (option_map (map (fun r => (l_a r, l_b r, l_n r)))) Ls)) =
  Ok [Some [(1, 0, 2); (8, 2, 3); (5, 4, 2); (10, 6, 3); (9, 3, 4); (12, 11, 7); (13, 7, 8)]; None].
Proof. vm_compute. reflexivity. Qed.
Example C89_example_condensed : (let* d := row_run in
    let* Ts := condensed_trees hdbscan_lambda_value (fun _ => None) (exact_settings (Sz := NatSize) 3 Eom false 0%Qc 0%Qc) d in
    Ok (map (option_map (map (fun r => (c_parent r, c_child r, c_size r)))) Ts)) =
  Ok [Some [(8, 7, 1); (8, 9, 4); (8, 10, 3); (9, 3, 1); (10, 5, 1); (10, 4, 1); (10, 6, 1); (9, 1, 1); (9, 0, 1); (9, 2, 1)]; None].
Proof. vm_compute. reflexivity. Qed.

(** The branches in C63_example, of a bar with a missing row, and those of its finite
    rows. *)
Definition tree_shapes (r : res (detected QInf QInf)) :=
  let* d := r in let* Ls := linkage_trees d in Ok (d_points d, map (option_map (map (fun r => (l_a r, l_b r, l_n r)))) Ls).
Example C89_example_missing : tree_shapes (plane_branches false true bar) =
  Ok ([[0; 1; 2; 3; 5; 6; 7]; [8; 9; 10]], [Some [(1, 0, 2); (6, 5, 2); (7, 2, 3); (8, 4, 3); (9, 3, 4); (11, 10, 7)]; Some [(2, 1, 2); (3, 0, 3)]]).
Proof. vm_compute. reflexivity. Qed.
Example C89_example_whole : tree_shapes (plane_branches false true whole_bar) =
  Ok ([[0; 1; 2; 3; 4; 5; 6]; [7; 8; 9]], [Some [(1, 0, 2); (6, 5, 2); (7, 2, 3); (8, 4, 3); (9, 3, 4); (11, 10, 7)]; Some [(2, 1, 2); (3, 0, 3)]]).
Proof. vm_compute. reflexivity. Qed.
