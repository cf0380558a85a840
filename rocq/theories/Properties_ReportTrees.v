(** C60: the spanning trees a detector reports. *)
From Coq Require Import List Arith Bool ZArith Permutation QArith Qcanon.
From Verif Require Import Prelude Order Graph Size Num S_Kruskal M_Kruskal M_Precomputed M_Condense M_CoreGraph S_CoreGraph S_LayerTree M_SubClusters S_SubClusters M_LensGraph
  M_Detector M_Report P_EstimatorEx P_SubEx P_ReportTrees Properties_DetectorRows.
Import ListNotations.
Local Open Scope nat_scope.

(** C60.  On data without missing values, spanning_trees_ holds one tree for every
    cluster, in the order of the clusters.  Each is a spanning forest of the links
    inside its cluster, weighted by the lens: it has no cycles and joins what they
    join.  If they join all of it, lighter edges come first.  Its ends are places in the cluster, not rows (see
    C60_spanning_trees_refuted).  Labels may be propagated or not. *)
Theorem C60_reported_trees :
  forall (W V : WOrd) (Sz : SOrd) (Row : Type) (round : W -> W) (sort_row : list (nat * W) -> list (nat * W)) (average : V -> V -> V) (zero one : V) (no_lens : W)
         (cluster_of : list (edge W) -> res (list Z * list V))
         (propagate : joined V W * list (list nat * sub_result W V) -> res ((nat -> Z) * (nat -> Z))),
  (forall l, Permutation (sort_row l) l /\ sorted_by (fun cw : nat * W => snd cw) (sort_row l)) ->
  forall (flag : bool) (data : list Row) (T : list (crow V Sz)) (labels : list Z) (probs : list V) (neighbors : list (list (option nat)))
         (mst : list (edge W)) (lens : lens_input W V Row) (value : list nat -> list W) (K : nat) (d : detected W V),
  (forall r, In r T -> wlt zero (c_lam r) = true) -> lens_of no_lens lens (length data) None data probs = Ok value ->
  sub_input labels neighbors mst (fun k => value (members labels (Z.of_nat k))) K ->
  detect round sort_row average zero one no_lens cluster_of propagate flag data T labels probs neighbors mst lens = Ok d ->
  length (spanning_trees d) = K /\ length (d_points d) = K /\
  forall k, k < K -> cluster_points labels k (nth k (d_points d) []) /\
    exists E, lens_edges round neighbors mst (nth k (d_points d) []) (value (nth k (d_points d) [])) E /\ spanning_forest E (nth k (spanning_trees d) []) /\
      ((forall i j, i < length (nth k (d_points d) []) -> j < length (nth k (d_points d) []) -> connected E i j) -> sorted_by ewt (nth k (spanning_trees d) [])).
Proof. exact @detector_trees. Qed.
Print Assumptions C60_reported_trees.

(** The trees of the detector in C72_example, whose hypotheses are shown there: one
    of eight samples, and one of four samples in two parts. *)
Example C60_example_trees : option_map (fun d => map (map (fun e => (esrc e, edst e))) (spanning_trees d)) (match row_run with Ok d => Some d | Err _ => None end) =
  Some [[(0, 1); (2, 1); (4, 5); (6, 5); (3, 2); (3, 4); (7, 3)]; [(0, 1); (2, 3)]].
Proof. vm_compute. reflexivity. Qed.
