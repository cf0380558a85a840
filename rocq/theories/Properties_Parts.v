(** C82: the reported clusters as the smallest parts of density-connected groups. *)
From Coq Require Import List Arith Lia Bool ZArith Permutation QArith Qcanon.
From Verif Require Import Prelude Order Graph Size Num S_Kruskal M_Kruskal M_KruskalEntry M_Linkage M_Condense S_Condense M_Select M_Labels P_LabelsEx
  M_Pipeline S_Pipeline P_PipelineEx M_TreeQuery M_Boruvka S_SpaceTree S_Boruvka M_Estimator S_Estimator P_EstimatorEx P_Sort S_Dbscan P_EpsilonTop S_Unique S_Join P_UniqueEx S_Resize S_Parts P_PartsTop P_SplitEx
  Properties_SpaceTree Properties_Dbscan Properties_Level Properties_Resize.
Import ListNotations.
Local Open Scope nat_scope.

(** With 'leaf', no cluster_selection_epsilon, no persistence threshold and a
    spanning tree without ties, the clusters that fit reports are exactly the
    smallest of the groups that are one of two groups of min_cluster_size rows,
    density-connected at some distance each in itself but not to the other, and to
    each other at every larger distance.  Rows with missing values are allowed. *)
Theorem C82_leaf_clusters :
  forall (W V : WOrd) (Row : Type) (lam : W -> V) (LA : LamArith V) (garbage : nat -> V) (zero : W) (dist : Row -> Row -> W) (min_samples : nat)
    (finite : Row -> bool) (set_list : list nat -> list nat) (X : list Row) (A : Arith V NatSize)
    (by_parent : list (crow V NatSize) -> list (crow V NatSize)) (st : settings V NatSize),
  (forall l, Permutation (set_list l) l) -> setting_ok lam LA A by_parent st ->
  (forall a b, dist a b = dist b a) -> (forall a b, wle (dist a a) (dist a b) = true) -> (forall a b, wle zero (dist a b) = true) ->
  (if forallb finite X then 2 else 3) <= length (filter finite X) ->
  cluster_selection_persistence st = None -> cluster_selection_epsilon st = None -> min_samples < length (filter finite X) ->
  (forall a b, In a X -> In b X -> finite a = true -> finite b = true -> wlt (la_zero LA) (lam (dist a b)) = true) ->
  (forall M, pairs_mst zero dist min_samples (filter finite X) = Ok M -> distinct_weights M) ->
  forall r P, fit (la_zero LA) finite set_list (fast_hdbscan lam LA garbage (pairs_mst zero dist min_samples) A by_parent st) X = Ok r ->
  cluster_selection_method st = Leaf ->
  (reported (length X) (f_labels r) P <-> smallest (part (row_distance finite dist X) (length X) min_samples (min_cluster_size st)) P).
Proof. exact @fit_smallest. Qed.
Print Assumptions C82_leaf_clusters.

(** With 'eom' the clusters are such groups too, not always the smallest. *)
Theorem C82_clusters_are_parts :
  forall (W V : WOrd) (Row : Type) (lam : W -> V) (LA : LamArith V) (garbage : nat -> V) (zero : W) (dist : Row -> Row -> W) (min_samples : nat)
    (finite : Row -> bool) (set_list : list nat -> list nat) (X : list Row) (A : Arith V NatSize)
    (by_parent : list (crow V NatSize) -> list (crow V NatSize)) (st : settings V NatSize),
  (forall l, Permutation (set_list l) l) -> setting_ok lam LA A by_parent st ->
  (forall a b, dist a b = dist b a) -> (forall a b, wle (dist a a) (dist a b) = true) -> (forall a b, wle zero (dist a b) = true) ->
  (if forallb finite X then 2 else 3) <= length (filter finite X) ->
  cluster_selection_persistence st = None -> cluster_selection_epsilon st = None -> min_samples < length (filter finite X) ->
  (forall a b, In a X -> In b X -> finite a = true -> finite b = true -> wlt (la_zero LA) (lam (dist a b)) = true) ->
  (forall M, pairs_mst zero dist min_samples (filter finite X) = Ok M -> distinct_weights M) ->
  forall r P, fit (la_zero LA) finite set_list (fast_hdbscan lam LA garbage (pairs_mst zero dist min_samples) A by_parent st) X = Ok r ->
  allow_single_cluster st = false \/ cluster_selection_method st = Leaf ->
  reported (length X) (f_labels r) P -> part (row_distance finite dist X) (length X) min_samples (min_cluster_size st) P.
Proof. exact @fit_reported. Qed.
Print Assumptions C82_clusters_are_parts.

(** ** Any spanning tree *)

(** The clusters of the condensed tree other than its root are exactly the parts. *)
Theorem C82_hierarchy_of_a_spanning_tree :
  forall (W V : WOrd) (lam : W -> V) (LA : LamArith V) (A : Arith V NatSize) (garbage : nat -> V)
    (by_parent : list (crow V NatSize) -> list (crow V NatSize)) (st : settings V NatSize) (n : nat) (M : list (edge W)),
  setting_ok lam LA A by_parent st -> spanning_tree n M -> 2 <= n ->
  forall ls ps T, clusters_from_spanning_tree lam LA A garbage by_parent st M = Ok (ls, ps, T) ->
  cluster_selection_persistence st = None -> distinct_weights M ->
  forall P, hierarchy_cluster n T P <-> part_by (Sz := NatSize) n (fun _ => 1) (min_cluster_size st) M P.
Proof. exact @plain_hierarchy. Qed.
Print Assumptions C82_hierarchy_of_a_spanning_tree.

Theorem C82_clusters_of_a_spanning_tree :
  forall (W V : WOrd) (lam : W -> V) (LA : LamArith V) (A : Arith V NatSize) (garbage : nat -> V)
    (by_parent : list (crow V NatSize) -> list (crow V NatSize)) (st : settings V NatSize) (n : nat) (M : list (edge W)),
  setting_ok lam LA A by_parent st -> spanning_tree n M -> 2 <= n ->
  forall ls ps T, clusters_from_spanning_tree lam LA A garbage by_parent st M = Ok (ls, ps, T) ->
  cluster_selection_persistence st = None -> distinct_weights M ->
  forall P, cluster_selection_epsilon st = None -> cluster_selection_method st = Leaf ->
  (forall e, In e M -> wlt (la_zero LA) (lam (ewt e)) = true) ->
  (reported n ls P <-> smallest (part_by (Sz := NatSize) n (fun _ => 1) (min_cluster_size st) M) P).
Proof. exact @plain_smallest. Qed.
Print Assumptions C82_clusters_of_a_spanning_tree.

(** With sample weights the groups must weigh min_cluster_size. *)
Theorem C82_weighted_clusters_of_a_spanning_tree :
  forall (W V : WOrd) (Sz : SOrd) (lam : W -> V) (LA : LamArith V) (A : Arith V Sz) (garbage : nat -> V)
    (by_parent : list (crow V Sz) -> list (crow V Sz)) (st : settings V Sz) (n : nat) (M : list (edge W)) (ws : list Sz) (ls : list Z) (ps : list V) (T : list (crow V Sz)),
  setting_ok lam LA A by_parent st -> spanning_tree n M -> 2 <= n -> length ws = n -> sle (s := Sz) szero sone = true ->
  (forall w, In w ws -> sle szero w = true /\ slt w (min_cluster_size st) = true) ->
  clusters_from_spanning_tree_weighted lam LA A garbage by_parent st M ws = Ok (ls, ps, T) ->
  cluster_selection_persistence st = None -> distinct_weights M ->
  forall P, cluster_selection_epsilon st = None -> cluster_selection_method st = Leaf ->
  (forall e, In e M -> wlt (la_zero LA) (lam (ewt e)) = true) ->
  (reported n ls P <-> smallest (part_by n (fun x => nth x ws szero) (min_cluster_size st) M) P).
Proof. exact @weighted_smallest. Qed.
Print Assumptions C82_weighted_clusters_of_a_spanning_tree.

(** With the spanning tree of the parallel search over a space tree. *)
Theorem C82_clusters_boruvka :
  forall (W V : WOrd) (lam : W -> V) (LA : LamArith V) (garbage : nat -> V) (A : Arith V NatSize)
    (by_parent : list (crow V NatSize) -> list (crow V NatSize)) (st : settings V NatSize) t n (rd lb : nat -> nat -> W) zero root mode min_samples,
  setting_ok lam LA A by_parent st -> cluster_selection_persistence st = None -> cluster_selection_epsilon st = None ->
  tree_shape t n -> lower_bounds t rd lb ->
  (forall i j, i < n -> j < n -> rd i j = rd j i) ->
  (forall i j, i < n -> j < n -> wfinite (rd i j) = true) ->
  wfinite zero = true -> (forall i, i < n -> wle (rd i i) zero = true) ->
  (forall x y, wle x y = true -> wle (root x) (root y) = true) ->
  2 <= n -> min_samples < n -> threads_available mode ->
  (forall i j, i < n -> j < n -> wle zero (rd i j) = true) ->
  exists M nbrs core, parallel_boruvka t n rd lb zero root mode min_samples = Ok (M, nbrs, core) /\
    forall ls ps T, clusters_from_spanning_tree lam LA A garbage by_parent st M = Ok (ls, ps, T) -> distinct_weights M ->
    (forall e, In e M -> wlt (la_zero LA) (lam (ewt e)) = true) ->
    forall P, (allow_single_cluster st = false \/ cluster_selection_method st = Leaf -> reported n ls P -> part (fun i j => root (rd i j)) n min_samples (min_cluster_size st) P) /\
      (cluster_selection_method st = Leaf -> (reported n ls P <-> smallest (part (fun i j => root (rd i j)) n min_samples (min_cluster_size st)) P)).
Proof. exact @boruvka_smallest. Qed.
Print Assumptions C82_clusters_boruvka.

(** ** Examples *)

(** The data of C77_example meet the hypotheses, so their four clusters are the
    smallest parts. *)
Example C82_example_no_ties : exists M, pairs_mst (W := QInf) (Some 0%Qc) line_dist 1 (filter present two_scales) = Ok M /\ distinct_weights M.
Proof. eexists. split; [vm_compute; reflexivity|]. apply distinct_by. vm_compute. reflexivity. Qed.
Example C82_example : forall P,
  reported 12 [2; 2; 2; 3; 3; 1; -1; 1; 1; 0; 0; 0]%Z P <-> smallest (part (W := QInf) (row_distance present line_dist two_scales) 12 1 2) P.
Proof.
  destruct C77_example as (r & _ & E & _ & El & _). rewrite <- El. clear El. intro P.
  destruct C77_example_hypotheses as (_ & _ & _ & _ & _ & _ & _ & _ & _ & _ & _ & _ & _ & H3 & H1 & HP).
  destruct C66_example_hypotheses as (Sym & Self & Least & _). destruct C82_example_no_ties as (M & EM & HD).
  apply (C82_leaf_clusters QInf QInf (option Z) hdbscan_lambda_value ExactLam (fun _ => None) (Some 0%Qc) line_dist 1 present (fun l => l) two_scales (ExactArith NatSize nat_as_q) by_parent_of
    (exact_settings (Sz := NatSize) 2 Leaf false (Q2Qc (inject_Z 0)) 0%Qc)).
  - intro l. apply Permutation_refl.
  - apply exact_ok; [intro ct; split; [apply by_parent_perm|apply by_parent_sorted]|reflexivity].
  - exact Sym.
  - exact Self.
  - exact Least.
  - exact H3.
  - reflexivity.
  - reflexivity.
  - exact H1.
  - exact HP.
  - intros M' EM'. rewrite EM in EM'. injection EM' as <-. exact HD.
  - exact E.
  - reflexivity.
Qed.
