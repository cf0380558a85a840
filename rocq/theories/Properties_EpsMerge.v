(** C81: what cluster_selection_epsilon does to the clusters of a fit. *)
From Coq Require Import List Arith Lia Bool ZArith Permutation QArith Qcanon.
From Verif Require Import Prelude Order Graph Size Num S_Kruskal M_Kruskal M_KruskalEntry M_Linkage M_Condense S_Condense M_Select M_Labels P_LabelsEx
  S_Lost M_Pipeline S_Pipeline P_PipelineEx M_Estimator S_Estimator P_EstimatorEx P_Sort S_Dbscan S_Level S_Resize P_ResizeTop Properties_SpaceTree Properties_Dbscan Properties_Level P_EpsilonTop Properties_Resize S_EpsMerge P_EpsMergeTop.
Import ListNotations.
Local Open Scope nat_scope.

(** A run with cluster_selection_epsilon against the run of the same spanning tree
    without it.  The hierarchy is the same.  Samples that shared a cluster still
    share one or are all noise, each new cluster contains a whole old one, there
    are not more clusters, and in a hierarchy of two levels no sample of a cluster
    becomes noise. *)
Theorem C81_epsilon_merges :
  forall (W V : WOrd) (lam : W -> V) (LA : LamArith V) (A : Arith V NatSize) (garbage : nat -> V)
    (by_parent : list (crow V NatSize) -> list (crow V NatSize)) (st st' : settings V NatSize) (n : nat) (M : list (edge W)),
  setting_ok lam LA A by_parent st -> setting_ok lam LA A by_parent st' -> spanning_tree n M -> 2 <= n ->
  same_but_epsilon st st' -> cluster_selection_epsilon st = None ->
  allow_single_cluster st = false \/ cluster_selection_method st = Leaf ->
  forall ls ps T ls' ps' T',
  clusters_from_spanning_tree lam LA A garbage by_parent st M = Ok (ls, ps, T) ->
  clusters_from_spanning_tree lam LA A garbage by_parent st' M = Ok (ls', ps', T') ->
  T' = T /\ stay_together n ls ls' /\ contains_cluster n ls ls' /\ cluster_count ls' <= cluster_count ls /\
  ((forall p s, splits_off n T p s -> p = n \/ splits_off n T n p) -> no_new_noise n ls ls').
Proof. exact @plain_merge. Qed.
Print Assumptions C81_epsilon_merges.

(** The same with sample weights below min_cluster_size. *)
Theorem C81_epsilon_merges_weighted :
  forall (W V : WOrd) (Sz : SOrd) (lam : W -> V) (LA : LamArith V) (A : Arith V Sz) (garbage : nat -> V)
    (by_parent : list (crow V Sz) -> list (crow V Sz)) (st st' : settings V Sz) (n : nat) (M : list (edge W)) (ws : list Sz),
  setting_ok lam LA A by_parent st -> setting_ok lam LA A by_parent st' -> spanning_tree n M -> 2 <= n ->
  length ws = n -> sle (s := Sz) szero sone = true -> (forall w, In w ws -> slt w (min_cluster_size st) = true) ->
  same_but_epsilon st st' -> cluster_selection_epsilon st = None ->
  allow_single_cluster st = false \/ cluster_selection_method st = Leaf ->
  forall ls ps T ls' ps' T',
  clusters_from_spanning_tree_weighted lam LA A garbage by_parent st M ws = Ok (ls, ps, T) ->
  clusters_from_spanning_tree_weighted lam LA A garbage by_parent st' M ws = Ok (ls', ps', T') ->
  T' = T /\ stay_together n ls ls' /\ contains_cluster n ls ls' /\ cluster_count ls' <= cluster_count ls /\
  ((forall p s, splits_off n T p s -> p = n \/ splits_off n T n p) -> no_new_noise n ls ls').
Proof. exact @weighted_merge. Qed.
Print Assumptions C81_epsilon_merges_weighted.

(** Two fits of the same data, which may have missing rows. *)
Theorem C81_fit_with_epsilon :
  forall (W V : WOrd) (Row : Type) (lam : W -> V) (LA : LamArith V) (garbage : nat -> V) (zero : W) (dist : Row -> Row -> W) (min_samples : nat)
    (finite : Row -> bool) (set_list : list nat -> list nat) (X : list Row) (A : Arith V NatSize)
    (by_parent : list (crow V NatSize) -> list (crow V NatSize)) (st st' : settings V NatSize),
  (forall l, Permutation (set_list l) l) -> setting_ok lam LA A by_parent st -> setting_ok lam LA A by_parent st' ->
  (forall a b, dist a b = dist b a) -> (forall a b, wle (dist a a) (dist a b) = true) -> (forall a b, wle zero (dist a b) = true) ->
  (if forallb finite X then 2 else 3) <= length (filter finite X) -> min_samples < length (filter finite X) ->
  (forall a b, In a X -> In b X -> finite a = true -> finite b = true -> wlt (la_zero LA) (lam (dist a b)) = true) ->
  same_but_epsilon st st' -> cluster_selection_epsilon st = None ->
  allow_single_cluster st = false \/ cluster_selection_method st = Leaf ->
  forall r r', fit (la_zero LA) finite set_list (fast_hdbscan lam LA garbage (pairs_mst zero dist min_samples) A by_parent st) X = Ok r ->
  fit (la_zero LA) finite set_list (fast_hdbscan lam LA garbage (pairs_mst zero dist min_samples) A by_parent st') X = Ok r' ->
  stay_together (length X) (f_labels r) (f_labels r') /\ contains_cluster (length X) (f_labels r) (f_labels r') /\
  cluster_count (f_labels r') <= cluster_count (f_labels r).
Proof. exact @fit_merge. Qed.
Print Assumptions C81_fit_with_epsilon.

(** ** Non-vacuity *)
Definition labels_at (epsilon : Z) (X : list (option Z)) : option (list Z) :=
  match level_line 2 Leaf false epsilon 1 X with Ok r => Some (f_labels r) | Err _ => None end.

Example C81_example_fits : (* a missing row and four clusters, merged step by step *)
  map (fun e => labels_at e two_scales) [0; 25; 60; 150]%Z =
  map Some [[2;2;2;3;3;1;-1;1;1;0;0;0]; [2;2;2;2;2;1;-1;1;1;0;0;0]; [1;1;1;1;1;1;-1;1;1;0;0;0]; [0;0;0;0;0;0;-1;0;0;0;0;0]]%Z.
Proof. vm_compute. reflexivity. Qed.
Example C81_example_hypotheses :
  let st := exact_settings (Sz := NatSize) 2 Leaf false 0%Qc 0%Qc in let st' := exact_settings (Sz := NatSize) 2 Leaf false (Q2Qc 25) 0%Qc in
  same_but_epsilon st st' /\ cluster_selection_epsilon st = None /\ cluster_selection_epsilon st' <> None /\
  cluster_selection_method st = Leaf /\ 3 <= length (filter present two_scales) /\ 1 < length (filter present two_scales).
Proof.
  cbv zeta. split; [repeat split|]. split; [vm_compute; reflexivity|]. split; [vm_compute; discriminate|].
  split; [reflexivity|]. split; vm_compute; lia.
Qed.

(** ** Finding *)

(** Seven pairs on a line.  Without epsilon each is a cluster.  With
    cluster_selection_epsilon=5 the two pairs at 0..5 become one cluster, but the
    two pairs at 56..61, placed in the same way, become noise. *)
Definition seven_pairs : list (option Z) := map Some [0;1;4;5;25;26;56;57;60;61;71;72;87;88]%Z.
Theorem C81_no_new_noise_refuted :
  exists X l l', labels_at 0 X = Some l /\ labels_at 5 X = Some l' /\ ~ In (-1)%Z l /\ ~ no_new_noise (length X) l l'.
Proof.
  exists seven_pairs, [3;3;2;2;0;0;6;6;5;5;4;4;1;1]%Z, [0;0;0;0;1;1;-1;-1;-1;-1;3;3;2;2]%Z.
  split; [vm_compute; reflexivity|]. split; [vm_compute; reflexivity|]. split; [simpl; intuition discriminate|].
  intros H. apply (H 6); [simpl; lia|simpl; discriminate|reflexivity].
Qed.
Print Assumptions C81_no_new_noise_refuted.
