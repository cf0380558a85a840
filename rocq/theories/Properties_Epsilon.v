(** C30: cluster_selection_epsilon. *)
From Coq Require Import List Arith Bool ZArith QArith Qcanon Permutation Sorted.
From Verif Require Import Prelude Order Size Num M_Linkage S_Linkage M_Condense S_Condense M_Select S_Select
  M_Labels M_Epsilon S_Epsilon P_SelectTop P_EpsilonTop.
Import ListNotations.
Local Open Scope nat_scope.

(** C30.  For every monotone threshold test, every condensed tree, every disjoint
    selection of non-root clusters and every way of sorting the rows by parent,
    the search succeeds.  What it returns is duplicate free and pairwise disjoint.
    Every returned cluster is a selected one that was not born below epsilon, or
    the lowest cluster (or the root) above a selected one that was not.  Selected
    clusters not born below epsilon stay.  A selected cluster that is lost was
    born below epsilon and comes after a merged cluster in id order.  If nothing
    was born below epsilon the selection is unchanged.  From a covering selection
    of at least two clusters it never returns a single cluster other than the
    root. *)
Theorem C30_epsilon_search :
  forall (V : WOrd) (Sz : SOrd) (n : nat) (wt : nat -> Sz) (min_cluster_size : Sz) (T : list (crow V Sz))
    (lt_eps : V -> bool),
  condensed n wt min_cluster_size T -> splits_once n T -> cluster_rows n T <> [] ->
  (forall x y, wle x y = true -> lt_eps x = true -> lt_eps y = true) ->
  forall (S : list nat) (by_parent : list (crow V Sz)),
  selection n T S ->
  Permutation by_parent (cluster_rows n T) -> StronglySorted (fun r q => c_parent r <= c_parent q) by_parent ->
  exists E, cluster_epsilon_search lt_eps S (cluster_rows n T) by_parent = Ok E /\
    NoDup E /\ disjoint_clusters n T E /\
    (forall e, In e E -> (In e S /\ ~ born_below lt_eps n T e) \/ merge_of lt_eps n T S e) /\
    (forall s, In s S -> ~ born_below lt_eps n T s -> In s E) /\
    (forall s, In s S -> (forall e, In e E -> e <> s /\ ~ descends n T e s) ->
       born_below lt_eps n T s /\ exists e, In e E /\ merge_of lt_eps n T S e /\ e < s) /\
    ((forall s, In s S -> ~ born_below lt_eps n T s) -> E = S) /\
    (2 <= length S -> (forall l, leaf_cluster n T l -> exists s, In s S /\ (s = l \/ descends n T s l)) ->
       E = [n] \/ 2 <= length E).
Proof. exact @c30. Qed.
Print Assumptions C30_epsilon_search.

(** C30.  Exact arithmetic: every returned cluster is the root or was born at a
    distance of at least epsilon. *)
Theorem C30_clusters_are_born_above_epsilon :
  forall (Sz : SOrd) (n : nat) (wt : nat -> Sz) (min_cluster_size : Sz) (T : list (crow QInf Sz)) (eps : Qc) S by_parent E,
  condensed n wt min_cluster_size T -> splits_once n T -> cluster_rows n T <> [] ->
  (0 < eps)%Qc -> selection n T S ->
  Permutation by_parent (cluster_rows n T) -> StronglySorted (fun r q => c_parent r <= c_parent q) by_parent ->
  cluster_epsilon_search (V := QInf) (exact_lt_eps eps) S (cluster_rows n T) by_parent = Ok E ->
  forall e, In e E -> e = n \/ born_at_least eps T n e.
Proof. exact c30_exact. Qed.
Print Assumptions C30_clusters_are_born_above_epsilon.

(** C30.  The search can lose clusters: [segments_in_branch] marks the children of
    the next cluster that splits when the cluster it looks up does not split.
    Epsilon is 5; the leaf clusters 17 and 18 of samples 4 to 7 split at distance
    2 below cluster 15, born at distance 6, and should be replaced by it; they are
    dropped and their samples become noise. *)
Theorem C30_no_cluster_is_lost_refuted :
  exists (L : list (lrow QInf NatSize)) T S E B,
    dendrogram 10 L /\ sizes_are (Sz := NatSize) 10 (fun _ => 1) L /\ heights_sorted L /\
    condense_tree L hdbscan_lambda_value (2 : NatSize) None (fun _ => 1) = Ok T /\
    cluster_tree_leaves (cluster_tree_from_condensed_tree T) 10 = Ok S /\
    Permutation B (cluster_rows 10 T) /\ StronglySorted (fun r q => c_parent r <= c_parent q) B /\
    cluster_epsilon_search (V := QInf) (exact_lt_eps (Q2Qc 5)) S (cluster_rows 10 T) B = Ok E /\
    In 17 S /\ E = [11; 16] /\ (forall e, In e E -> e <> 17 /\ ~ descends 10 T e 17) /\
    get_cluster_label_vector ExactLam T S None 10 = Ok [0; 0; 1; 1; 3; 3; 4; 4; 2; 2]%Z /\
    get_cluster_label_vector ExactLam T E None 10 = Ok [0; 0; 0; 0; -1; -1; -1; -1; 1; 1]%Z.
Proof. exact c30_refuted. Qed.
Print Assumptions C30_no_cluster_is_lost_refuted.

(** ** Non-vacuity *)
Example C30_example_merge : (* epsilon 7: everything below distance 7 is merged *)
  cluster_epsilon_search (V := QInf) (exact_lt_eps (Q2Qc 7)) [13; 14; 16; 17; 18] (cluster_rows 10 eT)
    (by_parent_of (cluster_rows 10 eT)) = Ok [11; 12].
Proof. vm_compute. reflexivity. Qed.
Example C30_example_root : (* epsilon 9: only the root is left *)
  cluster_epsilon_search (V := QInf) (exact_lt_eps (Q2Qc 9)) [13; 14; 16; 17; 18] (cluster_rows 10 eT)
    (by_parent_of (cluster_rows 10 eT)) = Ok [10].
Proof. vm_compute. reflexivity. Qed.
Example C30_example_same :
  cluster_epsilon_search (V := QInf) (exact_lt_eps (Q2Qc 1)) [13; 14; 16; 17; 18] (cluster_rows 10 eT)
    (by_parent_of (cluster_rows 10 eT)) = Ok [13; 14; 16; 17; 18].
Proof. vm_compute. reflexivity. Qed.
Example C30_example_hypotheses :
  condensed (Sz := NatSize) 10 (fun _ => 1) (2 : NatSize) eT /\ splits_once 10 eT.
Proof. exact (proj2 ed_run_condensed). Qed.
