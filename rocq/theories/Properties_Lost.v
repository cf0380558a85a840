(** Which clusters cluster_selection_epsilon can lose (C41). *)
From Coq Require Import List Arith Bool Permutation Sorted QArith Qcanon.
From Verif Require Import Prelude Order Size Num Forest M_Linkage M_Condense S_Condense M_Select S_Select P_CTree M_Epsilon S_Epsilon P_EpsilonTop S_Lost P_Lost.
Import ListNotations.
Local Open Scope nat_scope.

(** C41.  The exact reach of the defect.  If a selected cluster [s] ends in no
    returned cluster then it is one of the two parts of a cluster [p] outside a
    merged cluster [e], and [e] holds a leaf cluster [l] with a lower number than
    [p].  Missing for the whole property: that no cluster is lost, which
    C30_no_cluster_is_lost_refuted disproves. *)
Theorem C41_lost_clusters_partial :
  forall (V : WOrd) (Sz : SOrd) (n : nat) (wt : nat -> Sz) (min_cluster_size : Sz) (T : list (crow V Sz)) (lt_eps : V -> bool),
  condensed n wt min_cluster_size T -> splits_once n T -> cluster_rows n T <> [] ->
  (forall x y, wle x y = true -> lt_eps x = true -> lt_eps y = true) ->
  forall (S : list nat) (by_parent : list (crow V Sz)),
  selection n T S ->
  Permutation by_parent (cluster_rows n T) -> StronglySorted (fun r q => c_parent r <= c_parent q) by_parent ->
  forall E, cluster_epsilon_search lt_eps S (cluster_rows n T) by_parent = Ok E ->
  forall s, In s S -> (forall e, In e E -> e <> s /\ ~ descends n T e s) ->
  exists e l p, In e E /\ merge_of lt_eps n T S e /\ leaf_cluster n T l /\ descends n T e l /\
    l < p /\ p <> e /\ ~ descends n T e p /\ splits_off n T p s.
Proof. exact @lost_clusters. Qed.
Print Assumptions C41_lost_clusters_partial.

(** C41.  No cluster is lost if epsilon merges into one cluster only: if all
    selected clusters born below epsilon have the same lowest cluster above
    epsilon. *)
Theorem C41_none_lost_with_one_merge :
  forall (V : WOrd) (Sz : SOrd) (n : nat) (wt : nat -> Sz) (min_cluster_size : Sz) (T : list (crow V Sz)) (lt_eps : V -> bool),
  condensed n wt min_cluster_size T -> splits_once n T -> cluster_rows n T <> [] ->
  (forall x y, wle x y = true -> lt_eps x = true -> lt_eps y = true) ->
  forall (S : list nat) (by_parent : list (crow V Sz)),
  selection n T S ->
  Permutation by_parent (cluster_rows n T) -> StronglySorted (fun r q => c_parent r <= c_parent q) by_parent ->
  forall E, cluster_epsilon_search lt_eps S (cluster_rows n T) by_parent = Ok E ->
  (forall s t, In s S -> In t S -> born_below lt_eps n T s -> born_below lt_eps n T t ->
     forall e, merge_of lt_eps n T S e -> descends n T e s -> descends n T e t) ->
  forall s, In s S -> exists e, In e E /\ (e = s \/ descends n T e s).
Proof. exact @none_lost_one. Qed.
Print Assumptions C41_none_lost_with_one_merge.

(** C41.  No cluster is lost if every cluster that splits has a lower number than
    every leaf cluster. *)
Theorem C41_none_lost_when_splits_come_first :
  forall (V : WOrd) (Sz : SOrd) (n : nat) (wt : nat -> Sz) (min_cluster_size : Sz) (T : list (crow V Sz)) (lt_eps : V -> bool),
  condensed n wt min_cluster_size T -> splits_once n T -> cluster_rows n T <> [] ->
  (forall x y, wle x y = true -> lt_eps x = true -> lt_eps y = true) ->
  forall (S : list nat) (by_parent : list (crow V Sz)),
  selection n T S ->
  Permutation by_parent (cluster_rows n T) -> StronglySorted (fun r q => c_parent r <= c_parent q) by_parent ->
  forall E, cluster_epsilon_search lt_eps S (cluster_rows n T) by_parent = Ok E ->
  (forall l p s, leaf_cluster n T l -> splits_off n T p s -> p < l) ->
  forall s, In s S -> exists e, In e E /\ (e = s \/ descends n T e s).
Proof. exact @none_lost_late. Qed.
Print Assumptions C41_none_lost_when_splits_come_first.

(** C41.  No cluster is lost in a hierarchy of at most two levels: only the root
    and its two parts split. *)
Theorem C41_none_lost_in_two_levels :
  forall (V : WOrd) (Sz : SOrd) (n : nat) (wt : nat -> Sz) (min_cluster_size : Sz) (T : list (crow V Sz)) (lt_eps : V -> bool),
  condensed n wt min_cluster_size T -> splits_once n T -> cluster_rows n T <> [] ->
  (forall x y, wle x y = true -> lt_eps x = true -> lt_eps y = true) ->
  forall (S : list nat) (by_parent : list (crow V Sz)),
  selection n T S ->
  Permutation by_parent (cluster_rows n T) -> StronglySorted (fun r q => c_parent r <= c_parent q) by_parent ->
  forall E, cluster_epsilon_search lt_eps S (cluster_rows n T) by_parent = Ok E ->
  (forall p s, splits_off n T p s -> p = n \/ splits_off n T n p) ->
  forall s, In s S -> exists e, In e E /\ (e = s \/ descends n T e s).
Proof. exact @none_lost_flat. Qed.
Print Assumptions C41_none_lost_in_two_levels.

(** ** Non-vacuity *)
Example C41_example_two_levels : (* four leaf clusters; epsilon 5 merges them in two pairs *)
  condensed (Sz := NatSize) 8 (fun _ => 1) (2 : NatSize) fT /\ splits_once 8 fT /\
  (forall p s, splits_off 8 fT p s -> p = 8 \/ splits_off 8 fT 8 p) /\
  cluster_tree_leaves (cluster_tree_from_condensed_tree fT) 8 = Ok [11; 12; 13; 14] /\
  cluster_epsilon_search (V := QInf) (exact_lt_eps (Q2Qc 5)) [11; 12; 13; 14] (cluster_rows 8 fT)
    (by_parent_of (cluster_rows 8 fT)) = Ok [9; 10].
Proof.
  split; [exact (proj1 (proj2 fd_run))|]. split; [exact (proj2 (proj2 fd_run))|]. split; [exact fd_flat|].
  split; vm_compute; reflexivity.
Qed.
Example C41_example_one_merge : (* epsilon 5/2 merges one pair and keeps the other *)
  cluster_epsilon_search (V := QInf) (exact_lt_eps (Q2Qc (5 # 2))) [11; 12; 13; 14] (cluster_rows 8 fT)
    (by_parent_of (cluster_rows 8 fT)) = Ok [9; 13; 14].
Proof. vm_compute. reflexivity. Qed.
Example C41_example_lost : (* epsilon 5 in the refuted case: 17 and 18 are parts of 15, above the leaf 13 of 11 *)
  In 13 (sub (children_of (cluster_rows 10 eT)) (top_id 10 eT) 11) /\ In 17 (children_of (cluster_rows 10 eT) 15) /\
  ~ In 15 (sub (children_of (cluster_rows 10 eT)) (top_id 10 eT) 11).
Proof. split; [vm_compute; tauto|]. split; [vm_compute; tauto|]. vm_compute. intuition discriminate. Qed.
