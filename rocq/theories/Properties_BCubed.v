(** C40: selecting clusters with the help of labelled samples. *)
From Coq Require Import List Arith Bool ZArith QArith Qcanon Permutation.
From Verif Require Import Prelude Order Graph Size Num M_Linkage S_Linkage M_Condense S_Condense M_Select S_Select P_SelectTop M_Labels M_Pipeline
  P_EpsilonTop P_PipelineEx M_BCubed S_BCubed P_BCScore P_BCFinal P_BCSame.
Import ListNotations.
Local Open Scope nat_scope.

(** C40.  For every arithmetic of stabilities, every arithmetic of BCubed scores
    with a few sign rules ([BLaws]), every partial labelling, every order in which
    the code lists a set, with and without virtual nodes: the selection ends
    without a look-up failure or a division by zero; the selected clusters are
    admissible and pairwise disjoint; every leaf cluster whose computed stability
    is not below zero lies in a selected one. *)
Theorem C40_selection_is_disjoint_and_covers :
  forall (V : WOrd) (Sz : SOrd) (n : nat) (wt : nat -> Sz) (min_cluster_size : Sz) (T : list (crow V Sz))
    (data_labels : list Z) (listed : list nat -> list nat) (virtual_nodes allow_single_cluster : bool),
  condensed n wt min_cluster_size T -> (forall l, Permutation (listed l) l) ->
  slt sone min_cluster_size = true -> sle (s := Sz) szero sone = true -> 0 < n -> length data_labels = n ->
  forall (A : Arith V Sz) (B : BArith) (N : bscore B -> Prop), BLaws B N -> num_lt A (num_zero A) (num_zero A) = false ->
  exists R, extract_clusters_bcubed A B listed T (cluster_tree_from_condensed_tree T) data_labels virtual_nodes allow_single_cluster = Ok R /\
    NoDup R /\ (forall c, In c R -> admissible n T None allow_single_cluster c) /\ disjoint_clusters n T R /\
    (cluster_rows n T = [] -> R = []) /\
    (cluster_rows n T <> [] ->
     forall c d s, leaf_cluster n T c -> score_condensed_tree_nodes A T = Ok d -> dict_get d c = Ok s ->
       num_lt A s (num_zero A) = false -> exists k, In k R /\ (k = c \/ descends n T k c)).
Proof. exact @c40_structure. Qed.
Print Assumptions C40_selection_is_disjoint_and_covers.

(** C40.  In exact arithmetic the selection maximises the total BCubed F-measure
    and, among such choices, the total stability.  With virtual nodes a labelled
    sample that leaves a splitting cluster counts as a cluster of its own ([N])
    unless a selected cluster contains it.  A tie goes to the larger cluster. *)
Theorem C40_selection_is_optimal :
  forall (Sz : SOrd) (to_q : Sz -> Qc) (n : nat) (wt : nat -> Sz) (min_cluster_size : Sz) (T : list (crow QInf Sz))
    (data_labels : list Z) (listed : list nat -> list nat) (virtual_nodes allow_single_cluster : bool),
  condensed n wt min_cluster_size T -> (forall l, Permutation (listed l) l) ->
  slt sone min_cluster_size = true -> sle (s := Sz) szero sone = true -> 0 < n -> length data_labels = n ->
  all_finite T ->
  forall members, members_are n T data_labels members ->
  forall R, cluster_rows n T <> [] ->
  extract_clusters_bcubed (ExactArith Sz to_q) ExactB listed T (cluster_tree_from_condensed_tree T)
    data_labels virtual_nodes allow_single_cluster = Ok R ->
  exists N, NoDup N /\
    (forall x, In x N <-> virtual_nodes = true /\ noise_sample n T data_labels x /\ (forall c, In c R -> ~ below n T c x)) /\
    (forall Y N', NoDup Y -> (forall c, In c Y -> admissible n T None allow_single_cluster c) -> disjoint_clusters n T Y ->
       NoDup N' -> (forall x, In x N' -> virtual_nodes = true /\ noise_sample n T data_labels x) -> apart n T Y N' ->
       at_most (total_bcubed data_labels members Y N', qsum (map (stability to_q T) Y))
               (total_bcubed data_labels members R N, qsum (map (stability to_q T) R))) /\
    (forall c, admissible n T None allow_single_cluster c ->
       (exists s, In s R /\ descends n T c s) \/ (~ In c R /\ exists x, In x N /\ below n T c x) ->
       exists D M, NoDup D /\ NoDup M /\ (forall s, In s D <-> In s R /\ descends n T c s) /\
         (forall x, In x M <-> In x N /\ below n T c x) /\
         less (bcubed_score data_labels (members c), stability to_q T c)
              (total_bcubed data_labels members D M, qsum (map (stability to_q T) D))).
Proof. exact @c40_optimal. Qed.
Print Assumptions C40_selection_is_optimal.

(** C40.  Without sample weights every leaf cluster lies in a selected one,
    whatever the labels are. *)
Theorem C40_unweighted_selection_covers :
  forall (n : nat) (min_cluster_size : NatSize) (T : list (crow QInf NatSize)) (data_labels : list Z)
    (listed : list nat -> list nat) (virtual_nodes allow_single_cluster : bool),
  condensed (Sz := NatSize) n (fun _ => 1) min_cluster_size T -> (forall l, Permutation (listed l) l) ->
  2 <= min_cluster_size -> 0 < n -> length data_labels = n -> all_finite T -> (forall r, In r T -> (0 <= lam_q r)%Qc) ->
  forall R, cluster_rows n T <> [] ->
  extract_clusters_bcubed (ExactArith NatSize nat_q) ExactB listed T (cluster_tree_from_condensed_tree T)
    data_labels virtual_nodes allow_single_cluster = Ok R ->
  NoDup R /\ (forall c, In c R -> admissible n T None allow_single_cluster c) /\ disjoint_clusters n T R /\
  (forall c, leaf_cluster n T c -> exists s, In s R /\ (s = c \/ descends n T s c)).
Proof. exact @c40_unweighted_cover. Qed.
Print Assumptions C40_unweighted_selection_covers.

(** C40.  Labels are only used where there are some: when no sample is labelled,
    the selection is that of the unsupervised method. *)
Theorem C40_no_labels_no_difference :
  forall (n : nat) (min_cluster_size : NatSize) (T : list (crow QInf NatSize)) (data_labels : list Z)
    (listed : list nat -> list nat) (virtual_nodes allow_single_cluster : bool),
  condensed (Sz := NatSize) n (fun _ => 1) min_cluster_size T -> (forall l, Permutation (listed l) l) ->
  2 <= min_cluster_size -> 0 < n -> length data_labels = n -> all_finite T -> (forall r, In r T -> (0 <= lam_q r)%Qc) ->
  (forall x, x < n -> (nth x data_labels (-1) < 0)%Z) ->
  forall R R',
  extract_clusters_bcubed (ExactArith NatSize nat_q) ExactB listed T (cluster_tree_from_condensed_tree T)
    data_labels virtual_nodes allow_single_cluster = Ok R ->
  extract_eom_clusters (ExactArith NatSize nat_q) T (cluster_tree_from_condensed_tree T) None allow_single_cluster = Ok R' ->
  forall c, In c R <-> In c R'.
Proof. exact @c40_unlabelled. Qed.
Print Assumptions C40_no_labels_no_difference.

(** The exact scores meet the sign rules. *)
Example C40_example_scores : BLaws ExactB (fun b => (0 <= b)%Qc).
Proof. exact exact_b_laws. Qed.

(** Non-vacuity, on the tree of C25: eight samples; the clusters are 9 (which
    splits into 11 and 12) and 10; sample 7 leaves the root on its own. *)
Definition semi_select (data_labels : list Z) (virtual_nodes allow_single_cluster : bool) : res (list nat) :=
  extract_clusters_bcubed (ExactArith NatSize nat_q) ExactB (fun l => l) exT (cluster_tree_from_condensed_tree exT)
    data_labels virtual_nodes allow_single_cluster.
Example C40_example_no_labels : semi_select [-1; -1; -1; -1; -1; -1; -1; -1]%Z true false = Ok [10; 9].
Proof. vm_compute. reflexivity. Qed.
Example C40_example_two_labels : semi_select [0; 0; 1; 1; -1; -1; -1; -1]%Z true false = Ok [10; 12; 11].
Proof. vm_compute. reflexivity. Qed.
(** Virtual nodes make a difference: the label of sample 7. *)
Example C40_example_virtual : semi_select [0; 0; 0; 0; 0; -1; -1; 1]%Z true true = Ok [10; 9].
Proof. vm_compute. reflexivity. Qed.
Example C40_example_no_virtual : semi_select [0; 0; 0; 0; 0; -1; -1; 1]%Z false true = Ok [8].
Proof. vm_compute. reflexivity. Qed.

(** Labelled samples switch [max_cluster_size] off: eight samples, at most three
    in a cluster; with labels both clusters have four. *)
Definition ex_chain : list (edge QInf) :=
  [(0, 1, ex_q 1); (1, 2, ex_q 7); (2, 3, ex_q 1); (3, 4, ex_q 20); (4, 5, ex_q 4); (5, 6, ex_q 5); (6, 7, ex_q 4)].
Definition at_most_three : settings QInf NatSize :=
  {| min_cluster_size := (2 : NatSize); cluster_selection_method := Eom; max_cluster_size := Some (3 : NatSize);
     allow_single_cluster := false; cluster_selection_epsilon := None; cluster_selection_persistence := None |}.
Theorem C40_max_cluster_size_ignored_refuted :
  exists data_labels ps T ps' T',
    semi_clusters_from_spanning_tree hdbscan_lambda_value ExactLam (ExactArith NatSize nat_as_q) ExactB (fun _ => None) by_parent_of
      (fun l => l) at_most_three data_labels true ex_chain = Ok ([0; 0; 0; 0; 1; 1; 1; 1]%Z, ps, T) /\
    exact_clusters (fun _ => None) by_parent_of at_most_three ex_chain = Ok ([1; 1; 0; 0; 3; 3; 2; 2]%Z, ps', T').
Proof. exists [0; 0; 0; 0; 1; 1; 1; 1]%Z. do 4 eexists. split; vm_compute; reflexivity. Qed.
Print Assumptions C40_max_cluster_size_ignored_refuted.
