(** C25, C26: selecting clusters from the condensed tree. *)
From Coq Require Import List Arith Bool ZArith QArith Qcanon Permutation Sorted.
From Verif Require Import Prelude Order Size Num M_Linkage S_Linkage M_Condense S_Condense M_Select S_Select
  P_SelectTop.
Import ListNotations.
Local Open Scope nat_scope.

(** C25.  For every arithmetic of scores (floating point included, NaN and
    infinities included) the selection never fails; the selected clusters are
    admissible and pairwise disjoint; every leaf cluster within the maximum size
    lies in a selected one. *)
Theorem C25_selection_is_disjoint_and_covers :
  forall (V : WOrd) (Sz : SOrd) (A : Arith V Sz) (n : nat) (wt : nat -> Sz) (min_cluster_size : Sz)
    (T : list (crow V Sz)) (max_cluster_size : option Sz) (allow_single_cluster : bool),
  condensed n wt min_cluster_size T -> slt sone min_cluster_size = true -> 0 < n ->
  num_lt A (num_zero A) (num_zero A) = false ->
  exists S, extract_eom_clusters A T (cluster_tree_from_condensed_tree T) max_cluster_size allow_single_cluster = Ok S /\
    StronglySorted lt S /\
    (forall c, In c S -> admissible n T max_cluster_size allow_single_cluster c) /\
    disjoint_clusters n T S /\
    (cluster_rows n T = [] -> S = []) /\
    (cluster_rows n T <> [] -> forall c, leaf_cluster n T c ->
     (forall m s, max_cluster_size = Some m -> recorded_size n T c s -> sle s m = true) ->
     exists s, In s S /\ (s = c \/ descends n T s c)).
Proof. exact c25_structure. Qed.
Print Assumptions C25_selection_is_disjoint_and_covers.

(** C25.  In exact arithmetic the selection has the largest total stability of
    all admissible disjoint choices, and a tie goes to the larger cluster: an
    admissible cluster is split up only when what is selected below it is
    strictly more stable. *)
Theorem C25_selection_is_optimal :
  forall (Sz : SOrd) (to_q : Sz -> Qc) (n : nat) (wt : nat -> Sz) (min_cluster_size : Sz)
    (T : list (crow QInf Sz)) (max_cluster_size : option Sz) (allow_single_cluster : bool) (S : list nat),
  condensed n wt min_cluster_size T -> slt sone min_cluster_size = true -> 0 < n ->
  all_finite T -> cluster_rows n T <> [] ->
  extract_eom_clusters (ExactArith Sz to_q) T (cluster_tree_from_condensed_tree T)
    max_cluster_size allow_single_cluster = Ok S ->
  (forall Y, NoDup Y -> (forall c, In c Y -> admissible n T max_cluster_size allow_single_cluster c) ->
     disjoint_clusters n T Y ->
     (total_stability to_q T Y <= total_stability to_q T S)%Qc) /\
  (forall c s, admissible n T max_cluster_size allow_single_cluster c -> In s S -> descends n T c s ->
     exists D, NoDup D /\ (forall x, In x D <-> In x S /\ (x = c \/ descends n T c x)) /\
       (positive_part (stability to_q T c) < total_stability to_q T D)%Qc).
Proof. exact c25_optimal. Qed.
Print Assumptions C25_selection_is_optimal.

(** C25.  Without sample weights stability is the textbook excess of mass, is
    never negative, and the selection maximises its plain sum. *)
Theorem C25_unweighted_excess_of_mass :
  forall (n : nat) (min_cluster_size : NatSize) (T : list (crow QInf NatSize))
    (max_cluster_size : option NatSize) (allow_single_cluster : bool) (S : list nat),
  condensed (Sz := NatSize) n (fun _ => 1) min_cluster_size T -> 2 <= min_cluster_size -> 0 < n ->
  all_finite T -> (forall r, In r T -> (0 <= lam_q r)%Qc) -> cluster_rows n T <> [] ->
  extract_eom_clusters (ExactArith NatSize nat_q) T (cluster_tree_from_condensed_tree T)
    max_cluster_size allow_single_cluster = Ok S ->
  (forall c, is_cluster n T c -> (0 <= stability nat_q T c)%Qc) /\
  (forall r, In r T -> n <= c_child r -> stability nat_q T (c_child r) = excess_of_mass T (lam_q r) (c_child r)) /\
  (forall Y, NoDup Y -> (forall c, In c Y -> admissible n T max_cluster_size allow_single_cluster c) ->
     disjoint_clusters n T Y ->
     (qsum (map (stability nat_q T) Y) <= qsum (map (stability nat_q T) S))%Qc).
Proof. exact c25_unweighted. Qed.
Print Assumptions C25_unweighted_excess_of_mass.

(** C26.  The leaf selection returns the clusters that do not split, in
    ascending order; they are pairwise disjoint and every cluster contains one. *)
Theorem C26_leaf_selection :
  forall (V : WOrd) (Sz : SOrd) (n : nat) (wt : nat -> Sz) (min_cluster_size : Sz) (T : list (crow V Sz)),
  condensed n wt min_cluster_size T -> slt sone min_cluster_size = true -> cluster_rows n T <> [] ->
  exists S, cluster_tree_leaves (cluster_tree_from_condensed_tree T) n = Ok S /\
    StronglySorted lt S /\ (forall c, In c S <-> leaf_cluster n T c) /\ disjoint_clusters n T S /\
    (forall c, is_cluster n T c -> exists l, In l S /\ (l = c \/ descends n T c l)).
Proof. exact c26. Qed.
Print Assumptions C26_leaf_selection.

(** C26.  Reading the leaves off the full tree gives the same clusters. *)
Theorem C26_extract_leaves :
  forall (V : WOrd) (Sz : SOrd) (n : nat) (wt : nat -> Sz) (min_cluster_size : Sz) (T : list (crow V Sz)),
  condensed n wt min_cluster_size T -> sle (s := Sz) szero sone = true -> slt sone min_cluster_size = true -> 0 < n ->
  exists S, extract_leaves T = Ok S /\ StronglySorted lt S /\ (forall c, In c S <-> leaf_cluster n T c).
Proof. exact (@extract_leaves_ok). Qed.
Print Assumptions C26_extract_leaves.

(** The maximum size is not respected by the root, whose size is recorded as one
    sample too few: all 8 samples are selected with a maximum of 7. *)
Theorem C25_max_cluster_size_refuted :
  exists (L : list (lrow QInf NatSize)) T,
    dendrogram 8 L /\ sizes_are (Sz := NatSize) 8 (fun _ => 1) L /\ heights_sorted L /\
    condense_tree L hdbscan_lambda_value (2 : NatSize) None (fun _ => 1) = Ok T /\
    extract_eom_clusters (ExactArith NatSize nat_q) T (cluster_tree_from_condensed_tree T) (Some 7) true = Ok [8] /\
    (forall x, x < 8 -> below 8 T 8 x).
Proof. exact c25_refuted. Qed.
Print Assumptions C25_max_cluster_size_refuted.

(** Non-vacuity: eight samples; the clusters are 9 (which splits into 11 and 12)
    and 10. *)
Example C25_example_condensed : condensed (Sz := NatSize) 8 (fun _ => 1) (2 : NatSize) exT.
Proof. exact ex_condensed. Qed.
Example C25_example_tree :
  map (fun r => (c_parent r, c_child r, c_size r)) (cluster_tree_from_condensed_tree exT)
  = [(8, 9, 4); (8, 10, 3); (9, 11, 2); (9, 12, 2)].
Proof. vm_compute. reflexivity. Qed.
Example C25_example_finite : forallb (fun r => match (c_lam r : option Qc) with Some a => Qcleb 0 a | None => false end) exT = true.
Proof. vm_compute. reflexivity. Qed.
Example C25_example_eom :
  extract_eom_clusters (ExactArith NatSize nat_q) exT (cluster_tree_from_condensed_tree exT) None false = Ok [9; 10].
Proof. vm_compute. reflexivity. Qed.
Example C25_example_single :
  extract_eom_clusters (ExactArith NatSize nat_q) exT (cluster_tree_from_condensed_tree exT) None true = Ok [8].
Proof. vm_compute. reflexivity. Qed.
Example C25_example_max :
  extract_eom_clusters (ExactArith NatSize nat_q) exT (cluster_tree_from_condensed_tree exT) (Some 3) false = Ok [10; 11; 12].
Proof. vm_compute. reflexivity. Qed.
Example C26_example_leaves : extract_leaves exT = Ok [10; 11; 12].
Proof. vm_compute. reflexivity. Qed.
Example C26_example_cluster_tree_leaves :
  cluster_tree_leaves (cluster_tree_from_condensed_tree exT) 8 = Ok [10; 11; 12].
Proof. vm_compute. reflexivity. Qed.
