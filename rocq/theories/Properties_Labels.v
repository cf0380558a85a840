(** C27, C28, C29: labels and membership strengths. *)
From Coq Require Import List Arith Bool ZArith QArith Qcanon Permutation Sorted.
From Verif Require Import Prelude Order Size Num M_Linkage S_Linkage M_Condense S_Condense M_Select S_Select
  M_Labels S_Labels P_SelectTop P_LabelsTop P_LabelsProps P_LabelsEx.
Import ListNotations.
Local Open Scope nat_scope.

(** C27.  For every tree that lists parents before children, every non-empty set
    of clusters (a sole cluster being the root) and every epsilon: labelling does
    not fail and every sample gets the label of its nearest selected ancestor. *)
Theorem C27_labels_follow_the_hierarchy :
  forall (V : WOrd) (Sz : SOrd) (LA : LamArith V) (n : nat) (T : list (crow V Sz)) (S : list nat),
  ordered_tree n T -> 0 < n -> (forall s, In s S -> is_cluster n T s) -> NoDup S ->
  forall eps : option V, S <> [] -> (length S = 1 -> S = [n]) ->
  exists ls, get_cluster_label_vector LA T S eps n = Ok ls /\ length ls = n /\
    forall r, In r T -> c_child r < n -> right_label (la_zero LA) n T S eps r (nth (c_child r) ls 0%Z).
Proof. exact @labels_ok. Qed.
Print Assumptions C27_labels_follow_the_hierarchy.

(** Condensed trees are such trees. *)
Theorem C27_condensed_trees_are_ordered :
  forall (V : WOrd) (Sz : SOrd) (n : nat) (wt : nat -> Sz) (min_cluster_size : Sz) (T : list (crow V Sz)),
  condensed n wt min_cluster_size T -> ordered_tree n T.
Proof. exact @condensed_ordered. Qed.
Print Assumptions C27_condensed_trees_are_ordered.

(** C27.  For pairwise disjoint clusters below the root: the members of the k-th
    cluster are exactly the samples below it that have positive density. *)
Theorem C27_members_are_the_samples_below :
  forall (V : WOrd) (Sz : SOrd) (LA : LamArith V) (n : nat) (T : list (crow V Sz)) (S : list nat) (eps : option V),
  ordered_tree n T -> 0 < n -> (forall s, In s S -> is_cluster n T s) -> NoDup S ->
  forall ls, disjoint_clusters n T S -> ~ In n S -> length S <> 1 ->
  get_cluster_label_vector LA T S eps n = Ok ls ->
  forall r, In r T -> c_child r < n ->
    (forall s, In s S ->
       (nth (c_child r) ls 0%Z = Z.of_nat (position S s) <-> below n T s (c_child r) /\ ~ at_zero (la_zero LA) r)) /\
    (nth (c_child r) ls 0%Z = (-1)%Z <-> at_zero (la_zero LA) r \/ forall s, In s S -> ~ below n T s (c_child r)).
Proof. exact @c27_members. Qed.
Print Assumptions C27_members_are_the_samples_below.

(** Labelling fails when exactly one cluster is selected and it is not the root;
    a maximum cluster size makes this happen. *)
Theorem C27_single_cluster_refuted :
  exists (L : list (lrow QInf NatSize)) T S,
    dendrogram 5 L /\ sizes_are (Sz := NatSize) 5 (fun _ => 1) L /\ heights_sorted L /\
    condense_tree L hdbscan_lambda_value (2 : NatSize) None (fun _ => 1) = Ok T /\
    extract_eom_clusters (ExactArith NatSize nat_q) T (cluster_tree_from_condensed_tree T) (Some 2) false = Ok S /\
    get_cluster_label_vector ExactLam T S None 5 = Err KeyError.
Proof. exact c27_refuted. Qed.
Print Assumptions C27_single_cluster_refuted.

(** C28.  A selected cluster that is born at positive density is reported with
    all its samples, whose total weight is at least the minimum. *)
Theorem C28_reported_clusters_are_large :
  forall (V : WOrd) (Sz : SOrd) (LA : LamArith V) (n : nat) (wt : nat -> Sz) (min_cluster_size : Sz) (T : list (crow V Sz)),
  condensed n wt min_cluster_size T ->
  forall (S : list nat) (eps : option V) (ls : list Z), 0 < n ->
  (forall s, In s S -> is_cluster n T s) -> NoDup S -> disjoint_clusters n T S -> ~ In n S -> length S <> 1 ->
  get_cluster_label_vector LA T S eps n = Ok ls ->
  forall s q, In s S -> In q T -> c_child q = s -> wlt (la_zero LA) (c_lam q) = true ->
  exists xs, NoDup xs /\ (forall x, In x xs <-> x < n /\ nth x ls 0%Z = Z.of_nat (position S s)) /\
    ssum (map wt xs) = c_size q /\ sle min_cluster_size (ssum (map wt xs)) = true.
Proof. exact @c28. Qed.
Print Assumptions C28_reported_clusters_are_large.

(** A cluster born at density zero can lose all its samples: two clusters are
    selected, and only label 1 is reported. *)
Theorem C28_infinite_distances_refuted :
  exists (L : list (lrow QInf NatSize)) T S,
    dendrogram 4 L /\ sizes_are (Sz := NatSize) 4 (fun _ => 1) L /\ heights_sorted L /\
    condense_tree L hdbscan_lambda_value (2 : NatSize) None (fun _ => 1) = Ok T /\
    cluster_tree_leaves (cluster_tree_from_condensed_tree T) 4 = Ok S /\ length S = 2 /\
    get_cluster_label_vector ExactLam T S None 4 = Ok [1; 1; -1; -1]%Z.
Proof. exact c28_refuted. Qed.
Print Assumptions C28_infinite_distances_refuted.

(** C29.  Strengths are between 0 and 1, noise has strength 0 and every reported
    cluster has a member of strength 1; for every arithmetic with the laws
    [LamLaws]. *)
Theorem C29_membership_strengths :
  forall (V : WOrd) (Sz : SOrd) (LA : LamArith V) (n : nat) (wt : nat -> Sz) (min_cluster_size : Sz) (T : list (crow V Sz))
    (S : list nat) (eps : option V) (ls : list Z),
  LamLaws LA -> condensed n wt min_cluster_size T -> slt sone min_cluster_size = true -> 0 < n ->
  (forall s, In s S -> is_cluster n T s) -> NoDup S ->
  (forall r, In r T -> wle (la_zero LA) (c_lam r) = true) ->
  S <> [] -> (length S = 1 -> S = [n]) -> get_cluster_label_vector LA T S eps n = Ok ls ->
  exists ps, get_point_membership_strength_vector LA T S ls = Ok ps /\ length ps = n /\
    (forall x, x < n -> wle (la_zero LA) (nth x ps (la_zero LA)) = true /\ wle (nth x ps (la_zero LA)) (la_one LA) = true) /\
    (forall x, x < n -> nth x ls 0%Z = (-1)%Z -> nth x ps (la_zero LA) = la_zero LA) /\
    (forall x, x < n -> nth x ls 0%Z <> (-1)%Z ->
       exists y, y < n /\ nth y ls 0%Z = nth x ls 0%Z /\ nth y ps (la_zero LA) = la_one LA).
Proof. exact c29_condensed. Qed.
Print Assumptions C29_membership_strengths.

(** C29.  The strength of a labelled sample is its density over the highest
    density at which a sample leaves the cluster, at most 1 (see
    [right_strength]). *)
Theorem C29_strengths_are_relative_densities :
  forall (V : WOrd) (Sz : SOrd) (LA : LamArith V) (n : nat) (wt : nat -> Sz) (min_cluster_size : Sz) (T : list (crow V Sz))
    (S : list nat) (eps : option V) (ls : list Z) (ps : list V),
  LamLaws LA -> condensed n wt min_cluster_size T -> slt sone min_cluster_size = true -> 0 < n ->
  (forall s, In s S -> is_cluster n T s) -> NoDup S ->
  (forall r, In r T -> wle (la_zero LA) (c_lam r) = true) ->
  S <> [] -> (length S = 1 -> S = [n]) -> get_cluster_label_vector LA T S eps n = Ok ls ->
  get_point_membership_strength_vector LA T S ls = Ok ps ->
  forall r, In r T -> c_child r < n -> nth (c_child r) ls 0%Z <> (-1)%Z ->
  exists c, In c S /\ nth (c_child r) ls 0%Z = Z.of_nat (position S c) /\ right_strength LA n T c r (nth (c_child r) ps (la_zero LA)).
Proof. exact c29_condensed_values. Qed.
Print Assumptions C29_strengths_are_relative_densities.

(** Exact arithmetic has the laws. *)
Theorem C29_exact_laws : LamLaws ExactLam.
Proof. exact exact_lam_laws. Qed.
Print Assumptions C29_exact_laws.

(** Non-vacuity. *)
Example C27_example_labels :
  get_cluster_label_vector ExactLam exT [9; 10] None 8 = Ok [0; 0; 0; 0; 1; 1; 1; -1]%Z.
Proof. vm_compute. reflexivity. Qed.
Example C27_example_leaves :
  get_cluster_label_vector ExactLam exT [12; 10; 11] None 8 = Ok [2; 2; 1; 1; 0; 0; 0; -1]%Z.
Proof. vm_compute. reflexivity. Qed.
Example C27_example_root : get_cluster_label_vector ExactLam exT [8] None 8 = Ok [0; 0; 0; 0; 0; 0; 0; -1]%Z.
Proof. vm_compute. reflexivity. Qed.
Example C27_example_root_eps :
  get_cluster_label_vector ExactLam exT [8] (Some (Some (Q2Qc (1 # 105)) : QInf)) 8 = Ok [-1; -1; -1; -1; 0; 0; 0; -1]%Z.
Proof. vm_compute. reflexivity. Qed.
Example C28_example_born : map (fun r => wlt (la_zero ExactLam) (c_lam r)) (cluster_rows 8 exT) = [true; true; true; true].
Proof. vm_compute. reflexivity. Qed.
Example C29_example_strengths :
  get_cluster_label_vector ExactLam kT [6; 7] None 5 = Ok [1; 1; 0; 0; 0]%Z /\
  match get_point_membership_strength_vector ExactLam kT [6; 7] [1; 1; 0; 0; 0]%Z with
  | Ok ps => map (option_map this) (ps : list (option Qc))
  | Err _ => []
  end = map Some [1; 1; 1; 1; 10 # 11]%Q.
Proof. split; vm_compute; reflexivity. Qed.
Example C29_example_positive : forallb (fun r => wle (la_zero ExactLam) (c_lam r)) exT = true.
Proof. vm_compute. reflexivity. Qed.
