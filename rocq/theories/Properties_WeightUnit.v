(** C85: the unit of sample weights. *)
From Coq Require Import List Arith Bool ZArith QArith Qcanon.
From Verif Require Import Prelude Order Graph Size Num S_Kruskal M_Kruskal M_KruskalEntry M_Condense M_Labels M_Pipeline S_Pipeline S_Equi S_WeightUnit P_Scale P_WeightUnit M_TreeQuery M_Weights.
Import ListNotations.
Local Open Scope nat_scope.

(** C85.  Weights and [min_samples] multiplied by the same number: both algorithms give
    the same spanning tree, neighbours and core distances, or the same failure. *)
Theorem C85_unit_of_weights_kruskal :
  forall k : nat, 0 < k -> forall (W : WOrd) (query : nat -> list (list (W * option nat))) min_samples knn_k weights cl,
  kruskal_mst_knn_weighted query (k * min_samples) knn_k (map (Qcmult (as_weight k)) weights) cl = kruskal_mst_knn_weighted query min_samples knn_k weights cl.
Proof. exact @c85_kruskal. Qed.
Print Assumptions C85_unit_of_weights_kruskal.

Theorem C85_unit_of_weights_boruvka :
  forall k : nat, 0 < k -> forall (W : WOrd) t n (rd lb : nat -> nat -> W) root mode min_samples weights,
  parallel_boruvka_weighted t n rd lb root mode (k * min_samples) (map (Qcmult (as_weight k)) weights) = parallel_boruvka_weighted t n rd lb root mode min_samples weights.
Proof. exact @c85_boruvka. Qed.
Print Assumptions C85_unit_of_weights_boruvka.

(** C85.  Weights and [min_cluster_size] multiplied by the same number c > 0, 'leaf':
    the same labels and strengths, and the same hierarchy with clusters c times as
    heavy; a failure stays the same failure. *)
Theorem C85_unit_of_weights_leaf :
  forall c : Qc, (0 < c)%Qc ->
  forall (garbage garbage' : nat -> QInf) (by_parent by_parent' : list (crow QInf QcSize) -> list (crow QInf QcSize)) (mcs : Qc) (allow_single : bool) (epsilon persistence : Qc)
    (n : nat) (M : list (edge QInf)) (ws : list Qc),
  sorts_by_parent by_parent -> sorts_by_parent by_parent' -> (1 < mcs)%Qc -> (1 < c * mcs)%Qc -> spanning_tree n M -> 2 <= n ->
  length ws = n -> (forall w, In w ws -> (w < mcs)%Qc) ->
  exact_clusters_weighted garbage' by_parent' (exact_settings (Sz := QcSize) (c * mcs)%Qc Leaf allow_single epsilon persistence) M (map (Qcmult c) ws) =
  map_ok (resize_run (in_unit mcs c)) (exact_clusters_weighted garbage by_parent (exact_settings (Sz := QcSize) mcs Leaf allow_single epsilon persistence) M ws).
Proof. exact c85_leaf. Qed.
Print Assumptions C85_unit_of_weights_leaf.

(** C85.  'eom' does not have this property: rows of single samples count as one in
    the stability of a cluster whatever their weight, while its birth counts all the
    weight.  Six samples of weight 1 form three clusters of at least 2; six samples of
    weight 10 form two clusters of at least 20. *)
Theorem C85_excess_of_mass_refuted :
  exists (garbage : nat -> QInf) by_parent (c mcs : Qc) n M ws, sorts_by_parent by_parent /\ (1 < mcs)%Qc /\ (1 <= c)%Qc /\ spanning_tree n M /\
  length ws = n /\ (forall w, In w ws -> (w < mcs)%Qc) /\
  reported (exact_clusters_weighted garbage by_parent (exact_settings (Sz := QcSize) mcs Eom false 0%Qc 0%Qc) M ws) = Some [2; 2; 1; 1; 0; 0]%Z /\
  reported (exact_clusters_weighted garbage by_parent (exact_settings (Sz := QcSize) (c * mcs)%Qc Eom false 0%Qc 0%Qc) M (map (Qcmult c) ws)) = Some [0; 0; 0; 0; 1; 1]%Z.
Proof. exact c85_eom. Qed.
Print Assumptions C85_excess_of_mass_refuted.

(** C85.  Weights of one: for every method and setting the clusters of a spanning tree
    are those without weights. *)
Theorem C85_weights_of_one :
  forall (garbage garbage' : nat -> QInf) by_parent by_parent' (mcs : nat) (m : selection_method) (allow_single : bool) (epsilon persistence : Qc) (n : nat) (M : list (edge QInf)),
  sorts_by_parent by_parent -> sorts_by_parent by_parent' -> 2 <= mcs -> spanning_tree n M -> 2 <= n ->
  exact_clusters_weighted garbage' by_parent' (exact_settings (Sz := QcSize) (nat_as_q mcs) m allow_single epsilon persistence) M (repeat 1%Qc n) =
  map_ok (resize_run nat_as_q) (exact_clusters garbage by_parent (exact_settings (Sz := NatSize) mcs m allow_single epsilon persistence) M).
Proof. exact c85_ones. Qed.
Print Assumptions C85_weights_of_one.

(** Cases that meet the hypotheses. *)
Example C85_example_tree : spanning_tree 6 three_pairs.
Proof. exact three_pairs_tree. Qed.
Example C85_example_leaf :
  reported (exact_clusters_weighted (fun _ => None) (stable_by (Sz := QcSize)) (exact_settings (Sz := QcSize) (Q2Qc (20 # 1)) Leaf false 0%Qc 0%Qc) three_pairs (map (Qcmult (Q2Qc (10 # 1))) (repeat 1%Qc 6))) =
    Some [2; 2; 1; 1; 0; 0]%Z /\
  reported (exact_clusters_weighted (fun _ => None) (stable_by (Sz := QcSize)) (exact_settings (Sz := QcSize) (Q2Qc (2 # 1)) Leaf false 0%Qc 0%Qc) three_pairs (repeat 1%Qc 6)) = Some [2; 2; 1; 1; 0; 0]%Z.
Proof. split; vm_compute; reflexivity. Qed.
Example C85_example_one :
  reported (exact_clusters (fun _ => None) (stable_by (Sz := NatSize)) (exact_settings (Sz := NatSize) 2 Eom false 0%Qc 0%Qc) three_pairs) = Some [2; 2; 1; 1; 0; 0]%Z.
Proof. vm_compute. reflexivity. Qed.
Example C85_example_neighbours : expected_neighbors 3 [1; 1; 1]%Qc = Ok 6 /\ expected_neighbors 30 (map (Qcmult (as_weight 10)) [1; 1; 1]%Qc) = Ok 6.
Proof. split; vm_compute; reflexivity. Qed.
