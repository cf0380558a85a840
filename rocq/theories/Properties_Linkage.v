(** C21, C22: single linkage tree and its horizontal cut. *)
From Coq Require Import List Arith Bool ZArith Permutation Sorted.
From Verif Require Import Prelude Order Graph Size M_Linkage S_Linkage P_LinkageTop P_Check.
Import ListNotations.

(** C21.  From a spanning tree sorted by weight: a dendrogram whose i-th merge
    joins exactly the component of the i-th edge in the first i+1 edges, at that
    edge's weight, with the number of samples below as its size. *)
Theorem C21_single_linkage_tree :
  forall (W : WOrd) (n : nat) (M : list (edge W)), spanning_tree n M -> sorted_by ewt M ->
  exists L, mst_to_linkage_tree M = Ok L /\
    dendrogram n L /\ sizes_are (Sz := NatSize) n (fun _ => 1) L /\ heights_sorted L /\
    map l_d L = map ewt M /\
    (forall i r, nth_error L i = Some r -> l_b r < l_a r) /\
    (forall i e x, nth_error M i = Some e ->
       (under n L (n + i) x <-> x < n /\ connected (firstn (S i) M) (esrc e) x)).
Proof. exact c21. Qed.
Print Assumptions C21_single_linkage_tree.

(** C21 with sample weights: the size column is the total weight below. *)
Theorem C21_single_linkage_tree_weighted :
  forall (W : WOrd) (Sz : SOrd) (n : nat) (M : list (edge W)) (ws : list Sz),
  spanning_tree n M -> sorted_by ewt M -> length ws = n ->
  exists L, mst_to_linkage_tree_w_sample_weights M ws = Ok L /\
    dendrogram n L /\ sizes_are n (fun x => nth x ws szero) L /\ heights_sorted L /\
    map l_d L = map ewt M /\
    (forall i r, nth_error L i = Some r -> l_b r < l_a r) /\
    (forall i e x, nth_error M i = Some e ->
       (under n L (n + i) x <-> x < n /\ connected (firstn (S i) M) (esrc e) x)).
Proof. exact c21_weighted. Qed.
Print Assumptions C21_single_linkage_tree_weighted.

(** C22.  Cutting the single linkage tree of a spanning tree at a distance is the
    clustering into components of the edges strictly shorter than it. *)
Theorem C22_cut_is_dbscan :
  forall (W : WOrd) (n : nat) (M : list (edge W)) (cut : W) (min_cluster_size : nat),
  spanning_tree n M -> sorted_by ewt M ->
  exists L labels, mst_to_linkage_tree M = Ok L /\
    get_cluster_labelling_at_cut L cut min_cluster_size = Ok labels /\
    component_clustering n (passing (fun w => wlt w cut) M) min_cluster_size labels.
Proof. exact c22. Qed.
Print Assumptions C22_cut_is_dbscan.

(** Non-vacuity: a path on six samples with a tie. *)
Definition exl_mst : list (edge ZInf) :=
  [(3, 4, Some 1%Z); (0, 1, Some 2%Z); (2, 1, Some 2%Z); (4, 5, Some 5%Z); (1, 3, None)].

Example C21_example_sorted : sorted_by (W := ZInf) ewt exl_mst.
Proof. repeat constructor. Qed.

Example C21_example_run :
  (let* L := mst_to_linkage_tree exl_mst in
   Ok (map (fun r => (l_a r, l_b r, l_d r, l_n r)) L))
  = Ok [(4, 3, Some 1%Z, 2); (1, 0, Some 2%Z, 2); (7, 2, Some 2%Z, 3); (6, 5, Some 5%Z, 3); (9, 8, None, 6)].
Proof. vm_compute. reflexivity. Qed.

Example C21_example_tree : spanning_tree 6 exl_mst.
Proof. apply spanning_tree_checked. reflexivity. Qed.

Example C22_example_run :
  (let* L := mst_to_linkage_tree exl_mst in
   get_cluster_labelling_at_cut L (Some 5%Z : ZInf) 2) = Ok [0; 0; 0; 1; 1; -1]%Z.
Proof. vm_compute. reflexivity. Qed.

(** Weighted sizes. *)
Example C21_example_weighted :
  (let* L := mst_to_linkage_tree_w_sample_weights (Sz := NatSize) exl_mst [3; 1; 1; 2; 2; 5] in
   Ok (map l_n L)) = Ok [4; 4; 5; 9; 14].
Proof. vm_compute. reflexivity. Qed.
