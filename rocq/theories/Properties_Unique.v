(** C49: what the clusters depend on. *)
From Coq Require Import List Arith Lia Bool ZArith QArith Qcanon Permutation.
From Verif Require Import Prelude Order Size Num Graph M_Kruskal M_KruskalEntry S_Kruskal S_CoreGraph M_TreeQuery S_SpaceTree M_Boruvka S_Boruvka
  M_Linkage S_Linkage M_Condense S_Condense M_Select M_Labels M_Pipeline S_Pipeline P_EpsilonTop P_PipelineEx S_Unique P_UniqueTree P_UniqueTop P_UniqueRuns P_UniqueEx.
Import ListNotations.
Local Open Scope nat_scope.

(** C49.  A dendrogram has only one condensed tree: any two trees that satisfy
    C23 (same clusters, same densities, same sizes) differ in the names of the
    clusters and in the order of the rows, nothing else. *)
Theorem C49_condensed_tree_unique :
  forall (W V : WOrd) (Sz : SOrd) (n : nat) (L : list (lrow W Sz)) (wt : nat -> Sz) (mcs : Sz) (lam : W -> V),
  dendrogram n L -> 2 <= n -> forall T T' : list (crow V Sz),
  condensed n wt mcs T -> condensed n wt mcs T' -> faithful n L wt mcs None lam T -> faithful n L wt mcs None lam T' ->
  exists f, renamed n f T T' /\ forall x, x < n -> f x = x.
Proof. exact @faithful_unique. Qed.
Print Assumptions C49_condensed_tree_unique.

(** C49.  Two spanning trees, over the same samples in any order, that connect the
    same samples at every threshold and have no ties give the same noise, the
    same clusters and the same strengths: both selection methods. *)
Theorem C49_clusters_depend_on_hierarchy_only :
  forall mcs m allow_single epsilon persistence n, (epsilon <= 0)%Qc -> (persistence <= 0)%Qc -> 2 <= mcs -> 2 <= n ->
  forall garbage garbage' by_parent by_parent', sorts_by_parent by_parent -> sorts_by_parent by_parent' ->
  forall p M M', spanning_tree n M -> spanning_tree n M' -> reorders n p -> same_hierarchy n p M M' ->
  exists ls ps T ls' ps' T',
    exact_clusters garbage by_parent (exact_settings (Sz := NatSize) mcs m allow_single epsilon persistence) M = Ok (ls, ps, T) /\
    exact_clusters garbage' by_parent' (exact_settings (Sz := NatSize) mcs m allow_single epsilon persistence) M' = Ok (ls', ps', T') /\
    ((forall e, In e M -> wlt (Some 0%Qc : QInf) (ewt e) = true) -> distinct_weights M ->
     same_clustering (V := QInf) (Some 0%Qc) n p ls ls' ps ps').
Proof. exact @c49_pair. Qed.
Print Assumptions C49_clusters_depend_on_hierarchy_only.

(** Leaf selection: in every arithmetic whose comparison is antisymmetric, also
    with sample weights. *)
Theorem C49_leaf_clusters_depend_on_hierarchy_only :
  forall (W V : WOrd) (lam : W -> V) (LA : LamArith V),
  (forall a b : W, wle a b = true -> wle b a = true -> a = b) -> (forall a b : V, wle a b = true -> wle b a = true -> a = b) ->
  forall (A A' : Arith V NatSize) garbage garbage' by_parent by_parent' (st : settings V NatSize) n p M M' ls ps T ls' ps' T',
  setting_ok lam LA A by_parent st -> setting_ok lam LA A' by_parent' st -> cluster_selection_method st = Leaf ->
  cluster_selection_epsilon st = None -> cluster_selection_persistence st = None ->
  spanning_tree n M -> spanning_tree n M' -> 2 <= n -> reorders n p -> same_hierarchy n p M M' -> distinct_weights M ->
  clusters_from_spanning_tree lam LA A garbage by_parent st M = Ok (ls, ps, T) ->
  clusters_from_spanning_tree lam LA A' garbage' by_parent' st M' = Ok (ls', ps', T') ->
  same_clustering (la_zero LA) n p ls ls' ps ps'.
Proof. exact @c49_leaf. Qed.
Print Assumptions C49_leaf_clusters_depend_on_hierarchy_only.

Theorem C49_weighted_leaf_clusters_depend_on_hierarchy_only :
  forall (W V : WOrd) (lam : W -> V) (LA : LamArith V),
  (forall a b : W, wle a b = true -> wle b a = true -> a = b) -> (forall a b : V, wle a b = true -> wle b a = true -> a = b) ->
  forall (Sz : SOrd) (A A' : Arith V Sz) garbage garbage' by_parent by_parent' (st : settings V Sz) n p M M' ws ws' ls ps T ls' ps' T',
  setting_ok lam LA A by_parent st -> setting_ok lam LA A' by_parent' st -> cluster_selection_method st = Leaf ->
  cluster_selection_epsilon st = None -> cluster_selection_persistence st = None ->
  spanning_tree n M -> spanning_tree n M' -> 2 <= n -> reorders n p -> same_hierarchy n p M M' -> distinct_weights M ->
  sle (s := Sz) szero sone = true -> length ws = n -> length ws' = n -> (forall w, In w ws -> slt w (min_cluster_size st) = true) ->
  (forall x, x < n -> nth (p x) ws szero = nth x ws' szero) ->
  clusters_from_spanning_tree_weighted lam LA A garbage by_parent st M ws = Ok (ls, ps, T) ->
  clusters_from_spanning_tree_weighted lam LA A' garbage' by_parent' st M' ws' = Ok (ls', ps', T') ->
  same_clustering (la_zero LA) n p ls ls' ps ps'.
Proof. exact @c49_leaf_weighted. Qed.
Print Assumptions C49_weighted_leaf_clusters_depend_on_hierarchy_only.

(** C49.  Every minimum spanning tree of a graph gives the same clusters. *)
Theorem C49_any_minimum_spanning_tree :
  forall mcs m allow_single epsilon persistence n, (epsilon <= 0)%Qc -> (persistence <= 0)%Qc -> 2 <= mcs -> 2 <= n ->
  forall garbage garbage' by_parent by_parent', sorts_by_parent by_parent -> sorts_by_parent by_parent' ->
  forall E M M', spanning_tree n M -> spanning_tree n M' -> min_spanning_forest E M -> min_spanning_forest E M' ->
  exists ls ps T ls' ps' T',
    exact_clusters garbage by_parent (exact_settings (Sz := NatSize) mcs m allow_single epsilon persistence) M = Ok (ls, ps, T) /\
    exact_clusters garbage' by_parent' (exact_settings (Sz := NatSize) mcs m allow_single epsilon persistence) M' = Ok (ls', ps', T') /\
    ((forall e, In e M -> wlt (Some 0%Qc : QInf) (ewt e) = true) -> distinct_weights M ->
     same_clustering (V := QInf) (Some 0%Qc) n (fun x => x) ls ls' ps ps').
Proof. exact @c49_forests. Qed.
Print Assumptions C49_any_minimum_spanning_tree.

(** C49.  Exhaustive distances: the rows of the data in another order, the same
    clusters, and core distances that move with their samples. *)
Theorem C49_order_of_samples_brute_force :
  forall mcs m allow_single epsilon persistence n, (epsilon <= 0)%Qc -> (persistence <= 0)%Qc -> 2 <= mcs -> 2 <= n ->
  forall garbage garbage' by_parent by_parent', sorts_by_parent by_parent -> sorts_by_parent by_parent' ->
  forall p (D D' : nat -> nat -> QInf) min_samples, reorders n p ->
  (forall i j, i < n -> j < n -> D i j = D j i) -> (forall i j, i < n -> j < n -> D' i j = D (p i) (p j)) ->
  exists M nbrs core ls ps T M' nbrs' core' ls' ps' T',
    kruskal_mst_brute (Some 0%Qc : QInf) D n min_samples CLNone = Ok (M, nbrs, core) /\
    exact_clusters garbage by_parent (exact_settings (Sz := NatSize) mcs m allow_single epsilon persistence) M = Ok (ls, ps, T) /\
    kruskal_mst_brute (Some 0%Qc : QInf) D' n min_samples CLNone = Ok (M', nbrs', core') /\
    exact_clusters garbage' by_parent' (exact_settings (Sz := NatSize) mcs m allow_single epsilon persistence) M' = Ok (ls', ps', T') /\
    (forall x, x < n -> nth (p x) core winf = nth x core' winf) /\
    ((forall e, In e M -> wlt (Some 0%Qc : QInf) (ewt e) = true) -> distinct_weights M ->
     same_clustering (V := QInf) (Some 0%Qc) n p ls ls' ps ps').
Proof. exact @c49_brute. Qed.
Print Assumptions C49_order_of_samples_brute_force.

(** C49.  Tree search and Boruvka: another order of the samples, another tree,
    another schedule of the threads, another number of threads, or the exhaustive
    algorithm instead (the run with suffix 2) - the same clusters. *)
Theorem C49_order_tree_schedule_and_algorithm :
  forall mcs m allow_single epsilon persistence n, (epsilon <= 0)%Qc -> (persistence <= 0)%Qc -> 2 <= mcs -> 2 <= n ->
  forall garbage garbage' by_parent by_parent', sorts_by_parent by_parent -> sorts_by_parent by_parent' ->
  forall (t t' : space_tree) p (rd rd' lb lb' : nat -> nat -> QInf) root mode mode' min_samples, reorders n p ->
  tree_shape t n -> lower_bounds t rd lb -> tree_shape t' n -> lower_bounds t' rd' lb' ->
  (forall i j, i < n -> j < n -> rd i j = rd j i) -> (forall i j, i < n -> j < n -> wfinite (rd i j) = true) ->
  (forall i, i < n -> wle (rd i i) (Some 0%Qc : QInf) = true) -> (forall i j, i < n -> j < n -> rd' i j = rd (p i) (p j)) ->
  (forall x y, wle x y = true -> wle (root x) (root y) = true) -> root (Some 0%Qc : QInf) = (Some 0%Qc : QInf) ->
  min_samples < n -> threads_available mode -> threads_available mode' ->
  exists M nbrs core ls ps T M' nbrs' core' ls' ps' T' M2 nbrs2 core2 ls2 ps2 T2,
    parallel_boruvka t n rd lb (Some 0%Qc : QInf) root mode min_samples = Ok (M, nbrs, core) /\
    exact_clusters garbage by_parent (exact_settings (Sz := NatSize) mcs m allow_single epsilon persistence) M = Ok (ls, ps, T) /\
    parallel_boruvka t' n rd' lb' (Some 0%Qc : QInf) root mode' min_samples = Ok (M', nbrs', core') /\
    exact_clusters garbage' by_parent' (exact_settings (Sz := NatSize) mcs m allow_single epsilon persistence) M' = Ok (ls', ps', T') /\
    kruskal_mst_brute (Some 0%Qc : QInf) (fun i j => root (rd i j)) n min_samples CLNone = Ok (M2, nbrs2, core2) /\
    exact_clusters garbage' by_parent' (exact_settings (Sz := NatSize) mcs m allow_single epsilon persistence) M2 = Ok (ls2, ps2, T2) /\
    (forall x, x < n -> nth (p x) core winf = nth x core' winf) /\ core = core2 /\
    ((forall e, In e M -> wlt (Some 0%Qc : QInf) (ewt e) = true) -> distinct_weights M ->
     same_clustering (V := QInf) (Some 0%Qc) n p ls ls' ps ps' /\
     same_clustering (V := QInf) (Some 0%Qc) n (fun x => x) ls ls2 ps ps2).
Proof. exact @c49_tree. Qed.
Print Assumptions C49_order_tree_schedule_and_algorithm.

(** C49.  With ties this is false: the samples 0, 1, 3, 4, 6, 7, 8 on a line with
    minimum size 3 form two clusters; in the opposite order all of them are noise. *)
Theorem C49_ties_refuted : exists n mcs m p (D D' : nat -> nat -> QInf) M nbrs core ls ps T M' nbrs' core' ls' ps' T',
  reorders n p /\ (forall i j, i < n -> j < n -> D i j = D j i) /\ (forall i j, i < n -> j < n -> D' i j = D (p i) (p j)) /\
  kruskal_mst_brute (Some 0%Qc : QInf) D n 1 CLNone = Ok (M, nbrs, core) /\
  exact_clusters (fun _ => None) by_parent_of (exact_settings (Sz := NatSize) mcs m false 0%Qc 0%Qc) M = Ok (ls, ps, T) /\
  kruskal_mst_brute (Some 0%Qc : QInf) D' n 1 CLNone = Ok (M', nbrs', core') /\
  exact_clusters (fun _ => None) by_parent_of (exact_settings (Sz := NatSize) mcs m false 0%Qc 0%Qc) M' = Ok (ls', ps', T') /\
  (forall e, In e M -> wlt (Some 0%Qc : QInf) (ewt e) = true) /\
  (forall x, x < n -> nth x ls 0%Z <> (-1)%Z) /\ (forall x, x < n -> nth x ls' 0%Z = (-1)%Z).
Proof. exact ties_refuted. Qed.
Print Assumptions C49_ties_refuted.

(** ** Examples *)

(** Eight samples on a line without ties, and the same samples shuffled. *)
Definition spaced : list Z := [0; 1; 3; 20; 24; 29; 60; 90]%Z.
Definition shuffled : list Z := [24; 90; 1; 29; 60; 3; 0; 20]%Z.
Definition shuffling (x : nat) : nat := nth x [4; 7; 1; 5; 6; 2; 0; 3] 0.
Example C49_example_order : reorders 8 shuffling /\ map (fun x => nth (shuffling x) spaced 0%Z) (seq 0 8) = shuffled.
Proof.
  split; [|reflexivity]. split.
  - intros x Hx. do 8 (destruct x as [|x]; [cbn; lia|]). lia.
  - intros x y Hx Hy. do 8 (destruct x as [|x]; [do 8 (destruct y as [|y]; [cbn; lia|]); lia|]). lia.
Qed.
Example C49_example_no_ties : distinct_weights (tree_of_run (brute_run spaced 1 3 Eom false)).
Proof. apply distinct_by. vm_compute. reflexivity. Qed.
Example C49_example_positive : positiveb (tree_of_run (brute_run spaced 1 3 Eom false)) = true.
Proof. vm_compute. reflexivity. Qed.
Example C49_example_labels : labels_of (brute_run spaced 1 3 Eom false) = Some [1; 1; 1; 0; 0; 0; -1; -1]%Z.
Proof. vm_compute. reflexivity. Qed.
Example C49_example_shuffled_labels : labels_of (brute_run shuffled 1 3 Eom false) = Some [0; -1; 1; 0; -1; 1; 1; 0]%Z.
Proof. vm_compute. reflexivity. Qed.
Example C49_example_strengths :
  strengths_of (brute_run spaced 1 2 Eom false) = Some [Some 1; Some 1; Some (1 # 2); Some 1; Some 1; Some (4 # 5); Some 1; Some 1]%Q /\
  strengths_of (brute_run shuffled 1 2 Eom false) = Some [Some 1; Some 1; Some 1; Some (4 # 5); Some 1; Some (1 # 2); Some 1; Some 1]%Q.
Proof. vm_compute. split; reflexivity. Qed.
(** The same by tree search and Boruvka. *)
Example C49_example_tree : tree_shape (flat_tree 8) 8 /\ lower_bounds (flat_tree 8) (line spaced) (fun _ _ => Some 0%Qc : QInf).
Proof. split; [apply flat_shape; lia|apply flat_bounds]. Qed.
Example C49_example_boruvka :
  match parallel_boruvka (flat_tree 8) 8 (line spaced) (fun _ _ => Some 0%Qc : QInf) (Some 0%Qc : QInf) (fun w => w) (Reproducible 3 (fun _ _ => [])) 1 with
  | Ok (M, _, _) =>
    match exact_clusters (fun _ => None) by_parent_of (exact_settings (Sz := NatSize) 3 Eom false 0%Qc 0%Qc) M with
    | Ok (ls, _, _) => Some (distinctb M, positiveb M, ls)
    | Err _ => None
    end
  | Err _ => None
  end = Some (true, true, [1; 1; 1; 0; 0; 0; -1; -1]%Z).
Proof. vm_compute. reflexivity. Qed.
