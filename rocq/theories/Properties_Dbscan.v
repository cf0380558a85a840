(** C66: dbscan_clustering after fit. *)
From Coq Require Import List Arith Lia Bool ZArith Permutation QArith Qcanon.
From Verif Require Import Prelude Order Graph Size Num S_Kruskal M_Kruskal M_Precomputed M_KruskalEntry M_Linkage M_Condense S_Condense M_Select M_Labels P_LabelsEx
  M_Pipeline S_Pipeline P_PipelineEx M_TreeQuery M_Boruvka S_SpaceTree S_Boruvka M_Estimator S_Estimator P_EstimatorEx P_Sort S_Dbscan P_Dbscan P_EpsilonTop Properties_SpaceTree Properties_Kruskal.
Import ListNotations.
Local Open Scope nat_scope.

(** After a successful fit with min_samples, whatever the other settings,
    [dbscan_clustering(eps)] never fails and returns the density-based clusters at
    [eps] (see [dbscan_star]).  A row with missing values behaves like a sample
    that is infinitely far from all others. *)
Theorem C66_clusters_at_a_distance :
  forall (W V : WOrd) (Row : Type) (lam : W -> V) (LA : LamArith V) (garbage : nat -> V) (zero : W) (dist : Row -> Row -> W) (min_samples : nat)
    (finite : Row -> bool) (set_list : list nat -> list nat) (X : list Row) (A : Arith V NatSize)
    (by_parent : list (crow V NatSize) -> list (crow V NatSize)) (st : settings V NatSize) r (eps : W),
  (forall l, Permutation (set_list l) l) -> setting_ok lam LA A by_parent st ->
  (forall a b, dist a b = dist b a) -> (forall a b, wle (dist a a) (dist a b) = true) -> (forall a b, wle zero (dist a b) = true) ->
  (if forallb finite X then 2 else 3) <= length (filter finite X) ->
  fit (la_zero LA) finite set_list (fast_hdbscan lam LA garbage (pairs_mst zero dist min_samples) A by_parent st) X = Ok r ->
  exists labels, dbscan_clustering r eps min_samples = Ok labels /\
    dbscan_star (row_distance finite dist X) (length X) min_samples eps labels.
Proof. exact fit_cut. Qed.
Print Assumptions C66_clusters_at_a_distance.

(** Clusters at a greater distance contain those at a smaller one. *)
Theorem C66_clusters_are_nested :
  forall (W V : WOrd) (Row : Type) (lam : W -> V) (LA : LamArith V) (garbage : nat -> V) (zero : W) (dist : Row -> Row -> W) (min_samples : nat)
    (finite : Row -> bool) (set_list : list nat -> list nat) (X : list Row) (A : Arith V NatSize)
    (by_parent : list (crow V NatSize) -> list (crow V NatSize)) (st : settings V NatSize) r (eps eps' : W) labels labels',
  (forall l, Permutation (set_list l) l) -> setting_ok lam LA A by_parent st ->
  (forall a b, dist a b = dist b a) -> (forall a b, wle (dist a a) (dist a b) = true) -> (forall a b, wle zero (dist a b) = true) ->
  (if forallb finite X then 2 else 3) <= length (filter finite X) ->
  fit (la_zero LA) finite set_list (fast_hdbscan lam LA garbage (pairs_mst zero dist min_samples) A by_parent st) X = Ok r ->
  wle eps eps' = true -> dbscan_clustering r eps min_samples = Ok labels -> dbscan_clustering r eps' min_samples = Ok labels' ->
  forall x y, x < length X -> y < length X -> (0 <= nth x labels (-2))%Z -> nth x labels (-2)%Z = nth y labels (-2)%Z ->
    (0 <= nth x labels' (-2))%Z /\ nth x labels' (-2)%Z = nth y labels' (-2)%Z.
Proof. exact fit_cuts_nested. Qed.
Print Assumptions C66_clusters_are_nested.

(** Rows with missing values are noise at every distance, if min_samples is at
    least two. *)
Theorem C66_missing_rows_are_noise :
  forall (W V : WOrd) (Row : Type) (lam : W -> V) (LA : LamArith V) (garbage : nat -> V) (zero : W) (dist : Row -> Row -> W) (min_samples : nat)
    (finite : Row -> bool) (set_list : list nat -> list nat) (X : list Row) (A : Arith V NatSize)
    (by_parent : list (crow V NatSize) -> list (crow V NatSize)) (st : settings V NatSize) r (eps : W) labels p a,
  (forall l, Permutation (set_list l) l) -> setting_ok lam LA A by_parent st ->
  (forall a b, dist a b = dist b a) -> (forall a b, wle (dist a a) (dist a b) = true) -> (forall a b, wle zero (dist a b) = true) ->
  3 <= length (filter finite X) ->
  fit (la_zero LA) finite set_list (fast_hdbscan lam LA garbage (pairs_mst zero dist min_samples) A by_parent st) X = Ok r ->
  2 <= min_samples -> dbscan_clustering r eps min_samples = Ok labels -> nth_error X p = Some a -> finite a = false ->
  nth p labels (-2)%Z = (-1)%Z.
Proof. exact fit_missing_noise. Qed.
Print Assumptions C66_missing_rows_are_noise.

(** The same clusters from the tree of the parallel search, under every
    schedule. *)
Theorem C66_clusters_at_a_distance_boruvka :
  forall (W : WOrd) t n (rd lb : nat -> nat -> W) zero root mode min_samples eps,
  tree_shape t n -> lower_bounds t rd lb ->
  (forall i j, i < n -> j < n -> rd i j = rd j i) ->
  (forall i j, i < n -> j < n -> wfinite (rd i j) = true) ->
  wfinite zero = true -> (forall i, i < n -> wle (rd i i) zero = true) ->
  (forall x y, wle x y = true -> wle (root x) (root y) = true) ->
  2 <= n -> min_samples < n -> threads_available mode ->
  (forall i j, i < n -> j < n -> wle zero (rd i j) = true) ->
  exists T nbrs core L labels, parallel_boruvka t n rd lb zero root mode min_samples = Ok (T, nbrs, core) /\
    mst_to_linkage_tree (sort_mst T) = Ok L /\ get_cluster_labelling_at_cut L eps min_samples = Ok labels /\
    dbscan_star (fun i j => root (rd i j)) n min_samples eps labels.
Proof. exact tree_boruvka_cut. Qed.
Print Assumptions C66_clusters_at_a_distance_boruvka.

(** Samples that must not be linked are never in one cluster, at any distance
    (even an infinite one). *)
Theorem C66_cannot_link_at_every_distance :
  forall (W : WOrd) (zero : W) (D : nat -> nat -> W) n min_samples X g eps m, 0 < n -> valid_constraints n X g ->
  exists cl T nbrs core L labels, resolve_cl_params n X true g = Ok cl /\ kruskal_mst_brute zero D n min_samples cl = Ok (T, nbrs, core) /\
    mst_to_linkage_tree (sort_mst T) = Ok L /\ get_cluster_labelling_at_cut L eps m = Ok labels /\
    forall x y, x < n -> y < n -> user_constraints (option_map sp_entries X) g x y ->
      nth x labels (-2)%Z = nth y labels (-2)%Z -> nth x labels (-2)%Z = (-1)%Z.
Proof. exact @constrained_cut. Qed.
Print Assumptions C66_cannot_link_at_every_distance.

(** ** Examples *)
Definition dense_line (min_samples : nat) (X : list (option Z)) : res (fitted QInf QInf NatSize) :=
  fit (W := QInf) (V := QInf) (Sz := NatSize) (la_zero ExactLam) present (fun l => l)
    (exact_run line_dist min_samples (fun _ => None) by_parent_of (exact_settings (Sz := NatSize) 2 Eom false 0%Qc 0%Qc)) X.
Definition dense_labels (min_samples : nat) (X : list (option Z)) (eps : Z) : res (list Z) :=
  let* r := dense_line min_samples X in dbscan_clustering r (Some (Q2Qc (inject_Z eps)) : QInf) min_samples.
Definition dense_rows : list (option Z) := [Some 0; None; Some 1; Some 2; Some 3; Some 10; Some 11; Some 12; Some 20]%Z.
Example C66_example : dense_labels 2 dense_rows 2 = Ok [-1; -1; 0; 0; -1; -1; -1; -1; -1]%Z /\
  dense_labels 2 dense_rows 3 = Ok [0; -1; 0; 0; 0; 1; 1; 1; -1]%Z /\
  dense_labels 2 dense_rows 8 = Ok [0; -1; 0; 0; 0; 0; 0; 0; -1]%Z.
Proof. repeat split; vm_compute; reflexivity. Qed.
Example C66_example_hypotheses :
  (forall a b, line_dist a b = line_dist b a) /\ (forall a b, wle (line_dist a a) (line_dist a b) = true) /\
  (forall a b, wle (w := QInf) (Some 0%Qc) (line_dist a b) = true) /\
  3 <= length (filter present dense_rows) /\ setting_ok (W := QInf) hdbscan_lambda_value ExactLam (ExactArith NatSize nat_as_q) by_parent_of (exact_settings (Sz := NatSize) 2 Eom false 0%Qc 0%Qc).
Proof.
  assert (P : forall a b : Z, Qcleb 0 (Q2Qc (inject_Z (Z.abs (a - b)))) = true).
  { intros a b. apply Qcleb_le. unfold Qcle. cbn [this Q2Qc]. rewrite !Qred_correct. unfold Qle, inject_Z. cbn [Qnum Qden]. lia. }
  split; [|split; [|split; [|split]]].
  - intros [a|] [b|]; auto. unfold line_dist. replace (Z.abs (a - b)) with (Z.abs (b - a)) by lia. reflexivity.
  - intros [a|] [b|]; auto. unfold line_dist. rewrite Z.sub_diag. apply P.
  - intros [a|] [b|]; auto. apply P.
  - vm_compute. lia.
  - apply exact_ok; [|apply nat_mcs; lia]. split; [apply Permutation_sym, nsort_perm|apply nsort_sorted].
Qed.

(** The search of the space tree of Properties_SpaceTree, with threads taking turns. *)
Example C66_example_boruvka : exists T nbrs core L,
  parallel_boruvka ex_tree 6 ex_rd ex_lb (z 0) (fun w => w) (Plain (fun _ => turns 6 40)) 2 = Ok (T, nbrs, core) /\
  mst_to_linkage_tree (sort_mst T) = Ok L /\
  map (fun eps => get_cluster_labelling_at_cut L (z eps) 2) [9; 10; 17; 26]%Z =
    [Ok [-1; -1; -1; -1; -1; -1]; Ok [-1; -1; 0; 0; 0; 0]; Ok [-1; 0; 0; 0; 0; 0]; Ok [0; 0; 0; 0; 0; 0]]%Z.
Proof. eexists _, _, _, _. split; [vm_compute; reflexivity|]. split; [vm_compute; reflexivity|]. vm_compute; reflexivity. Qed.
Example C66_example_constraints : exists cl T nbrs core L,
  resolve_cl_params 6 None true (Some ex_groups) = Ok cl /\ kruskal_mst_brute (z 0) ex_rd 6 1 cl = Ok (T, nbrs, core) /\
  mst_to_linkage_tree (sort_mst T) = Ok L /\
  map (fun eps => get_cluster_labelling_at_cut L eps 1) [z 5; winf] = [Ok [1; 0; 2; 0; 1; 2]; Ok [0; 1; 1; 1; 0; 1]]%Z.
Proof. eexists _, _, _, _, _. split; [vm_compute; reflexivity|]. split; [vm_compute; reflexivity|]. split; vm_compute; reflexivity. Qed.

(** ** Findings *)

(** With min_samples=1 every row with missing values is reported as a cluster. *)
Theorem C66_missing_row_cluster_refuted :
  exists X labels, dense_labels 1 X 2 = Ok labels /\ nth_error X 1 = Some None /\ (0 <= nth 1 labels (-2))%Z.
Proof. exists [Some 0; None; Some 1; Some 10; None; Some 11]%Z. eexists. split; [vm_compute; reflexivity|]. split; [reflexivity|vm_compute; discriminate]. Qed.
Print Assumptions C66_missing_row_cluster_refuted.

(** A chain of core samples that is shorter than min_samples is reported as
    noise, although each of its samples has min_samples others nearer than eps. *)
Definition sparse_ends : list Z := [0; 100; -100; -95; 200; 195]%Z.
Theorem C66_core_samples_as_noise_refuted :
  exists labels, dense_labels 3 (map Some sparse_ends) 101 = Ok labels /\
    length (filter (fun y => Z.abs (0 - y) <? 101)%Z (tl sparse_ends)) = 3 /\ nth 0 labels (-2)%Z = (-1)%Z.
Proof. eexists. split; [vm_compute; reflexivity|]. split; reflexivity. Qed.
Print Assumptions C66_core_samples_as_noise_refuted.
