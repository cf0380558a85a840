(** C54, C55 and C56: what the result does not depend on - the contents of
    uninitialised memory and the order of ties in an unstable sort, the unit in
    which distances are measured, and (leaf clusters) anything but their order. *)
From Coq Require Import List Arith Bool ZArith QArith Qcanon Permutation.
From Verif Require Import Prelude Order Graph Size Num S_Kruskal S_Precomputed M_Kruskal M_KruskalEntry M_Precomputed M_Linkage S_Linkage M_Condense S_Condense
  M_Select M_Labels S_Labels M_Epsilon M_Pipeline S_Pipeline P_EpsilonTop P_PipelineEx M_BCubed S_BCubed P_BCScore S_Equi P_Scale P_EquiTop P_LeafOrder P_UniqueEx P_EquiEx.
Import ListNotations.
Local Open Scope nat_scope.

(** C54.  For every spanning tree, arithmetic and combination of settings the
    outcome (labels, strengths and tree, or the failure) does not depend on what
    the allocated arrays contained before, nor on the order in which the unstable
    sort leaves rows with equal parents. *)
Theorem C54_result_is_determined :
  forall (W V : WOrd) (lam : W -> V) (LA : LamArith V) (A : Arith V NatSize) (garbage1 garbage2 : nat -> V)
    (by_parent1 by_parent2 : list (crow V NatSize) -> list (crow V NatSize)) (st : settings V NatSize) (n : nat) (M : list (edge W)),
  setting_ok lam LA A by_parent1 st -> sorts_by_parent by_parent2 -> spanning_tree n M -> 2 <= n ->
  clusters_from_spanning_tree lam LA A garbage1 by_parent1 st M = clusters_from_spanning_tree lam LA A garbage2 by_parent2 st M.
Proof. exact @plain_same. Qed.
Print Assumptions C54_result_is_determined.

Theorem C54_weighted_result_is_determined :
  forall (W V : WOrd) (lam : W -> V) (LA : LamArith V) (Sz : SOrd) (A : Arith V Sz) (garbage1 garbage2 : nat -> V)
    (by_parent1 by_parent2 : list (crow V Sz) -> list (crow V Sz)) (st : settings V Sz) (n : nat) (M : list (edge W)) (ws : list Sz),
  setting_ok lam LA A by_parent1 st -> sorts_by_parent by_parent2 -> spanning_tree n M -> 2 <= n ->
  length ws = n -> sle (s := Sz) szero sone = true -> (forall w, In w ws -> slt w (min_cluster_size st) = true) ->
  clusters_from_spanning_tree_weighted lam LA A garbage1 by_parent1 st M ws = clusters_from_spanning_tree_weighted lam LA A garbage2 by_parent2 st M ws.
Proof. exact @weighted_same. Qed.
Print Assumptions C54_weighted_result_is_determined.

Theorem C54_labelled_result_is_determined :
  forall (W V : WOrd) (lam : W -> V) (LA : LamArith V) (A : Arith V NatSize) (B : BArith) (N : bscore B -> Prop) (garbage1 garbage2 : nat -> V)
    (by_parent1 by_parent2 : list (crow V NatSize) -> list (crow V NatSize)) (listed : list nat -> list nat) (st : settings V NatSize)
    (data_labels : list Z) (virtual : bool) (n : nat) (M : list (edge W)),
  setting_ok lam LA A by_parent1 st -> sorts_by_parent by_parent2 -> BLaws B N -> (forall l, Permutation (listed l) l) -> length data_labels = n ->
  leaves_ok A (la_zero LA) n (fun _ => 1) (min_cluster_size st) -> spanning_tree n M -> 2 <= n ->
  semi_clusters_from_spanning_tree lam LA A B garbage1 by_parent1 listed st data_labels virtual M =
  semi_clusters_from_spanning_tree lam LA A B garbage2 by_parent2 listed st data_labels virtual M.
Proof. exact @semi_same. Qed.
Print Assumptions C54_labelled_result_is_determined.

(** C55.  Distances and epsilon multiplied by c > 0 and the persistence threshold
    (a density) divided by c: the same labels and strengths, and the same tree
    with densities divided by c; a failure stays the same failure. *)
Theorem C55_units_do_not_matter :
  forall c : Qc, (0 < c)%Qc ->
  forall (garbage garbage' : nat -> QInf) (by_parent by_parent' : list (crow QInf NatSize) -> list (crow QInf NatSize))
    (mcs : nat) (m : selection_method) (allow_single : bool) (epsilon persistence : Qc) (n : nat) (M : list (edge QInf)),
  sorts_by_parent by_parent -> sorts_by_parent by_parent' -> 2 <= mcs -> spanning_tree n M -> 2 <= n ->
  exact_clusters garbage' by_parent' (exact_settings (Sz := NatSize) mcs m allow_single (c * epsilon)%Qc (/ c * persistence)%Qc) (map (map_edge (scale c)) M) =
  map_ok (map_run (scale (/ c)) (fun strength => strength))
    (exact_clusters garbage by_parent (exact_settings (Sz := NatSize) mcs m allow_single epsilon persistence) M).
Proof. exact plain_scale. Qed.
Print Assumptions C55_units_do_not_matter.

(** C55 with sample weights. *)
Theorem C55_weighted_units_do_not_matter :
  forall c : Qc, (0 < c)%Qc ->
  forall (Sz : SOrd) (to_q : Sz -> Qc) (garbage garbage' : nat -> QInf) (by_parent by_parent' : list (crow QInf Sz) -> list (crow QInf Sz))
    (mcs : Sz) (m : selection_method) (allow_single : bool) (epsilon persistence : Qc) (n : nat) (M : list (edge QInf)) (ws : list Sz),
  sorts_by_parent by_parent -> sorts_by_parent by_parent' -> slt sone mcs = true -> spanning_tree n M -> 2 <= n ->
  length ws = n -> sle (s := Sz) szero sone = true -> (forall w, In w ws -> slt w mcs = true) ->
  clusters_from_spanning_tree_weighted hdbscan_lambda_value ExactLam (ExactArith Sz to_q) garbage' by_parent'
    (exact_settings mcs m allow_single (c * epsilon)%Qc (/ c * persistence)%Qc) (map (map_edge (scale c)) M) ws =
  map_ok (map_run (scale (/ c)) (fun strength => strength))
    (clusters_from_spanning_tree_weighted hdbscan_lambda_value ExactLam (ExactArith Sz to_q) garbage by_parent
      (exact_settings mcs m allow_single epsilon persistence) M ws).
Proof. exact @weighted_scale. Qed.
Print Assumptions C55_weighted_units_do_not_matter.

(** C55 from distances to labels, exhaustively, with every accepted form of
    cannot-link constraints: in other units the run selects the same neighbours,
    multiplies the core distances and ends with the same labels and strengths. *)
Theorem C55_units_do_not_matter_from_distances :
  forall c : Qc, (0 < c)%Qc ->
  forall (D : nat -> nat -> QInf) (n min_samples : nat) (X : option sparse) (groups : option (list Z)) (garbage garbage' : nat -> QInf)
    (by_parent by_parent' : list (crow QInf NatSize) -> list (crow QInf NatSize))
    (mcs : nat) (m : selection_method) (allow_single : bool) (epsilon persistence : Qc),
  sorts_by_parent by_parent -> sorts_by_parent by_parent' -> 2 <= mcs -> 2 <= n -> valid_constraints n X groups ->
  exists cl M M' nbrs core, resolve_cl_params n X true groups = Ok cl /\
    kruskal_mst_brute (Some 0%Qc : QInf) D n min_samples cl = Ok (M, nbrs, core) /\
    kruskal_mst_brute (Some 0%Qc : QInf) (fun i j => scale c (D i j)) n min_samples cl = Ok (M', nbrs, map (scale c) core) /\
    exact_clusters garbage' by_parent' (exact_settings (Sz := NatSize) mcs m allow_single (c * epsilon)%Qc (/ c * persistence)%Qc) M' =
    map_ok (map_run (scale (/ c)) (fun strength => strength))
      (exact_clusters garbage by_parent (exact_settings (Sz := NatSize) mcs m allow_single epsilon persistence) M).
Proof. exact brute_scale. Qed.
Print Assumptions C55_units_do_not_matter_from_distances.

(** C55 for the clustering at a fixed distance (DBSCAN). *)
Theorem C55_units_do_not_matter_at_a_cut :
  forall c : Qc, (0 < c)%Qc -> forall (Sz : SOrd) (L : list (lrow QInf Sz)) (epsilon : QInf) (mcs : nat),
  get_cluster_labelling_at_cut (map (map_lrow (scale c)) L) (scale c epsilon) mcs = get_cluster_labelling_at_cut L epsilon mcs.
Proof. exact @cut_scale. Qed.
Print Assumptions C55_units_do_not_matter_at_a_cut.

(** C56.  Leaf clusters, with or without epsilon: a change of the distances that
    keeps their order, zero and infinity (and moves epsilon with them) gives the
    same labels and the same tree up to its densities. *)
Theorem C56_leaf_clusters_depend_on_order_only :
  forall f : QInf -> QInf, (forall x y, wle (f x) (f y) = wle x y) -> f (Some 0%Qc) = Some 0%Qc -> f winf = winf ->
  forall (garbage garbage' : nat -> QInf) (by_parent by_parent' : list (crow QInf NatSize) -> list (crow QInf NatSize))
    (mcs : nat) (allow_single allow_single' : bool) (epsilon epsilon' : Qc) (n : nat) (M : list (edge QInf)),
  sorts_by_parent by_parent -> sorts_by_parent by_parent' -> 2 <= mcs -> spanning_tree n M -> 2 <= n -> f (Some epsilon) = Some epsilon' ->
  exists ls ps T ps',
    exact_clusters garbage by_parent (exact_settings (Sz := NatSize) mcs Leaf allow_single epsilon 0%Qc) M = Ok (ls, ps, T) /\
    exact_clusters garbage' by_parent' (exact_settings (Sz := NatSize) mcs Leaf allow_single' epsilon' 0%Qc) (map (map_edge f) M) =
      Ok (ls, ps', map (map_crow (dens f)) T).
Proof. exact leaf_same. Qed.
Print Assumptions C56_leaf_clusters_depend_on_order_only.

Theorem C56_leaf_clusters_from_distances :
  forall f : QInf -> QInf, (forall x y, wle (f x) (f y) = wle x y) -> f (Some 0%Qc) = Some 0%Qc -> f winf = winf ->
  forall (garbage garbage' : nat -> QInf) (by_parent by_parent' : list (crow QInf NatSize) -> list (crow QInf NatSize))
    (mcs : nat) (allow_single allow_single' : bool) (epsilon epsilon' : Qc) (D : nat -> nat -> QInf) (n min_samples : nat)
    (X : option sparse) (groups : option (list Z)),
  sorts_by_parent by_parent -> sorts_by_parent by_parent' -> 2 <= mcs -> 2 <= n -> f (Some epsilon) = Some epsilon' -> valid_constraints n X groups ->
  exists cl M M' nbrs core ls ps T ps' T', resolve_cl_params n X true groups = Ok cl /\
    kruskal_mst_brute (Some 0%Qc : QInf) D n min_samples cl = Ok (M, nbrs, core) /\
    kruskal_mst_brute (Some 0%Qc : QInf) (fun i j => f (D i j)) n min_samples cl = Ok (M', nbrs, map f core) /\
    exact_clusters garbage by_parent (exact_settings (Sz := NatSize) mcs Leaf allow_single epsilon 0%Qc) M = Ok (ls, ps, T) /\
    exact_clusters garbage' by_parent' (exact_settings (Sz := NatSize) mcs Leaf allow_single' epsilon' 0%Qc) M' = Ok (ls, ps', T').
Proof. exact leaf_brute. Qed.
Print Assumptions C56_leaf_clusters_from_distances.

(** Excess of mass does not have this property: a change that keeps the order of
    all distances splits a reported cluster. *)
Theorem C56_not_for_excess_of_mass : exists (f : QInf -> QInf) D M nbrs core ls ps T M' nbrs' core' ls' ps' T',
  (forall x y, wle (f x) (f y) = wle x y) /\ f (Some 0%Qc) = Some 0%Qc /\ f None = None /\
  kruskal_mst_brute (Some 0%Qc : QInf) D 8 1 CLNone = Ok (M, nbrs, core) /\
  kruskal_mst_brute (Some 0%Qc : QInf) (fun i j => f (D i j)) 8 1 CLNone = Ok (M', nbrs', core') /\
  exact_clusters (fun _ => None) by_parent_of (exact_settings (Sz := NatSize) 2 Eom false 0%Qc 0%Qc) M = Ok (ls, ps, T) /\
  exact_clusters (fun _ => None) by_parent_of (exact_settings (Sz := NatSize) 2 Eom false 0%Qc 0%Qc) M' = Ok (ls', ps', T') /\
  nth 0 ls 0%Z = nth 2 ls 0%Z /\ nth 0 ls' 0%Z <> nth 2 ls' 0%Z.
Proof. exact eom_changes. Qed.
Print Assumptions C56_not_for_excess_of_mass.

(** ** Examples *)

(** Two sorting functions that treat ties differently, on rows of a tree with ties. *)
Definition ties : list (crow QInf NatSize) :=
  [{| c_parent := 9; c_child := 3; c_lam := q 1; c_size := 1 |}; {| c_parent := 8; c_child := 9; c_lam := q 2; c_size := 2 |}; {| c_parent := 8; c_child := 10; c_lam := q 2; c_size := 2 |}].
Example C54_example_sorts : map c_child (stable_by ties) <> map c_child (stable_by (rev ties)) /\ sorts_by_parent (Sz := NatSize) stable_by.
Proof. split; [vm_compute; discriminate|apply stable_sorts]. Qed.
(** Other garbage, persistence and epsilon in use: the same labels. *)
Definition run_from (g : nat -> QInf) (by_parent : list (crow QInf NatSize) -> list (crow QInf NatSize)) (m : selection_method) (e p c : Qc) : option (list Z * list (option Q)) :=
  match kruskal_mst_brute (Some 0%Qc : QInf) (fun i j => scale c (line pairs_and_group i j)) 8 1 CLNone with
  | Ok (M, _, _) =>
    match exact_clusters g by_parent (exact_settings (Sz := NatSize) 2 m false e p) M with
    | Ok (ls, ps, _) => Some (ls, map (fun s : QInf => option_map this (s : option Qc)) ps)
    | Err _ => None
    end
  | Err _ => None
  end.
Example C54_example_run :
  run_from (fun _ => None) by_parent_of Leaf (Q2Qc 6) (Q2Qc (1 # 100)) 1%Qc = run_from (fun i => q (Z.of_nat i)) (fun l => stable_by (rev l)) Leaf (Q2Qc 6) (Q2Qc (1 # 100)) 1%Qc /\
  option_map fst (run_from (fun _ => None) by_parent_of Leaf (Q2Qc 6) (Q2Qc (1 # 100)) 1%Qc) = Some [2; 2; 1; 1; 0; 0; 0; 0]%Z.
Proof. split; vm_compute; reflexivity. Qed.
(** Kilometres or metres. *)
Example C55_example_units :
  run_from (fun _ => None) by_parent_of Leaf (Q2Qc 6) (Q2Qc (1 # 100)) 1%Qc =
  run_from (fun _ => None) by_parent_of Leaf (Q2Qc 6000) (Q2Qc (1 # 100000)) (Q2Qc 1000).
Proof. vm_compute. reflexivity. Qed.
Example C55_example_epsilon_must_follow :
  option_map fst (run_from (fun _ => None) by_parent_of Leaf (Q2Qc 6) 0%Qc (Q2Qc 1000)) = Some [1; 1; 0; 0; 3; 3; 2; 2]%Z.
Proof. vm_compute. reflexivity. Qed.
(** The change of distances used against excess of mass keeps the leaf clusters. *)
Example C56_example_leaf :
  run_labels (run_on Leaf 0%Qc 0%Qc (line pairs_and_group)) = run_labels (run_on Leaf 0%Qc 0%Qc (fun i j => bent (Q2Qc 4) (line pairs_and_group i j))) /\
  run_labels (run_on Leaf 0%Qc 0%Qc (line pairs_and_group)) = Some [1; 1; 0; 0; 3; 3; 2; 2]%Z.
Proof. split; vm_compute; reflexivity. Qed.
