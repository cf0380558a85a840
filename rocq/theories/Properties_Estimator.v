(** C32, C33: the estimator on data with missing values, and its parameters. *)
From Coq Require Import List Arith Bool ZArith Permutation QArith Qcanon.
From Verif Require Import Prelude Order Graph Size Num S_Kruskal M_Kruskal M_KruskalEntry M_Linkage S_Linkage M_Condense S_Condense
  M_Select M_Labels M_Pipeline S_Pipeline M_Estimator S_Estimator P_Estimator P_EstimatorEx M_Dispatch S_Dispatch P_Dispatch P_ClParams.
Import ListNotations.
Local Open Scope nat_scope.

(** C32.  With at least three finite rows, [fit] on all rows gives the result for
    the finite rows; the others are noise of strength zero, and the trees cover
    all rows (see [extends]).  [run] is the whole algorithm on the finite rows; it
    can only fail because of a persistence threshold (see C44). *)
Theorem C32_other_rows_are_noise :
  forall (W V : WOrd) (Row : Type) (lam : W -> V) (LA : LamArith V) (garbage : nat -> V)
         (mst_of : list Row -> res (list (edge W))) (finite : Row -> bool) (set_list : list nat -> list nat) (X : list Row),
  (forall l, Permutation (set_list l) l) -> forallb finite X = false -> 3 <= length (filter finite X) ->
  forall (A : Arith V NatSize) (by_parent : list (crow V NatSize) -> list (crow V NatSize)) (st : settings V NatSize) (M : list (edge W)),
  setting_ok lam LA A by_parent st -> mst_of (filter finite X) = Ok M -> spanning_tree (length (filter finite X)) M ->
  let run := fast_hdbscan lam LA garbage mst_of A by_parent st in
  (exists r0 r pos others,
     run (filter finite X) = Ok r0 /\ fit (la_zero LA) finite set_list run X = Ok r /\
     f_mst r0 = sort_mst M /\ other_rows finite X others /\ places finite X pos /\
     extends (Sz := NatSize) (la_zero LA) finite X (fun _ => 1) (min_cluster_size st) r0 r pos others) \/
  (cluster_selection_persistence st <> None /\ fit (la_zero LA) finite set_list run X = Err IndexError).
Proof. exact @fit_plain. Qed.
Print Assumptions C32_other_rows_are_noise.

(** The same with sample weights. *)
Theorem C32_weighted_other_rows_are_noise :
  forall (W V : WOrd) (Row : Type) (lam : W -> V) (LA : LamArith V) (garbage : nat -> V)
         (mst_of : list Row -> res (list (edge W))) (finite : Row -> bool) (set_list : list nat -> list nat) (X : list Row),
  (forall l, Permutation (set_list l) l) -> forallb finite X = false -> 3 <= length (filter finite X) ->
  forall (Sz : SOrd) (weight : Row -> Sz) (A : Arith V Sz) (by_parent : list (crow V Sz) -> list (crow V Sz)) (st : settings V Sz) (M : list (edge W)),
  setting_ok lam LA A by_parent st -> mst_of (filter finite X) = Ok M -> spanning_tree (length (filter finite X)) M ->
  sle (s := Sz) szero sone = true -> (forall x, In x X -> finite x = true -> slt (weight x) (min_cluster_size st) = true) ->
  let run := fast_hdbscan_weighted lam LA garbage mst_of weight A by_parent st in
  (exists r0 r pos others,
     run (filter finite X) = Ok r0 /\ fit (la_zero LA) finite set_list run X = Ok r /\
     f_mst r0 = sort_mst M /\ other_rows finite X others /\ places finite X pos /\
     extends (la_zero LA) finite X (filled_weights finite X weight) (min_cluster_size st) r0 r pos others) \/
  (cluster_selection_persistence st <> None /\ fit (la_zero LA) finite set_list run X = Err IndexError).
Proof. exact @fit_weighted. Qed.
Print Assumptions C32_weighted_other_rows_are_noise.

(** Exact arithmetic, Kruskal on all pairs, no persistence threshold: always a
    result. *)
Theorem C32_exact_other_rows_are_noise :
  forall (Row : Type) (dist : Row -> Row -> QInf) (min_samples : nat) (garbage : nat -> QInf)
         (by_parent : list (crow QInf NatSize) -> list (crow QInf NatSize)) (mcs : nat) (m : selection_method) (allow_single : bool)
         (epsilon persistence : Qc) (finite : Row -> bool) (set_list : list nat -> list nat) (X : list Row),
  sorts_by_parent by_parent -> 2 <= mcs -> (persistence <= 0)%Qc -> (forall l, Permutation (set_list l) l) ->
  forallb finite X = false -> 3 <= length (filter finite X) ->
  let st := exact_settings (Sz := NatSize) mcs m allow_single epsilon persistence in
  exists r0 r pos others, exact_run dist min_samples garbage by_parent st (filter finite X) = Ok r0 /\
    fit (la_zero ExactLam) finite set_list (exact_run dist min_samples garbage by_parent st) X = Ok r /\
    other_rows finite X others /\ places finite X pos /\ spanning_tree (length (filter finite X)) (f_mst r0) /\
    extends (V := QInf) (Sz := NatSize) (la_zero ExactLam) finite X (fun _ => 1) mcs r0 r pos others.
Proof. exact @exact_fit. Qed.
Print Assumptions C32_exact_other_rows_are_noise.

(** Without such rows nothing is changed. *)
Theorem C32_finite_data_unchanged :
  forall (W V : WOrd) (Sz : SOrd) (Row : Type) (zero : V) (finite : Row -> bool) (set_list : list nat -> list nat)
         (run : list Row -> res (fitted W V Sz)) (X : list Row),
  (forall x, In x X -> finite x = true) -> fit zero finite set_list run X = run X.
Proof. exact @fit_all_finite. Qed.
Print Assumptions C32_finite_data_unchanged.

(** Rows 1 and 4 have missing values. *)
Example C32_example :
  shown (line_fit 2 [Some 0; None; Some 1; Some 10; None; Some 11]%Z) =
  Ok ([1; -1; 1; 0; -1; 0]%Z, [(2, 0, 2); (5, 3, 2); (7, 6, 4); (1, 8, 5); (4, 9, 6)]).
Proof. vm_compute. reflexivity. Qed.
Example C32_example_applies :
  forallb present [Some 0; None; Some 1; Some 10; None; Some 11]%Z = false /\
  length (filter present [Some 0; None; Some 1; Some 10; None; Some 11]%Z) = 4.
Proof. split; reflexivity. Qed.

(** Two finite rows: the reported tree is not a hierarchy of the rows. *)
Theorem C32_two_finite_rows_refuted :
  exists X r, length (filter present X) = 2 /\ line_fit 2 X = Ok r /\ ~ dendrogram (length X) (f_linkage r).
Proof. exact two_finite_rows. Qed.
Print Assumptions C32_two_finite_rows_refuted.

(** One finite row: alone it is clustered (as noise), with others [fit] fails. *)
Theorem C32_one_finite_row_refuted :
  exists X r, length (filter present X) = 1 /\ line_fit 2 (filter present X) = Ok r /\ line_fit 2 X = Err IndexError.
Proof. exact one_finite_row. Qed.
Print Assumptions C32_one_finite_row_refuted.

(** The spanning tree is not renumbered: it touches rows with missing values. *)
Theorem C32_spanning_tree_refuted :
  exists X r e, length (filter present X) = 4 /\ line_fit 2 X = Ok r /\ In e (f_mst r) /\ nth_error X (edst e) = Some None.
Proof. exact tree_not_renumbered. Qed.
Print Assumptions C32_spanning_tree_refuted.

(** C33.  With two rows or more a call passes all checks if and only if the rules
    about single parameters and about combinations are respected. *)
Theorem C33_accepted_iff_rules_hold :
  forall a : arguments, 2 <= a_rows a -> (exists p, dispatch a = Ok p) <-> values_ok a /\ combination_ok a.
Proof. exact dispatch_ok. Qed.
Print Assumptions C33_accepted_iff_rules_hold.

(** With fewer rows only the rules about single parameters and about the metric
    are checked. *)
Theorem C33_small_data :
  forall a : arguments, a_rows a < 2 -> dispatch a = Ok Degenerate <-> values_ok a /\ check_metric a = Ok tt.
Proof. exact dispatch_degenerate. Qed.
Print Assumptions C33_small_data.

(** Constraints reach Kruskal's algorithm exactly if the neighbour graph of the
    optional package is not used. *)
Theorem C33_constraints_reach_algorithm :
  forall (a : arguments) (p : plan), 2 <= a_rows a -> dispatch a = Ok p -> a_algorithm a = Kruskal ->
  (~ uses_neighbour_graph a -> exists cl,
     resolve_cl_params (a_rows a) (a_cannot_link a) (a_validate a) (a_groups a) = Ok cl /\ constraints_of p = Some cl) /\
  (uses_neighbour_graph a -> constraints_of p = None).
Proof. exact constraints_reach. Qed.
Print Assumptions C33_constraints_reach_algorithm.

(** Constraints are accepted exactly if they are not given in both forms, the
    matrix of pairs has a row and a column for every sample (unless this check is
    switched off), and there is one group number for every sample, -1 or more. *)
Theorem C33_constraints_accepted_exactly :
  forall n X validate groups,
  (exists cl, resolve_cl_params n X validate groups = Ok cl) <->
  (X = None \/ groups = None) /\
  (forall s, X = Some s -> validate = true -> sp_rows s = n /\ sp_cols s = n) /\
  (forall l, groups = Some l -> length l = n /\ forall g, In g l -> (-1 <= g)%Z).
Proof. exact constraints_accepted. Qed.
Print Assumptions C33_constraints_accepted_exactly.
Example C33_constraints_accepted_example :
  resolve_cl_params 3 None true (Some [0; -1; 0]%Z) = Ok (CLGroups [0; -1; 0]%Z 1) /\ resolve_cl_params 3 None true (Some [0; -2; 0]%Z) = Err ValueError /\ resolve_cl_params 3 None true (Some [0; 0]%Z) = Err ValueError.
Proof. repeat split. Qed.

(** The chosen plan is the requested one: sample weights, metric, algorithm and
    number of neighbours reach it; only the neighbour graph replaces it, exactly
    for other metrics and for more than 30 unweighted features. *)
Theorem C33_plan_follows_request :
  forall (a : arguments) (p : plan), 2 <= a_rows a -> dispatch a = Ok p -> follows_request a p.
Proof. exact plan_follows. Qed.
Print Assumptions C33_plan_follows_request.

Definition ex_arguments (features : nat) (weights : bool) (k : option nat) (groups : option (list Z)) : arguments :=
  {| a_rows := 4; a_features := features; a_metric := Euclidean; a_algorithm := Kruskal; a_weights := weights;
     a_semi_supervised := false; a_labels := false; a_ss_known := true; a_min_samples := PyNone; a_min_cluster_size := PyInt 5;
     a_epsilon := PyFloat false; a_persistence := PyFloat false; a_method := MEom; a_knn_k := k; a_cannot_link := None;
     a_validate := true; a_groups := groups; a_pynndescent := true |}.
Example C33_example_constraints :
  match dispatch (ex_arguments 2 false None (Some [0; 0; 1; -1]%Z)) with Ok (KruskalPairs (CLGroups _ k)) => Some k | _ => None end = Some 2.
Proof. vm_compute. reflexivity. Qed.
Example C33_example_weights :
  (dispatch (ex_arguments 2 true None None), dispatch (ex_arguments 40 true (Some 3) None)) = (Err NotImplementedError, Ok (KruskalNeighbours 3 true CLNone)).
Proof. vm_compute. reflexivity. Qed.
Example C33_example_groups_too_short : dispatch (ex_arguments 2 false None (Some [0; 0; 1]%Z)) = Err ValueError.
Proof. vm_compute. reflexivity. Qed.

(** Constraints are silently dropped. *)
Theorem C33_constraints_dropped_refuted :
  exists a p, 2 <= a_rows a /\ constrained a /\ dispatch a = Ok p /\ constraints_of p = None.
Proof.
  exists (ex_arguments 31 false None (Some [0; 0; 1; -1]%Z)), NeighbourGraph.
  split; [repeat constructor|]. split; [right; discriminate|]. split; reflexivity.
Qed.
Print Assumptions C33_constraints_dropped_refuted.
