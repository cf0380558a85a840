(** C73: cannot-link constraints on data with missing rows. *)
From Coq Require Import List Arith Lia Bool ZArith Permutation QArith Qcanon.
From Verif Require Import Prelude Order Graph Size Num S_Kruskal M_Kruskal M_KruskalEntry M_Linkage M_Condense M_Select S_Select P_EomValue M_Labels M_Pipeline S_Pipeline
  P_PipelineEx P_EpsilonTop P_LabelsEx M_Estimator S_Estimator P_EstimatorEx M_Constrained P_Constrained.
Import ListNotations.
Local Open Scope nat_scope.

(** Constraints that number the finite rows: the fit succeeds, and two rows that
    must not be together are not in one cluster. *)
Theorem C73_constraints_of_the_finite_rows :
  forall (W V : WOrd) (Row : Type) (lam : W -> V) (LA : LamArith V) (garbage : nat -> V) (zero : W) (dist : Row -> Row -> W) (min_samples : nat)
    (finite : Row -> bool) (set_list : list nat -> list nat) (A : Arith V NatSize) (by_parent : list (crow V NatSize) -> list (crow V NatSize))
    (st : settings V NatSize) (X : list Row) (pairs : option sparse) (groups : option (list Z)) (Z0 N P : num A -> Prop),
  (forall l, Permutation (set_list l) l) -> setting_ok lam LA A by_parent st -> ScoreLaws lam A (la_zero LA) Z0 N P ->
  cluster_selection_persistence st = None -> wlt (la_zero LA) (lam winf) = false ->
  (if forallb finite X then 2 else 3) <= length (filter finite X) -> valid_constraints (length (filter finite X)) pairs groups ->
  let run := fast_hdbscan lam LA garbage (constrained_mst (brute_tree zero dist min_samples) pairs true groups) A by_parent st in
  exists r, fit (la_zero LA) finite set_list run X = Ok r /\ length (f_labels r) = length X /\
    forall pos, places finite X pos -> forall i j, i < length (filter finite X) -> j < length (filter finite X) ->
    user_constraints (option_map sp_entries pairs) groups i j ->
    nth (pos i) (f_labels r) 0%Z = nth (pos j) (f_labels r) 0%Z -> nth (pos i) (f_labels r) 0%Z = (-1)%Z.
Proof.
  exact (fun W V Row lam LA garbage zero dist ms finite set_list A by_parent st X pairs groups Z0 N P Hs HK HS Hp Hi Hn HV =>
    constraints_respected lam LA garbage finite set_list (brute_tree zero dist ms) A by_parent st X Hs HK pairs groups Z0 N P HS Hp Hi Hn HV
      (brute_respects zero dist ms (filter finite X) (at_least_one finite X Hn))).
Qed.
Print Assumptions C73_constraints_of_the_finite_rows.

(** The same for the nearest neighbour variant, given any answer of the
    neighbour query that names rows of the data. *)
Theorem C73_constraints_of_the_finite_rows_knn :
  forall (W V : WOrd) (Row : Type) (lam : W -> V) (LA : LamArith V) (garbage : nat -> V) (zero : W)
    (query : list Row -> nat -> list (list (option nat * W))) (min_samples knn_k : nat)
    (finite : Row -> bool) (set_list : list nat -> list nat) (A : Arith V NatSize) (by_parent : list (crow V NatSize) -> list (crow V NatSize))
    (st : settings V NatSize) (X : list Row) (pairs : option sparse) (groups : option (list Z)) (Z0 N P : num A -> Prop),
  (forall l, Permutation (set_list l) l) -> setting_ok lam LA A by_parent st -> ScoreLaws lam A (la_zero LA) Z0 N P ->
  cluster_selection_persistence st = None -> wlt (la_zero LA) (lam winf) = false ->
  (if forallb finite X then 2 else 3) <= length (filter finite X) -> valid_constraints (length (filter finite X)) pairs groups ->
  let k := if 1 <? min_samples then Nat.max knn_k min_samples + 1 else knn_k + 1 in
  length (query (filter finite X) k) = length (filter finite X) ->
  (forall row j d, In row (query (filter finite X) k) -> In (Some j, d) row -> j < length (filter finite X)) ->
  let run := fast_hdbscan lam LA garbage (constrained_mst (knn_tree zero query min_samples knn_k) pairs true groups) A by_parent st in
  exists r, fit (la_zero LA) finite set_list run X = Ok r /\ length (f_labels r) = length X /\
    forall pos, places finite X pos -> forall i j, i < length (filter finite X) -> j < length (filter finite X) ->
    user_constraints (option_map sp_entries pairs) groups i j ->
    nth (pos i) (f_labels r) 0%Z = nth (pos j) (f_labels r) 0%Z -> nth (pos i) (f_labels r) 0%Z = (-1)%Z.
Proof.
  exact (fun W V Row lam LA garbage zero query ms knn_k finite set_list A by_parent st X pairs groups Z0 N P Hs HK HS Hp Hi Hn HV HL Hr =>
    constraints_respected lam LA garbage finite set_list (knn_tree zero query ms knn_k) A by_parent st X Hs HK pairs groups Z0 N P HS Hp Hi Hn HV
      (knn_respects zero query ms knn_k (filter finite X) (at_least_one finite X Hn) HL Hr)).
Qed.
Print Assumptions C73_constraints_of_the_finite_rows_knn.

(** Constraints that number all rows, the missing ones included, are always
    rejected when a row is missing. *)
Theorem C73_constraints_of_all_rows_raise :
  forall (W V : WOrd) (Row : Type) (lam : W -> V) (LA : LamArith V) (garbage : nat -> V) (finite : Row -> bool) (set_list : list nat -> list nat)
    (tree_of : cl_params -> list Row -> res (list (edge W))) (A : Arith V NatSize) (by_parent : list (crow V NatSize) -> list (crow V NatSize))
    (st : settings V NatSize) (X : list Row) (pairs : option sparse) (groups : option (list Z)),
  forallb finite X = false -> 2 <= length (filter finite X) -> valid_constraints (length X) pairs groups -> (pairs <> None \/ groups <> None) ->
  fit (la_zero LA) finite set_list (fast_hdbscan lam LA garbage (constrained_mst tree_of pairs true groups) A by_parent st) X = Err ValueError.
Proof. exact @constraints_of_all_rows. Qed.
Print Assumptions C73_constraints_of_all_rows_raise.

(** Without validation such constraints are applied to other rows: two rows that
    must not be together end in one cluster. *)
Theorem C73_unvalidated_constraints_refuted : exists X pairs r x y,
  sp_rows pairs = length X /\ sp_cols pairs = length X /\ (forall i j v, In (i, j, v) (sp_entries pairs) -> In (j, i, v) (sp_entries pairs)) /\
  user_constraints (Some (sp_entries pairs)) None x y /\ present (nth x X None) = true /\ present (nth y X None) = true /\
  line_constrained 2 (Some pairs) false None X = Ok r /\ nth x (f_labels r) 0%Z = nth y (f_labels r) 0%Z /\ nth x (f_labels r) 0%Z <> (-1)%Z.
Proof. exact unvalidated_misplaced. Qed.
Print Assumptions C73_unvalidated_constraints_refuted.

(** Nine rows on a line, the first one missing; 0 | 1 3 4 | 20 21 | 23 24 when the
    rows with values 0 and 1 must not be together. *)
Example C73_example_pairs : labels_of (line_constrained 2 (Some finite_rows_pairs) true None line_rows) = Ok [-1; -1; 0; 0; 0; 2; 2; 1; 1]%Z.
Proof. vm_compute. reflexivity. Qed.
Example C73_example_groups : labels_of (line_constrained 2 None true (Some finite_rows_groups) line_rows) = Ok [-1; 1; 0; 0; 0; 1; 1; 1; 0]%Z.
Proof. vm_compute. reflexivity. Qed.
Example C73_example_unconstrained : labels_of (line_constrained 2 None true None line_rows) = Ok [-1; 3; 3; 2; 2; 1; 1; 0; 0]%Z.
Proof. vm_compute. reflexivity. Qed.
Example C73_example_all_rows : labels_of (line_constrained 2 (Some all_rows_pairs) true None line_rows) = Err ValueError.
Proof. vm_compute. reflexivity. Qed.

(** The hypotheses hold for these rows. *)
Example C73_example_hypotheses :
  forallb present line_rows = false /\ length (filter present line_rows) = 8 /\
  valid_constraints 8 (Some finite_rows_pairs) None /\ valid_constraints 8 None (Some finite_rows_groups) /\ valid_constraints 9 (Some all_rows_pairs) None /\
  user_constraints (Some (sp_entries finite_rows_pairs)) None 0 1 /\ places present line_rows S /\
  let st := exact_settings (Sz := NatSize) 2 Eom false 0%Qc 0%Qc in
  setting_ok hdbscan_lambda_value ExactLam (ExactArith NatSize nat_as_q) by_parent_of st /\ cluster_selection_persistence st = None /\
  wlt (la_zero ExactLam) (hdbscan_lambda_value (winf (w := QInf))) = false /\
  exists Z0 N P, ScoreLaws hdbscan_lambda_value (ExactArith NatSize nat_as_q) (la_zero ExactLam) Z0 N P.
Proof. exact constrained_hypotheses. Qed.
