(** C83: data sets far from each other are clustered independently. *)
From Coq Require Import List Arith Lia Bool ZArith Permutation QArith Qcanon.
From Verif Require Import Prelude Order Graph Size Num S_Kruskal M_Kruskal M_KruskalEntry M_Linkage M_Condense S_Condense M_Select M_Labels P_LabelsEx
  M_Pipeline S_Pipeline P_PipelineEx M_Estimator S_Estimator P_EstimatorEx P_Sort S_Dbscan P_EpsilonTop S_Unique S_Join P_UniqueEx S_Far P_FarTop P_SplitEx
  Properties_SpaceTree Properties_Dbscan Properties_Level.
Import ListNotations.
Local Open Scope nat_scope.

(** Let each of two data sets be density-connected at a distance g, and let them be
    at least g apart.  With 'leaf', no cluster_selection_epsilon, no persistence
    threshold and no ties, a fit of both together puts no rows of different sets in
    one cluster, and clusters each set as a fit of it alone does; a set in which
    that fit finds no clusters becomes one cluster. *)
Theorem C83_far_data_sets :
  forall (W V : WOrd) (Row : Type) (lam : W -> V) (LA : LamArith V) (garbage : nat -> V) (zero : W) (dist : Row -> Row -> W) (min_samples : nat)
    (finite : Row -> bool) (set_list : list nat -> list nat) (X Y : list Row) (A : Arith V NatSize)
    (by_parent : list (crow V NatSize) -> list (crow V NatSize)) (st : settings V NatSize) (g : W),
  (forall l, Permutation (set_list l) l) -> setting_ok lam LA A by_parent st ->
  (forall a b, dist a b = dist b a) -> (forall a b, wle (dist a a) (dist a b) = true) -> (forall a b, wle zero (dist a b) = true) ->
  forallb finite (X ++ Y) = true ->
  cluster_selection_persistence st = None -> cluster_selection_epsilon st = None -> cluster_selection_method st = Leaf ->
  (forall a b, In a (X ++ Y) -> In b (X ++ Y) -> wlt (la_zero LA) (lam (dist a b)) = true) ->
  min_cluster_size st <= length X /\ min_samples < length X -> min_cluster_size st <= length Y /\ min_samples < length Y ->
  (forall Z M, In Z [X; Y; X ++ Y] -> pairs_mst zero dist min_samples Z = Ok M -> distinct_weights M) ->
  whole (row_distance finite dist X) (length X) min_samples g -> whole (row_distance finite dist Y) (length Y) min_samples g ->
  (forall a b, In a X -> In b Y -> wle g (dist a b) = true) ->
  let run Z := fit (la_zero LA) finite set_list (fast_hdbscan lam LA garbage (pairs_mst zero dist min_samples) A by_parent st) Z in
  let place_x := fun i => i in let place_y := fun j => length X + j in
  forall r rx ry, run (X ++ Y) = Ok r -> run X = Ok rx -> run Y = Ok ry ->
  separate (length X) place_x (length Y) place_y (f_labels r) /\
  ((exists i, i < length X /\ nth i (f_labels rx) 0%Z <> (-1)%Z) -> same_clusters_at (length X) place_x (f_labels rx) (f_labels r)) /\
  ((forall i, i < length X -> nth i (f_labels rx) 0%Z = (-1)%Z) -> one_cluster_at (length X) place_x (f_labels r)) /\
  ((exists j, j < length Y /\ nth j (f_labels ry) 0%Z <> (-1)%Z) -> same_clusters_at (length Y) place_y (f_labels ry) (f_labels r)) /\
  ((forall j, j < length Y -> nth j (f_labels ry) 0%Z = (-1)%Z) -> one_cluster_at (length Y) place_y (f_labels r)).
Proof. exact @far_fits. Qed.
Print Assumptions C83_far_data_sets.

(** ** Examples *)
Definition near_rows : list (option Z) := map Some [0; 1; 10; 12]%Z.
Definition far_rows : list (option Z) := map Some [100; 103; 107; 112]%Z.
(** The first set has two clusters, the second none; together they have three. *)
Example C83_example : exists rx ry r,
  level_line 2 Leaf false 0 1 near_rows = Ok rx /\ level_line 2 Leaf false 0 1 far_rows = Ok ry /\ level_line 2 Leaf false 0 1 (near_rows ++ far_rows) = Ok r /\
  f_labels rx = [1; 1; 0; 0]%Z /\ f_labels ry = [-1; -1; -1; -1]%Z /\ f_labels r = [2; 2; 1; 1; 0; 0; 0; 0]%Z.
Proof. do 3 eexists. do 3 (split; [vm_compute; reflexivity|]). repeat split; vm_compute; reflexivity. Qed.
Example C83_example_hypotheses :
  let g : QInf := Some (Q2Qc (inject_Z 50)) in
  forallb present (near_rows ++ far_rows) = true /\
  whole (row_distance present line_dist near_rows) 4 1 g /\ whole (row_distance present line_dist far_rows) 4 1 g /\
  (forall a b, In a near_rows -> In b far_rows -> wle g (line_dist a b) = true) /\
  (forall a b, In a (near_rows ++ far_rows) -> In b (near_rows ++ far_rows) ->
     wlt (W := QInf) (la_zero ExactLam) (hdbscan_lambda_value (line_dist a b)) = true) /\
  (forall Z, In Z [near_rows; far_rows; near_rows ++ far_rows] -> exists M, pairs_mst (W := QInf) (Some 0%Qc) line_dist 1 Z = Ok M /\ distinct_weights M).
Proof.
  cbv zeta. assert (HW : forall Z, forallb (fun i => forallb (fun j => wlt (row_distance present line_dist Z i j) (Some (Q2Qc (inject_Z 50)) : QInf)) (seq 0 4)) (seq 0 4) = true ->
    whole (row_distance present line_dist Z) 4 1 (Some (Q2Qc (inject_Z 50)) : QInf)).
  { intros Z K i j Hi Hj. rewrite forallb_forall in K. specialize (K i ltac:(apply in_seq; lia)). rewrite forallb_forall in K. specialize (K j ltac:(apply in_seq; lia)).
    eapply dc_next; [apply dc_self|exact Hi|exact Hj|left; lia|left; lia|exact K]. }
  split; [reflexivity|]. split; [apply HW; vm_compute; reflexivity|]. split; [apply HW; vm_compute; reflexivity|].
  split; [|split].
  - intros a b Ha Hb. assert (K : forallb (fun a => forallb (fun b => wle (Some (Q2Qc (inject_Z 50)) : QInf) (line_dist a b)) far_rows) near_rows = true) by (vm_compute; reflexivity).
    rewrite forallb_forall in K. specialize (K a Ha). rewrite forallb_forall in K. exact (K b Hb).
  - intros a b Ha Hb. assert (K : forallb (fun a => forallb (fun b => wlt (W := QInf) (la_zero ExactLam) (hdbscan_lambda_value (line_dist a b))) (near_rows ++ far_rows)) (near_rows ++ far_rows) = true) by (vm_compute; reflexivity).
    rewrite forallb_forall in K. specialize (K a Ha). rewrite forallb_forall in K. exact (K b Hb).
  - intros Z [<-|[<-|[<-|[]]]]; eexists; (split; [vm_compute; reflexivity|]); apply distinct_by; vm_compute; reflexivity.
Qed.

(** ** Finding *)

(** With 'eom' rows far away can join two clusters: alone, the first four rows are
    two clusters; with four other rows far from them, they are one. *)
Theorem C83_excess_of_mass_refuted :
  exists rx r, level_line 2 Eom false 0 1 (map Some [0; 10; 22; 33]%Z) = Ok rx /\
    level_line 2 Eom false 0 1 (map Some [0; 10; 22; 33; 1000; 1013; 1027; 1042]%Z) = Ok r /\
    f_labels rx = [1; 1; 0; 0]%Z /\ f_labels r = [1; 1; 1; 1; 0; 0; 0; 0]%Z.
Proof. do 2 eexists. do 2 (split; [vm_compute; reflexivity|]). split; vm_compute; reflexivity. Qed.
Print Assumptions C83_excess_of_mass_refuted.
