(** C69: identical samples. *)
From Coq Require Import List Arith Lia Bool ZArith Permutation QArith Qcanon.
From Verif Require Import Prelude Order Graph Size Num S_Kruskal M_Kruskal M_KruskalEntry M_Linkage M_Condense S_Condense M_Select M_Labels P_LabelsEx
  M_Pipeline S_Pipeline P_PipelineEx M_TreeQuery M_Boruvka S_SpaceTree S_Boruvka M_Estimator S_Estimator P_EstimatorEx P_Sort S_Dbscan P_EpsilonTop S_Level S_Join P_JoinTop P_Twins
  Properties_SpaceTree Properties_Dbscan Properties_Level.
Import ListNotations.
Local Open Scope nat_scope.

(** Cutting a fit at a distance gives identical samples the same label.  The
    distance must exceed that of a sample to itself if min_samples is below two. *)
Theorem C69_identical_samples_cut :
  forall (W V : WOrd) (Row : Type) (lam : W -> V) (LA : LamArith V) (garbage : nat -> V) (zero : W) (dist : Row -> Row -> W) (min_samples : nat)
    (finite : Row -> bool) (set_list : list nat -> list nat) (X : list Row) (A : Arith V NatSize)
    (by_parent : list (crow V NatSize) -> list (crow V NatSize)) (st : settings V NatSize) r,
  (forall l, Permutation (set_list l) l) -> setting_ok lam LA A by_parent st ->
  (forall a b, dist a b = dist b a) -> (forall a b, wle (dist a a) (dist a b) = true) -> (forall a b, wle zero (dist a b) = true) ->
  (if forallb finite X then 2 else 3) <= length (filter finite X) ->
  fit (la_zero LA) finite set_list (fast_hdbscan lam LA garbage (pairs_mst zero dist min_samples) A by_parent st) X = Ok r ->
  forall (a : Row) (p q : nat), nth_error X p = Some a -> nth_error X q = Some a -> finite a = true ->
  forall eps labels, dbscan_clustering r eps min_samples = Ok labels -> 2 <= min_samples \/ wlt (dist a a) eps = true ->
  nth p labels (-2)%Z = nth q labels (-2)%Z.
Proof. exact @twins_cut. Qed.
Print Assumptions C69_identical_samples_cut.

(** Identical samples leave the hierarchy at the same density. *)
Theorem C69_identical_samples_leave_together :
  forall (W V : WOrd) (Row : Type) (lam : W -> V) (LA : LamArith V) (garbage : nat -> V) (zero : W) (dist : Row -> Row -> W) (min_samples : nat)
    (finite : Row -> bool) (set_list : list nat -> list nat) (X : list Row) (A : Arith V NatSize)
    (by_parent : list (crow V NatSize) -> list (crow V NatSize)) (st : settings V NatSize) r,
  (forall l, Permutation (set_list l) l) -> setting_ok lam LA A by_parent st ->
  (forall a b, dist a b = dist b a) -> (forall a b, wle (dist a a) (dist a b) = true) -> (forall a b, wle zero (dist a b) = true) ->
  (if forallb finite X then 2 else 3) <= length (filter finite X) ->
  fit (la_zero LA) finite set_list (fast_hdbscan lam LA garbage (pairs_mst zero dist min_samples) A by_parent st) X = Ok r ->
  forall (a : Row) (p q : nat), nth_error X p = Some a -> nth_error X q = Some a -> finite a = true ->
  min_cluster_size st <= length (filter finite X) -> cluster_selection_persistence st = None ->
  forall u v, In u (f_condensed r) -> In v (f_condensed r) -> c_child u = p -> c_child v = q ->
  wle (c_lam u) (c_lam v) = true /\ wle (c_lam v) (c_lam u) = true.
Proof. exact @twins_density. Qed.
Print Assumptions C69_identical_samples_leave_together.

(** Identical samples can be reported with different labels only at a tie: the
    cluster of the labelled one is a dense group at a distance [d] (see C67) at
    which that sample itself is not a core sample, so that it joins the cluster
    just at the distance at which the cluster joins others. *)
Theorem C69_identical_samples_apart :
  forall (W V : WOrd) (Row : Type) (lam : W -> V) (LA : LamArith V) (garbage : nat -> V) (zero : W) (dist : Row -> Row -> W) (min_samples : nat)
    (finite : Row -> bool) (set_list : list nat -> list nat) (X : list Row) (A : Arith V NatSize)
    (by_parent : list (crow V NatSize) -> list (crow V NatSize)) (st : settings V NatSize) r,
  (forall l, Permutation (set_list l) l) -> setting_ok lam LA A by_parent st ->
  (forall a b, dist a b = dist b a) -> (forall a b, wle (dist a a) (dist a b) = true) -> (forall a b, wle zero (dist a b) = true) ->
  (if forallb finite X then 2 else 3) <= length (filter finite X) ->
  fit (la_zero LA) finite set_list (fast_hdbscan lam LA garbage (pairs_mst zero dist min_samples) A by_parent st) X = Ok r ->
  forall (a : Row) (p q : nat), nth_error X p = Some a -> nth_error X q = Some a -> finite a = true ->
  min_samples < length (filter finite X) -> wle (lam winf) (la_zero LA) = true ->
  (forall a b, In a X -> In b X -> finite a = true -> finite b = true -> wlt (la_zero LA) (lam (dist a b)) = true) -> one_root st ->
  nth p (f_labels r) 0%Z <> (-1)%Z -> nth q (f_labels r) 0%Z <> nth p (f_labels r) 0%Z ->
  exists d, dense_group (row_distance finite dist X) (length X) min_samples (fun x => x < length X /\ nth x (f_labels r) 0%Z = nth p (f_labels r) 0%Z) d /\
    ~ (core_sample (row_distance finite dist X) (length X) min_samples d p /\ wlt (dist a a) d = true).
Proof. exact @twins_apart. Qed.
Print Assumptions C69_identical_samples_apart.

(** ** Examples *)

(** Samples 5 and 7 are identical.  They have the same label in every cut, and
    leave at the same density, 1/10. *)
Definition twin_rows : list (option Z) := map Some [21; 22; 23; 24; 1; -9; 11; -9; 0; 2; 3]%Z.
Example C69_example : exists r, level_line 4 Eom false 0 3 twin_rows = Ok r /\
  dbscan_clustering r (Some (Q2Qc (inject_Z 10)) : QInf) 3 = Ok [0; 0; 0; 0; 1; -1; -1; -1; 1; 1; 1]%Z /\
  dbscan_clustering r (Some (Q2Qc (inject_Z 11)) : QInf) 3 = Ok [0; 0; 0; 0; 0; 0; 0; 0; 0; 0; 0]%Z /\
  map (fun q => match c_lam q with Some l => (c_child q, this l) | None => (c_child q, 0%Q) end)
    (filter (fun q => (c_child q =? 5) || (c_child q =? 7)) (f_condensed r)) = [(7%nat, 1 # 10); (5%nat, 1 # 10)]%Q.
Proof. eexists. split; [vm_compute; reflexivity|]. repeat split; vm_compute; reflexivity. Qed.
Example C69_example_hypotheses :
  nth_error twin_rows 5 = Some (Some (-9)%Z) /\ nth_error twin_rows 7 = Some (Some (-9)%Z) /\ present (Some (-9)%Z) = true /\
  forallb present twin_rows = true /\ 4 <= length (filter present twin_rows) /\
  one_root (exact_settings (Sz := NatSize) 4 Eom false 0%Qc 0%Qc) /\
  (forall a b, In a twin_rows -> In b twin_rows -> present a = true -> present b = true ->
     wlt (W := QInf) (la_zero ExactLam) (hdbscan_lambda_value (line_dist a b)) = true).
Proof.
  do 4 (split; [vm_compute; reflexivity|]). split; [vm_compute; lia|]. split; [split; [intros H; discriminate H|left; vm_compute; reflexivity]|].
  intros a b Ha Hb Pa Pb. assert (K : forallb (fun a => forallb (fun b => negb (present a && present b) ||
    wlt (W := QInf) (la_zero ExactLam) (hdbscan_lambda_value (line_dist a b))) twin_rows) twin_rows = true) by (vm_compute; reflexivity).
  rewrite forallb_forall in K. specialize (K a Ha). rewrite forallb_forall in K. specialize (K b Hb). rewrite Pa, Pb in K. exact K.
Qed.

(** ** Finding *)

(** [fit] itself does not always give identical samples the same label: here
    sample 5 is in cluster 0 and its copy, sample 7, is noise. *)
Theorem C69_identical_samples_same_label_refuted :
  exists r, level_line 4 Eom false 0 3 twin_rows = Ok r /\ nth_error twin_rows 5 = nth_error twin_rows 7 /\
    nth 5 (f_labels r) 0%Z = 0%Z /\ nth 7 (f_labels r) 0%Z = (-1)%Z.
Proof. eexists. split; [vm_compute; reflexivity|]. repeat split; vm_compute; reflexivity. Qed.
Print Assumptions C69_identical_samples_same_label_refuted.
