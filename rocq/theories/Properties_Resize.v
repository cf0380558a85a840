(** C77: fits of the same data with other settings. *)
From Coq Require Import List Arith Lia Bool ZArith Permutation QArith Qcanon.
From Verif Require Import Prelude Order Graph Size Num S_Kruskal M_Kruskal M_KruskalEntry M_Linkage M_Condense S_Condense M_Select M_Labels P_LabelsEx
  M_Pipeline S_Pipeline P_PipelineEx M_Estimator S_Estimator P_EstimatorEx P_Sort S_Dbscan S_Level S_Resize P_ResizeTop Properties_SpaceTree Properties_Dbscan Properties_Level P_EpsilonTop.
Import ListNotations.
Local Open Scope nat_scope.

(** Two fits of the same data with the same min_samples, whatever their other
    settings: no cluster of one partly overlaps a cluster of the other. *)
Theorem C77_clusters_never_cross :
  forall (W V : WOrd) (Row : Type) (lam : W -> V) (LA : LamArith V) (garbage : nat -> V) (zero : W) (dist : Row -> Row -> W) (min_samples : nat)
    (finite : Row -> bool) (set_list : list nat -> list nat) (X : list Row) (A : Arith V NatSize)
    (by_parent : list (crow V NatSize) -> list (crow V NatSize)) (st st' : settings V NatSize),
  (forall l, Permutation (set_list l) l) -> setting_ok lam LA A by_parent st -> setting_ok lam LA A by_parent st' ->
  (forall a b, dist a b = dist b a) -> (forall a b, wle (dist a a) (dist a b) = true) -> (forall a b, wle zero (dist a b) = true) ->
  (if forallb finite X then 2 else 3) <= length (filter finite X) -> min_samples < length (filter finite X) ->
  (forall a b, In a X -> In b X -> finite a = true -> finite b = true -> wlt (la_zero LA) (lam (dist a b)) = true) ->
  forall r r', fit (la_zero LA) finite set_list (fast_hdbscan lam LA garbage (pairs_mst zero dist min_samples) A by_parent st) X = Ok r ->
  fit (la_zero LA) finite set_list (fast_hdbscan lam LA garbage (pairs_mst zero dist min_samples) A by_parent st') X = Ok r' ->
  one_root st -> one_root st' -> never_cross (length X) (f_labels r) (f_labels r').
Proof. exact @fit_never_cross. Qed.
Print Assumptions C77_clusters_never_cross.

(** With 'leaf', a larger min_cluster_size and a larger persistence threshold: every
    cluster contains one of the clusters that the smaller values give, and there are
    at most as many. *)
Theorem C77_leaf_clusters :
  forall (W V : WOrd) (Row : Type) (lam : W -> V) (LA : LamArith V) (garbage : nat -> V) (zero : W) (dist : Row -> Row -> W) (min_samples : nat)
    (finite : Row -> bool) (set_list : list nat -> list nat) (X : list Row) (A : Arith V NatSize)
    (by_parent : list (crow V NatSize) -> list (crow V NatSize)) (st st' : settings V NatSize),
  (forall l, Permutation (set_list l) l) -> setting_ok lam LA A by_parent st -> setting_ok lam LA A by_parent st' ->
  (forall a b, dist a b = dist b a) -> (forall a b, wle (dist a a) (dist a b) = true) -> (forall a b, wle zero (dist a b) = true) ->
  (if forallb finite X then 2 else 3) <= length (filter finite X) -> min_samples < length (filter finite X) ->
  (forall a b, In a X -> In b X -> finite a = true -> finite b = true -> wlt (la_zero LA) (lam (dist a b)) = true) ->
  forall r r', fit (la_zero LA) finite set_list (fast_hdbscan lam LA garbage (pairs_mst zero dist min_samples) A by_parent st) X = Ok r ->
  fit (la_zero LA) finite set_list (fast_hdbscan lam LA garbage (pairs_mst zero dist min_samples) A by_parent st') X = Ok r' ->
  stricter st st' ->
  cluster_selection_epsilon st = None -> cluster_selection_epsilon st' = None ->
  cluster_selection_method st = Leaf -> cluster_selection_method st' = Leaf ->
  contains_cluster (length X) (f_labels r) (f_labels r') /\ cluster_count (f_labels r') <= cluster_count (f_labels r).
Proof. exact @fit_contains. Qed.
Print Assumptions C77_leaf_clusters.

(** The same from a spanning tree. *)
Theorem C77_runs_never_cross :
  forall (W V : WOrd) (lam : W -> V) (LA : LamArith V) (A : Arith V NatSize) (garbage : nat -> V)
    (by_parent : list (crow V NatSize) -> list (crow V NatSize)) (st st' : settings V NatSize) (n : nat) (M : list (edge W)),
  setting_ok lam LA A by_parent st -> setting_ok lam LA A by_parent st' -> spanning_tree n M -> 2 <= n ->
  forall (ls ls' : list Z) (ps ps' : list V) (T T' : list (crow V NatSize)),
  clusters_from_spanning_tree lam LA A garbage by_parent st M = Ok (ls, ps, T) ->
  clusters_from_spanning_tree lam LA A garbage by_parent st' M = Ok (ls', ps', T') ->
  (forall e, In e M -> wlt (la_zero LA) (lam (ewt e)) = true) -> one_root st -> one_root st' -> never_cross n ls ls'.
Proof. exact @plain_never_cross. Qed.
Print Assumptions C77_runs_never_cross.
Theorem C77_runs_with_leaf :
  forall (W V : WOrd) (lam : W -> V) (LA : LamArith V) (A : Arith V NatSize) (garbage : nat -> V)
    (by_parent : list (crow V NatSize) -> list (crow V NatSize)) (st st' : settings V NatSize) (n : nat) (M : list (edge W)),
  setting_ok lam LA A by_parent st -> setting_ok lam LA A by_parent st' -> spanning_tree n M -> 2 <= n ->
  forall (ls ls' : list Z) (ps ps' : list V) (T T' : list (crow V NatSize)),
  clusters_from_spanning_tree lam LA A garbage by_parent st M = Ok (ls, ps, T) ->
  clusters_from_spanning_tree lam LA A garbage by_parent st' M = Ok (ls', ps', T') ->
  stricter st st' ->
  cluster_selection_epsilon st = None -> cluster_selection_epsilon st' = None ->
  cluster_selection_method st = Leaf -> cluster_selection_method st' = Leaf ->
  (forall e, In e M -> wlt (la_zero LA) (lam (ewt e)) = true) ->
  contains_cluster n ls ls' /\ cluster_count ls' <= cluster_count ls.
Proof. exact @plain_contains. Qed.
Print Assumptions C77_runs_with_leaf.

(** The hierarchy for a larger min_cluster_size: its clusters are exactly those of
    the other hierarchy that have, like their siblings, that size. *)
Theorem C77_hierarchy :
  forall (W V : WOrd) (lam : W -> V) (LA : LamArith V) (A : Arith V NatSize) (garbage : nat -> V)
    (by_parent : list (crow V NatSize) -> list (crow V NatSize)) (st st' : settings V NatSize) (n : nat) (M : list (edge W)),
  setting_ok lam LA A by_parent st -> setting_ok lam LA A by_parent st' -> spanning_tree n M -> 2 <= n ->
  forall (ls ls' : list Z) (ps ps' : list V) (T T' : list (crow V NatSize)),
  clusters_from_spanning_tree lam LA A garbage by_parent st M = Ok (ls, ps, T) ->
  clusters_from_spanning_tree lam LA A garbage by_parent st' M = Ok (ls', ps', T') ->
  forall P : nat -> Prop, min_cluster_size st <= min_cluster_size st' ->
  cluster_selection_persistence st = None -> cluster_selection_persistence st' = None ->
  (hierarchy_cluster n T' P <-> hierarchy_cluster_of_size n T (min_cluster_size st') P).
Proof. exact @plain_resized. Qed.
Print Assumptions C77_hierarchy.
(** A stricter hierarchy: each of its clusters is one of the other hierarchy. *)
Theorem C77_stricter_hierarchy :
  forall (W V : WOrd) (lam : W -> V) (LA : LamArith V) (A : Arith V NatSize) (garbage : nat -> V)
    (by_parent : list (crow V NatSize) -> list (crow V NatSize)) (st st' : settings V NatSize) (n : nat) (M : list (edge W)),
  setting_ok lam LA A by_parent st -> setting_ok lam LA A by_parent st' -> spanning_tree n M -> 2 <= n ->
  forall (ls ls' : list Z) (ps ps' : list V) (T T' : list (crow V NatSize)),
  clusters_from_spanning_tree lam LA A garbage by_parent st M = Ok (ls, ps, T) ->
  clusters_from_spanning_tree lam LA A garbage by_parent st' M = Ok (ls', ps', T') ->
  forall P : nat -> Prop, stricter st st' -> hierarchy_cluster n T' P -> hierarchy_cluster n T P.
Proof. exact @plain_fewer. Qed.
Print Assumptions C77_stricter_hierarchy.

(** The same with sample weights. *)
Theorem C77_weighted_runs_never_cross :
  forall (W V : WOrd) (Sz : SOrd) (lam : W -> V) (LA : LamArith V) (A : Arith V Sz) (garbage : nat -> V)
    (by_parent : list (crow V Sz) -> list (crow V Sz)) (st st' : settings V Sz) (n : nat) (M : list (edge W)) (ws : list Sz),
  setting_ok lam LA A by_parent st -> setting_ok lam LA A by_parent st' -> spanning_tree n M -> 2 <= n -> length ws = n -> sle (s := Sz) szero sone = true ->
  forall (ls ls' : list Z) (ps ps' : list V) (T T' : list (crow V Sz)),
  (forall w, In w ws -> sle szero w = true /\ slt w (min_cluster_size st) = true /\ slt w (min_cluster_size st') = true) ->
  clusters_from_spanning_tree_weighted lam LA A garbage by_parent st M ws = Ok (ls, ps, T) ->
  clusters_from_spanning_tree_weighted lam LA A garbage by_parent st' M ws = Ok (ls', ps', T') ->
  (forall e, In e M -> wlt (la_zero LA) (lam (ewt e)) = true) -> one_root st -> one_root st' -> never_cross n ls ls'.
Proof. exact @weighted_never_cross. Qed.
Print Assumptions C77_weighted_runs_never_cross.
Theorem C77_weighted_runs_with_leaf :
  forall (W V : WOrd) (Sz : SOrd) (lam : W -> V) (LA : LamArith V) (A : Arith V Sz) (garbage : nat -> V)
    (by_parent : list (crow V Sz) -> list (crow V Sz)) (st st' : settings V Sz) (n : nat) (M : list (edge W)) (ws : list Sz),
  setting_ok lam LA A by_parent st -> setting_ok lam LA A by_parent st' -> spanning_tree n M -> 2 <= n -> length ws = n -> sle (s := Sz) szero sone = true ->
  forall (ls ls' : list Z) (ps ps' : list V) (T T' : list (crow V Sz)),
  (forall w, In w ws -> sle szero w = true /\ slt w (min_cluster_size st) = true /\ slt w (min_cluster_size st') = true) ->
  clusters_from_spanning_tree_weighted lam LA A garbage by_parent st M ws = Ok (ls, ps, T) ->
  clusters_from_spanning_tree_weighted lam LA A garbage by_parent st' M ws = Ok (ls', ps', T') ->
  stricter st st' ->
  cluster_selection_epsilon st = None -> cluster_selection_epsilon st' = None ->
  cluster_selection_method st = Leaf -> cluster_selection_method st' = Leaf ->
  (forall e, In e M -> wlt (la_zero LA) (lam (ewt e)) = true) -> contains_cluster n ls ls' /\ cluster_count ls' <= cluster_count ls.
Proof. exact @weighted_contains. Qed.
Print Assumptions C77_weighted_runs_with_leaf.
Theorem C77_weighted_hierarchy :
  forall (W V : WOrd) (Sz : SOrd) (lam : W -> V) (LA : LamArith V) (A : Arith V Sz) (garbage : nat -> V)
    (by_parent : list (crow V Sz) -> list (crow V Sz)) (st st' : settings V Sz) (n : nat) (M : list (edge W)) (ws : list Sz),
  setting_ok lam LA A by_parent st -> setting_ok lam LA A by_parent st' -> spanning_tree n M -> 2 <= n -> length ws = n -> sle (s := Sz) szero sone = true ->
  forall (ls ls' : list Z) (ps ps' : list V) (T T' : list (crow V Sz)),
  (forall w, In w ws -> sle szero w = true /\ slt w (min_cluster_size st) = true /\ slt w (min_cluster_size st') = true) ->
  clusters_from_spanning_tree_weighted lam LA A garbage by_parent st M ws = Ok (ls, ps, T) ->
  clusters_from_spanning_tree_weighted lam LA A garbage by_parent st' M ws = Ok (ls', ps', T') ->
  forall P : nat -> Prop, sle (min_cluster_size st) (min_cluster_size st') = true ->
  cluster_selection_persistence st = None -> cluster_selection_persistence st' = None ->
  (hierarchy_cluster n T' P <-> hierarchy_cluster_of_size n T (min_cluster_size st') P).
Proof. exact @weighted_resized. Qed.
Print Assumptions C77_weighted_hierarchy.
Theorem C77_weighted_stricter_hierarchy :
  forall (W V : WOrd) (Sz : SOrd) (lam : W -> V) (LA : LamArith V) (A : Arith V Sz) (garbage : nat -> V)
    (by_parent : list (crow V Sz) -> list (crow V Sz)) (st st' : settings V Sz) (n : nat) (M : list (edge W)) (ws : list Sz),
  setting_ok lam LA A by_parent st -> setting_ok lam LA A by_parent st' -> spanning_tree n M -> 2 <= n -> length ws = n -> sle (s := Sz) szero sone = true ->
  forall (ls ls' : list Z) (ps ps' : list V) (T T' : list (crow V Sz)),
  (forall w, In w ws -> sle szero w = true /\ slt w (min_cluster_size st) = true /\ slt w (min_cluster_size st') = true) ->
  clusters_from_spanning_tree_weighted lam LA A garbage by_parent st M ws = Ok (ls, ps, T) ->
  clusters_from_spanning_tree_weighted lam LA A garbage by_parent st' M ws = Ok (ls', ps', T') ->
  forall P : nat -> Prop, stricter st st' -> hierarchy_cluster n T' P -> hierarchy_cluster n T P.
Proof. exact @weighted_fewer. Qed.
Print Assumptions C77_weighted_stricter_hierarchy.

(** Exact settings are stricter when both numbers are larger. *)
Theorem C77_larger_settings_are_stricter :
  forall (Sz : SOrd) (mcs mcs' : Sz) (m m' : selection_method) (a a' : bool) (e e' p p' : Qc),
  sle mcs mcs' = true -> (p <= p')%Qc -> stricter (exact_settings mcs m a e p) (exact_settings mcs' m' a' e' p').
Proof. exact exact_stricter. Qed.
Print Assumptions C77_larger_settings_are_stricter.

(** ** Examples *)
Definition two_scales : list (option Z) := [Some 0; Some 13; Some 34; Some 56; Some 75; Some 115; None; Some 147; Some 178; Some 288; Some 318; Some 427]%Z.
(** A min_cluster_size of 3 instead of 2 joins two clusters of three and two rows. *)
Example C77_example : exists r r', level_line 2 Leaf false 0 1 two_scales = Ok r /\ level_line 3 Leaf false 0 1 two_scales = Ok r' /\
  f_labels r = [2; 2; 2; 3; 3; 1; -1; 1; 1; 0; 0; 0]%Z /\ f_labels r' = [2; 2; 2; 2; 2; 1; -1; 1; 1; 0; 0; 0]%Z /\
  cluster_count (f_labels r) = 4 /\ cluster_count (f_labels r') = 3.
Proof. do 2 eexists. split; [vm_compute; reflexivity|]. split; [vm_compute; reflexivity|]. repeat split; vm_compute; reflexivity. Qed.
(** A persistence threshold of 1/50 joins three of the four clusters. *)
Definition persistent_line (mcs : nat) (p : Qc) : res (fitted QInf QInf NatSize) :=
  fit (W := QInf) (V := QInf) (Sz := NatSize) (la_zero ExactLam) present (fun l => l)
    (exact_run line_dist 1 (fun _ => None) by_parent_of (exact_settings (Sz := NatSize) mcs Leaf false 0%Qc p)) two_scales.
Example C77_example_persistence : exists r, persistent_line 2 (Q2Qc (1 # 50)) = Ok r /\ f_labels r = [1; 1; 1; 1; 1; 1; -1; 1; 1; 0; 0; 0]%Z.
Proof. eexists. split; vm_compute; reflexivity. Qed.
(** The hypotheses hold for these data and settings; those about the distance are
    in C66_example_hypotheses. *)
Example C77_example_hypotheses :
  let st := exact_settings (Sz := NatSize) 2 Leaf false 0%Qc 0%Qc in let st' := exact_settings (Sz := NatSize) 3 Leaf false 0%Qc 0%Qc in
  min_cluster_size st <= min_cluster_size st' /\ cluster_selection_persistence st = None /\ cluster_selection_persistence st' = None /\
  cluster_selection_epsilon st = None /\ cluster_selection_epsilon st' = None /\ cluster_selection_method st = Leaf /\ cluster_selection_method st' = Leaf /\
  one_root st /\ one_root st' /\ one_root (exact_settings (Sz := NatSize) 2 Eom true 0%Qc 0%Qc) /\ one_root (exact_settings (Sz := NatSize) 3 Eom false 1%Qc 0%Qc) /\
  stricter st st' /\ stricter st (exact_settings (Sz := NatSize) 2 Leaf false 0%Qc (Q2Qc (1 # 50))) /\
  3 <= length (filter present two_scales) /\ 1 < length (filter present two_scales) /\
  (forall a b, In a two_scales -> In b two_scales -> present a = true -> present b = true ->
     wlt (W := QInf) (la_zero ExactLam) (hdbscan_lambda_value (line_dist a b)) = true).
Proof.
  cbv zeta. split; [cbn; lia|]. do 6 (split; [vm_compute; reflexivity|]).
  split; [split; [intros H; discriminate H|left; vm_compute; reflexivity]|]. split; [split; [intros H; discriminate H|left; vm_compute; reflexivity]|].
  split; [split; [intros _ _; split; vm_compute; reflexivity|left; vm_compute; reflexivity]|]. split; [split; [intros H; discriminate H|right; vm_compute; reflexivity]|].
  split; [apply C77_larger_settings_are_stricter; [reflexivity|apply Qcle_refl]|]. split; [apply C77_larger_settings_are_stricter; [reflexivity|apply Qclt_le_weak; reflexivity]|].
  split; [vm_compute; lia|]. split; [vm_compute; lia|].
  intros a b Ha Hb Pa Pb. assert (K : forallb (fun a => forallb (fun b => negb (present a && present b) ||
    wlt (W := QInf) (la_zero ExactLam) (hdbscan_lambda_value (line_dist a b))) two_scales) two_scales = true) by (vm_compute; reflexivity).
  rewrite forallb_forall in K. specialize (K a Ha). rewrite forallb_forall in K. specialize (K b Hb). rewrite Pa, Pb in K. exact K.
Qed.

(** ** Findings *)

(** With 'eom', a larger min_cluster_size can give more clusters, and clusters that
    contain none of the others. *)
Theorem C77_excess_of_mass_refuted :
  exists r r', level_line 2 Eom false 0 1 two_scales = Ok r /\ level_line 3 Eom false 0 1 two_scales = Ok r' /\
    cluster_count (f_labels r) = 2 /\ cluster_count (f_labels r') = 3 /\ ~ contains_cluster 12 (f_labels r) (f_labels r').
Proof.
  do 2 eexists. split; [vm_compute; reflexivity|]. split; [vm_compute; reflexivity|]. cbn [f_labels].
  split; [vm_compute; reflexivity|]. split; [vm_compute; reflexivity|]. intro H. destruct (H 0 ltac:(lia) ltac:(discriminate)) as (x & Hx & Lx & K).
  unfold cluster_of in K. pose proof (K 0) as K0. pose proof (K 11) as K11. pose proof (K 5) as K5.
  do 12 (destruct x as [|x]; [first [destruct K5 as [_ Q]; [split; [lia|reflexivity]|discriminate Q]|destruct K11 as [_ Q]; [split; [lia|reflexivity]|discriminate Q]|now cbn in Lx]|]). lia.
Qed.
Print Assumptions C77_excess_of_mass_refuted.

(** min_samples is min_cluster_size unless it is given: then changing
    min_cluster_size can give clusters that partly overlap the others. *)
Definition chained : list (option Z) := map Some [0; 7; 13; 23; 35; 41; 48; 50]%Z.
Theorem C77_default_min_samples_refuted :
  exists r r', level_line 2 Eom false 0 2 chained = Ok r /\ level_line 3 Eom false 0 3 chained = Ok r' /\
    ~ never_cross 8 (f_labels r) (f_labels r').
Proof.
  do 2 eexists. split; [vm_compute; reflexivity|]. split; [vm_compute; reflexivity|]. cbn [f_labels].
  intro H. destruct (H 4 4 ltac:(lia) ltac:(lia) ltac:(discriminate) ltac:(discriminate)) as [K|[K|K]].
  - destruct (K 1 ltac:(split; [lia|reflexivity])) as [_ Q]. discriminate Q.
  - destruct (K 5 ltac:(split; [lia|reflexivity])) as [_ Q]. discriminate Q.
  - apply (K 4); split; [lia|reflexivity|lia|reflexivity].
Qed.
Print Assumptions C77_default_min_samples_refuted.

(** The one cluster reported with allow_single_cluster, 'eom' and a
    cluster_selection_epsilon can partly overlap the clusters of another fit. *)
Theorem C77_single_cluster_with_epsilon_refuted :
  exists r r', level_line 3 Eom true 12 1 two_halves = Ok r /\ level_line 3 Eom false 0 1 two_halves = Ok r' /\
    ~ never_cross 7 (f_labels r) (f_labels r').
Proof.
  do 2 eexists. split; [vm_compute; reflexivity|]. split; [vm_compute; reflexivity|]. cbn [f_labels].
  intro H. destruct (H 0 0 ltac:(lia) ltac:(lia) ltac:(discriminate) ltac:(discriminate)) as [K|[K|K]].
  - destruct (K 4 ltac:(split; [lia|reflexivity])) as [_ Q]. discriminate Q.
  - destruct (K 3 ltac:(split; [lia|reflexivity])) as [_ Q]. discriminate Q.
  - apply (K 0); split; [lia|reflexivity|lia|reflexivity].
Qed.
Print Assumptions C77_single_cluster_with_epsilon_refuted.
