(** C67: every reported cluster holds together at one distance. *)
From Coq Require Import List Arith Lia Bool ZArith Permutation QArith Qcanon.
From Verif Require Import Prelude Order Graph Size Num S_Kruskal M_Kruskal M_KruskalEntry M_Linkage M_Condense S_Condense M_Select M_Labels P_LabelsEx
  M_Pipeline S_Pipeline P_PipelineEx M_TreeQuery M_Boruvka S_SpaceTree S_Boruvka M_Estimator S_Estimator P_EstimatorEx P_Sort S_Dbscan P_EpsilonTop S_Level P_LevelTop
  Properties_SpaceTree Properties_Dbscan.
Import ListNotations.
Local Open Scope nat_scope.

(** For every cluster that [fit] reports there is a distance [d] such that its
    members are density-connected at every distance beyond [d], and up to [d] no
    member is density-connected to any other sample (see [dense_group]).  Rows
    with missing values are infinitely far from all others.  The settings exclude
    a root cluster that was selected and then cut by epsilon, see
    C67_single_cluster_with_epsilon_refuted. *)
Theorem C67_clusters_are_dense_groups :
  forall (W V : WOrd) (Row : Type) (lam : W -> V) (LA : LamArith V) (garbage : nat -> V) (zero : W) (dist : Row -> Row -> W) (min_samples : nat)
    (finite : Row -> bool) (set_list : list nat -> list nat) (X : list Row) (A : Arith V NatSize)
    (by_parent : list (crow V NatSize) -> list (crow V NatSize)) (st : settings V NatSize) r,
  (forall l, Permutation (set_list l) l) -> setting_ok lam LA A by_parent st ->
  (forall a b, dist a b = dist b a) -> (forall a b, wle (dist a a) (dist a b) = true) -> (forall a b, wle zero (dist a b) = true) ->
  (if forallb finite X then 2 else 3) <= length (filter finite X) -> min_samples < length (filter finite X) ->
  wle (lam winf) (la_zero LA) = true ->
  (forall a b, In a X -> In b X -> finite a = true -> finite b = true -> wlt (la_zero LA) (lam (dist a b)) = true) ->
  one_root st ->
  fit (la_zero LA) finite set_list (fast_hdbscan lam LA garbage (pairs_mst zero dist min_samples) A by_parent st) X = Ok r ->
  forall p, p < length X -> nth p (f_labels r) 0%Z <> (-1)%Z ->
  exists d, dense_group (row_distance finite dist X) (length X) min_samples (fun q => q < length X /\ nth q (f_labels r) 0%Z = nth p (f_labels r) 0%Z) d.
Proof. exact @fit_groups. Qed.
Print Assumptions C67_clusters_are_dense_groups.

(** The same in terms of [dbscan_clustering] on the same fit: beyond [d] it gives
    the members one label; up to [d] it puts no member in a cluster with others. *)
Theorem C67_clusters_against_cuts :
  forall (W V : WOrd) (Row : Type) (lam : W -> V) (LA : LamArith V) (garbage : nat -> V) (zero : W) (dist : Row -> Row -> W) (min_samples : nat)
    (finite : Row -> bool) (set_list : list nat -> list nat) (X : list Row) (A : Arith V NatSize)
    (by_parent : list (crow V NatSize) -> list (crow V NatSize)) (st : settings V NatSize) r,
  (forall l, Permutation (set_list l) l) -> setting_ok lam LA A by_parent st ->
  (forall a b, dist a b = dist b a) -> (forall a b, wle (dist a a) (dist a b) = true) -> (forall a b, wle zero (dist a b) = true) ->
  (if forallb finite X then 2 else 3) <= length (filter finite X) -> min_samples < length (filter finite X) ->
  wle (lam winf) (la_zero LA) = true ->
  (forall a b, In a X -> In b X -> finite a = true -> finite b = true -> wlt (la_zero LA) (lam (dist a b)) = true) ->
  one_root st ->
  fit (la_zero LA) finite set_list (fast_hdbscan lam LA garbage (pairs_mst zero dist min_samples) A by_parent st) X = Ok r ->
  forall p, p < length X -> nth p (f_labels r) 0%Z <> (-1)%Z ->
  exists d, wlt d winf = true /\ forall eps, exists labels, dbscan_clustering r eps min_samples = Ok labels /\ length labels = length X /\
    (wlt d eps = true -> forall q, q < length X -> nth q (f_labels r) 0%Z = nth p (f_labels r) 0%Z -> nth q labels (-2)%Z = nth p labels (-2)%Z) /\
    (wle eps d = true -> forall q q', q < length X -> q' < length X ->
       nth q (f_labels r) 0%Z = nth p (f_labels r) 0%Z -> nth q' (f_labels r) 0%Z <> nth p (f_labels r) 0%Z ->
       nth q labels (-2)%Z = nth q' labels (-2)%Z -> nth q labels (-2)%Z = (-1)%Z).
Proof. exact @fit_groups_at_cuts. Qed.
Print Assumptions C67_clusters_against_cuts.

(** The same for the tree of the parallel search, under every schedule. *)
Theorem C67_clusters_are_dense_groups_boruvka :
  forall (W V : WOrd) (lam : W -> V) (LA : LamArith V) (garbage : nat -> V) (A : Arith V NatSize)
    (by_parent : list (crow V NatSize) -> list (crow V NatSize)) (st : settings V NatSize) t n (rd lb : nat -> nat -> W) zero root mode min_samples,
  setting_ok lam LA A by_parent st -> one_root st ->
  tree_shape t n -> lower_bounds t rd lb ->
  (forall i j, i < n -> j < n -> rd i j = rd j i) ->
  (forall i j, i < n -> j < n -> wfinite (rd i j) = true) ->
  wfinite zero = true -> (forall i, i < n -> wle (rd i i) zero = true) ->
  (forall x y, wle x y = true -> wle (root x) (root y) = true) ->
  2 <= n -> min_samples < n -> threads_available mode ->
  (forall i j, i < n -> j < n -> wle zero (rd i j) = true) ->
  wle (lam winf) (la_zero LA) = true -> (forall i j, i < n -> j < n -> wlt (la_zero LA) (lam (root (rd i j))) = true) ->
  exists M nbrs core, parallel_boruvka t n rd lb zero root mode min_samples = Ok (M, nbrs, core) /\
    forall ls ps T, clusters_from_spanning_tree lam LA A garbage by_parent st M = Ok (ls, ps, T) ->
    forall x, x < n -> nth x ls 0%Z <> (-1)%Z ->
      exists d, dense_group (fun i j => root (rd i j)) n min_samples (fun y => y < n /\ nth y ls 0%Z = nth x ls 0%Z) d.
Proof. exact @boruvka_groups. Qed.
Print Assumptions C67_clusters_are_dense_groups_boruvka.

(** For any spanning tree, whatever it was computed from. *)
Theorem C67_clusters_of_a_spanning_tree :
  forall (W V : WOrd) (lam : W -> V) (LA : LamArith V) (A : Arith V NatSize) (garbage : nat -> V)
         (by_parent : list (crow V NatSize) -> list (crow V NatSize)) (st : settings V NatSize) (n : nat) (M : list (edge W))
         (ls : list Z) (ps : list V) (T : list (crow V NatSize)),
  setting_ok lam LA A by_parent st -> spanning_tree n M -> 2 <= n ->
  clusters_from_spanning_tree lam LA A garbage by_parent st M = Ok (ls, ps, T) ->
  (forall e, In e M -> wlt (la_zero LA) (lam (ewt e)) = true) -> one_root st ->
  forall x, x < n -> nth x ls 0%Z <> (-1)%Z -> exists d, level n M (fun y => y < n /\ nth y ls 0%Z = nth x ls 0%Z) d.
Proof. exact @plain_level. Qed.
Print Assumptions C67_clusters_of_a_spanning_tree.

(** The same with sample weights. *)
Theorem C67_weighted_clusters_of_a_spanning_tree :
  forall (W V : WOrd) (lam : W -> V) (LA : LamArith V) (Sz : SOrd) (A : Arith V Sz) (garbage : nat -> V)
         (by_parent : list (crow V Sz) -> list (crow V Sz)) (st : settings V Sz) (n : nat) (M : list (edge W)) (ws : list Sz)
         (ls : list Z) (ps : list V) (T : list (crow V Sz)),
  setting_ok lam LA A by_parent st -> spanning_tree n M -> 2 <= n -> length ws = n -> sle (s := Sz) szero sone = true ->
  (forall w, In w ws -> slt w (min_cluster_size st) = true) ->
  clusters_from_spanning_tree_weighted lam LA A garbage by_parent st M ws = Ok (ls, ps, T) ->
  (forall e, In e M -> wlt (la_zero LA) (lam (ewt e)) = true) -> one_root st ->
  forall x, x < n -> nth x ls 0%Z <> (-1)%Z -> exists d, level n M (fun y => y < n /\ nth y ls 0%Z = nth x ls 0%Z) d.
Proof. exact @weighted_level. Qed.
Print Assumptions C67_weighted_clusters_of_a_spanning_tree.

(** ** Examples *)
Definition level_line (mcs : nat) (m : selection_method) (single : bool) (epsilon : Z) (min_samples : nat) (X : list (option Z)) : res (fitted QInf QInf NatSize) :=
  fit (W := QInf) (V := QInf) (Sz := NatSize) (la_zero ExactLam) present (fun l => l)
    (exact_run line_dist min_samples (fun _ => None) by_parent_of (exact_settings (Sz := NatSize) mcs m single (Q2Qc (inject_Z epsilon)) 0%Qc)) X.
(** Row 1 is missing; the clusters are the cuts of C66_example at distances up to 7. *)
Example C67_example : exists r, level_line 2 Eom false 0 2 dense_rows = Ok r /\ f_labels r = [1; -1; 1; 1; 1; 0; 0; 0; -1]%Z /\
  dbscan_clustering r (Some (Q2Qc (inject_Z 7)) : QInf) 2 = Ok [0; -1; 0; 0; 0; 1; 1; 1; -1]%Z /\
  dbscan_clustering r (Some (Q2Qc (inject_Z 8)) : QInf) 2 = Ok [0; -1; 0; 0; 0; 0; 0; 0; -1]%Z.
Proof. eexists. split; [vm_compute; reflexivity|]. repeat split; vm_compute; reflexivity. Qed.
(** The hypotheses hold for these data; those about the distance are in
    C66_example_hypotheses. *)
Example C67_example_hypotheses : 2 < length (filter present dense_rows) /\ one_root (exact_settings (Sz := NatSize) 2 Eom false 0%Qc 0%Qc) /\
  wle (w := QInf) (hdbscan_lambda_value winf) (la_zero ExactLam) = true /\
  (forall a b, In a dense_rows -> In b dense_rows -> present a = true -> present b = true ->
     wlt (W := QInf) (la_zero ExactLam) (hdbscan_lambda_value (line_dist a b)) = true).
Proof.
  split; [vm_compute; lia|]. split; [split; [intros H; discriminate H|left; vm_compute; reflexivity]|]. split; [vm_compute; reflexivity|].
  intros a b Ha Hb Pa Pb. assert (K : forallb (fun a => forallb (fun b => negb (present a && present b) ||
    wlt (W := QInf) (la_zero ExactLam) (hdbscan_lambda_value (line_dist a b))) dense_rows) dense_rows = true) by (vm_compute; reflexivity).
  rewrite forallb_forall in K. specialize (K a Ha). rewrite forallb_forall in K. specialize (K b Hb). rewrite Pa, Pb in K. exact K.
Qed.
(** The epsilon search ends at the root: one cluster of samples nearer than 16. *)
Example C67_example_epsilon : exists r, level_line 3 Eom false 16 1 (map Some [0; 10; 20; 34; 49; 59; 69; 90]%Z) = Ok r /\ f_labels r = [0; 0; 0; 0; 0; 0; 0; -1]%Z /\
  dbscan_clustering r (Some (Q2Qc (inject_Z 16)) : QInf) 1 = Ok [0; 0; 0; 0; 0; 0; 0; 1]%Z.
Proof. eexists. split; [vm_compute; reflexivity|]. split; vm_compute; reflexivity. Qed.

(** ** Finding *)

(** With allow_single_cluster, 'eom' and a cluster_selection_epsilon, the one
    reported cluster can be a set of samples that is density-connected at no
    distance without others: sample 3 is noise although it is nearer (14) to one
    half of the cluster than the halves are to each other (15). *)
Definition two_halves : list (option Z) := map Some [0; 10; 20; 34; 49; 59; 69]%Z.
Theorem C67_single_cluster_with_epsilon_refuted :
  exists r, level_line 3 Eom true 12 1 two_halves = Ok r /\ f_labels r = [0; 0; 0; -1; 0; 0; 0]%Z /\
    forall d, ~ dense_group (W := QInf) (row_distance present line_dist two_halves) 7 1 (fun q => q < 7 /\ nth q (f_labels r) 0%Z = 0%Z) d.
Proof.
  eexists. split; [vm_compute; reflexivity|]. split; [reflexivity|]. cbn [f_labels]. intros d (_ & H1 & H2).
  set (D := row_distance present line_dist two_halves) in *.
  assert (Hd : wle d (Some (Q2Qc (inject_Z 14)) : QInf) = true).
  { destruct (wle d (Some (Q2Qc (inject_Z 14)) : QInf)) eqn:E; auto. exfalso. apply (H2 d 2 3); [apply wle_refl|split; [lia|reflexivity]|lia|intros [_ K]; discriminate K|].
    eapply dc_next; [apply dc_self|lia|lia|left; lia|left; lia|]. apply wlt_nle. exact E. }
  assert (K : density_connected D 7 1 (Some (Q2Qc (inject_Z 15)) : QInf) 2 4).
  { apply H1; [|split; [lia|reflexivity]|split; [lia|reflexivity]]. eapply wle_lt_trans; [exact Hd|vm_compute; reflexivity]. }
  assert (Inv : forall y, density_connected D 7 1 (Some (Q2Qc (inject_Z 15)) : QInf) 2 y -> y < 4).
  { intros y H. induction H as [|y z H IH Hy Hz _ _ L]; [lia|].
    assert (Q : forallb (fun y => forallb (fun z => negb (wlt (D y z) (Some (Q2Qc (inject_Z 15)) : QInf)) || (z <? 4)) (seq 0 7)) (seq 0 4) = true) by (vm_compute; reflexivity).
    rewrite forallb_forall in Q. specialize (Q y ltac:(apply in_seq; lia)). rewrite forallb_forall in Q. specialize (Q z ltac:(apply in_seq; lia)).
    rewrite L in Q. cbn [negb orb] in Q. now apply Nat.ltb_lt in Q. }
  apply Inv in K. lia.
Qed.
Print Assumptions C67_single_cluster_with_epsilon_refuted.
