(** C37: the tree of clusters across the layers. *)
From Coq Require Import List Arith Bool ZArith QArith Qcanon Sorted.
From Verif Require Import Prelude Order Size Num M_Linkage S_Linkage M_Condense S_Condense M_Select S_Select M_Labels S_Labels
  M_Layers S_Layers P_LabelsEx P_LayersEx M_LayerTree S_LayerTree P_LayerTreeRun P_LayerTreeEx.
Import ListNotations.
Local Open Scope nat_scope.

(** C37.  For every stack of label vectors without gaps and every sorting: every
    cluster of every layer is a child exactly once.  Its parent is the cluster with
    the smallest label, among those that share a sample with it, of the nearest
    higher layer that has one; the root if no higher layer has one.  The dictionary
    holds exactly these pairs. *)
Theorem C37_layer_tree :
  forall (argsort : list Z -> list nat) (labels : list (list Z)) (N : nat),
  argsorts_Z argsort -> labels <> [] -> 0 < N -> (forall l, In l labels -> length l = N) -> (forall l, In l labels -> gap_free l) ->
  exists rows d, build_layer_cluster_tree argsort labels = Ok d /\ right_tree labels rows /\ right_dictionary rows d.
Proof. exact layer_tree_ok. Qed.
Print Assumptions C37_layer_tree.

(** C37.  The layers of an actual run have no gaps, if no merge has density zero.
    So the run ends with such a tree; a parent whose layer has fewer clusters than
    the child's contains all of the child's samples; and the labels returned are
    those of a layer of the highest persistence. *)
Theorem C37_tree_of_a_run :
  forall (W V P : WOrd) (D : Type) (LA : LamArith V) (search_lam lam : W -> V) (death_of : V -> D) (dzero : D)
         (garbage : nat -> nat) (garbage_lambda : nat -> D) (pzero : P) (accumulate : P -> nat -> nat -> D -> P)
         (argsort : list P -> list nat) (argsort_counts : list Z -> list nat) (n : nat) (L : list (lrow W NatSize)),
  dendrogram n L -> sizes_are (Sz := NatSize) n (fun _ => 1) L -> heights_sorted L ->
  (forall x y, wle x y = true -> wle (lam y) (lam x) = true) -> (forall x, wle (la_zero LA) (lam x) = true) ->
  LamLaws LA -> argsorts argsort -> argsorts_Z argsort_counts -> (forall r, In r L -> wle (lam (l_d r)) (la_zero LA) = false) ->
  forall (base_m : nat) (threshold : Q) (max_layers : nat) (argsort' : list Z -> list nat), 2 <= n -> 2 <= base_m -> argsorts_Z argsort' ->
  exists ys rows d y,
    layers_from_linkage_tree search_lam lam LA death_of dzero garbage garbage_lambda pzero accumulate argsort argsort_counts L n
      base_m None threshold max_layers = Ok ys /\
    plscan_result argsort' ys = Ok (d, y) /\
    right_tree (map y_labels ys) rows /\ right_dictionary rows d /\ nested_rows (map y_labels ys) rows /\
    In y ys /\ forall y', In y' ys -> wle (y_persistence y') (y_persistence y) = true.
Proof. exact @run_result. Qed.
Print Assumptions C37_tree_of_a_run.

(** C37.  The same when a number of clusters is requested.  Here the base layer
    comes from another condensed tree; containment is not claimed. *)
Theorem C37_tree_for_a_number_of_clusters :
  forall (W V P : WOrd) (D : Type) (LA : LamArith V) (search_lam lam : W -> V) (death_of : V -> D) (dzero : D)
         (garbage : nat -> nat) (garbage_lambda : nat -> D) (pzero : P) (accumulate : P -> nat -> nat -> D -> P)
         (argsort : list P -> list nat) (argsort_counts : list Z -> list nat) (n : nat) (L : list (lrow W NatSize)),
  dendrogram n L -> sizes_are (Sz := NatSize) n (fun _ => 1) L -> heights_sorted L ->
  (forall x y, wle x y = true -> wle (lam y) (lam x) = true) -> (forall x, wle (la_zero LA) (lam x) = true) ->
  (forall x y, wle x y = true -> wle (search_lam y) (search_lam x) = true) -> (forall x, wle (la_zero LA) (search_lam x) = true) ->
  LamLaws LA -> argsorts argsort -> argsorts_Z argsort_counts -> 4 <= n ->
  (forall r, In r L -> wle (lam (l_d r)) (la_zero LA) = false) -> (forall r, In r L -> wle (search_lam (l_d r)) (la_zero LA) = false) ->
  forall (base_m k : nat) (threshold : Q) (max_layers : nat) (argsort' : list Z -> list nat), argsorts_Z argsort' ->
  exists ys rows d y,
    layers_from_linkage_tree search_lam lam LA death_of dzero garbage garbage_lambda pzero accumulate argsort argsort_counts L n
      base_m (Some k) threshold max_layers = Ok ys /\
    plscan_result argsort' ys = Ok (d, y) /\
    right_tree (map y_labels ys) rows /\ right_dictionary rows d /\
    In y ys /\ forall y', In y' ys -> wle (y_persistence y') (y_persistence y) = true.
Proof. exact @run_number_result. Qed.
Print Assumptions C37_tree_for_a_number_of_clusters.

(** C37 is false of labels with gaps: the groups are then looked up at the wrong
    position. *)
Theorem C37_gaps_refuted :
  exists labels rows, build_cluster_tree sort_indices_Z labels = Ok rows /\ ~ right_tree labels rows.
Proof. exact (ex_intro _ gapped gapped_wrong). Qed.
Print Assumptions C37_gaps_refuted.

(** And a run produces such labels if samples meet only at infinite distance: the
    tree then names a cluster that has no samples. *)
Theorem C37_empty_cluster_refuted :
  exists L : list (lrow QInf NatSize), dendrogram 6 L /\ sizes_are (Sz := NatSize) 6 (fun _ => 1) L /\ heights_sorted L /\
  exists ys rows,
    layers_from_linkage_tree (P := QInf) hdbscan_lambda_value hdbscan_lambda_value ExactLam y_death 0%Qc (fun _ => 7) (fun _ => 0%Qc) (yq 0) y_add
      sort_indices sort_indices_Z L 6 2 None (1 # 5) 10 = Ok ys /\
    build_cluster_tree sort_indices_Z (map y_labels ys) = Ok rows /\
    In (0, 1%Z) (map (fun r => (t_child_layer r, t_child r)) rows) /\ ~ cluster_in (map y_labels ys) 0 1%Z.
Proof. exact (ex_intro _ fd empty_cluster). Qed.
Print Assumptions C37_empty_cluster_refuted.

(** ** Non-vacuity *)
(** Three layers of six samples, with noise.  Cluster 1 of the middle layer loses a
    sample to noise and one to cluster 0 above. *)
Definition stack : list (list Z) := [[0; 1; 2; 3; -1; 3]; [0; 0; 1; 1; -1; -1]; [0; 0; 0; -1; -1; 1]]%Z.
Example C37_example_stack : forallb (fun l => length l =? 6) stack = true /\
  build_layer_cluster_tree sort_indices_Z stack
  = Ok [((1, 0%Z), [(0, 0%Z); (0, 1%Z)]); ((1, 1%Z), [(0, 2%Z); (0, 3%Z)]); ((2, 0%Z), [(1, 0%Z); (1, 1%Z)]); ((3, 0%Z), [(2, 0%Z); (2, 1%Z)])].
Proof. vm_compute. split; reflexivity. Qed.
Example C37_example_gap_free : forall l, In l stack -> gap_free l.
Proof.
  assert (H : forallb (fun l => forallb (fun z => (-1 <=? z)%Z && forallb (fun k => existsb (Z.eqb (Z.of_nat k)) l) (seq 0 (Z.to_nat (z + 1)))) l) stack = true) by (vm_compute; reflexivity).
  intros l Hl z Hz. rewrite forallb_forall in H. specialize (H l Hl). rewrite forallb_forall in H. specialize (H z Hz). apply andb_true_iff in H as [H1 H2].
  apply Z.leb_le in H1. split; auto. intros k Hk. rewrite forallb_forall in H2. specialize (H2 (Z.to_nat k)). rewrite Z2Nat.id in H2 by apply Hk.
  destruct (proj1 (existsb_exists _ _) (H2 ltac:(apply in_seq; split; [apply Nat.le_0_l|apply Z2Nat.inj_lt; [apply Hk|apply Z.le_trans with (m := z); [apply Z.le_trans with (m := k); apply Hk|apply Z.le_succ_diag_r]|apply Z.lt_succ_r; apply Hk]]))) as (y & Hy & E).
  apply Z.eqb_eq in E. now subst.
Qed.

(** The run of C34_example_layers: the three leaf clusters, two of which join. *)
Example C37_example_run :
  (let* ys := yrun 2 None (1 # 5) 10 in let* r := plscan_result sort_indices_Z ys in Ok (fst r, y_labels (snd r)))
  = Ok ([((1, 0%Z), [(0, 1%Z); (0, 2%Z)]); ((1, 1%Z), [(0, 0%Z)]); ((2, 0%Z), [(1, 0%Z); (1, 1%Z)])],
        [0; 0; 0; 0; 0; 0; 0; 1; 1; 1; 1; 1; 1; 1; 1]%Z).
Proof. vm_compute. reflexivity. Qed.
