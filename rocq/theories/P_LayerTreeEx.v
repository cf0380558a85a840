(** The whole result of a run, and stacks of labels with gaps. *)
From Coq Require Import List Arith Lia Bool ZArith QArith Qcanon Sorted Permutation.
From Verif Require Import Prelude Order Size Num M_Linkage S_Linkage M_Condense S_Condense M_Select S_Select M_Labels S_Labels
  P_CondenseTop P_LabelsEx M_Layers S_Layers P_LayersRun P_LayersEx M_LayerTree S_LayerTree P_LayerTreeTop P_LayerTreeRun.
Import ListNotations.
Local Open Scope nat_scope.

Lemma run_result {W V P : WOrd} {D : Type} (LA : LamArith V) (search_lam lam : W -> V) (death_of : V -> D) (dzero : D)
    (garbage : nat -> nat) (garbage_lambda : nat -> D) (pzero : P) (accumulate : P -> nat -> nat -> D -> P)
    (argsort : list P -> list nat) (argsort_counts : list Z -> list nat) (n : nat) (L : list (lrow W NatSize)) :
  dendrogram n L -> sizes_are (Sz := NatSize) n (fun _ => 1) L -> heights_sorted L ->
  (forall x y, wle x y = true -> wle (lam y) (lam x) = true) -> (forall x, wle (la_zero LA) (lam x) = true) ->
  LamLaws LA -> argsorts argsort -> argsorts_Z argsort_counts -> (forall r, In r L -> wle (lam (l_d r)) (la_zero LA) = false) ->
  forall (base_m : nat) (threshold : Q) (max_layers : nat) (argsort' : list Z -> list nat), 2 <= n -> 2 <= base_m -> argsorts_Z argsort' ->
  exists ys rows d y,
    layers_from_linkage_tree search_lam lam LA death_of dzero garbage garbage_lambda pzero accumulate argsort argsort_counts L n
      base_m None threshold max_layers = Ok ys /\
    plscan_result argsort' ys = Ok (d, y) /\
    right_tree (map y_labels ys) rows /\ right_dictionary rows d /\ nested_rows (map y_labels ys) rows /\
    In y ys /\ forall y', In y' ys -> wle (y_persistence y') (y_persistence y) = true.
Proof.
  intros HG HS HH Hlam Hpos HLL Hsort HsortZ Hfin base_m threshold max_layers argsort' Hn Hm Ha.
  destruct (run_tree LA search_lam lam death_of dzero garbage garbage_lambda pzero accumulate argsort argsort_counts n L HG HS HH Hlam Hpos HLL Hsort HsortZ Hfin base_m threshold max_layers argsort' Hn Hm Ha)
    as (ys & rows & d & E & Ed & HT & HD & HN).
  destruct (plscan_result_ok argsort' ys d Ed) as (y & Ey & Hy & Hmax). exists ys, rows, d, y. auto 10.
Qed.

Lemma run_number_result {W V P : WOrd} {D : Type} (LA : LamArith V) (search_lam lam : W -> V) (death_of : V -> D) (dzero : D)
    (garbage : nat -> nat) (garbage_lambda : nat -> D) (pzero : P) (accumulate : P -> nat -> nat -> D -> P)
    (argsort : list P -> list nat) (argsort_counts : list Z -> list nat) (n : nat) (L : list (lrow W NatSize)) :
  dendrogram n L -> sizes_are (Sz := NatSize) n (fun _ => 1) L -> heights_sorted L ->
  (forall x y, wle x y = true -> wle (lam y) (lam x) = true) -> (forall x, wle (la_zero LA) (lam x) = true) ->
  (forall x y, wle x y = true -> wle (search_lam y) (search_lam x) = true) -> (forall x, wle (la_zero LA) (search_lam x) = true) ->
  LamLaws LA -> argsorts argsort -> argsorts_Z argsort_counts -> 4 <= n ->
  (forall r, In r L -> wle (lam (l_d r)) (la_zero LA) = false) -> (forall r, In r L -> wle (search_lam (l_d r)) (la_zero LA) = false) ->
  forall (base_m k : nat) (threshold : Q) (max_layers : nat) (argsort' : list Z -> list nat), argsorts_Z argsort' ->
  exists ys rows d y,
    layers_from_linkage_tree search_lam lam LA death_of dzero garbage garbage_lambda pzero accumulate argsort argsort_counts L n
      base_m (Some k) threshold max_layers = Ok ys /\
    plscan_result argsort' ys = Ok (d, y) /\
    right_tree (map y_labels ys) rows /\ right_dictionary rows d /\
    In y ys /\ forall y', In y' ys -> wle (y_persistence y') (y_persistence y) = true.
Proof.
  intros HG HS HH Hlam Hpos Hlam' Hpos' HLL Hsort HsortZ Hn Hfin Hfin' base_m k threshold max_layers argsort' Ha.
  destruct (run_number_tree LA search_lam lam death_of dzero garbage garbage_lambda pzero accumulate argsort argsort_counts n L HG HS HH Hlam Hpos Hlam' Hpos' HLL Hsort HsortZ Hn Hfin Hfin' base_m k threshold max_layers argsort' Ha)
    as (ys & rows & d & E & Ed & HT & HD).
  destruct (plscan_result_ok argsort' ys d Ed) as (y & Ey & Hy & Hmax). exists ys, rows, d, y. auto 10.
Qed.

(** Label 1 is missing in the upper layer: sample 1 is in cluster 1 below and in
    cluster 2 above, but cluster 1 is put below the root. *)
Definition gapped : list (list Z) := [[0; 1; 1]; [0; 2; 2]]%Z.
Lemma gapped_wrong : exists rows, build_cluster_tree sort_indices_Z gapped = Ok rows /\ ~ right_tree gapped rows.
Proof.
  destruct (build_cluster_tree sort_indices_Z gapped) as [rows|e] eqn:E; [|vm_compute in E; discriminate]. exists rows. split; auto. vm_compute in E. injection E as <-.
  intros (_ & _ & H). specialize (H {| t_parent_layer := 2; t_parent := 0; t_child_layer := 0; t_child := 1 |}).
  destruct H as [(H & _)|(_ & _ & H)].
  - cbn. auto 10.
  - cbn in H. lia.
  - apply (H 1 2%Z); [cbn; lia|lia|]. exists 1. split; reflexivity.
Qed.

(** An infinite distance leaves a cluster with no labelled sample. *)
Definition frow (a b : nat) (d : QInf) (s : nat) : lrow QInf NatSize := {| l_a := a; l_b := b; l_d := d; l_n := s |}.
Definition fd : list (lrow QInf NatSize) := [frow 0 1 (yq 1) 2; frow 4 5 (yq 1) 2; frow 2 3 None 2; frow 8 6 None 4; frow 7 9 None 6].
Definition frun : res (list (layer QInf QInf)) :=
  layers_from_linkage_tree (P := QInf) hdbscan_lambda_value hdbscan_lambda_value ExactLam y_death 0%Qc (fun _ => 7) (fun _ => 0%Qc) (yq 0) y_add
    sort_indices sort_indices_Z fd 6 2 None (1 # 5) 10.

Lemma empty_cluster : dendrogram 6 fd /\ sizes_are (Sz := NatSize) 6 (fun _ => 1) fd /\ heights_sorted fd /\
  exists ys rows, frun = Ok ys /\ build_cluster_tree sort_indices_Z (map y_labels ys) = Ok rows /\
    In (0, 1%Z) (map (fun r => (t_child_layer r, t_child r)) rows) /\ ~ cluster_in (map y_labels ys) 0 1%Z.
Proof.
  split; [apply dendrogram_checked; reflexivity|]. split; [apply sizes_checked; reflexivity|]. split; [repeat constructor|].
  assert (E : (let* ys := frun in Ok (map y_labels ys)) = Ok [[2; 2; -1; -1; 0; 0]%Z]) by (vm_compute; reflexivity).
  destruct frun as [ys|e]; [|discriminate]. cbn [bind] in E. injection E as E. exists ys. eexists. split; [reflexivity|]. rewrite E. split; [vm_compute; reflexivity|].
  split; [cbn; auto|]. intros (_ & _ & H). cbn in H. repeat (destruct H as [H|H]; [discriminate|]). destruct H.
Qed.
