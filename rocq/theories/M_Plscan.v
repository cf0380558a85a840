(** Model of PLSCAN from the data to the labels: fast_hdbscan/layer_clusters.py:372-401
    (build_cluster_layers up to the linkage tree) and hdbscan.py:1042-1163
    (_validate_params, fit_predict). *)
From Coq Require Import List Arith Bool ZArith QArith Qcanon.
From Verif Require Import Prelude Order Graph Size Num S_Kruskal M_Kruskal M_KruskalEntry M_Linkage M_Condense M_Labels M_Pipeline M_Layers M_LayerTree M_Dispatch.
Import ListNotations.
Local Open Scope nat_scope.

(** ** layer_clusters.py:388-399.  Distances are exact rationals or infinite. *)
(** layer_clusters.py:388. *)
Fixpoint finite_values (l : list QInf) : list Qc :=
  match l with
  | [] => []
  | Some x :: l' => x :: finite_values l'
  | None :: l' => finite_values l'
  end.

(** layer_clusters.py:388-398: [np.sum]. *)
Definition total (l : list Qc) : Qc := fold_right Qcplus 0%Qc l.
(** layer_clusters.py:388-398. [np.mean] and [np.min] of a list that is not empty. *)
Definition mean (l : list Qc) : Qc := (total l / nat_as_q (length l))%Qc.
(** layer_clusters.py:388-398: [np.min]. *)
Definition least (x : Qc) (l : list Qc) : Qc := fold_left (fun m y => if Qcleb y m then y else m) l x.

(** layer_clusters.py:397-398: what happens to one distance; infinity stays. *)
Definition rescaled (low high : Qc) (w : QInf) : QInf := option_map (fun x => ((x - low) / (high - low))%Qc) w.

(** layer_clusters.py:388-398.  The mean of finite numbers is finite (layer_clusters.py:396). *)
Definition normalised_edges (core_distances : list QInf) (edges : list (edge QInf)) : list (edge QInf) :=
  match finite_values core_distances with
  | [] => edges
  | x :: l =>
      let mean_core_distance := mean (x :: l) in
      let min_core_distance := least x l in
      if Qcleb mean_core_distance min_core_distance then edges
      else map (fun e => (esrc e, edst e, rescaled min_core_distance mean_core_distance (ewt e))) edges
  end.

Section Fit.
  Context {V P : WOrd} {D : Type}.
  Variables (search_lam lam : QInf -> V) (LA : LamArith V) (death_of : V -> D) (dzero : D) (garbage : nat -> nat) (garbage_lambda : nat -> D).
  Variables (pzero : P) (accumulate : P -> nat -> nat -> D -> P).
  Variables (argsort : list P -> list nat) (argsort_counts argsort_labels : list Z -> list nat).
  (** Line 400: [edges[np.argsort(edges.T[2])]]; np.argsort is not stable. *)
  Variable sort_edges : list (edge QInf) -> list (edge QInf).

  (** layer_clusters.py:372-485 after the spanning tree. *)
  Definition build_cluster_layers (n_samples base_min_cluster_size : nat) (base_n_clusters : option nat) (threshold : Q) (max_layers : nat)
      (edges : list (edge QInf)) (core_distances : list QInf) : res (list (layer V P)) :=
    let* uncondensed_tree := mst_to_linkage_tree (sort_edges (normalised_edges core_distances edges)) in
    layers_from_linkage_tree search_lam lam LA death_of dzero garbage garbage_lambda pzero accumulate argsort argsort_counts
      uncondensed_tree n_samples base_min_cluster_size base_n_clusters threshold max_layers.

  (** hdbscan.py:1139-1163: the layers, the tree over them, and the layer whose
      labels and strengths are reported. *)
  Definition plscan_fit (n_samples base_min_cluster_size : nat) (base_n_clusters : option nat) (threshold : Q) (max_layers : nat)
      (edges : list (edge QInf)) (core_distances : list QInf)
    : res (list (layer V P) * list (cluster_name * list cluster_name) * layer V P) :=
    let* ys := build_cluster_layers n_samples base_min_cluster_size base_n_clusters threshold max_layers edges core_distances in
    let* r := plscan_result argsort_labels ys in
    Ok (ys, fst r, snd r).
End Fit.

(** ** precomputed.py:31-68.  A stored number as far as the check looks at it. *)
Inductive stored := Finite (x : Qc) | Infinite | NotANumber.
(** precomputed.py:30-67: A matrix as far as the check looks at it. *)
Inductive matrix := Dense | Sparse (rows cols : nat) (values : list stored).

(** precomputed.py:30-67 *)
Definition validate_precomputed_sparse_graph (X : matrix) : res unit :=
  match X with
  | Dense => Err ValueError
  | Sparse rows cols values =>
      if negb (rows =? cols) then Err ValueError
      else if existsb (fun v => match v with Finite _ => false | _ => true end) values then Err ValueError
      else if existsb (fun v => match v with Finite x => negb (Qcleb 0 x) | _ => false end) values then Err ValueError
      else Ok tt
  end.

(** ** hdbscan.py:1042-1137: the checks *)
Record plscan_arguments := {
  p_rows : nat;
  p_features : nat;
  p_matrix : matrix;                    (* X *)
  p_metric : metric_name;
  p_algorithm : algorithm_name;
  p_weights : bool;                     (* sample_weight is not None *)
  p_min_samples : pyval;
  p_max_layers : pyval;
  p_base_min_cluster_size : pyval;
  p_base_n_clusters : pyval;
  p_knn_k : option nat;
  p_cannot_link : option sparse;
  p_validate : bool;
  p_pynndescent : bool
}.

(** hdbscan.py:1042-1073, called by the constructor. *)
Definition validate_params (a : plscan_arguments) : res unit :=
  if negb (positive_int (p_min_samples a)) then Err ValueError
  else if negb (positive_int (p_max_layers a)) then Err ValueError
  else if negb (positive_int (p_base_min_cluster_size a)) then Err ValueError
  else if negb (is_none (p_base_n_clusters a)) && negb (positive_int (p_base_n_clusters a)) then Err ValueError
  else match p_algorithm a with
  | OtherAlgorithm => Err ValueError
  | Kruskal => Ok tt
  | Boruvka => match p_cannot_link a with None => Ok tt | Some _ => Err ValueError end
  end.

(** precomputed.py:30-67: [scipy.sparse.issparse(X)]. *)
Definition issparse (X : matrix) : bool := match X with Dense => false | Sparse _ _ _ => true end.

(** hdbscan.py:1102-1137.  What validate_data (scikit-learn) and the check of the
    sample weights reject is not modelled here. *)
Definition check_data (a : plscan_arguments) : res unit :=
  match p_metric a with
  | Precomputed => let* _ := validate_precomputed_sparse_graph (p_matrix a) in if p_weights a then Err NotImplementedError else Ok tt
  | OtherMetric => if negb (p_pynndescent a) then Err ImportError else if issparse (p_matrix a) then Err ValueError else Ok tt
  | Euclidean => if issparse (p_matrix a) then Err ValueError else Ok tt
  end.

(** What compute_minimum_spanning_tree gets (layer_clusters.py:376-387); group
    constraints cannot be given, and the other settings do not reach it. *)
Definition spanning_tree_arguments (a : plscan_arguments) : arguments :=
  {| a_rows := p_rows a; a_features := p_features a; a_metric := p_metric a; a_algorithm := p_algorithm a; a_weights := p_weights a;
     a_semi_supervised := false; a_labels := false; a_ss_known := true; a_min_samples := p_min_samples a; a_min_cluster_size := p_base_min_cluster_size a;
     a_epsilon := PyFloat false; a_persistence := PyFloat false; a_method := MEom; a_knn_k := p_knn_k a; a_cannot_link := p_cannot_link a;
     a_validate := p_validate a; a_groups := None; a_pynndescent := p_pynndescent a |}.

(** hdbscan.py:1075-1160: Which spanning tree algorithm PLSCAN runs. *)
Definition plscan_dispatch (a : plscan_arguments) : res plan :=
  let* _ := validate_params a in
  let* _ := check_data a in
  choose_algorithm (spanning_tree_arguments a).
