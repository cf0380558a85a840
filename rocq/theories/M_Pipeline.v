(** Model of clusters_from_spanning_tree: fast_hdbscan/hdbscan.py:497-574, without
    the semi-supervised selection (lines 540-549). *)
From Coq Require Import List Arith Bool ZArith QArith Qcanon.
From Verif Require Import Prelude Order Graph Size Num M_Linkage M_Condense M_Select M_Labels M_Epsilon M_Simplify.
Import ListNotations.
Local Open Scope nat_scope.

(** hdbscan.py:510-518: sorted by weight, then first, then second end point
    (np.lexsort is stable and takes its last key first). *)
Definition sort_mst {W : WOrd} (mst : list (edge W)) : list (edge W) :=
  isort ewt (nsort esrc (nsort edst mst)).

(** hdbscan.py:497-574: [cluster_selection_method]. *)
Inductive selection_method := Eom | Leaf.

(** hdbscan.py:497-574: The parameters of [clusters_from_spanning_tree]; thresholds enter as the comparisons that the code makes with them. *)
Record settings (V : Type) (Sz : Type) := {
  min_cluster_size : Sz;
  cluster_selection_method : selection_method;
  max_cluster_size : option Sz;          (* [None]: the default, infinity *)
  allow_single_cluster : bool;
  (** [None] if not positive; otherwise the test [distance < epsilon] on lambdas
      and the value of [1 / epsilon]. *)
  cluster_selection_epsilon : option ((V -> bool) * V);
  (** [None] if not positive; otherwise the test [birth - death >= threshold]. *)
  cluster_selection_persistence : option (V -> V -> bool)
}.
Arguments min_cluster_size {V Sz}.
Arguments cluster_selection_method {V Sz}.
Arguments max_cluster_size {V Sz}.
Arguments allow_single_cluster {V Sz}.
Arguments cluster_selection_epsilon {V Sz}.
Arguments cluster_selection_persistence {V Sz}.

Section Pipeline.
  Context {W V : WOrd} {Sz : SOrd}.
  (** Arithmetic of distances, densities and scores; the contents of
      uninitialised memory; the order [np.argsort] gives rows with equal parents. *)
  Variables (lambda : W -> V) (LA : LamArith V) (A : Arith V Sz) (garbage : nat -> V)
    (by_parent : list (crow V Sz) -> list (crow V Sz)).
  Variable st : settings V Sz.
  Implicit Types (T ct : list (crow V Sz)) (L : list (lrow W Sz)).

  (** hdbscan.py:525-531 *)
  Definition condensed_tree_of (sample_weights : nat -> Sz) L : res (list (crow V Sz)) :=
    let* T := condense_tree L lambda (min_cluster_size st) None sample_weights in
    match cluster_selection_persistence st, T with
    | Some persists, _ :: _ => simplify_hierarchy persists garbage T
    | _, _ => Ok T
    end.

  (** hdbscan.py:533-557 *)
  Definition selected_clusters_of T (n_points : nat) : res (list nat) :=
    let cluster_tree := cluster_tree_from_condensed_tree T in
    match cluster_selection_method st with
    | Eom => extract_eom_clusters A T cluster_tree (max_cluster_size st) (allow_single_cluster st)
    | Leaf => match cluster_tree with [] => Ok [] | _ => cluster_tree_leaves cluster_tree n_points end
    end.

  (** hdbscan.py:559-564 *)
  Definition epsilon_clusters_of T (selected : list nat) : res (list nat) :=
    let cluster_tree := cluster_tree_from_condensed_tree T in
    match cluster_selection_epsilon st with
    | Some (lt_eps, _) =>
        if 1 <? length selected then cluster_epsilon_search lt_eps selected cluster_tree (by_parent cluster_tree)
        else Ok selected
    | None => Ok selected
    end.

  (** hdbscan.py:566-574 *)
  Definition labels_and_strengths_of T (n_points : nat) (selected : list nat) : res (list Z * list V) :=
    let* labels := get_cluster_label_vector LA T selected (option_map snd (cluster_selection_epsilon st)) n_points in
    let* strengths := get_point_membership_strength_vector LA T selected labels in
    Ok (labels, strengths).

  (** hdbscan.py:525-574: labels, strengths and the condensed tree. *)
  Definition clusters_from_linkage_tree (sample_weights : nat -> Sz) (n_points : nat) L
    : res (list Z * list V * list (crow V Sz)) :=
    let* T := condensed_tree_of sample_weights L in
    let* selected := selected_clusters_of T n_points in
    let* selected := epsilon_clusters_of T selected in
    let* ls := labels_and_strengths_of T n_points selected in
    Ok (ls, T).
End Pipeline.

(** hdbscan.py:497-574 without sample weights. *)
Definition clusters_from_spanning_tree {W V : WOrd} (lambda : W -> V) (LA : LamArith V) (A : Arith V NatSize)
    (garbage : nat -> V) (by_parent : list (crow V NatSize) -> list (crow V NatSize)) (st : settings V NatSize)
    (mst : list (edge W)) : res (list Z * list V * list (crow V NatSize)) :=
  let* L := mst_to_linkage_tree (sort_mst mst) in
  clusters_from_linkage_tree lambda LA A garbage by_parent st (fun _ => 1) (length mst + 1) L.

(** hdbscan.py:497-574 with sample weights. *)
Definition clusters_from_spanning_tree_weighted {W V : WOrd} {Sz : SOrd} (lambda : W -> V) (LA : LamArith V) (A : Arith V Sz)
    (garbage : nat -> V) (by_parent : list (crow V Sz) -> list (crow V Sz)) (st : settings V Sz)
    (mst : list (edge W)) (sample_weights : list Sz) : res (list Z * list V * list (crow V Sz)) :=
  let* L := mst_to_linkage_tree_w_sample_weights (sort_mst mst) sample_weights in
  clusters_from_linkage_tree lambda LA A garbage by_parent st (fun x => nth x sample_weights szero) (length mst + 1) L.

(** Settings in exact arithmetic: epsilon and persistence act only when positive
    (hdbscan.py:528, 559). *)
Definition exact_settings {Sz : SOrd} (mcs : Sz) (method : selection_method) (allow_single : bool)
    (epsilon persistence : Qc) : settings QInf Sz :=
  {| min_cluster_size := mcs;
     cluster_selection_method := method;
     max_cluster_size := None;
     allow_single_cluster := allow_single;
     cluster_selection_epsilon :=
       if Qcleb epsilon 0 then None else Some (exact_lt_eps epsilon, Some (/ epsilon)%Qc);
     cluster_selection_persistence :=
       if Qcleb persistence 0 then None else Some (exact_persists persistence) |}.

(** cluster_trees.py:657-670: A size as a number. *)
Definition nat_as_q (k : nat) : Qc := Q2Qc (inject_Z (Z.of_nat k)).

(** hdbscan.py:497-574 in exact arithmetic, without and with sample weights. *)
Definition exact_clusters (garbage : nat -> QInf) (by_parent : list (crow QInf NatSize) -> list (crow QInf NatSize))
    (st : settings QInf NatSize) (mst : list (edge QInf)) :=
  clusters_from_spanning_tree hdbscan_lambda_value ExactLam (ExactArith NatSize nat_as_q) garbage by_parent st mst.
(** hdbscan.py:497-574: The same with sample weights. *)
Definition exact_clusters_weighted (garbage : nat -> QInf) (by_parent : list (crow QInf QcSize) -> list (crow QInf QcSize))
    (st : settings QInf QcSize) (mst : list (edge QInf)) (sample_weights : list Qc) :=
  clusters_from_spanning_tree_weighted hdbscan_lambda_value ExactLam (ExactArith QcSize (fun q => q)) garbage by_parent st mst sample_weights.
