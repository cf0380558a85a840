(** Specification vocabulary for PLSCAN from distances to labels. *)
From Coq Require Import List Arith Bool ZArith QArith Qcanon Permutation Sorted.
From Verif Require Import Prelude Order Graph Size Num M_Linkage S_Linkage M_Pipeline M_Dispatch S_Dispatch M_Plscan.
Import ListNotations.
Local Open Scope nat_scope.

(** Any sorting of edges by weight. *)
Definition sorts_edges {W : WOrd} (sort : list (edge W) -> list (edge W)) : Prop := forall l, Permutation (sort l) l /\ sorted_by ewt (sort l).

Definition finite_ones (l : list QInf) : list Qc := flat_map (fun w : option Qc => match w with Some x => [x] | None => [] end) l.

(** [f] expresses distances in the unit given by the core distances: their least
    is 0 and their mean is 1, if they differ; otherwise nothing changes.  It keeps
    the order of all distances and infinity. *)
Definition unit_of (core : list QInf) (f : QInf -> QInf) : Prop :=
  (forall x y, wle (f x) (f y) = wle x y) /\ f None = None /\
  ((forall x y, In (Some x) core -> In (Some y) core -> x = y) -> forall w, f w = w) /\
  (forall x y, In (Some x) core -> In (Some y) core -> x <> y ->
     exists low span, (0 < span)%Qc /\ (forall v, f (Some v) = Some ((v - low) / span)%Qc) /\
       In (Some low) core /\ (forall v, In (Some v) core -> (low <= v)%Qc) /\
       fold_right Qcplus 0%Qc (map (fun v => (v - low) / span)%Qc (finite_ones core)) = nat_as_q (length (finite_ones core))).

(** [L] is a single linkage tree of the spanning tree [M]: for some way to sort its
    edges, the i-th merge joins the component of the i-th edge at its weight. *)
Definition linkage_tree_of {W : WOrd} (n : nat) (M : list (edge W)) (L : list (lrow W NatSize)) : Prop :=
  dendrogram n L /\ sizes_are (Sz := NatSize) n (fun _ => 1) L /\ heights_sorted L /\
  exists M1, Permutation M1 M /\ map l_d L = map ewt M1 /\
    forall i e x, nth_error M1 i = Some e -> (under n L (n + i) x <-> x < n /\ connected (firstn (S i) M1) (esrc e) x).

(** ** Parameters *)
(** A square sparse matrix of numbers that are not negative. *)
Definition good_graph (X : matrix) : Prop :=
  exists n values, X = Sparse n n values /\ forall v, In v values -> exists x, v = Finite x /\ (0 <= x)%Qc.

Record plscan_values_ok (a : plscan_arguments) : Prop := {
  pv_min_samples : is_positive_int (p_min_samples a);
  pv_max_layers : is_positive_int (p_max_layers a);
  pv_base_min_cluster_size : is_positive_int (p_base_min_cluster_size a);
  pv_base_n_clusters : p_base_n_clusters a = PyNone \/ is_positive_int (p_base_n_clusters a);
  pv_matrix : match p_metric a with Precomputed => good_graph (p_matrix a) | _ => p_matrix a = Dense end
}.
