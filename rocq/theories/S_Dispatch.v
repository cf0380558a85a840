(** The documented rules for the parameters. *)
From Coq Require Import List Arith Bool ZArith.
From Verif Require Import Prelude Order Graph S_Kruskal M_Kruskal M_KruskalEntry M_Dispatch.
Import ListNotations.

(** A float that is not negative. *)
Definition nonnegative_float (v : pyval) : Prop := v = PyFloat false.
Definition is_positive_int (v : pyval) : Prop := exists z, v = PyInt z /\ (0 < z)%Z.

(** Rules about single parameters. *)
Record values_ok (a : arguments) : Prop := {
  v_min_samples : a_min_samples a = PyNone \/ is_positive_int (a_min_samples a);
  v_min_cluster_size : is_positive_int (a_min_cluster_size a);
  v_epsilon : nonnegative_float (a_epsilon a);
  v_persistence : nonnegative_float (a_persistence a);
  v_labels : a_semi_supervised a = true -> a_labels a = true /\ a_ss_known a = true
}.

(** Constraints were given. *)
Definition constrained (a : arguments) : Prop := a_cannot_link a <> None \/ a_groups a <> None.

(** The neighbour graph of an optional package is used: other metrics, and
    Euclidean data with many columns and no weights. *)
Definition uses_neighbour_graph (a : arguments) : Prop :=
  a_metric a = OtherMetric \/ (a_metric a = Euclidean /\ 30 < a_features a /\ a_weights a = false).

(** A constraint matrix has the right shape; group labels are one per row and at
    least -1. *)
Definition shapes_ok (a : arguments) : Prop :=
  (forall X, a_cannot_link a = Some X -> a_validate a = true -> sp_rows X = a_rows a /\ sp_cols X = a_rows a) /\
  (forall g, a_groups a = Some g -> length g = a_rows a /\ forall x, In x g -> (-1 <= x)%Z).

(** Rules about combinations. *)
Record combination_ok (a : arguments) : Prop := {
  m_algorithm : a_algorithm a <> OtherAlgorithm;
  m_method : a_method a <> OtherMethod;
  m_one_kind : a_cannot_link a = None \/ a_groups a = None;
  m_constraints : constrained a -> a_algorithm a = Kruskal;
  m_weights : a_weights a = true -> a_metric a = Euclidean;
  m_pairs : a_weights a = true -> a_algorithm a = Kruskal -> a_knn_k a <> None;
  m_package : uses_neighbour_graph a -> a_pynndescent a = true;
  m_shapes : a_algorithm a = Kruskal -> ~ uses_neighbour_graph a -> shapes_ok a
}.

(** The constraints that the chosen algorithm receives. *)
Definition constraints_of (p : plan) : option cl_params :=
  match p with
  | PrecomputedKruskal cl => Some cl
  | KruskalPairs cl => Some cl
  | KruskalNeighbours _ _ cl => Some cl
  | _ => None
  end.

(** What a plan asks for: an algorithm, a metric, neighbours, sample weights. *)
Record follows_request (a : arguments) (p : plan) : Prop := {
  fr_weights : match p with KruskalNeighbours _ w _ => w | BoruvkaTree w => w | _ => false end = a_weights a;
  fr_neighbour_graph : uses_neighbour_graph a <-> p = NeighbourGraph;
  fr_algorithm : ~ uses_neighbour_graph a -> match p with
    | PrecomputedKruskal _ | KruskalPairs _ | KruskalNeighbours _ _ _ => a_algorithm a = Kruskal
    | PrecomputedBoruvka | BoruvkaTree _ => a_algorithm a = Boruvka
    | _ => False end;
  fr_metric : ~ uses_neighbour_graph a -> match p with
    | PrecomputedKruskal _ | PrecomputedBoruvka => a_metric a = Precomputed
    | _ => a_metric a = Euclidean end;
  fr_neighbours : match p with KruskalPairs _ => a_knn_k a = None | KruskalNeighbours k _ _ => a_knn_k a = Some k | _ => True end
}.
