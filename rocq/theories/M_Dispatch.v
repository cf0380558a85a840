(** Model of the parameter checks and of the choice of an algorithm:
    fast_hdbscan/hdbscan.py:225-305 (fast_hdbscan), 411-494
    (compute_minimum_spanning_tree), 540-557 (clusters_from_spanning_tree) and
    kruskal.py:860-878. *)
From Coq Require Import List Arith Bool ZArith.
From Verif Require Import Prelude Order Graph S_Kruskal M_Kruskal M_KruskalEntry.
Import ListNotations.
Local Open Scope nat_scope.

(** hdbscan.py:199-336. A python value as far as the checks look at it: of a float only whether it
    is below zero (NaN is not). *)
Inductive pyval := PyNone | PyInt (z : Z) | PyFloat (negative : bool) | PyOther.

(** hdbscan.py:339-494: The values of [metric]. *)
Inductive metric_name := Euclidean | Precomputed | OtherMetric.
(** hdbscan.py:339-494: The values of [algorithm]. *)
Inductive algorithm_name := Boruvka | Kruskal | OtherAlgorithm.
(** hdbscan.py:199-336: The values of [cluster_selection_method]. *)
Inductive method_name := MEom | MLeaf | OtherMethod.

(** hdbscan.py:199-336. The arguments; data have [a_rows] rows and [a_features] columns. *)
Record arguments := {
  a_rows : nat;
  a_features : nat;
  a_metric : metric_name;
  a_algorithm : algorithm_name;
  a_weights : bool;                     (* sample_weights is not None *)
  a_semi_supervised : bool;
  a_labels : bool;                      (* data_labels is not None *)
  a_ss_known : bool;                    (* ss_algorithm in ["bc", "bc_simple"] *)
  a_min_samples : pyval;
  a_min_cluster_size : pyval;
  a_epsilon : pyval;
  a_persistence : pyval;
  a_method : method_name;
  a_knn_k : option nat;
  a_cannot_link : option sparse;
  a_validate : bool;
  a_groups : option (list Z);
  a_pynndescent : bool                  (* the package is installed *)
}.

(** hdbscan.py:339-494. Which algorithm runs, with which resolved constraints. *)
Inductive plan :=
| Degenerate                            (* fewer than two rows: all noise *)
| PrecomputedKruskal (cl : cl_params)
| PrecomputedBoruvka
| NeighbourGraph                        (* pynndescent *)
| KruskalPairs (cl : cl_params)         (* all pairwise distances *)
| KruskalNeighbours (k : nat) (weighted : bool) (cl : cl_params)
| BoruvkaTree (weighted : bool).

(** hdbscan.py:254-260: [min_samples] is None or a positive integer. *)
Definition positive_int (v : pyval) : bool := match v with PyInt z => (0 <? z)%Z | _ => false end.
(** hdbscan.py:199-336: [v is None]. *)
Definition is_none (v : pyval) : bool := match v with PyNone => true | _ => false end.

(** hdbscan.py:262-275.  Only whether a value is rejected matters here; for None
    the kind of error depends on how numpy reads its type. *)
Definition check_float (v : pyval) : res unit :=
  match v with
  | PyFloat negative => if negative then Err ValueError else Ok tt
  | PyNone => Err TypeError
  | _ => Err ValueError
  end.

(** hdbscan.py:226-243 *)
Definition check_metric (a : arguments) : res unit :=
  match a_metric a with
  | Precomputed => if a_weights a then Err NotImplementedError else Ok tt
  | Euclidean => Ok tt
  | OtherMetric => if a_pynndescent a then Ok tt else Err ImportError
  end.

(** hdbscan.py:245-252 *)
Definition check_semi_supervised (a : arguments) : res unit :=
  if a_semi_supervised a then
    if negb (a_labels a) then Err ValueError
    else if negb (a_ss_known a) then Err ValueError else Ok tt
  else Ok tt.

(** hdbscan.py:411-494; kruskal.py:860-878, precomputed.py:542. *)
Definition choose_algorithm (a : arguments) : res plan :=
  match a_algorithm a with
  | OtherAlgorithm => Err ValueError
  | _ =>
    if match a_cannot_link a, a_groups a with Some _, Some _ => true | _, _ => false end then Err ValueError else
    let has_cl := match a_cannot_link a, a_groups a with None, None => false | _, _ => true end in
    if has_cl && match a_algorithm a with Kruskal => false | _ => true end then Err ValueError else
    match a_metric a with
    | Precomputed =>
        if a_weights a then Err NotImplementedError else
        match a_algorithm a with
        | Kruskal => let* cl := resolve_cl_params (a_rows a) (a_cannot_link a) (a_validate a) (a_groups a) in Ok (PrecomputedKruskal cl)
        | _ => Ok PrecomputedBoruvka
        end
    | _ =>
        if match a_metric a with Euclidean => false | _ => true end || ((30 <? a_features a) && negb (a_weights a)) then
          if a_weights a then Err NotImplementedError
          else if a_pynndescent a then Ok NeighbourGraph else Err ImportError
        else
          match a_algorithm a with
          | Kruskal =>
              let* cl := resolve_cl_params (a_rows a) (a_cannot_link a) (a_validate a) (a_groups a) in
              match a_knn_k a with
              | None => if a_weights a then Err NotImplementedError else Ok (KruskalPairs cl)
              | Some k => Ok (KruskalNeighbours k (a_weights a) cl)
              end
          | _ => Ok (BoruvkaTree (a_weights a))
          end
    end
  end.

(** hdbscan.py:225-336 up to the point where all checks have passed; the method
    is looked at last, in hdbscan.py:540-557. *)
Definition dispatch (a : arguments) : res plan :=
  let* _ := check_metric a in
  let* _ := check_semi_supervised a in
  if negb (is_none (a_min_samples a) || positive_int (a_min_samples a)) || negb (positive_int (a_min_cluster_size a)) then Err ValueError else
  let* _ := check_float (a_epsilon a) in
  let* _ := check_float (a_persistence a) in
  if a_rows a <? 2 then Ok Degenerate else
  let* p := choose_algorithm a in
  match a_method a with OtherMethod => Err ValueError | _ => Ok p end.
