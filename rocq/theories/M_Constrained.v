(** Model of HDBSCAN.fit with cannot-link constraints and algorithm="kruskal":
    fast_hdbscan/hdbscan.py:305-317, 339-494 and 786-802 with kruskal.py:822-1034. *)
From Coq Require Import List Arith Bool ZArith.
From Verif Require Import Prelude Order Graph Size Num S_Kruskal M_Kruskal M_KruskalEntry M_Linkage M_Condense M_Select M_Labels M_Pipeline M_Estimator.
Import ListNotations.
Local Open Scope nat_scope.

Section Constrained.
  Context {W : WOrd} {Row : Type}.

  (** hdbscan.py:472-484 and kruskal.py:863-878: the constraints are resolved
      against the number of rows that reach the spanning tree, after the rows
      that are not finite have been dropped; the arguments themselves are those
      of the caller (hdbscan.py:789 [get_params]).  [tree_of] is the Kruskal
      variant. *)
  Definition constrained_mst (tree_of : cl_params -> list Row -> res (list (edge W))) (cannot_link : option sparse) (validate : bool)
      (groups : option (list Z)) (rows : list Row) : res (list (edge W)) :=
    let* cl := resolve_cl_params (length rows) cannot_link validate groups in
    tree_of cl rows.

  (** kruskal.py:881-947 [_kruskal_mst_brute] on the distances between rows. *)
  Definition brute_tree (zero : W) (dist : Row -> Row -> W) (min_samples : nat) (cl : cl_params) (rows : list Row) : res (list (edge W)) :=
    let D i j := match nth_error rows i, nth_error rows j with Some x, Some y => dist x y | _, _ => zero end in
    let* (r, core) := kruskal_mst_brute zero D (length rows) min_samples cl in Ok (fst r).

  (** kruskal.py:950-1034 [_kruskal_mst_knn]; [query rows k] stands for the
      answer of the space tree of these rows. *)
  Definition knn_tree (zero : W) (query : list Row -> nat -> list (list (option nat * W))) (min_samples knn_k : nat) (cl : cl_params)
      (rows : list Row) : res (list (edge W)) :=
    let* (r, core) := kruskal_mst_knn zero (query rows) min_samples knn_k cl in Ok (fst r).
End Constrained.
