(** Model of the single linkage tree: fast_hdbscan/cluster_trees.py:15-128 and
    the horizontal cut, cluster_trees.py:906-941. *)
From Coq Require Import List Arith Bool ZArith.
From Verif Require Import Prelude Order Graph Size M_DisjointSet.
Import ListNotations.

(** cluster_trees.py:66-127. One row of the single linkage tree: the two merged nodes, the height and the
    size of the merged node.  The float64 table of the code stores node ids as
    floats; they are naturals here. *)
Record lrow (W Sz : Type) := { l_a : nat; l_b : nat; l_d : W; l_n : Sz }.
Arguments l_a {W Sz} _.
Arguments l_b {W Sz} _.
Arguments l_d {W Sz} _.
Arguments l_n {W Sz} _.

(** cluster_trees.py:15, [LinkageMergeData]; [parent] is [None] for -1. *)
Record linkage_merge (Sz : Type) := {
  lm_len : nat;                     (* length of the arrays *)
  lm_parent : nat -> option nat;
  lm_size : nat -> Sz;
  lm_next : nat
}.
Arguments lm_len {Sz} _.
Arguments lm_parent {Sz} _.
Arguments lm_size {Sz} _.
Arguments lm_next {Sz} _.

(** cluster_trees.py:18-26 and 29-36: [base_size] ones, or the sample weights,
    followed by [base_size - 1] zeros. *)
Definition create_linkage_merge_data {Sz : SOrd} (sizes : list Sz) : linkage_merge Sz :=
  {| lm_len := 2 * length sizes - 1;
     lm_parent := fun _ => None;
     lm_size := fun i => nth i sizes szero;
     lm_next := length sizes |}.

(** cluster_trees.py:42-43 *)
Fixpoint lm_up (fuel : nat) (parent : nat -> option nat) (node : nat) : res nat :=
  match parent node with
  | None => Ok node
  | Some p =>
      if p =? node then Ok node
      else match fuel with 0 => Err OutOfFuel | S f => lm_up f parent p end
  end.

(** cluster_trees.py:48-51.  Reading [parent[-1]] would be the last cell in
    numpy; the model reports an error instead (shown unreachable). *)
Fixpoint lm_relabel (fuel : nat) (parent : nat -> option nat) (relabel node : nat)
  : res (nat -> option nat) :=
  match parent relabel with
  | None => Err IndexError
  | Some p =>
      if p =? node then Ok parent
      else match fuel with
           | 0 => Err OutOfFuel
           | S f => lm_relabel f (upd parent relabel (Some node)) p node
           end
  end.

(** cluster_trees.py:40-53 *)
Definition linkage_merge_find {Sz : Type} (lm : linkage_merge Sz) (x : nat)
  : res (linkage_merge Sz * nat) :=
  if lm_len lm <=? x then Err IndexError
  else
    let* node := lm_up (lm_len lm) (lm_parent lm) x in
    let parent := upd (lm_parent lm) node (Some node) in
    let* parent := lm_relabel (lm_len lm) parent x node in
    Ok ({| lm_len := lm_len lm; lm_parent := parent; lm_size := lm_size lm;
           lm_next := lm_next lm |}, node).

(** cluster_trees.py:57-63 *)
Definition linkage_merge_join {Sz : SOrd} (lm : linkage_merge Sz) (left right : nat)
  : res (linkage_merge Sz) :=
  if lm_len lm <=? lm_next lm then Err IndexError
  else Ok {| lm_len := lm_len lm;
             lm_size := upd (lm_size lm) (lm_next lm) (sadd (lm_size lm left) (lm_size lm right));
             lm_parent := upd (upd (lm_parent lm) left (Some (lm_next lm))) right (Some (lm_next lm));
             lm_next := lm_next lm + 1 |}.

(** cluster_trees.py:72-93, one iteration. *)
Definition linkage_step {W} {Sz : SOrd} (lm : linkage_merge Sz) (e : edge W)
  : res (linkage_merge Sz * lrow W Sz) :=
  let* (lm, lc) := linkage_merge_find lm (esrc e) in
  let* (lm, rc) := linkage_merge_find lm (edst e) in
  let '(c0, c1) := if rc <? lc then (lc, rc) else (rc, lc) in
  let row := {| l_a := c0; l_b := c1; l_d := ewt e;
                l_n := sadd (lm_size lm lc) (lm_size lm rc) |} in
  let* lm := linkage_merge_join lm lc rc in
  Ok (lm, row).

(** cluster_trees.py:66-127: The loop over the sorted edges. *)
Fixpoint linkage_loop {W} {Sz : SOrd} (lm : linkage_merge Sz) (mst : list (edge W))
  : res (list (lrow W Sz)) :=
  match mst with
  | [] => Ok []
  | e :: mst' =>
      let* (lm, row) := linkage_step lm e in
      let* rows := linkage_loop lm mst' in
      Ok (row :: rows)
  end.

(** cluster_trees.py:66-95 *)
Definition mst_to_linkage_tree {W} (sorted_mst : list (edge W)) : res (list (lrow W NatSize)) :=
  linkage_loop (create_linkage_merge_data (Sz := NatSize) (repeat 1 (length sorted_mst + 1)))
               sorted_mst.

(** cluster_trees.py:98-128 *)
Definition mst_to_linkage_tree_w_sample_weights {W} {Sz : SOrd}
    (sorted_mst : list (edge W)) (sample_weights : list Sz) : res (list (lrow W Sz)) :=
  linkage_loop (create_linkage_merge_data sample_weights) sorted_mst.

(** ** Cutting at a height *)

(** cluster_trees.py:915-920 *)
Fixpoint cut_unions {W : WOrd} {Sz} (cut : W) (rows : list (lrow W Sz)) (cluster : nat)
    (d : disjoint_set) : res disjoint_set :=
  match rows with
  | [] => Ok d
  | r :: rows' =>
      let* d := if wlt (l_d r) cut then
                  let* d := ds_union_by_rank d (l_a r) cluster in
                  ds_union_by_rank d (l_b r) cluster
                else Ok d in
      cut_unions cut rows' (cluster + 1) d
  end.

(** cluster_trees.py:923-926: representative of every sample, and the sizes. *)
Fixpoint cut_roots (d : disjoint_set) (samples : list nat) : res (list nat) :=
  match samples with
  | [] => Ok []
  | n :: samples' =>
      let* (d, cluster) := ds_find d n in
      let* rest := cut_roots d samples' in
      Ok (cluster :: rest)
  end.

(** cluster_trees.py:907-941: [cluster_size[cluster]]. *)
Definition cluster_size (result : list nat) (cluster : nat) : nat := countp (Nat.eqb cluster) result.

(** cluster_trees.py:928-937: the label map, built over the sorted distinct
    representatives.  A dictionary is an association list. *)
Fixpoint cut_label_map (min_cluster_size : nat) (result : list nat) (unique_labels : list nat)
    (label : nat) : list (nat * Z) :=
  match unique_labels with
  | [] => []
  | c :: u =>
      if cluster_size result c <? min_cluster_size
      then (c, (-1)%Z) :: cut_label_map min_cluster_size result u label
      else (c, Z.of_nat label) :: cut_label_map min_cluster_size result u (label + 1)
  end.

(** cluster_trees.py:907-941. Dictionary look-up. *)
Fixpoint dict_get {A} (d : list (nat * A)) (k : nat) : res A :=
  match d with
  | [] => Err KeyError
  | (k', v) :: d' => if k =? k' then Ok v else dict_get d' k
  end.

(** cluster_trees.py:907-941: A loop that fills an array, one entry per element; it stops at the first error. *)
Fixpoint map_res {A B} (f : A -> res B) (l : list A) : res (list B) :=
  match l with
  | [] => Ok []
  | x :: l' => let* y := f x in let* ys := map_res f l' in Ok (y :: ys)
  end.

(** cluster_trees.py:906-941.  The [prange] of lines 939-940 writes disjoint
    cells and only reads the dictionary, so it is a map. *)
Definition get_cluster_labelling_at_cut {W : WOrd} {Sz} (linkage_tree : list (lrow W Sz))
    (cut : W) (min_cluster_size : nat) : res (list Z) :=
  let num_points := length linkage_tree + 1 in
  let* d := cut_unions cut linkage_tree num_points
              (ds_rank_create (2 * length linkage_tree + 1)) in
  let* result := cut_roots d (seq 0 num_points) in
  let m := cut_label_map min_cluster_size result (unique result) 0 in
  map_res (dict_get m) result.
