(** Model of cluster_selection_persistence (cluster_trees.py:774-831).  Arrays are
    indexed by cluster id instead of cluster id minus the number of points. *)
From Coq Require Import List Arith Bool QArith Qcanon.
From Verif Require Import Prelude Order Size Num M_Linkage M_Condense M_Select.
Import ListNotations.
Local Open Scope nat_scope.

Section Simplify.
  Context {V : WOrd} {Sz : SOrd}.
  (** [persists birth death] stands for [birth - death >= persistence_threshold]. *)
  Variable persists : V -> V -> bool.
  (** What [np.empty] returns. *)
  Variable garbage : nat -> V.
  Implicit Types (T ct : list (crow V Sz)) (r q : crow V Sz).

  (** cluster_trees.py:775-832: The loop variables. *)
  Record sstate := {
    leaf_indicator : nat -> bool;
    max_births : nat -> V;
    parent_map : nat -> nat;
    lambda_map : list (nat * V)
  }.

  (** cluster_trees.py:788-809, the body for the rows [r] (at idx - 1) and [q]
      (at idx). *)
  Definition simplify_pair r q (s : sstate) : sstate :=
    let parent := c_parent q in
    let a := c_child r in
    let b := c_child q in
    let death := c_lam q in
    let births_a := max_births s a in
    let births_b := max_births s b in
    let births := upd (max_births s) parent (wmax (max_births s parent) (wmax births_a births_b)) in
    if persists (wmin births_a births_b) death
    then {| leaf_indicator := leaf_indicator s; max_births := births;
            parent_map := parent_map s; lambda_map := lambda_map s |}
    else
      let sibling := if wle births_a births_b then b else a in
      let other := if wle births_a births_b then a else b in
      {| leaf_indicator := if leaf_indicator s sibling then upd (leaf_indicator s) parent true else leaf_indicator s;
         max_births := births;
         parent_map := upd (upd (parent_map s) a parent) b parent;
         lambda_map := if leaf_indicator s sibling then lambda_map s else dict_set (lambda_map s) other death |}.

  (** cluster_trees.py:787, the loop; [ct] is the cluster tree from its last row
      to its first. *)
  Fixpoint simplify_pairs ct (s : sstate) : sstate :=
    match ct with
    | q :: r :: ct' => simplify_pairs ct' (simplify_pair r q s)
    | _ => s
    end.

  (** cluster_trees.py:813-814; [ids] are the cluster ids in ascending order. *)
  Definition propagate (ids : list nat) (pm : nat -> nat) : nat -> nat :=
    fold_left (fun pm i => upd pm i (pm (pm i))) ids pm.

  (** cluster_trees.py:812, 815-817 *)
  Definition renumber (n_points : nat) (ids : list nat) (pm : nat -> nat) : (nat -> nat) * (nat -> bool) :=
    fold_left (fun st i =>
                 let parent := fst st i in
                 let skipped := upd (snd st) i (negb (parent =? i)) in
                 (upd (fst st) i (parent - countp skipped (seq n_points (parent - n_points))), skipped))
              ids (pm, fun _ => false).

  (** cluster_trees.py:775-832: [d.get(k, default)]. *)
  Definition dict_get_or (d : list (nat * V)) (k : nat) (default : V) : V :=
    match dict_get d k with Ok v => v | Err _ => default end.

  (** cluster_trees.py:821-829, one row. *)
  Definition simplify_row (n_points : nat) (lm : list (nat * V)) (pm : nat -> nat) (skipped : nat -> bool) r
    : list (crow V Sz) :=
    if skipped (Nat.max (c_child r) n_points) then []
    else [ {| c_parent := pm (c_parent r);
              c_child := if n_points <=? c_child r then pm (c_child r) else c_child r;
              c_lam := dict_get_or lm (c_parent r) (c_lam r);
              c_size := c_size r |} ].

  (** cluster_trees.py:774-831.  [child[-1]] of an empty cluster tree is a read
      outside the array, modelled as a failure.  The code overwrites the columns
      of its argument; only the returned table is modelled. *)
  Definition simplify_hierarchy T : res (list (crow V Sz)) :=
    let cluster_tree := cluster_tree_from_condensed_tree T in
    match T with
    | [] => Err IndexError
    | first :: _ =>
        let n_points := c_parent first in
        match rev cluster_tree with
        | [] => Err IndexError
        | last :: _ =>
            let n_nodes := c_child last + 1 in
            let ids := seq n_points (n_nodes - n_points) in
            let s := simplify_pairs (rev cluster_tree)
              {| leaf_indicator := fun c => negb (existsb (fun r => c_parent r =? c) cluster_tree);
                 max_births := fold_left (fun births r => upd births (c_parent r) (c_lam r)) T garbage;
                 parent_map := fun c => c;
                 lambda_map := [] |} in
            let (pm, skipped) := renumber n_points ids (propagate ids (parent_map s)) in
            Ok (flat_map (simplify_row n_points (lambda_map s) pm skipped) T)
        end
    end.
End Simplify.

(** cluster_trees.py:775-832. Exact instance; inf - inf is NaN, and a comparison with NaN is false. *)
Definition exact_persists (threshold : Qc) (birth death : QInf) : bool :=
  match death, birth with
  | None, _ => false
  | Some _, None => true
  | Some d, Some b => Qcleb threshold (b - d)%Qc
  end.
