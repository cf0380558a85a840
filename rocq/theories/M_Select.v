(** Model of the cluster selection: fast_hdbscan/cluster_trees.py:355-380 and
    656-771. *)
From Coq Require Import List Arith Bool ZArith QArith Qcanon.
From Verif Require Import Prelude Order Size Num M_Linkage M_Condense.
Import ListNotations.
Local Open Scope nat_scope.

(** cluster_trees.py:657-772. Dictionaries keep their insertion order: association lists. *)
Fixpoint dict_set {A} (d : list (nat * A)) (k : nat) (v : A) : list (nat * A) :=
  match d with
  | [] => [(k, v)]
  | (k', v') :: d' => if k =? k' then (k', v) :: d' else (k', v') :: dict_set d' k v
  end.

(** cluster_trees.py:657-772. [for x in l: a = f(x, a)] where the body may fail. *)
Fixpoint fold_res {A B} (f : B -> A -> res A) (l : list B) (a : A) : res A :=
  match l with
  | [] => Ok a
  | x :: l' => let* a := f x a in fold_res f l' a
  end.

(** cluster_trees.py:657-722. The arithmetic of scores.  Theorems about the shape of the result hold for
    every such structure, in particular for floating point. *)
Record Arith (V Sz : Type) := {
  num : Type;
  num_zero : num;
  num_add : num -> num -> num;
  num_opp : num -> num;
  num_mul : V -> Sz -> num;         (* lambda_val * child_size *)
  num_lt : num -> num -> bool
}.
Arguments num {V Sz} _.
Arguments num_zero {V Sz} _.
Arguments num_add {V Sz} _ _ _.
Arguments num_opp {V Sz} _ _.
Arguments num_mul {V Sz} _ _ _.
Arguments num_lt {V Sz} _ _ _.

(** cluster_trees.py:657-722. Exact scores: lambda and sizes are rationals, no rounding.  [to_q] reads a
    size as a number. *)
Definition ExactArith (Sz : SOrd) (to_q : Sz -> Qc) : Arith (wcar QInf) (scar Sz) :=
  {| num := xq; num_zero := Fin 0; num_add := xadd; num_opp := xopp;
     num_mul := fun l s => xmul l (to_q s); num_lt := xlt |}.

Section Select.
  Context {V : Type} {Sz : SOrd} (A : Arith V Sz).
  Implicit Types T : list (crow V Sz).

  (** cluster_trees.py:673-684, [child_size > 1]. *)
  Definition cluster_tree_from_condensed_tree T : list (crow V Sz) :=
    filter (fun r => slt sone (c_size r)) T.

  (** cluster_trees.py:688-722. [cluster_tree.child[cluster_tree.parent == node]] *)
  Definition children_of (ct : list (crow V Sz)) (node : nat) : list nat :=
    map c_child (filter (fun r => c_parent r =? node) ct).

  (** cluster_trees.py:356-380. [x.min()], [x.max()] of an integer array; an error on an empty one. *)
  Definition array_min (l : list nat) : res nat :=
    match l with [] => Err ValueError | x :: l' => Ok (fold_left Nat.min l' x) end.
  (** cluster_trees.py:725-772: [x.max()]. *)
  Definition array_max (l : list nat) : res nat :=
    match l with [] => Err ValueError | x :: l' => Ok (fold_left Nat.max l' x) end.

  (** cluster_trees.py:356-367 *)
  Definition extract_leaves T : res (list nat) :=
    let* mx := array_max (map c_parent T) in
    let* n_points := array_min (map c_parent T) in
    Ok (filter (fun v => (n_points <=? v) &&
                         negb (existsb (fun r => (c_parent r =? v) && slt sone (c_size r)) T))
               (seq 0 (mx + 1))).

  (** cluster_trees.py:370-375.  [child.max()] of an empty tree is an error. *)
  Definition cluster_tree_leaves (ct : list (crow V Sz)) (n_points : nat) : res (list nat) :=
    let* mx := array_max (map c_child ct) in
    Ok (map (fun i => i + n_points)
            (filter (fun i => negb (existsb (fun r => c_parent r =? i + n_points) ct))
                    (seq 0 (mx + 1 - n_points)))).

  (** cluster_trees.py:661-669, one row. *)
  Definition score_step (r : crow V Sz) (result : list (nat * num A)) : res (list (nat * num A)) :=
    let result := if slt sone (c_size r)
                  then dict_set result (c_child r) (num_opp A (num_mul A (c_lam r) (c_size r)))
                  else result in
    let* old := dict_get result (c_parent r) in
    Ok (dict_set result (c_parent r) (num_add A old (num_mul A (c_lam r) (c_size r)))).

  (** cluster_trees.py:657-669 *)
  Definition score_condensed_tree_nodes T : res (list (nat * num A)) :=
    match T with
    | [] => Err IndexError
    | r :: _ => fold_res score_step T [(c_parent r, num_zero A)]
    end.

  Section Eom.
    Variable cluster_tree : list (crow V Sz).
    Variable node_scores : list (nat * num A).
    Variable node_sizes : list (nat * Sz).
    Variable max_cluster_size : option Sz.   (* None is np.inf *)

    (** cluster_trees.py:688-691; the recursion runs on fuel. *)
    Fixpoint unselect_below_node (fuel node : nat) (selected : list (nat * bool)) : res (list (nat * bool)) :=
      match fuel with
      | 0 => Err OutOfFuel
      | S f =>
          fold_res (fun child selected =>
                      let* selected := unselect_below_node f child selected in
                      Ok (dict_set selected child false))
                   (children_of cluster_tree node) selected
      end.

    (** cluster_trees.py:695-722: [size > max_cluster_size]; without a maximum never. *)
    Definition over_max (s : Sz) : bool :=
      match max_cluster_size with None => false | Some m => slt m s end.

    (** cluster_trees.py:695-721.  [max(x, 0.0)] keeps [x] unless [0.0 > x]. *)
    Fixpoint eom_recursion (fuel node : nat) (selected : list (nat * bool))
      : res (num A * list (nat * bool)) :=
      match fuel with
      | 0 => Err OutOfFuel
      | S f =>
          let* score := dict_get node_scores node in
          let current_score := if num_lt A score (num_zero A) then num_zero A else score in
          let* current_size := dict_get node_sizes node in
          let* (total, selected) :=
            fold_res (fun child ts =>
                        let* (v, selected) := eom_recursion f child (snd ts) in
                        Ok (num_add A (fst ts) v, selected))
                     (children_of cluster_tree node) (num_zero A, selected) in
          if num_lt A current_score total || over_max current_size then Ok (total, selected)
          else
            let selected := dict_set selected node true in
            let* selected := unselect_below_node f node selected in
            Ok (current_score, selected)
      end.

    (** cluster_trees.py:757-766 *)
    Definition eom_children (fuel : nat) (cs : list nat) (selected : list (nat * bool)) : res (list (nat * bool)) :=
      fold_res (fun child selected =>
                  let* (_, selected) := eom_recursion fuel child selected in Ok selected) cs selected.
  End Eom.

  (** cluster_trees.py:725-772: A number of samples as a size. *)
  Definition size_of_nat (k : nat) : Sz := ssum (repeat sone k).

  (** cluster_trees.py:725-771.  The recursion depth is at most the number of
      clusters; the fuel is one more. *)
  Definition extract_eom_clusters T (cluster_tree : list (crow V Sz)) (max_cluster_size : option Sz)
      (allow_single_cluster : bool) : res (list nat) :=
    let* node_scores := score_condensed_tree_nodes T in
    match cluster_tree with
    | [] => Ok []
    | _ =>
        let* root := array_min (map c_parent cluster_tree) in
        let node_sizes :=
          dict_set (fold_left (fun d r => dict_set d (c_child r) (c_size r)) cluster_tree [])
                   root (size_of_nat (root - 1)) in
        let selected := map (fun kv => (fst kv, false)) node_scores in
        let fuel := S (S (length cluster_tree)) in
        let* selected :=
          if allow_single_cluster then
            let* (_, selected) := eom_recursion cluster_tree node_scores node_sizes max_cluster_size fuel root selected in
            Ok selected
          else if 1 <? length node_scores then
            eom_children cluster_tree node_scores node_sizes max_cluster_size fuel (children_of cluster_tree root) selected
          else Ok selected in
        Ok (map fst (filter snd selected))
    end.
End Select.
