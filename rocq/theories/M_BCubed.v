(** Model of the semi-supervised selection: fast_hdbscan/cluster_trees.py:382-653. *)
From Coq Require Import List Arith Bool ZArith QArith Qcanon.
From Verif Require Import Prelude Order Graph Size Num M_Linkage M_Condense M_Select M_Labels M_Pipeline.
Import ListNotations.
Local Open Scope nat_scope.

(** The arithmetic of BCubed scores.  [bscore] is float64, [btotal] is float32.
    [b_term num_points num_labeled_in_node total_num_of_class_label
    total_num_of_labeled_points] is one summand (cluster_trees.py:544-556). *)
Record BArith := {
  bscore : Type;
  b_zero : bscore;
  b_add : bscore -> bscore -> bscore;
  b_term : nat -> nat -> nat -> nat -> res bscore;
  btotal : Type;
  b_cast : bscore -> btotal;
  t_zero : btotal;
  t_add : btotal -> btotal -> btotal;
  t_lt : btotal -> btotal -> bool;
  t_eq : btotal -> btotal -> bool
}.

(** cluster_trees.py:544-556 on exact numbers. *)
Definition exact_term (num_points num_labeled_in_node total_num_of_class_label total_num_of_labeled_points : nat) : res Qc :=
  if existsb (Nat.eqb 0) [num_points; num_labeled_in_node; total_num_of_class_label; total_num_of_labeled_points]
  then Err ZeroDivisionError
  else
    let precision_point := ((nat_as_q num_points / nat_as_q num_labeled_in_node) / nat_as_q total_num_of_labeled_points)%Qc in
    let recall_point := ((nat_as_q num_points / nat_as_q total_num_of_class_label) / nat_as_q total_num_of_labeled_points)%Qc in
    Ok (nat_as_q num_points * (nat_as_q 2 / (1 / precision_point + 1 / recall_point)))%Qc.

(** cluster_trees.py:514-560: Exact scores. *)
Definition ExactB : BArith :=
  {| bscore := Qc; b_zero := 0%Qc; b_add := Qcplus; b_term := exact_term; btotal := Qc; b_cast := fun x => x;
     t_zero := 0%Qc; t_add := Qcplus; t_lt := fun x y => negb (Qcleb y x); t_eq := fun x y => Qcleb x y && Qcleb y x |}.

Section BCubed.
  Context {V : Type} {Sz : SOrd} (A : Arith V Sz) (B : BArith).
  (** The order in which a set of integers is listed. *)
  Variable listed : list nat -> list nat.
  Implicit Types T : list (crow V Sz).

  (** cluster_trees.py:582-584: a dictionary from labelled samples to their labels,
      which are not negative. *)
  Definition label_indices_of (data_labels : list Z) : list (nat * nat) :=
    map (fun il => (fst il, Z.to_nat (snd il)))
        (filter (fun il => (-1 <? snd il)%Z) (combine (seq 0 (length data_labels)) data_labels)).

  (** cluster_trees.py:412-655: [x in l]. *)
  Definition member (x : nat) (l : list nat) : bool := existsb (Nat.eqb x) l.
  (** cluster_trees.py:412-655: [k in d]. *)
  Definition has_key {X} (d : list (nat * X)) (k : nat) : bool := member k (map fst d).

  (** cluster_trees.py:383-408: rows of clusters, and rows of labelled samples that
      leave a cluster which splits. *)
  Definition cluster_tree_from_condensed_tree_bcubed T (cluster_tree : list (crow V Sz)) (label_indices : list (nat * nat))
    : list (crow V Sz) :=
    filter (fun r => slt sone (c_size r) ||
                     ((sle (c_size r) sone && sle sone (c_size r)) && has_key label_indices (c_child r) &&
                      member (c_parent r) (map c_parent cluster_tree))) T.

  (** cluster_trees.py:428-446, one row. *)
  Definition elements_step (label_indices : list (nat * nat)) (parents : list nat) (r : crow V Sz)
      (cluster_elements : list (nat * list nat)) : res (list (nat * list nat)) :=
    let parent := c_parent r in
    let child := c_child r in
    if member child parents then
      let* below := dict_get cluster_elements child in
      if has_key cluster_elements parent then
        let* old := dict_get cluster_elements parent in
        Ok (dict_set cluster_elements parent (old ++ below))
      else
        Ok (dict_set cluster_elements parent (listed (filter (has_key label_indices) (unique below))))
    else
      let own := if has_key label_indices child then [child] else [] in
      if has_key cluster_elements parent then
        let* old := dict_get cluster_elements parent in
        Ok (dict_set cluster_elements parent (old ++ own))
      else
        Ok (dict_set cluster_elements parent own).

  (** cluster_trees.py:412-446: bottom up over all rows. *)
  Definition condensed_tree_elements T (label_indices : list (nat * nat)) : res (list (nat * list nat)) :=
    fold_res (elements_step label_indices (map c_parent T)) (rev T) [].

  (** cluster_trees.py:448-460: virtual nodes, and their elements. *)
  Definition virtual_nodes_of (cluster_tree cluster_tree_bcubed : list (crow V Sz)) : list nat :=
    listed (filter (fun x => negb (member x (map c_child cluster_tree))) (unique (map c_child cluster_tree_bcubed))).
  (** cluster_trees.py:448-458: every virtual node is its own element. *)
  Definition add_virtual_nodes (virtual_nodes : list nat) (cluster_elements : list (nat * list nat)) : list (nat * list nat) :=
    fold_left (fun d node => dict_set d node [node]) virtual_nodes cluster_elements.

  (** [if k in d: d[k] += 1 else: d[k] = 1] for every [k] of a list;
      cluster_trees.py:519-523 and cluster_trees.py:537-542. *)
  Definition count_up (d : list (nat * nat)) (k : nat) : list (nat * nat) :=
    match dict_get d k with Ok c => dict_set d k (c + 1) | Err _ => dict_set d k 1 end.
  (** cluster_trees.py:514-560: How often each value occurs. *)
  Definition counts (l : list nat) : list (nat * nat) := fold_left count_up l [].

  (** cluster_trees.py:530-556, one cluster. *)
  Definition bcubed_of (label_indices label_counts : list (nat * nat)) (total_num_of_labeled_points : nat) (points : list nat)
    : res (bscore B) :=
    match points with
    | [] => Ok (b_zero B)
    | _ =>
        let* labels := map_res (dict_get label_indices) points in
        fold_res (fun lk acc =>
                    let* total_num_of_class_label := dict_get label_counts (fst lk) in
                    let* t := b_term B (snd lk) (length points) total_num_of_class_label total_num_of_labeled_points in
                    Ok (b_add B acc t))
                 (counts labels) (b_zero B)
    end.

  (** cluster_trees.py:514-559 *)
  Definition score_condensed_tree_nodes_bcubed (cluster_elements : list (nat * list nat)) (label_indices : list (nat * nat))
    : res (list (nat * bscore B)) :=
    let label_counts := counts (map snd label_indices) in
    let total_num_of_labeled_points := list_sum (map snd label_counts) in
    map_res (fun ce => let* b := bcubed_of label_indices label_counts total_num_of_labeled_points (snd ce) in Ok (fst ce, b))
            cluster_elements.

  Section Recursion.
    Variable cluster_tree : list (crow V Sz).
    Variable stability_node_scores : list (nat * num A).
    Variable bcubed_node_scores : list (nat * bscore B).

    (** cluster_trees.py:464-655. The two dictionaries of flags. *)
    Definition flags : Type := list (nat * bool) * list (nat * bool).   (* selected_clusters, unselected_nodes *)

    (** cluster_trees.py:563-571 *)
    Fixpoint unselect_below_node_bcubed (fuel node : nat) (s : flags) : res flags :=
      match fuel with
      | 0 => Err OutOfFuel
      | S f =>
          fold_res (fun child (s : flags) =>
                      let* gone := dict_get (snd s) child in
                      if gone then Ok s
                      else
                        let* s := unselect_below_node_bcubed f child s in
                        Ok (dict_set (fst s) child false, dict_set (snd s) child true))
                   (children_of cluster_tree node) s
      end.

    (** cluster_trees.py:464-510.  If the BCubed scores cannot be compared (NaN) the
        function would return nothing, which its caller cannot add. *)
    Fixpoint eom_recursion_bcubed (fuel node : nat) (s : flags) : res ((num A * btotal B) * flags) :=
      match fuel with
      | 0 => Err OutOfFuel
      | S f =>
          let* stability := dict_get stability_node_scores node in
          let* bcubed := dict_get bcubed_node_scores node in
          let current := (stability, b_cast B bcubed) in
          let* (total, s) :=
            fold_res (fun child ts =>
                        let* (v, s) := eom_recursion_bcubed f child (snd ts) in
                        Ok ((num_add A (fst (fst ts)) (fst v), t_add B (snd (fst ts)) (snd v)), s))
                     (children_of cluster_tree node) ((num_zero A, t_zero B), s) in
          let select :=
            let s := (dict_set (fst s) node true, snd s) in
            let* s := unselect_below_node_bcubed f node s in
            Ok (current, s) in
          if t_lt B (snd current) (snd total) then Ok (total, s)
          else if t_lt B (snd total) (snd current) then select
          else if t_eq B (snd total) (snd current) then
            if num_lt A (fst current) (fst total) then Ok (total, s) else select
          else Err TypeError
      end.

    (** cluster_trees.py:633-645 *)
    Definition eom_children_bcubed (fuel : nat) (cs : list nat) (s : flags) : res flags :=
      fold_res (fun child s => let* (_, s) := eom_recursion_bcubed fuel child s in Ok s) cs s.
  End Recursion.

  (** cluster_trees.py:575-653.  The recursion depth is at most the number of rows;
      the fuel is one more. *)
  Definition extract_clusters_bcubed T (cluster_tree : list (crow V Sz)) (data_labels : list Z)
      (allow_virtual_nodes allow_single_cluster : bool) : res (list nat) :=
    let label_indices := label_indices_of data_labels in
    let cluster_tree_bcubed :=
      if allow_virtual_nodes then cluster_tree_from_condensed_tree_bcubed T cluster_tree label_indices else cluster_tree in
    let virtual_nodes := if allow_virtual_nodes then virtual_nodes_of cluster_tree cluster_tree_bcubed else [] in
    let* elements := condensed_tree_elements T label_indices in
    let cluster_elements := add_virtual_nodes virtual_nodes elements in
    let* stability := score_condensed_tree_nodes A T in
    let stability_node_scores := fold_left (fun d node => dict_set d node (num_zero A)) virtual_nodes stability in
    let* bcubed_node_scores := score_condensed_tree_nodes_bcubed cluster_elements label_indices in
    match cluster_tree_bcubed with
    | [] => Ok []
    | _ =>
        let* root := array_min (map c_parent cluster_tree_bcubed) in
        let off := map (fun kv => (fst kv, false)) bcubed_node_scores in
        let fuel := S (S (length cluster_tree_bcubed)) in
        let* (selected, _) :=
          if allow_single_cluster then
            let* (_, s) := eom_recursion_bcubed cluster_tree_bcubed stability_node_scores bcubed_node_scores fuel root (off, off) in Ok s
          else if 1 <? length bcubed_node_scores then
            eom_children_bcubed cluster_tree_bcubed stability_node_scores bcubed_node_scores fuel
              (children_of cluster_tree_bcubed root) (off, off)
          else Ok (off, off) in
        Ok (filter (fun node => negb (member node virtual_nodes)) (map fst (filter snd selected)))
    end.
End BCubed.

(** ** clusters_from_spanning_tree with semi_supervised=True: hdbscan.py:497-574.
    The maximum cluster size is not passed on (line 538); with the leaf method
    the labels are not used. *)
Section Semi.
  Context {W V : WOrd} {Sz : SOrd}.
  Variables (lambda : W -> V) (LA : LamArith V) (A : Arith V Sz) (B : BArith) (garbage : nat -> V)
    (by_parent : list (crow V Sz) -> list (crow V Sz)) (listed : list nat -> list nat).
  Variable st : settings V Sz.
  Variables (data_labels : list Z) (virtual : bool).   (* ss_algorithm == "bc" *)

  (** hdbscan.py:533-557 *)
  Definition semi_selected_clusters_of (T : list (crow V Sz)) (n_points : nat) : res (list nat) :=
    match cluster_selection_method st with
    | Eom => extract_clusters_bcubed A B listed T (cluster_tree_from_condensed_tree T) data_labels virtual (allow_single_cluster st)
    | Leaf => selected_clusters_of A st T n_points
    end.

  (** hdbscan.py:497-574: The semi-supervised branch, from the linkage tree on. *)
  Definition semi_clusters_from_linkage_tree (sample_weights : nat -> Sz) (n_points : nat) (L : list (lrow W Sz))
    : res (list Z * list V * list (crow V Sz)) :=
    let* T := condensed_tree_of lambda garbage st sample_weights L in
    let* selected := semi_selected_clusters_of T n_points in
    let* selected := epsilon_clusters_of by_parent st T selected in
    let* ls := labels_and_strengths_of LA st T n_points selected in
    Ok (ls, T).
End Semi.

(** hdbscan.py:497-574: The same from the spanning tree on. *)
Definition semi_clusters_from_spanning_tree {W V : WOrd} (lambda : W -> V) (LA : LamArith V) (A : Arith V NatSize) (B : BArith)
    (garbage : nat -> V) (by_parent : list (crow V NatSize) -> list (crow V NatSize)) (listed : list nat -> list nat)
    (st : settings V NatSize) (data_labels : list Z) (virtual : bool) (mst : list (edge W))
    : res (list Z * list V * list (crow V NatSize)) :=
  let* L := mst_to_linkage_tree (sort_mst mst) in
  semi_clusters_from_linkage_tree lambda LA A B garbage by_parent listed st data_labels virtual (fun _ => 1) (length mst + 1) L.

(** hdbscan.py:497-574. The instance in exact arithmetic. *)
Definition exact_semi_clusters (garbage : nat -> QInf) (by_parent : list (crow QInf NatSize) -> list (crow QInf NatSize))
    (listed : list nat -> list nat) (st : settings QInf NatSize) (data_labels : list Z) (virtual : bool) (mst : list (edge QInf)) :=
  semi_clusters_from_spanning_tree hdbscan_lambda_value ExactLam (ExactArith NatSize nat_as_q) ExactB garbage by_parent listed st
    data_labels virtual mst.
