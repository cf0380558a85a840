(** Model of the tree of clusters across layers: fast_hdbscan/layer_clusters.py:498-554. *)
From Coq Require Import List Arith Bool ZArith.
From Verif Require Import Prelude Order M_Linkage M_Layers.
Import ListNotations.
Local Open Scope nat_scope.

(** layer_clusters.py:499-526. [np.unique]: the distinct values in ascending order. *)
Definition unique_Z (l : list Z) : list Z := isort (W := ZInf) (fun z => Some z) (nodup Z.eq_dec l).

(** layer_clusters.py:499-526. [np.bincount]: raises for negative values. *)
Definition bincount (l : list Z) : res (list nat) :=
  if existsb (fun z => (z <? 0)%Z) l then Err ValueError
  else match l with
       | [] => Ok []
       | _ => let* top := zmax l in
              Ok (map (fun k => length (filter (Z.eqb (Z.of_nat k)) l)) (seq 0 (Z.to_nat top + 1)))
       end.

(** layer_clusters.py:499-526. [np.cumsum], starting from [a]. *)
Fixpoint cumsum (a : nat) (l : list nat) : list nat :=
  match l with [] => [] | x :: l' => (a + x) :: cumsum (a + x) l' end.

(** layer_clusters.py:499-526. [np.split(arr, idx)]: the slices between consecutive indices. *)
Fixpoint split_at {A} (arr : list A) (start : nat) (idx : list nat) : list (list A) :=
  match idx with
  | [] => [skipn start arr]
  | i :: idx' => firstn (i - start) (skipn start arr) :: split_at arr i idx'
  end.

(** layer_clusters.py:499-526: An entry of [mapping]. *)
Record tree_row := { t_parent_layer : nat; t_parent : Z; t_child_layer : nat; t_child : Z }.

Section LayerTree.
  (** [np.argsort], not stable. *)
  Variable argsort : list Z -> list nat.

  (** layer_clusters.py:499-526: [mapping], and the clusters found in every layer. *)
  Definition search_state : Type := list tree_row * (nat -> list Z).

  (** layer_clusters.py:517-519: [child] in the group of [label]. *)
  Definition visit_child (upper_layer : nat) (label : Z) (lower_layer : nat) (st : search_state) (child : Z) : search_state :=
    let (mapping, found) := st in
    if (0 <=? child)%Z && negb (existsb (Z.eqb child) (found lower_layer))
    then (mapping ++ [{| t_parent_layer := upper_layer; t_parent := label; t_child_layer := lower_layer; t_child := child |}],
          upd found lower_layer (child :: found lower_layer))
    else st.

  (** layer_clusters.py:506-513. *)
  Definition cluster_groups (upper lower : list Z) : res (list (list Z)) :=
    let upper_cluster_order := argsort upper in
    let* counts := bincount (map (fun l => l + 1)%Z upper) in
    let groups := split_at (map (fun i => nth i lower 0%Z) upper_cluster_order) 0 (removelast (cumsum 0 counts)) in
    Ok (if length (unique_Z upper) <? length groups then tl groups else groups).

  (** layer_clusters.py:514-519: [labels] are the unique labels from position [i] on. *)
  Fixpoint visit_groups (upper_layer lower_layer : nat) (groups : list (list Z)) (i : nat) (labels : list Z) (st : search_state)
    : res search_state :=
    match labels with
    | [] => Ok st
    | label :: labels' =>
        let* st :=
          if (0 <=? label)%Z then
            match nth_error groups i with
            | None => Err IndexError
            | Some group => Ok (fold_left (visit_child upper_layer label lower_layer) group st)
            end
          else Ok st in
        visit_groups upper_layer lower_layer groups (S i) labels' st
    end.

  (** layer_clusters.py:503-519 for one pair of layers. *)
  Definition visit_layers (labels : list (list Z)) (st : search_state) (pair : nat * nat) : res search_state :=
    let (upper_layer, lower_layer) := pair in
    let upper := nth upper_layer labels [] in
    let* groups := cluster_groups upper (nth lower_layer labels []) in
    visit_groups upper_layer lower_layer groups 0 (unique_Z upper) st.

  (** layer_clusters.py:499-526: The loop over pairs of layers. *)
  Fixpoint visit_all (labels : list (list Z)) (pairs : list (nat * nat)) (st : search_state) : res search_state :=
    match pairs with
    | [] => Ok st
    | p :: pairs' => let* st := visit_layers labels st p in visit_all labels pairs' st
    end.

  (** layer_clusters.py:499-526. [for upper_layer in range(1, n): for lower_layer in range(upper_layer - 1, -1, -1)]. *)
  Definition layer_pairs (n : nat) : list (nat * nat) :=
    flat_map (fun u => map (fun l => (u, l)) (rev (seq 0 u))) (seq 1 (n - 1)).

  (** layer_clusters.py:521-524 for one layer. *)
  Definition orphans (n : nat) (labels : list (list Z)) (found : nat -> list Z) (lower_layer : nat) : res (list tree_row) :=
    let* top := zmax (nth lower_layer labels []) in
    Ok (map (fun c => {| t_parent_layer := n; t_parent := 0; t_child_layer := lower_layer; t_child := Z.of_nat c |})
          (filter (fun c => negb (existsb (Z.eqb (Z.of_nat c)) (found lower_layer))) (seq 0 (Z.to_nat (top + 1))))).

  (** layer_clusters.py:498-526. *)
  Definition build_cluster_tree (labels : list (list Z)) : res (list tree_row) :=
    let n := length labels in
    let* st := visit_all labels (layer_pairs n) ([], fun _ => [(-1)%Z]) in
    let* rest := map_res (orphans n labels (snd st)) (rev (seq 0 n)) in
    Ok (fst st ++ concat rest).
End LayerTree.

(** layer_clusters.py:529-554.  A dictionary from parents to lists of children. *)
Definition cluster_name : Type := nat * Z.
(** layer_clusters.py:529-554: Equality of names. *)
Definition name_eqb (a b : cluster_name) : bool := (fst a =? fst b) && (snd a =? snd b)%Z.
(** layer_clusters.py:529-554: [tree[p].append(c)] on a dictionary of lists. *)
Fixpoint append_child (d : list (cluster_name * list cluster_name)) (p c : cluster_name) : list (cluster_name * list cluster_name) :=
  match d with
  | [] => [(p, [c])]
  | (q, cs) :: d' => if name_eqb p q then (q, cs ++ [c]) :: d' else (q, cs) :: append_child d' p c
  end.
(** layer_clusters.py:529-554. [np.vstack] raises for rows of different lengths and for an empty list. *)
Definition build_layer_cluster_tree (argsort : list Z -> list nat) (labels : list (list Z)) : res (list (cluster_name * list cluster_name)) :=
  match labels with
  | [] => Err ValueError
  | l :: ls =>
      if forallb (fun l' => length l' =? length l) ls then
        let* mapping := build_cluster_tree argsort labels in
        Ok (fold_left (fun d r => append_child d (t_parent_layer r, t_parent r) (t_child_layer r, t_child r)) mapping [])
      else Err ValueError
  end.

(** hdbscan.py:1075-1160. [np.argmax]: the first position of the largest value; raises for an empty list. *)
Fixpoint argmax_from {P : WOrd} (best : P) (pos i : nat) (l : list P) : nat :=
  match l with
  | [] => pos
  | x :: l' => if wlt best x then argmax_from x i (S i) l' else argmax_from best pos (S i) l'
  end.
(** hdbscan.py:1075-1160: [np.argmax(l)]. *)
Definition argmax {P : WOrd} (l : list P) : res nat :=
  match l with [] => Err ValueError | x :: l' => Ok (argmax_from x 0 1 l') end.

(** fast_hdbscan/hdbscan.py:1139-1163, after the layers have been built: the tree
    and the layer whose labels are returned. *)
Definition plscan_result {V P : WOrd} (argsort : list Z -> list nat) (ys : list (layer V P))
  : res (list (cluster_name * list cluster_name) * layer V P) :=
  let* tree := build_layer_cluster_tree argsort (map y_labels ys) in
  match ys with
  | [] => Err IndexError
  | [y] => Ok (tree, y)
  | y :: _ => let* best_layer := argmax (map y_persistence ys) in Ok (tree, nth best_layer ys y)
  end.
