(** Model of HDBSCAN.fit on feature data, and of the handling of rows that are
    not finite: fast_hdbscan/hdbscan.py:119-196, 199-336 and 686-834. *)
From Coq Require Import List Arith Bool ZArith.
From Verif Require Import Prelude Order Graph Size Num M_Linkage M_Condense M_Select M_Labels M_Pipeline.
Import ListNotations.
Local Open Scope nat_scope.

(** hdbscan.py:137-140, 178-185.  The dictionary [internal_to_raw] maps position
    [i] to [finite_index[i]] (hdbscan.py:755-757, 778-780) and is the list itself. *)
Definition remap_id (finite_index outliers : list nat) (id : nat) : nat :=
  if id <? length finite_index then nth id finite_index 0 else id + length outliers.

(** hdbscan.py:119-158 *)
Definition remap_condensed_tree {V : Type} {Sz : SOrd} (zero : V) (tree : list (crow V Sz)) (finite_index outliers : list nat)
  : res (list (crow V Sz)) :=
  let tree := map (fun r => {| c_parent := c_parent r + length outliers; c_child := remap_id finite_index outliers (c_child r);
                               c_lam := c_lam r; c_size := c_size r |}) tree in
  match tree with
  | [] => Err IndexError
  | r :: _ => Ok (map (fun o => {| c_parent := c_parent r; c_child := o; c_lam := zero; c_size := sone |}) outliers ++ tree)
  end.

(** hdbscan.py:187-193 *)
Fixpoint outlier_rows {W : WOrd} {Sz : SOrd} (last_id : nat) (last_size : Sz) (outliers : list nat) : list (lrow W Sz) :=
  match outliers with
  | [] => []
  | o :: os => {| l_a := o; l_b := last_id + 1; l_d := winf; l_n := sadd last_size sone |}
               :: outlier_rows (last_id + 1) (sadd last_size sone) os
  end.

(** hdbscan.py:161-196 *)
Definition remap_single_linkage_tree {W : WOrd} {Sz : SOrd} (tree : list (lrow W Sz)) (finite_index outliers : list nat)
  : res (list (lrow W Sz)) :=
  let tree := map (fun r => {| l_a := remap_id finite_index outliers (l_a r); l_b := remap_id finite_index outliers (l_b r);
                               l_d := l_d r; l_n := l_n r |}) tree in
  match rev tree with
  | [] => Err IndexError
  | r :: _ => Ok (tree ++ outlier_rows (Nat.max (l_a r) (l_b r)) (l_n r) outliers)
  end.

(** hdbscan.py:686-822. The fitted attributes labels_, probabilities_, _single_linkage_tree,
    _condensed_tree and _min_spanning_tree. *)
Record fitted (W V Sz : Type) := {
  f_labels : list Z;
  f_probabilities : list V;
  f_linkage : list (lrow W Sz);
  f_condensed : list (crow V Sz);
  f_mst : list (edge W)
}.
Arguments f_labels {W V Sz} _.
Arguments f_probabilities {W V Sz} _.
Arguments f_linkage {W V Sz} _.
Arguments f_condensed {W V Sz} _.
Arguments f_mst {W V Sz} _.

Section Run.
  Context {W V : WOrd} {Row : Type}.
  (** Arithmetic of distances and densities, uninitialised memory, the order of
      rows with equal parents: as in M_Pipeline.  [spanning_tree_of] stands for
      compute_minimum_spanning_tree (hdbscan.py:305-317). *)
  Variables (lambda : W -> V) (LA : LamArith V) (garbage : nat -> V).
  Variable spanning_tree_of : list Row -> res (list (edge W)).

  (** hdbscan.py:277-304: fewer than two rows. *)
  Definition degenerate {Sz} (rows : list Row) : fitted W V Sz :=
    {| f_labels := repeat (-1)%Z (length rows); f_probabilities := repeat (la_zero LA) (length rows);
       f_linkage := []; f_condensed := []; f_mst := [] |}.

  (** hdbscan.py:199-336 without sample weights; check_array rejects data
      without rows (line 233). *)
  Definition fast_hdbscan (A : Arith V NatSize) (by_parent : list (crow V NatSize) -> list (crow V NatSize))
      (st : settings V NatSize) (rows : list Row) : res (fitted W V NatSize) :=
    if length rows =? 0 then Err ValueError else
    if length rows <? 2 then Ok (degenerate rows) else
    let* mst := spanning_tree_of rows in
    let* L := mst_to_linkage_tree (sort_mst mst) in
    let* (r, T) := clusters_from_linkage_tree lambda LA A garbage by_parent st (fun _ => 1) (length mst + 1) L in
    Ok {| f_labels := fst r; f_probabilities := snd r; f_linkage := L; f_condensed := T; f_mst := sort_mst mst |}.

  (** The same with sample weights; [weight] gives the weight that belongs to a
      row (hdbscan.py:775-777 selects the weights together with the rows). *)
  Definition fast_hdbscan_weighted {Sz : SOrd} (weight : Row -> Sz) (A : Arith V Sz)
      (by_parent : list (crow V Sz) -> list (crow V Sz)) (st : settings V Sz) (rows : list Row) : res (fitted W V Sz) :=
    if length rows =? 0 then Err ValueError else
    if length rows <? 2 then Ok (degenerate rows) else
    let ws := map weight rows in
    let* mst := spanning_tree_of rows in
    let* L := mst_to_linkage_tree_w_sample_weights (sort_mst mst) ws in
    let* (r, T) := clusters_from_linkage_tree lambda LA A garbage by_parent st (fun x => nth x ws szero) (length mst + 1) L in
    Ok {| f_labels := fst r; f_probabilities := snd r; f_linkage := L; f_condensed := T; f_mst := sort_mst mst |}.
End Run.

(** hdbscan.py:686-822. [X[index]] *)
Definition take_rows {A} (X : list A) (index : list nat) : list A :=
  flat_map (fun i => match nth_error X i with Some x => [x] | None => [] end) index.

(** hdbscan.py:686-822. [result = np.full(n, fill); result[index] = values] *)
Fixpoint assign_at {A} (a : nat -> A) (index : list nat) (values : list A) : nat -> A :=
  match index, values with
  | i :: index', v :: values' => assign_at (upd a i v) index' values'
  | _, _ => a
  end.
(** hdbscan.py:686-822: The same with a check of the indices and lengths. *)
Definition scatter {A} (n : nat) (fill : A) (index : list nat) (values : list A) : res (list A) :=
  if length index =? length values then Ok (map (assign_at (fun _ => fill) index values) (seq 0 n)) else Err ValueError.

(** hdbscan.py:749, 772: positions of the rows without NaN or infinity. *)
Definition finite_index_of {Row} (isfinite : Row -> bool) (X : list Row) : list nat :=
  filter (fun i => match nth_error X i with Some x => isfinite x | None => false end) (seq 0 (length X)).

(** hdbscan.py:762-822: fit without labels; [set_list] is the order in which
    Python lists the set of the other positions (line 781).  The spanning tree
    is left as it is. *)
Definition fit {W V : WOrd} {Sz : SOrd} {Row} (zero : V) (isfinite : Row -> bool) (set_list : list nat -> list nat)
    (run : list Row -> res (fitted W V Sz)) (X : list Row) : res (fitted W V Sz) :=
  if forallb isfinite X then run X else
  let finite_index := finite_index_of isfinite X in
  let outliers := set_list (filter (fun i => negb (existsb (Nat.eqb i) finite_index)) (seq 0 (length X))) in
  let* r := run (take_rows X finite_index) in
  let* T := remap_condensed_tree zero (f_condensed r) finite_index outliers in
  let* L := remap_single_linkage_tree (f_linkage r) finite_index outliers in
  let* labels := scatter (length X) (-1)%Z finite_index (f_labels r) in
  let* probabilities := scatter (length X) zero finite_index (f_probabilities r) in
  Ok {| f_labels := labels; f_probabilities := probabilities; f_linkage := L; f_condensed := T; f_mst := f_mst r |}.

(** hdbscan.py:824-834: the DBSCAN clustering of a fitted model. *)
Definition dbscan_clustering {W V : WOrd} {Sz} (r : fitted W V Sz) (epsilon : W) (min_samples : nat) : res (list Z) :=
  get_cluster_labelling_at_cut (f_linkage r) epsilon min_samples.
