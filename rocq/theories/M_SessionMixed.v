(** Model of HDBSCAN objects over time with all three ways to fit them: feature
    data, feature data with labels, and graphs of distances
    (fast_hdbscan/hdbscan.py:646-887).  M_Session has feature data only. *)
From Coq Require Import List Arith Bool ZArith.
From Verif Require Import Prelude Order Graph Size Num M_Linkage M_Condense M_Select M_Labels M_Pipeline M_BCubed M_Estimator M_SemiFit.
Import ListNotations.
Local Open Scope nat_scope.

(** hdbscan.py:686: the argument X of fit, a matrix of features or a sparse matrix
    of distances.  [y]: labels, [None] in the list for NaN and infinity. *)
Inductive input (Row Graph : Type) :=
| Features (X : list Row)
| Distances (g : Graph).
Arguments Features {Row Graph} _.
Arguments Distances {Row Graph} _.

(** hdbscan.py:646-684 and 686-822: parameters and attributes of an object. *)
Record mobject (P W V Sz Row Graph : Type) := {
  m_params : P;
  m_raw_data : option (input Row Graph);
  m_raw_labels : option (list Z);
  m_all_finite : option bool;
  m_results : option (fitted W V Sz)
}.
Arguments m_params {P W V Sz Row Graph} _.
Arguments m_raw_data {P W V Sz Row Graph} _.
Arguments m_raw_labels {P W V Sz Row Graph} _.
Arguments m_all_finite {P W V Sz Row Graph} _.
Arguments m_results {P W V Sz Row Graph} _.

(** hdbscan.py:646-684: the constructor. *)
Definition new_mobject {P W V Sz Row Graph : Type} (p : P) : mobject P W V Sz Row Graph :=
  {| m_params := p; m_raw_data := None; m_raw_labels := None; m_all_finite := None; m_results := None |}.

(** hdbscan.py:697, 735, 764: [self._raw_data = ...]. *)
Definition set_raw_data {P W V Sz Row Graph : Type} (o : mobject P W V Sz Row Graph) (X : option (input Row Graph)) : mobject P W V Sz Row Graph :=
  {| m_params := m_params o; m_raw_data := X; m_raw_labels := m_raw_labels o; m_all_finite := m_all_finite o; m_results := m_results o |}.
(** hdbscan.py:724, 736: [self._raw_labels = ...]. *)
Definition set_raw_labels {P W V Sz Row Graph : Type} (o : mobject P W V Sz Row Graph) (y : list Z) : mobject P W V Sz Row Graph :=
  {| m_params := m_params o; m_raw_data := m_raw_data o; m_raw_labels := Some y; m_all_finite := m_all_finite o; m_results := m_results o |}.
(** hdbscan.py:732, 747, 768: [self._all_finite = ...]. *)
Definition set_all_finite {P W V Sz Row Graph : Type} (o : mobject P W V Sz Row Graph) (b : bool) : mobject P W V Sz Row Graph :=
  {| m_params := m_params o; m_raw_data := m_raw_data o; m_raw_labels := m_raw_labels o; m_all_finite := Some b; m_results := m_results o |}.
(** hdbscan.py:786-822: assignments to labels_, probabilities_ and the trees. *)
Definition set_results {P W V Sz Row Graph : Type} (o : mobject P W V Sz Row Graph) (r : fitted W V Sz) : mobject P W V Sz Row Graph :=
  {| m_params := m_params o; m_raw_data := m_raw_data o; m_raw_labels := m_raw_labels o; m_all_finite := m_all_finite o; m_results := Some r |}.

(** hdbscan.py:646-686: what the user calls; [weighted]: sample_weight is given. *)
Inductive mcall (P Row Graph : Type) :=
| MSet (p : P)
| MFit (X : input Row Graph) (y : option (list (option Z))) (weighted : bool).
Arguments MSet {P Row Graph} _.
Arguments MFit {P Row Graph} _ _ _.

(** hdbscan.py:725, 740: [np.any(y != -1)]. *)
Definition some_label (y : list Z) : bool := existsb (fun l => negb (l =? -1)%Z) y.

(** hdbscan.py:805-822: the assignments, in order; the state reached, and the
    exception if there is one.  [n]: rows of X. *)
Definition remap_results {W V : WOrd} {Sz : SOrd} (zero : V) (n : nat) (finite_index outliers : list nat) (r : fitted W V Sz) : fitted W V Sz * option err :=
  match remap_condensed_tree zero (f_condensed r) finite_index outliers with
  | Err e => (r, Some e)
  | Ok T =>
    let r := {| f_labels := f_labels r; f_probabilities := f_probabilities r; f_linkage := f_linkage r; f_condensed := T; f_mst := f_mst r |} in
    match remap_single_linkage_tree (f_linkage r) finite_index outliers with
    | Err e => (r, Some e)
    | Ok L =>
      let r := {| f_labels := f_labels r; f_probabilities := f_probabilities r; f_linkage := L; f_condensed := f_condensed r; f_mst := f_mst r |} in
      match scatter n (-1)%Z finite_index (f_labels r) with
      | Err e => (r, Some e)
      | Ok labels =>
        let r := {| f_labels := labels; f_probabilities := f_probabilities r; f_linkage := f_linkage r; f_condensed := f_condensed r; f_mst := f_mst r |} in
        match scatter n zero finite_index (f_probabilities r) with
        | Err e => (r, Some e)
        | Ok probabilities =>
          ({| f_labels := f_labels r; f_probabilities := probabilities; f_linkage := f_linkage r; f_condensed := f_condensed r; f_mst := f_mst r |}, None)
        end
      end
    end
  end.

(** What fit calls: hdbscan.py:686-822.  [q_precomputed], [q_semi]: the parameters say
    metric == "precomputed", semi_supervised; [q_graph_ok]:
    validate_precomputed_sparse_graph takes the graph; [q_nodes]: its number of rows;
    [q_accepted]: validate_data or check_X_y takes the data; [q_labels_ok]: check_array
    (line 710), [q_y_ok]: check_X_y (line 734) takes the labels; [q_weights_ok]:
    the check of the weights, which belong to the rows; [q_set_list]: the order in
    which Python lists a set; [q_run], [q_run_semi], [q_run_graph]: fast_hdbscan with
    the parameters of the object (lines 786-801), with weights or not. *)
Record parts (P : Type) (W V : WOrd) (Sz : SOrd) (Row Graph : Type) := {
  q_zero : V;
  q_isfinite : Row -> bool;
  q_set_list : list nat -> list nat;
  q_precomputed : P -> bool;
  q_semi : P -> bool;
  q_graph_ok : Graph -> bool;
  q_nodes : Graph -> nat;
  q_accepted : input Row Graph -> bool;
  q_labels_ok : list (option Z) -> bool;
  q_y_ok : list (option Z) -> bool;
  q_weights_ok : list Row -> bool;
  q_run : P -> bool -> list Row -> res (fitted W V Sz);
  q_run_semi : P -> bool -> list (Row * Z) -> res (fitted W V Sz);
  q_run_graph : P -> Graph -> option (list Z) -> res (fitted W V Sz)
}.
Arguments q_zero {P W V Sz Row Graph} _.
Arguments q_isfinite {P W V Sz Row Graph} _.
Arguments q_set_list {P W V Sz Row Graph} _.
Arguments q_precomputed {P W V Sz Row Graph} _.
Arguments q_semi {P W V Sz Row Graph} _.
Arguments q_graph_ok {P W V Sz Row Graph} _.
Arguments q_nodes {P W V Sz Row Graph} _.
Arguments q_accepted {P W V Sz Row Graph} _.
Arguments q_labels_ok {P W V Sz Row Graph} _.
Arguments q_y_ok {P W V Sz Row Graph} _.
Arguments q_weights_ok {P W V Sz Row Graph} _.
Arguments q_run {P W V Sz Row Graph} _.
Arguments q_run_semi {P W V Sz Row Graph} _.
Arguments q_run_graph {P W V Sz Row Graph} _.

Section Object.
  Context {P : Type} {W V : WOrd} {Sz : SOrd} {Row Graph : Type}.
  Variable E : parts P W V Sz Row Graph.
  Notation zero := (q_zero E).
  Notation isfinite := (q_isfinite E).
  Notation set_list := (q_set_list E).
  Notation precomputed := (q_precomputed E).
  Notation semi := (q_semi E).
  Notation graph_ok := (q_graph_ok E).
  Notation nodes := (q_nodes E).
  Notation accepted := (q_accepted E).
  Notation labels_ok := (q_labels_ok E).
  Notation y_ok := (q_y_ok E).
  Notation weights_ok := (q_weights_ok E).
  Notation run := (q_run E).
  Notation run_semi := (q_run_semi E).
  Notation run_graph := (q_run_graph E).
  Notation mobject := (mobject P W V Sz Row Graph).

  (** hdbscan.py:786-803: fast_hdbscan, and its results. *)
  Definition conclude (o : mobject) (r : res (fitted W V Sz)) : mobject * option err :=
    match r with
    | Err e => (o, Some e)
    | Ok r => (set_results o r, None)
    end.

  (** hdbscan.py:747-761 and 768-822: the rows without missing values, fast_hdbscan
      and the positions of all rows. *)
  Definition conclude_rows {Data} (ok : Data -> bool) (algorithm : list Data -> res (fitted W V Sz)) (o : mobject) (rows : list Data) : mobject * option err :=
    let all_finite := forallb ok rows in
    let o := set_all_finite o all_finite in
    if all_finite then conclude o (algorithm rows) else
    let finite_index := finite_index_of ok rows in
    let outliers := set_list (filter (fun i => negb (existsb (Nat.eqb i) finite_index)) (seq 0 (length rows))) in
    match algorithm (take_rows rows finite_index) with
    | Err e => (o, Some e)
    | Ok r => let (r, e) := remap_results zero (length rows) finite_index outliers r in (set_results o r, e)
    end.

  (** hdbscan.py:688-732: metric='precomputed'.  check_array refuses labels that
      are not finite. *)
  Definition mfit_graph (o : mobject) (X : input Row Graph) (y : option (list (option Z))) (weighted : bool) : mobject * option err :=
    match X with
    | Features _ => (o, Some ValueError)
    | Distances g =>
      if negb (graph_ok g) then (o, Some ValueError) else
      if weighted then (o, Some NotImplementedError) else
      let o := set_raw_data o None in
      if semi (m_params o) then
        match y with
        | None => (o, Some ValueError)
        | Some y =>
          if negb (labels_ok y) then (o, Some ValueError) else
          let labels := map clean_label y in
          if negb (length labels =? nodes g) then (o, Some ValueError) else
          let o := set_raw_labels o labels in
          if negb (some_label labels) then (o, Some ValueError) else
          let o := set_all_finite o true in
          conclude o (run_graph (m_params o) g (Some labels))
        end
      else
        let o := set_all_finite o true in
        conclude o (run_graph (m_params o) g None)
    end.

  (** hdbscan.py:733-761: feature data with labels.  Line 738 overwrites the array
      that [_raw_labels] holds.  A sparse matrix passes check_X_y and fails in
      [np.isfinite] (line 747) with a TypeError, whatever the weights. *)
  Definition mfit_semi (o : mobject) (X : input Row Graph) (y : option (list (option Z))) (weighted : bool) : mobject * option err :=
    match y with
    | None => (o, Some ValueError)
    | Some y =>
      let rows_of_X := match X with Features rows => length rows | Distances g => nodes g end in
      if negb (accepted X) || negb (y_ok y) || negb (length y =? rows_of_X) then (o, Some ValueError) else
      let labels := map clean_label y in
      let o := set_raw_labels (set_raw_data o (Some X)) labels in
      if negb (some_label labels) then (o, Some ValueError) else
      match X with
      | Distances _ => (o, Some TypeError)
      | Features rows =>
        if weighted && negb (weights_ok rows) then (o, Some ValueError) else
        conclude_rows (fun row => isfinite (fst row)) (run_semi (m_params o) weighted) o (combine rows labels)
      end
    end.

  (** hdbscan.py:762-784: feature data; [y] has no effect. *)
  Definition mfit_plain (o : mobject) (X : input Row Graph) (weighted : bool) : mobject * option err :=
    if negb (accepted X) then (o, Some ValueError) else
    let o := set_raw_data o (Some X) in
    match X with
    | Distances _ => (o, Some TypeError)
    | Features rows =>
      if weighted && negb (weights_ok rows) then (o, Some ValueError) else
      conclude_rows isfinite (run (m_params o) weighted) o rows
    end.

  (** hdbscan.py:686-822: fit, and the exception it raises, if any. *)
  Definition mfit (o : mobject) (X : input Row Graph) (y : option (list (option Z))) (weighted : bool) : mobject * option err :=
    if precomputed (m_params o) then mfit_graph o X y weighted else
    if semi (m_params o) then mfit_semi o X y weighted else mfit_plain o X weighted.

  (** hdbscan.py:646-822: one call; the user goes on after an exception. *)
  Definition mperform (o : mobject) (c : mcall P Row Graph) : mobject :=
    match c with
    | MSet p => {| m_params := p; m_raw_data := m_raw_data o; m_raw_labels := m_raw_labels o; m_all_finite := m_all_finite o; m_results := m_results o |}
    | MFit X y weighted => fst (mfit o X y weighted)
    end.
  (** hdbscan.py:646-822: a history of calls. *)
  Definition mplay (o : mobject) (h : list (mcall P Row Graph)) : mobject := fold_left mperform h o.

  (** hdbscan.py:824-834, as in M_Session. *)
  Definition m_dbscan (cut_size : P -> nat) (o : mobject) (epsilon : W) : res (list Z) :=
    match m_results o with
    | None => Err ValueError
    | Some r => dbscan_clustering r epsilon (cut_size (m_params o))
    end.

  (** hdbscan.py:836-851. *)
  Definition m_condensed_tree (o : mobject) : res (list (crow V Sz) * list Z) :=
    match m_results o with None => Err ValueError | Some r => Ok (f_condensed r, f_labels r) end.

  (** hdbscan.py:853-865. *)
  Definition m_single_linkage_tree (o : mobject) : res (list (lrow W Sz)) :=
    match m_results o with None => Err ValueError | Some r => Ok (f_linkage r) end.

  (** hdbscan.py:867-887: None, with a warning, if there are no data. *)
  Definition m_spanning_tree (o : mobject) : res (option (list (edge W) * input Row Graph)) :=
    match m_results o with
    | None => Err ValueError
    | Some r => Ok (option_map (fun X => (f_mst r, X)) (m_raw_data o))
    end.
End Object.

(** hdbscan.py:226-336 with metric='precomputed': fewer than two nodes, also none,
    are taken; [labels]: semi_supervised, [virtual]: ss_algorithm == "bc". *)
Definition graph_fast_hdbscan {W V : WOrd} {Graph : Type} (lambda : W -> V) (LA : LamArith V) (garbage : nat -> V)
    (nodes : Graph -> nat) (spanning_tree_of : Graph -> res (list (edge W))) (A : Arith V NatSize) (B : BArith)
    (by_parent : list (crow V NatSize) -> list (crow V NatSize)) (listed : list nat -> list nat) (st : settings V NatSize) (virtual : bool)
    (g : Graph) (labels : option (list Z)) : res (fitted W V NatSize) :=
  if nodes g <? 2 then Ok (degenerate LA (seq 0 (nodes g))) else
  let* mst := spanning_tree_of g in
  let* L := mst_to_linkage_tree (sort_mst mst) in
  let* (r, T) :=
    match labels with
    | None => clusters_from_linkage_tree lambda LA A garbage by_parent st (fun _ => 1) (length mst + 1) L
    | Some y => semi_clusters_from_linkage_tree lambda LA A B garbage by_parent listed st y virtual (fun _ => 1) (length mst + 1) L
    end in
  Ok {| f_labels := fst r; f_probabilities := snd r; f_linkage := L; f_condensed := T; f_mst := sort_mst mst |}.
