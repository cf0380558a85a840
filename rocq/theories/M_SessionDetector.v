(** Model of SubClusterDetector and BranchDetector objects over time, with the
    clusterers they are fitted to: fast_hdbscan/sub_clusters.py:244-541 and
    fast_hdbscan/branches.py:72-141, attribute by attribute. *)
From Coq Require Import List Arith Bool ZArith.
From Verif Require Import Prelude Order Graph Size M_Linkage M_Condense M_Estimator M_SubClusters M_LensGraph M_Detector M_Session.
Import ListNotations.
Local Open Scope nat_scope.

(** sub_clusters.py:260-290 and 331-383: the attributes of a clusterer that a
    detector reads: whether its metric is "precomputed" now, [_raw_data], its
    parameters now, and what fit assigned together: labels, strengths and trees
    with [_neighbors]. *)
Record clusterer (C W V Sz Row : Type) := {
  q_precomputed : bool;
  q_raw_data : option (list Row);
  q_params : C;
  q_fitted : option (fitted W V Sz * list (list (option nat)))
}.
Arguments q_precomputed {C W V Sz Row} _.
Arguments q_raw_data {C W V Sz Row} _.
Arguments q_params {C W V Sz Row} _.
Arguments q_fitted {C W V Sz Row} _.

(** hdbscan.py:646-822: an HDBSCAN object with feature data as a detector sees it;
    [neighbors]: the table that belongs to the results. *)
Definition as_clusterer {C W V Sz Row : Type} (o : object C W V Sz Row) (neighbors : fitted W V Sz -> list (list (option nat))) : clusterer C W V Sz Row :=
  {| q_precomputed := false; q_raw_data := o_raw_data o; q_params := o_params o; q_fitted := option_map (fun r => (r, neighbors r)) (o_results o) |}.

(** sub_clusters.py:462-481 and 492-523, branches.py:90-126: the parameters of a
    detector and the attributes that fit sets: the results ([_core_distances] is
    left out), [_raw_data], and those that BranchDetector adds: branch_labels_,
    branch_probabilities_ and centralities_. *)
Record dobject (A : Type) (W V : WOrd) (Row : Type) := {
  do_params : A;
  do_found : option (detected W V);
  do_raw_data : option (list Row);
  do_branch : option (list Z * list V * list W)
}.
Arguments do_params {A W V Row} _.
Arguments do_found {A W V Row} _.
Arguments do_raw_data {A W V Row} _.
Arguments do_branch {A W V Row} _.

(** sub_clusters.py:462-481 and branches.py:90-110: the constructors. *)
Definition dnew {A : Type} {W V : WOrd} {Row : Type} (a : A) : dobject A W V Row := {| do_params := a; do_found := None; do_raw_data := None; do_branch := None |}.
(** sub_clusters.py:494-507: twelve attributes in one assignment; branches.py:114-122
    changes labels_ and probabilities_ in place. *)
Definition set_found {A : Type} {W V : WOrd} {Row : Type} (o : dobject A W V Row) (d : detected W V) : dobject A W V Row :=
  {| do_params := do_params o; do_found := Some d; do_raw_data := do_raw_data o; do_branch := do_branch o |}.
(** sub_clusters.py:521 *)
Definition set_data {A : Type} {W V : WOrd} {Row : Type} (o : dobject A W V Row) (X : list Row) : dobject A W V Row :=
  {| do_params := do_params o; do_found := do_found o; do_raw_data := Some X; do_branch := do_branch o |}.
(** branches.py:123-125 *)
Definition set_branch {A : Type} {W V : WOrd} {Row : Type} (o : dobject A W V Row) (d : detected W V) : dobject A W V Row :=
  {| do_params := do_params o; do_found := do_found o; do_raw_data := do_raw_data o; do_branch := Some (d_sub d, d_sub_probs d, d_lens d) |}.

(** sub_clusters.py:483-490: the arguments of fit; sample weights are left out. *)
Record fit_arguments (C W V Sz Row : Type) := {
  x_clusterer : clusterer C W V Sz Row;
  x_labels : option (list Z);
  x_probabilities : option (list V)
}.
Arguments x_clusterer {C W V Sz Row} _.
Arguments x_labels {C W V Sz Row} _.
Arguments x_probabilities {C W V Sz Row} _.

(** What the user does: scikit-learn's [set_params] (sub_clusters.py:462-481: it
    only assigns), and fit (sub_clusters.py:483, branches.py:112). *)
Inductive dcall (A X : Type) :=
| DSetParams (a : A)
| DFit (x : X).
Arguments DSetParams {A X} _.
Arguments DFit {A X} _.

Section Detectors.
  Context {A C Set_ : Type} {W V N : WOrd} {Sz : SOrd} {Row : Type}.
  Variables (round : W -> W) (sort_row : list (nat * W) -> list (nat * W)).
  Variables (average : V -> V -> V) (zero one : V) (no_lens : W).
  (** [resolve]: the settings of the detector, taken from the clusterer where they
      are None, and their checks (sub_clusters.py:289-328); [cluster_of]: the
      clustering with these settings; [lens_of_class]: the parameter lens_values, or
      compute_centrality for a BranchDetector. *)
  Variables (resolve : A -> C -> res Set_) (cluster_of : Set_ -> list (edge W) -> res (list Z * list V)) (lens_of_class : A -> lens_input W V Row).
  Variables (propagate_flag sides : A -> bool) (branch : bool).
  Variables (inv : W -> res N) (nadd : N -> N -> N) (nzero : N) (fuel : nat).
  Notation dobject := (dobject A W V Row).
  Notation arguments := (fit_arguments C W V Sz Row).

  (** sub_clusters.py:278-283: labels that are given come with strengths 1, unless
      strengths are given as well. *)
  Definition used_labels (r : fitted W V Sz) (x : arguments) : list Z * list V :=
    match x_labels x, x_probabilities x with
    | None, None => (f_labels r, f_probabilities r)
    | None, Some p => (f_labels r, p)
    | Some l, None => (l, repeat one (length l))
    | Some l, Some p => (l, p)
    end.

  (** sub_clusters.py:260-453: find_sub_clusters; check_is_fitted raises
      NotFittedError, a ValueError.  Also returns the data. *)
  Definition find_in (a : A) (x : arguments) : res (detected W V * list Row) :=
    let q := x_clusterer x in
    if q_precomputed q then Err NotImplementedError else
    match q_raw_data q with
    | None => Err ValueError
    | Some data =>
      match q_fitted q with
      | None => Err ValueError
      | Some (r, neighbors) =>
        let (labels, probabilities) := used_labels r x in
        let* s := resolve a (q_params q) in
        let* d := detect round sort_row average zero one no_lens (cluster_of s) (propagated (V := V) inv nadd nzero fuel) (propagate_flag a) data
                    (f_condensed r) labels probabilities neighbors (f_mst r) (lens_of_class a) in
        Ok (d, data)
      end
    end.

  (** sub_clusters.py:483-523: SubClusterDetector.fit. *)
  Definition dfit_base (o : dobject) (x : arguments) : dobject * option err :=
    match find_in (do_params o) x with
    | Err e => (o, Some e)
    | Ok (d, data) => (set_data (set_found o d) data, None)
    end.

  (** branches.py:112-126: BranchDetector.fit goes on.  Should the threshold raise,
      the labels it has changed so far are left out. *)
  Definition dfit (o : dobject) (x : arguments) : dobject * option err :=
    let (o, e) := dfit_base o x in
    match e with
    | Some e => (o, Some e)
    | None =>
      if branch then
        match do_found o with
        | None => (o, Some ValueError)
        | Some d =>
          match branch_fit zero (sides (do_params o)) d with
          | Err e => (o, Some e)
          | Ok d => let o := set_found o d in (set_branch o d, None)
          end
        end
      else (o, None)
    end.

  (** sub_clusters.py:462-541 and branches.py:90-141: one call; the user goes on after
      an exception. *)
  Definition dperform (o : dobject) (c : dcall A arguments) : dobject :=
    match c with
    | DSetParams a => {| do_params := a; do_found := do_found o; do_raw_data := do_raw_data o; do_branch := do_branch o |}
    | DFit x => fst (dfit o x)
    end.
  (** sub_clusters.py:462-541 and branches.py:90-141: a history of calls. *)
  Definition dplay (o : dobject) (h : list (dcall A arguments)) : dobject := fold_left dperform h o.

  (** sub_clusters.py:525-537 and branches.py:128-142: propagated_labels(), with the
      parameter [label_sides_as_branches] of the moment. *)
  Definition dpropagated (o : dobject) : res (list Z * list Z) :=
    match do_found o with
    | None => Err ValueError
    | Some d => if branch then branch_propagated_labels zero inv nadd nzero fuel (sides (do_params o)) d else propagated_labels inv nadd nzero fuel d
    end.
End Detectors.
