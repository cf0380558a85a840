(** Model of HDBSCAN objects over time: fast_hdbscan/hdbscan.py:686-887, attribute
    by attribute.  M_Estimator models a single fit as a function. *)
From Coq Require Import List Arith Bool ZArith.
From Verif Require Import Prelude Order Graph Size M_Linkage M_Condense M_Labels M_Estimator M_Dispatch M_Plscan.
Import ListNotations.
Local Open Scope nat_scope.

(** hdbscan.py:646-684 and 686-822: the parameters, and the attributes that fit
    sets: [_raw_data], [_all_finite], and labels_, probabilities_ and the trees. *)
Record object (P W V Sz Row : Type) := {
  o_params : P;
  o_raw_data : option (list Row);
  o_all_finite : option bool;
  o_results : option (fitted W V Sz)
}.
Arguments o_params {P W V Sz Row} _.
Arguments o_raw_data {P W V Sz Row} _.
Arguments o_all_finite {P W V Sz Row} _.
Arguments o_results {P W V Sz Row} _.

(** hdbscan.py:646-684: the constructor. *)
Definition new_object {P W V Sz Row : Type} (p : P) : object P W V Sz Row := {| o_params := p; o_raw_data := None; o_all_finite := None; o_results := None |}.

(** hdbscan.py:686-822: assignments to attributes. *)
Definition with_data {P W V Sz Row : Type} (o : object P W V Sz Row) (X : list Row) : object P W V Sz Row :=
  {| o_params := o_params o; o_raw_data := Some X; o_all_finite := o_all_finite o; o_results := o_results o |}.
(** hdbscan.py:768 *)
Definition with_all_finite {P W V Sz Row : Type} (o : object P W V Sz Row) (b : bool) : object P W V Sz Row :=
  {| o_params := o_params o; o_raw_data := o_raw_data o; o_all_finite := Some b; o_results := o_results o |}.
(** hdbscan.py:788-802 *)
Definition with_results {P W V Sz Row : Type} (o : object P W V Sz Row) (r : fitted W V Sz) : object P W V Sz Row :=
  {| o_params := o_params o; o_raw_data := o_raw_data o; o_all_finite := o_all_finite o; o_results := Some r |}.

(** What the user does: scikit-learn's [set_params] (hdbscan.py:646-684: it only
    assigns), and fit (hdbscan.py:686). *)
Inductive call (P Row : Type) :=
| SetParams (p : P)
| Fit (X : list Row).
Arguments SetParams {P Row} _.
Arguments Fit {P Row} _.

Section Object.
  Context {P : Type} {W V : WOrd} {Sz : SOrd} {Row : Type}.
  (** [accepted]: validate_data takes the data; [weights_accepted]: so does the
      check of the weights, which belong to the rows; [run]: fast_hdbscan with the
      parameters of the object (hdbscan.py:784-801). *)
  Variables (zero : V) (isfinite : Row -> bool) (set_list : list nat -> list nat) (accepted weights_accepted : list Row -> bool)
    (run : P -> list Row -> res (fitted W V Sz)).
  Notation object := (object P W V Sz Row).

  (** hdbscan.py:806-820.  Every assignment is visible if a later line raises. *)
  Definition remap_object (o : object) (X : list Row) (finite_index outliers : list nat) (r : fitted W V Sz) : object * option err :=
    let o := with_results o r in
    match remap_condensed_tree zero (f_condensed r) finite_index outliers with
    | Err e => (o, Some e)
    | Ok T =>
      let r := {| f_labels := f_labels r; f_probabilities := f_probabilities r; f_linkage := f_linkage r; f_condensed := T; f_mst := f_mst r |} in
      let o := with_results o r in
      match remap_single_linkage_tree (f_linkage r) finite_index outliers with
      | Err e => (o, Some e)
      | Ok L =>
        let r := {| f_labels := f_labels r; f_probabilities := f_probabilities r; f_linkage := L; f_condensed := f_condensed r; f_mst := f_mst r |} in
        let o := with_results o r in
        match scatter (length X) (-1)%Z finite_index (f_labels r) with
        | Err e => (o, Some e)
        | Ok labels =>
          let r := {| f_labels := labels; f_probabilities := f_probabilities r; f_linkage := f_linkage r; f_condensed := f_condensed r; f_mst := f_mst r |} in
          let o := with_results o r in
          match scatter (length X) zero finite_index (f_probabilities r) with
          | Err e => (o, Some e)
          | Ok probabilities =>
            (with_results o {| f_labels := f_labels r; f_probabilities := probabilities; f_linkage := f_linkage r; f_condensed := f_condensed r; f_mst := f_mst r |}, None)
          end
        end
      end
    end.

  (** hdbscan.py:762-822: fit on feature data without labels; the exception it
      raises, if any. *)
  Definition fit_object (o : object) (X : list Row) : object * option err :=
    if negb (accepted X) then (o, Some ValueError) else
    let o := with_data o X in
    if negb (weights_accepted X) then (o, Some ValueError) else
    let all_finite := forallb isfinite X in
    let o := with_all_finite o all_finite in
    if all_finite then
      match run (o_params o) X with
      | Err e => (o, Some e)
      | Ok r => (with_results o r, None)
      end
    else
      let finite_index := finite_index_of isfinite X in
      let outliers := set_list (filter (fun i => negb (existsb (Nat.eqb i) finite_index)) (seq 0 (length X))) in
      match run (o_params o) (take_rows X finite_index) with
      | Err e => (o, Some e)
      | Ok r => remap_object o X finite_index outliers r
      end.

  (** hdbscan.py:646-822: one call; the user goes on after an exception. *)
  Definition perform (o : object) (c : call P Row) : object :=
    match c with
    | SetParams p => {| o_params := p; o_raw_data := o_raw_data o; o_all_finite := o_all_finite o; o_results := o_results o |}
    | Fit X => fst (fit_object o X)
    end.
  (** hdbscan.py:646-822: a history of calls. *)
  Definition play (o : object) (h : list (call P Row)) : object := fold_left perform h o.

  (** hdbscan.py:824-834; [cut_size p]: [min_samples] or, if it is None,
      [min_cluster_size]; the parameters are those of the moment.  check_is_fitted
      raises NotFittedError, a ValueError. *)
  Definition dbscan_of_object (cut_size : P -> nat) (o : object) (epsilon : W) : res (list Z) :=
    match o_results o with
    | None => Err ValueError
    | Some r => dbscan_clustering r epsilon (cut_size (o_params o))
    end.

  (** hdbscan.py:836-851: [condensed_tree_] shows the tree with the labels. *)
  Definition condensed_tree_of_object (o : object) : res (list (crow V Sz) * list Z) :=
    match o_results o with None => Err ValueError | Some r => Ok (f_condensed r, f_labels r) end.

  (** hdbscan.py:867-887: [minimum_spanning_tree_] shows the tree with the data. *)
  Definition spanning_tree_of_object (o : object) : res (option (list (edge W) * list Row)) :=
    match o_results o with
    | None => Err ValueError
    | Some r => Ok (option_map (fun X => (f_mst r, X)) (o_raw_data o))
    end.
End Object.

(** hdbscan.py:1009-1073: a new PLSCAN object checks its parameters. *)
Definition plscan_new (a : plscan_arguments) : res plscan_arguments := let* _ := validate_params a in Ok a.
(** hdbscan.py:1009-1040: scikit-learn's [set_params] assigns without calling the
    constructor. *)
Definition plscan_set_params (_ a : plscan_arguments) : plscan_arguments := a.
(** hdbscan.py:1075-1160: fit_predict of an object with these parameters checks
    the data only. *)
Definition plscan_object_dispatch (a : plscan_arguments) : res plan :=
  let* _ := check_data a in choose_algorithm (spanning_tree_arguments a).
