(** Model of PLSCAN objects over time: fast_hdbscan/hdbscan.py:1009-1187, attribute
    by attribute.  M_Plscan models a single fit as a function. *)
From Coq Require Import List Arith Bool ZArith.
From Verif Require Import Prelude Order M_Layers M_LayerTree.
Import ListNotations.
Local Open Scope nat_scope.

(** hdbscan.py:1009-1040 and 1075-1160: the parameters, and the attributes that
    fit_predict sets.  [po_raw_data] is None before the first assignment;
    [po_layers]: cluster_layers_, membership_strength_layers_ and
    layer_persistence_scores_, with min_cluster_sizes_ and total_persistence_ in
    [E], which are assigned together; [po_labels]: labels_ and
    membership_strengths_, of one layer. *)
Record pobject (A : Type) (V P : WOrd) (E I : Type) := {
  po_params : A;
  po_raw_data : option (option I);
  po_layers : option (list (layer V P) * E);
  po_tree : option (list (cluster_name * list cluster_name));
  po_labels : option (list Z);
  po_strengths : option (list V)
}.
Arguments po_params {A V P E I} _.
Arguments po_raw_data {A V P E I} _.
Arguments po_layers {A V P E I} _.
Arguments po_tree {A V P E I} _.
Arguments po_labels {A V P E I} _.
Arguments po_strengths {A V P E I} _.

(** hdbscan.py:1009-1040: the constructor; its checks are in M_Session. *)
Definition pnew {A : Type} {V P : WOrd} {E I : Type} (a : A) : pobject A V P E I :=
  {| po_params := a; po_raw_data := None; po_layers := None; po_tree := None; po_labels := None; po_strengths := None |}.

(** hdbscan.py:1110, 1122, 1133: [self._raw_data = ...]. *)
Definition set_raw_data {A : Type} {V P : WOrd} {E I : Type} (o : pobject A V P E I) (x : option I) : pobject A V P E I :=
  {| po_params := po_params o; po_raw_data := Some x; po_layers := po_layers o; po_tree := po_tree o; po_labels := po_labels o; po_strengths := po_strengths o |}.
(** hdbscan.py:1139-1149 *)
Definition set_layers {A : Type} {V P : WOrd} {E I : Type} (o : pobject A V P E I) (y : list (layer V P) * E) : pobject A V P E I :=
  {| po_params := po_params o; po_raw_data := po_raw_data o; po_layers := Some y; po_tree := po_tree o; po_labels := po_labels o; po_strengths := po_strengths o |}.
(** hdbscan.py:1150 *)
Definition set_tree {A : Type} {V P : WOrd} {E I : Type} (o : pobject A V P E I) (d : list (cluster_name * list cluster_name)) : pobject A V P E I :=
  {| po_params := po_params o; po_raw_data := po_raw_data o; po_layers := po_layers o; po_tree := Some d; po_labels := po_labels o; po_strengths := po_strengths o |}.
(** hdbscan.py:1153-1154 and 1157-1158; both indices are the same. *)
Definition set_labels {A : Type} {V P : WOrd} {E I : Type} (o : pobject A V P E I) (y : layer V P) : pobject A V P E I :=
  {| po_params := po_params o; po_raw_data := po_raw_data o; po_layers := po_layers o; po_tree := po_tree o; po_labels := Some (y_labels y); po_strengths := Some (y_strengths y) |}.

(** What the user does: scikit-learn's [set_params] (hdbscan.py:1009-1040: it only
    assigns), fit_predict (hdbscan.py:1075) and fit (hdbscan.py:1162). *)
Inductive pcall (A I : Type) :=
| PSetParams (a : A)
| PFitPredict (x : I)
| PFit (x : I).
Arguments PSetParams {A I} _.
Arguments PFitPredict {A I} _.
Arguments PFit {A I} _.

Section Plscan.
  Context {A : Type} {V P : WOrd} {E I : Type}.
  (** [precomputed]: the metric of the parameters is "precomputed"; [check_data]:
      the checks of the data (hdbscan.py:1103-1105 or 1112-1121 or 1126-1132);
      [check_weights]: those of the weights (hdbscan.py:1106-1109 or 1123-1124 or
      1134-1135); an input holds the data and the weights.  [run]:
      build_cluster_layers with the parameters of the object (hdbscan.py:1139-1149). *)
  Variables (precomputed : A -> bool) (check_data check_weights : A -> I -> res unit) (run : A -> I -> res (list (layer V P) * E)).
  Variable argsort : list Z -> list nat.
  Notation pobject := (pobject A V P E I).

  (** hdbscan.py:1152-1158: the layer whose labels are reported. *)
  Definition reported_layer (ys : list (layer V P)) : res (layer V P) :=
    match ys with
    | [] => Err ValueError
    | [y] => Ok y
    | y :: _ => let* best_layer := argmax (map y_persistence ys) in
                match nth_error ys best_layer with None => Err IndexError | Some y => Ok y end
    end.

  (** hdbscan.py:1102-1135: the checks, and the assignment of the data: after both
      for graphs, between them otherwise. *)
  Definition take_data (o : pobject) (x : I) : pobject * res unit :=
    match check_data (po_params o) x with
    | Err e => (o, Err e)
    | Ok _ =>
      if precomputed (po_params o) then
        match check_weights (po_params o) x with
        | Err e => (o, Err e)
        | Ok _ => (set_raw_data o None, Ok tt)
        end
      else (set_raw_data o (Some x), check_weights (po_params o) x)
    end.

  (** hdbscan.py:1075-1160: fit_predict; what it returns, or the exception.  Every
      assignment is visible if a later line raises. *)
  Definition pfit_predict (o : pobject) (x : I) : pobject * res (list Z) :=
    let (o, checked) := take_data o x in
    match checked with
    | Err e => (o, Err e)
    | Ok _ =>
      match run (po_params o) x with
      | Err e => (o, Err e)
      | Ok y =>
        let o := set_layers o y in
        match build_layer_cluster_tree argsort (map y_labels (fst y)) with
        | Err e => (o, Err e)
        | Ok d =>
          let o := set_tree o d in
          match reported_layer (fst y) with
          | Err e => (o, Err e)
          | Ok best => let o := set_labels o best in
                       (o, match po_labels o with Some l => Ok l | None => Err ValueError end)
          end
        end
      end
    end.

  (** hdbscan.py:1162-1187: fit; the exception it raises, if any. *)
  Definition pfit (o : pobject) (x : I) : pobject * option err :=
    let (o, r) := pfit_predict o x in (o, match r with Ok _ => None | Err e => Some e end).

  (** hdbscan.py:1009-1187: one call; the user goes on after an exception. *)
  Definition pperform (o : pobject) (c : pcall A I) : pobject :=
    match c with
    | PSetParams a => {| po_params := a; po_raw_data := po_raw_data o; po_layers := po_layers o; po_tree := po_tree o; po_labels := po_labels o; po_strengths := po_strengths o |}
    | PFitPredict x => fst (pfit_predict o x)
    | PFit x => fst (pfit o x)
    end.
  (** hdbscan.py:1009-1187: a history of calls. *)
  Definition pplay (o : pobject) (h : list (pcall A I)) : pobject := fold_left pperform h o.
End Plscan.
