(** What a user expects of an estimator object over time. *)
From Coq Require Import List Arith Bool ZArith.
From Verif Require Import Prelude Order Graph Size M_Linkage M_Condense M_Labels M_Estimator M_Session.
Import ListNotations.
Local Open Scope nat_scope.

(** The parameters in force after a history of calls. *)
Fixpoint params_after {P Row} (p : P) (h : list (call P Row)) : P :=
  match h with
  | [] => p
  | SetParams q :: h' => params_after q h'
  | Fit _ :: h' => params_after p h'
  end.

Section Expected.
  Context {P : Type} {W V : WOrd} {Sz : SOrd} {Row : Type}.
  Variables (zero : V) (isfinite : Row -> bool) (set_list : list nat -> list nat) (accepted weights_accepted : list Row -> bool)
    (run : P -> list Row -> res (fitted W V Sz)).

  (** What a single fit with parameters [p] of a new object gives. *)
  Definition outcome (p : P) (X : list Row) : res (fitted W V Sz) :=
    if accepted X && weights_accepted X then fit zero isfinite set_list (run p) X else Err ValueError.

  (** Rows with missing values, and exactly one row without. *)
  Definition lone_row (X : list Row) : Prop := forallb isfinite X = false /\ length (filter isfinite X) = 1.

  (** The result [r] stems from the last fit of history [h] that succeeded, which
      was called with data [X] under parameters [q]. *)
  Definition last_success (p : P) (h : list (call P Row)) (q : P) (X : list Row) (r : fitted W V Sz) : Prop :=
    exists h1 h2, h = h1 ++ Fit X :: h2 /\ q = params_after p h1 /\ outcome q X = Ok r /\
      forall a Y b, h2 = a ++ Fit Y :: b -> exists e, outcome (params_after (params_after p h1) a) Y = Err e.

  (** No fit of the history succeeded. *)
  Definition never_fitted (p : P) (h : list (call P Row)) : Prop :=
    forall a Y b, h = a ++ Fit Y :: b -> exists e, outcome (params_after p a) Y = Err e.

  (** The algorithm gives every row a label and a strength, and trees to two rows
      or more; it takes at least one row. *)
  Definition complete_run : Prop :=
    forall p rows r, run p rows = Ok r ->
      rows <> [] /\ length (f_labels r) = length rows /\ length (f_probabilities r) = length rows /\
      (2 <= length rows -> f_condensed r <> [] /\ f_linkage r <> []).
End Expected.
