(** Specification vocabulary for the neighbours that are reported. *)
From Coq Require Import List Arith.
From Verif Require Import Prelude Order.
Import ListNotations.

(** [row] lists [k] samples, nearest first, at distances [d]: the nearest of all
    samples except [c], which is at least as near. *)
Record nearest_except {W : WOrd} (d : nat -> W) (n k c : nat) (row : list nat) : Prop := {
  ne_count : length row = k;
  ne_once : NoDup (c :: row);
  ne_range : forall x, In x (c :: row) -> x < n;
  ne_sorted : sorted_by d row;
  ne_first : forall x, In x row -> wle (d c) (d x) = true;
  ne_nearest : forall x y, In x row -> y < n -> ~ In y (c :: row) -> wle (d x) (d y) = true
}.

(** No other sample is at the same place. *)
Definition alone {W : WOrd} (d : nat -> W) (n i : nat) : Prop := forall j, j < n -> j <> i -> wlt (d i) (d j) = true.
