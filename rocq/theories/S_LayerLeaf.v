(** Specification vocabulary for comparing labellings. *)
From Coq Require Import List ZArith.
From Verif Require Import Order.
Import ListNotations.

(** The same clusters and the same noise; only the numbers of the clusters may differ. *)
Definition same_partition (n : nat) (ls ls' : list Z) : Prop :=
  (forall x, x < n -> (nth x ls 0%Z = (-1)%Z <-> nth x ls' 0%Z = (-1)%Z)) /\
  (forall x y, x < n -> y < n -> (nth x ls 0%Z = nth y ls 0%Z <-> nth x ls' 0%Z = nth y ls' 0%Z)).

(** The distance between two rows by number. *)
Definition rows_distance {W : WOrd} {Row} (zero : W) (dist : Row -> Row -> W) (X : list Row) (i j : nat) : W :=
  match nth_error X i, nth_error X j with Some x, Some y => dist x y | _, _ => zero end.
