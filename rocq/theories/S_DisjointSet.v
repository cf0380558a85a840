(** Specification for C01/C02, independent of the model. *)
From Coq Require Import List Relations.
Import ListNotations.

(** [x] and [y] are joined by a chain of the merged pairs [ops]. *)
Definition joined_by (ops : list (nat * nat)) : nat -> nat -> Prop :=
  clos_refl_sym_trans nat (fun a b => In (a, b) ops).

(** All pairs are pairs of valid element ids. *)
Definition valid_pairs (n : nat) (ops : list (nat * nat)) : Prop :=
  forall x y, In (x, y) ops -> x < n /\ y < n.
